(* Model of adapters/socketio_win32.c.

   One io.  An execution is a sequence of events in any order: calls of the API, the answers of
   send and recv while socketio_dowork waits for them, and the return of a callback after which
   the io still has something to do; so the user may call the io again from inside his callbacks.
   What malloc and the socket layer answer otherwise is part of the call.

   The pending list is a sequence (src/list.c is modelled separately; removing an element that is
   there succeeds, its values are not NULL).  The size of a buffer fits an int.  The log is left
   out, but for its reading the instance.  A handle of a socket is a number never used twice. *)
From Verif Require Import Base.
Local Open Scope Z_scope.

(* winerror.h *)
Definition ERROR_SUCCESS : Z := 0.
Definition WSAEWOULDBLOCK : Z := 10035.
Definition WSAENOTSOCK : Z := 10038.

(* socketio_win32.c:18-24; OPENING and CLOSING are never used *)
Inductive IO_STATE := IO_STATE_CLOSED | IO_STATE_OPEN.
(* a callback with its context; None: NULL *)
Definition callback := option N.

(* socketio_win32.c:26-33 with a name; its size is the size of the block *)
Record pending := mkp { p_id : nat; p_bytes : list N; p_cb : callback }.

(* What socketio_dowork, or socketio_send, still has to do; nothing follows the other callbacks *)
Inductive frame :=
| Sending                     (* send of the first pending one, :453 *)
| AfterDone (id : nat)        (* its on_send_complete, :472 *)
| Receiving                   (* recv, :490 *)
| AfterBytes                  (* on_bytes_received, :502 *)
| AfterSend.                  (* on_send_complete in socketio_send, :414; the log follows *)

Inductive out :=
| OpenComplete (cb : N) | CloseComplete (cb : N)
| SendComplete (cb : N)
| Bytes (cb : N) (data : list N)
| Error (cb : N)
| Socket (s : nat) | Closed (s : nat)   (* a socket is made or taken over, or closed *)
| Connect (host : option (list N))      (* :261 asks for this name; None: NULL, which stands for the machine itself *)
| Wire (s : nat) (data : list N)        (* the socket took these bytes *)
| OpenReturns (ok : bool) | CloseReturns (ok : bool)
| SendReturns (bs : list N) (cb : callback) (ok : bool).   (* this is what socketio_send will return; a callback may come first *)

(* socketio_win32.c:35-47 *)
Record io := mk {
  hostname : option (list N);
  io_state : IO_STATE;
  socket : option nat;                   (* None: INVALID_SOCKET *)
  on_bytes : callback; on_error : callback;
  queue : list pending;
  next_id : nat;
  next_socket : nat;
  alive : bool;                          (* not destroyed *)
  frames : list frame;                   (* innermost first *)
  outs : list out }.                     (* newest first *)

Definition set_state s i := mk (hostname i) s (socket i) (on_bytes i) (on_error i) (queue i) (next_id i) (next_socket i) (alive i) (frames i) (outs i).
Definition set_socket s n i := mk (hostname i) (io_state i) s (on_bytes i) (on_error i) (queue i) (next_id i) n (alive i) (frames i) (outs i).
Definition set_cbs b e i := mk (hostname i) (io_state i) (socket i) b e (queue i) (next_id i) (next_socket i) (alive i) (frames i) (outs i).
Definition set_queue q n i := mk (hostname i) (io_state i) (socket i) (on_bytes i) (on_error i) q n (next_socket i) (alive i) (frames i) (outs i).
Definition set_alive a i := mk (hostname i) (io_state i) (socket i) (on_bytes i) (on_error i) (queue i) (next_id i) (next_socket i) a (frames i) (outs i).
Definition set_frames f i := mk (hostname i) (io_state i) (socket i) (on_bytes i) (on_error i) (queue i) (next_id i) (next_socket i) (alive i) f (outs i).
Definition emit o i := mk (hostname i) (io_state i) (socket i) (on_bytes i) (on_error i) (queue i) (next_id i) (next_socket i) (alive i) (frames i) (o :: outs i).
Definition push f i := set_frames (f :: frames i) i.

(* Undefined: undefined behaviour; Idle: the event cannot happen now *)
Inductive result := Next (i : io) | Undefined | Idle.

(* socketio_win32.c:60-66 *)
Definition indicate_error (i : io) : io := match on_error i with Some x => emit (Error x) i | None => i end.
(* closesocket of the socket of the io; of INVALID_SOCKET it does nothing *)
Definition closesocket (i : io) : io := match socket i with Some s => emit (Closed s) i | None => i end.

(* socketio_win32.c:68-108; [memory]: the entry, its bytes and the node of the list are allocated *)
Definition add_pending_io (bs : list N) (cb : callback) (memory : bool) (i : io) : bool * io :=
  if memory then (true, set_queue (queue i ++ [mkp (next_id i) bs cb]) (S (next_id i)) i) else (false, i).

(* socketio_win32.c:110-176: what a successful create makes, from a name or from an accepted socket *)
Definition created (host : list N) : io := mk (Some host) IO_STATE_CLOSED None None None [] 0 0 true [] [].
Definition created_accepted : io := mk None IO_STATE_CLOSED (Some 0%nat) None None [] 0 1 true [] [Socket 0].

(* socketio_win32.c:178-208: the socket is not forgotten, but the instance is *)
Definition socketio_destroy (i : io) : io :=
  set_alive false (set_queue [] (next_id i) (set_socket None (next_socket i) (closesocket i))).

(* what opening can meet *)
Inductive connection := NoSocket | NoAddress | Refused | NoMode | Connected.
(* :229-241, :290-302 *)
Definition now_open (o b e : callback) (i : io) : io :=
  let i := set_state IO_STATE_OPEN (set_cbs b e i) in
  emit (OpenReturns true) (match o with Some o => emit (OpenComplete o) i | None => i end).
(* socketio_win32.c:210-311; after the callback only locals are used *)
Definition socketio_open (o b e : callback) (r : connection) (i : io) : io :=
  match io_state i with
  | IO_STATE_OPEN => emit (OpenReturns false) i
  | IO_STATE_CLOSED =>
      match socket i with
      | Some _ => now_open o b e i
      | None =>
          match r with
          | NoSocket => emit (OpenReturns false) i
          | _ =>
              let s := next_socket i in
              let i := emit (Connect (hostname i)) (emit (Socket s) (set_socket (Some s) (S s) i)) in
              match r with
              | Connected => now_open o b e i
              | _ => emit (OpenReturns false) (set_socket None (next_socket i) (closesocket i))
              end
          end
      end
  end.

(* socketio_win32.c:313-347 *)
Definition socketio_close (cb : callback) (i : io) : io :=
  match io_state i with
  | IO_STATE_CLOSED => emit (CloseReturns false) i
  | IO_STATE_OPEN =>
      let i := set_state IO_STATE_CLOSED (set_socket None (next_socket i) (closesocket i)) in
      emit (CloseReturns true) (match cb with Some c => emit (CloseComplete c) i | None => i end)
  end.

(* What send answers: the number of bytes taken or -1, and what WSAGetLastError says if it is asked after that:
   after a partial send it still says what an earlier call left. *)
Definition possible (n : nat) (s : option nat) (r e : Z) : bool :=
  match s with
  | None => (r =? -1) && (e =? WSAENOTSOCK)
  | Some _ => (r =? -1) && negb (e =? ERROR_SUCCESS) || (0 <=? r) && (r <=? Z.of_nat n)
  end.
Definition took (r : Z) (bs : list N) (i : io) : io :=
  match socket i with
  | Some s => if 0 <? r then emit (Wire s (firstn (Z.to_nat r) bs)) i else i
  | None => i
  end.

(* socketio_win32.c:349-431 with a buffer of positive size *)
Definition socketio_send (bs : list N) (cb : callback) (r e : Z) (memory : bool) (i : io) : result :=
  match bs with
  | [] => Next (emit (SendReturns bs cb false) i)
  | _ =>
  match io_state i with
  | IO_STATE_OPEN =>
      match queue i with
      | _ :: _ => let (ok, i) := add_pending_io bs cb memory i in Next (emit (SendReturns bs cb ok) i)      (* :372-383 *)
      | [] =>
          if possible (length bs) (socket i) r e then
            let i := took r bs i in
            if r =? Z.of_nat (length bs) then
              Next (match cb with
                    | Some x => push AfterSend (emit (SendComplete x) (emit (SendReturns bs cb true) i))
                    | None => emit (SendReturns bs cb true) i
                    end)
            else if e =? WSAEWOULDBLOCK then
              let (ok, i) := add_pending_io bs cb memory i in Next (emit (SendReturns bs cb ok) i)          (* :399, the whole buffer *)
            else Next (emit (SendReturns bs cb false) (indicate_error i))                                   (* :390-395 *)
          else Idle
      end
  | IO_STATE_CLOSED => Next (emit (SendReturns bs cb false) i)
  end
  end.

(* the head of the loop (:441, :484) *)
Definition drain (i : io) : io := match queue i with [] => push Receiving i | _ :: _ => push Sending i end.
(* :459-461, :475-484: the entry is freed and removed; when it is no longer there it was freed before *)
Definition finish (id : nat) (i : io) : result :=
  if existsb (fun p => (p_id p =? id)%nat) (queue i)
  then Next (drain (set_queue (filter (fun p => negb (p_id p =? id)%nat) (queue i)) (next_id i) i))
  else Undefined.
(* :453-484 *)
Definition sent (r e : Z) (i : io) : result :=
  match queue i with
  | p :: _ =>
      let n := length (p_bytes p) in
      if possible n (socket i) r e then
        let i := took r (p_bytes p) i in
        if r =? Z.of_nat n then
          match p_cb p with
          | Some x => Next (push (AfterDone (p_id p)) (emit (SendComplete x) i))
          | None => finish (p_id p) i
          end
        else if e =? WSAEWOULDBLOCK then Next (drain i)                 (* :464, with the same bytes *)
        else finish (p_id p) i                                         (* :457-461, silently *)
      else Idle
  | [] => Undefined
  end.
(* What recv answers: a byte (the buffer is one byte long), the end of the stream, or an error; with the last error *)
Inductive answer := Byte (b : N) | Nothing (e : Z).
(* :487-514 *)
Definition received (a : answer) (i : io) : result :=
  match a with
  | Byte b =>
      match socket i with
      | None => Idle
      | Some _ =>
          match on_bytes i with
          | Some x => Next (push AfterBytes (emit (Bytes x [b]) i))
          | None => Next (push Receiving i)
          end
      end
  | Nothing e =>
      if match socket i with None => negb (e =? WSAENOTSOCK) | Some _ => false end then Idle
      else Next (if negb (e =? WSAEWOULDBLOCK) && negb (e =? ERROR_SUCCESS) then indicate_error i else i)
  end.
(* socketio_win32.c:433-517 *)
Definition socketio_dowork (i : io) : io := match io_state i with IO_STATE_OPEN => drain i | IO_STATE_CLOSED => i end.

(* ------------------------------------------------------------------ *)
(** * Events *)
Inductive event :=
| Open (o b e : callback) (r : connection)
| Close (cb : callback)
| Send (bs : list N) (cb : callback) (r e : Z) (memory : bool)
| Dowork
| Destroy
| Sent (r e : Z)
| Received (a : answer)
| Return.

(* the user can call: nothing is going on, or a callback *)
Definition may_call (i : io) : bool :=
  match frames i with Sending :: _ | Receiving :: _ => false | _ => true end.
Definition call (i : io) (r : result) : result :=
  if may_call i then if alive i then r else Undefined else Idle.
Definition pop (i : io) : io := set_frames (tl (frames i)) i.

Definition step (e : event) (i : io) : result :=
  match e with
  | Open o b c r => call i (Next (socketio_open o b c r i))
  | Close cb => call i (Next (socketio_close cb i))
  | Send bs cb r e memory => call i (socketio_send bs cb r e memory i)
  | Dowork => call i (Next (socketio_dowork i))
  | Destroy => call i (Next (socketio_destroy i))
  | Sent r e => match frames i with Sending :: _ => sent r e (pop i) | _ => Idle end
  | Received a => match frames i with Receiving :: _ => received a (pop i) | _ => Idle end
  | Return =>
      match frames i with
      | AfterDone id :: _ => if alive i then finish id (pop i) else Undefined
      | AfterBytes :: _ => if alive i then Next (push Receiving (pop i)) else Undefined
      | AfterSend :: _ => if alive i then Next (pop i) else Undefined
      | _ => Idle
      end
  end.
Fixpoint run (es : list event) (i : io) : result :=
  match es with
  | [] => Next i
  | e :: es => match step e i with Next i => run es i | r => r end
  end.
