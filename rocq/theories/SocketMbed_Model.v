(* Model of adapters/socketio_mbed.c over adapters/tcpsocketconnection_c.cpp.

   One io.  An execution is a sequence of events in any order: calls of the API, the answers of
   the TCP connection while socketio_dowork waits for them, and the return of a callback the io
   made; so the user may call the io again from inside his callbacks.  What malloc and the
   connection answer otherwise is part of the call.

   The pending list is a sequence (src/list.c is modelled separately; removing an element that is
   there succeeds, its values are not NULL).  `new` does not fail.  The size of a buffer fits an
   int.  The log is left out, but for its reading the instance. *)
From Verif Require Import Base.
Local Open Scope Z_scope.

(* socketio_mbed.c:18-25; OPENING and CLOSING are never used *)
Inductive IO_STATE := IO_STATE_CLOSED | IO_STATE_OPEN | IO_STATE_ERROR.
(* a callback with its context; None: NULL *)
Definition callback := option N.

(* socketio_mbed.c:27-34 with a name; its size is the size of the block *)
Record pending := mkp { p_id : nat; p_bytes : list N; p_cb : callback }.

(* What socketio_dowork, or socketio_send, still has to do *)
Inductive frame :=
| Sending                     (* tcpsocketconnection_send of the first pending one, :358 *)
| AfterDone (id : nat)        (* its on_send_complete, :380 *)
| AfterError                  (* indicate_error, :367 *)
| Receiving                   (* tcpsocketconnection_receive, :399 *)
| AfterBytes                  (* on_bytes_received, :405 *)
| AfterSend.                  (* on_send_complete in socketio_send, :317; the log follows *)

Inductive out :=
| OpenComplete (cb : N) | CloseComplete (cb : N)
| SendComplete (cb : N)
| Bytes (cb : N) (data : list N)
| Error (cb : N)
| Wire (conn : nat) (data : list N)     (* the connection took these bytes *)
| OpenReturns (ok : bool) | CloseReturns (ok : bool)
| SendReturns (bs : list N) (cb : callback) (ok : bool).   (* this is what socketio_send will return; a callback may come first *)

(* socketio_mbed.c:36-48 *)
Record io := mk {
  io_state : IO_STATE;
  conn : option nat;                     (* tcp_socket_connection *)
  on_bytes : callback; on_error : callback;
  queue : list pending;
  next_id : nat;
  next_conn : nat;
  live : list nat;                       (* the TCPSocketConnection objects not deleted *)
  alive : bool;                          (* not destroyed *)
  frames : list frame;                   (* innermost first *)
  outs : list out }.                     (* newest first *)

Definition set_state s i := mk s (conn i) (on_bytes i) (on_error i) (queue i) (next_id i) (next_conn i) (live i) (alive i) (frames i) (outs i).
Definition set_conn c n l i := mk (io_state i) c (on_bytes i) (on_error i) (queue i) (next_id i) n l (alive i) (frames i) (outs i).
Definition set_cbs b e i := mk (io_state i) (conn i) b e (queue i) (next_id i) (next_conn i) (live i) (alive i) (frames i) (outs i).
Definition set_queue q n i := mk (io_state i) (conn i) (on_bytes i) (on_error i) q n (next_conn i) (live i) (alive i) (frames i) (outs i).
Definition set_alive a i := mk (io_state i) (conn i) (on_bytes i) (on_error i) (queue i) (next_id i) (next_conn i) (live i) a (frames i) (outs i).
Definition set_frames f i := mk (io_state i) (conn i) (on_bytes i) (on_error i) (queue i) (next_id i) (next_conn i) (live i) (alive i) f (outs i).
Definition emit o i := mk (io_state i) (conn i) (on_bytes i) (on_error i) (queue i) (next_id i) (next_conn i) (live i) (alive i) (frames i) (o :: outs i).
Definition push f i := set_frames (f :: frames i) i.

(* Undefined: undefined behaviour; Idle: the event cannot happen now *)
Inductive result := Next (i : io) | Undefined | Idle.

(* socketio_mbed.c:69-104; [memory]: the entry, its bytes and the node of the list are allocated *)
Definition add_pending_io (bs : list N) (cb : callback) (memory : bool) (i : io) : bool * io :=
  if memory then (true, set_queue (queue i ++ [mkp (next_id i) bs cb]) (S (next_id i)) i) else (false, i).

(* socketio_mbed.c:106-152: what a successful create makes *)
Definition created : io := mk IO_STATE_CLOSED None None None [] 0 0 [] true [] [].

(* socketio_mbed.c:154-181 *)
Definition socketio_destroy (i : io) : io :=
  set_alive false (set_queue [] (next_id i)
    (set_conn None (next_conn i)
       (match conn i with Some c => remove Nat.eq_dec c (live i) | None => live i end) i)).

(* socketio_mbed.c:183-230: the state is not looked at; [connected]: connect returns 0.  Nothing follows the callback. *)
Definition socketio_open (o b e : callback) (connected : bool) (i : io) : io :=
  let c := next_conn i in
  if connected then
    let i := set_state IO_STATE_OPEN (set_cbs b e (set_conn (Some c) (S c) (c :: live i) i)) in
    emit (OpenReturns true) (match o with Some o => emit (OpenComplete o) i | None => i end)
  else emit (OpenReturns false) (set_conn None (S c) (live i) i).        (* :202-204, made and deleted *)

(* socketio_mbed.c:232-266 *)
Definition socketio_close (cb : callback) (i : io) : result :=
  match io_state i with
  | IO_STATE_CLOSED => Next (emit (CloseReturns false) i)
  | _ =>
      match conn i with
      | None => Undefined                            (* tsc->close() through NULL *)
      | Some _ =>
          let i := set_state IO_STATE_CLOSED (set_conn None (next_conn i) (live i) i) in     (* :250-252: not deleted *)
          Next (emit (CloseReturns true) (match cb with Some c => emit (CloseComplete c) i | None => i end))
      end
  end.

(* socketio_mbed.c:268-334 with a buffer of positive size; [r]: what the connection answers *)
Definition socketio_send (bs : list N) (cb : callback) (r : Z) (memory : bool) (i : io) : result :=
  match bs with
  | [] => Next (emit (SendReturns bs cb false) i)
  | _ =>
  match io_state i with
  | IO_STATE_OPEN =>
      match queue i with
      | _ :: _ => let (ok, i) := add_pending_io bs cb memory i in Next (emit (SendReturns bs cb ok) i)      (* :292-302 *)
      | [] =>
          match conn i with
          | None => Undefined
          | Some c =>
              if Z.of_nat (length bs) <? r then Idle                            (* no connection takes more *)
              else if r =? Z.of_nat (length bs) then
                let i := emit (Wire c bs) i in
                Next (match cb with
                      | Some x => push AfterSend (emit (SendComplete x) (emit (SendReturns bs cb true) i))
                      | None => emit (SendReturns bs cb true) i
                      end)
              else
                let k := Z.to_nat (if r <? 0 then 0 else r) in                  (* :309-311 *)
                let i := if (k =? 0)%nat then i else emit (Wire c (firstn k bs)) i in
                let (ok, i) := add_pending_io (skipn k bs) cb memory i in
                Next (emit (SendReturns bs cb ok) i)
          end
      end
  | _ => Next (emit (SendReturns bs cb false) i)
  end
  end.

(* the call at :399 *)
Definition receive (i : io) : result :=
  match conn i with Some _ => Next (push Receiving i) | None => Undefined end.
(* the head of the loop (:347-358, :391) *)
Definition drain (i : io) : result :=
  match queue i with
  | [] => receive i
  | _ :: _ => match conn i with Some _ => Next (push Sending i) | None => Undefined end
  end.
(* :383-391: the entry is freed and removed; when it is no longer there it was freed before *)
Definition finish (id : nat) (i : io) : result :=
  if existsb (fun p => (p_id p =? id)%nat) (queue i)
  then drain (set_queue (filter (fun p => negb (p_id p =? id)%nat) (queue i)) (next_id i) i)
  else Undefined.
(* :358-391; [r] is the answer.  A negative one below UNABLE_TO_COMPLETE = -2 is an error. *)
Definition sent (r : Z) (i : io) : result :=
  match queue i, conn i with
  | p :: q, Some c =>
      let n := length (p_bytes p) in
      if Z.of_nat n <? r then Idle
      else if r =? Z.of_nat n then
        let i := if (n =? 0)%nat then i else emit (Wire c (p_bytes p)) i in
        match p_cb p with
        | Some x => Next (push (AfterDone (p_id p)) (emit (SendComplete x) i))
        | None => finish (p_id p) i
        end
      else if r <? 0 then
        if r <? -2 then
          let i := set_state IO_STATE_ERROR i in
          match on_error i with
          | Some x => Next (push AfterError (emit (Error x) i))
          | None => receive i
          end
        else receive i
      else
        let k := Z.to_nat r in
        let i := if (k =? 0)%nat then i else emit (Wire c (firstn k (p_bytes p))) i in
        (* :374 memmove: the size stays *)
        drain (set_queue (mkp (p_id p) (skipn k (p_bytes p) ++ skipn (n - k) (p_bytes p)) (p_cb p) :: q) (next_id i) i)
  | _, _ => Undefined
  end.
(* :396-409; None: the answer is 0 or negative *)
Definition received (r : option (list N)) (i : io) : result :=
  match r with
  | None => Next i
  | Some bs =>
      if (length bs =? 0)%nat || (128 <? length bs)%nat then Idle
      else match on_bytes i with
           | Some x => Next (push AfterBytes (emit (Bytes x bs) i))
           | None => receive i
           end
  end.
(* socketio_mbed.c:336-412 *)
Definition socketio_dowork (i : io) : result :=
  match io_state i with IO_STATE_OPEN => drain i | _ => Next i end.

(* ------------------------------------------------------------------ *)
(** * Events *)
Inductive event :=
| Open (o b e : callback) (connected : bool)
| Close (cb : callback)
| Send (bs : list N) (cb : callback) (r : Z) (memory : bool)
| Dowork
| Destroy
| Sent (r : Z)
| Received (r : option (list N))
| Return.

(* the user can call: nothing is going on, or a callback *)
Definition may_call (i : io) : bool :=
  match frames i with Sending :: _ | Receiving :: _ => false | _ => true end.
Definition call (i : io) (r : result) : result :=
  if may_call i then if alive i then r else Undefined else Idle.
Definition pop (i : io) : io := set_frames (tl (frames i)) i.

Definition step (e : event) (i : io) : result :=
  match e with
  | Open o b c ok => call i (Next (socketio_open o b c ok i))
  | Close cb => call i (socketio_close cb i)
  | Send bs cb r memory => call i (socketio_send bs cb r memory i)
  | Dowork => call i (socketio_dowork i)
  | Destroy => call i (Next (socketio_destroy i))
  | Sent r => match frames i with Sending :: _ => sent r (pop i) | _ => Idle end
  | Received r => match frames i with Receiving :: _ => received r (pop i) | _ => Idle end
  | Return =>
      match frames i with
      | AfterDone id :: _ => if alive i then finish id (pop i) else Undefined
      | AfterError :: _ | AfterBytes :: _ => if alive i then receive (pop i) else Undefined
      | AfterSend :: _ => if alive i then Next (pop i) else Undefined
      | _ => Idle
      end
  end.
Fixpoint run (es : list event) (i : io) : result :=
  match es with
  | [] => Next i
  | e :: es => match step e i with Next i => run es i | r => r end
  end.
