(* Model of adapters/socketio_berkeley.c when callbacks call back into the io.  SocketIo_Model
   treats each call as one step; here control is explicit: the user's program runs, calls the
   api, is called back in the middle of a call, calls the api again, and so on, to any depth.
   Entries of the pending list are blocks with an identity, freed where the code frees them.
   Simplifications, besides those of SocketIo_Model: the handle is not NULL and a send has a
   buffer (the other cases return at once, :223-227, :332-335, :367-374); a list node is
   identified with the entry it holds (src/list.c is modelled separately). *)
From Verif Require Import Base SocketIo_Model.
Open Scope Z_scope.

(* The instance, socketio_berkeley.c:43-55; its pending list (the [queue] of [core] is not used). *)
Record rio := { core : sio; items : list nat }.

(* The calls of the user *)
Inductive rop :=
| ROpen (onopen openctx onbytes bytesctx onerror errorctx : pointer)
| RClose (onclose ctx : pointer)
| RSend (b : list N) (onsent ctx : pointer)
| RDowork
| RDestroy.

(* Where the code stands while a callback runs; the number is that of the call. *)
Inductive frame :=
| InOpen (n : nat)                      (* :247, :313 on_io_open_complete *)
| InClose (n : nat)                     (* :353 on_io_close_complete *)
| InSent (n : nat)                      (* :427 on_send_complete, in socketio_send *)
| InSendFailed (n : nat)                (* :405 on_io_error, in socketio_send *)
| InWorkSent (n : nat) (item : nat)     (* :490 on_send_complete, in socketio_dowork *)
| InWorkFailed (n : nat)                (* :478, :498 on_io_error, in socketio_dowork *)
| InWorkBytes (n : nat).                (* :521 on_bytes_received *)
Inductive place := User | Sending (n : nat) | Receiving (n : nat).

(* What can be seen: calls, returns, reads of a send's buffer, and the events of SocketIo_Model *)
Inductive seen := Called (n : nat) (o : rop) | Returned (n : nat) (r : option Z) | Read (n : nat) | Did (e : event).

Record st := { inst : option rio; entries : nat -> option pending; fresh_id : nat; calls : nat;
               stack : list frame; at_ : place; out : list seen }.

Definition set_inst (s : st) (x : option rio) : st :=
  {| inst := x; entries := entries s; fresh_id := fresh_id s; calls := calls s; stack := stack s; at_ := at_ s; out := out s |}.
Definition set_entry (s : st) (i : nat) (p : option pending) : st :=
  {| inst := inst s; entries := fun k => if (k =? i)%nat then p else entries s k; fresh_id := fresh_id s; calls := calls s;
     stack := stack s; at_ := at_ s; out := out s |}.
Definition see (s : st) (l : list seen) : st :=
  {| inst := inst s; entries := entries s; fresh_id := fresh_id s; calls := calls s; stack := stack s; at_ := at_ s; out := out s ++ l |}.
Definition goto (s : st) (p : place) : st :=
  {| inst := inst s; entries := entries s; fresh_id := fresh_id s; calls := calls s; stack := stack s; at_ := p; out := out s |}.
Definition push_frame (s : st) (f : frame) : st :=
  {| inst := inst s; entries := entries s; fresh_id := fresh_id s; calls := calls s; stack := f :: stack s; at_ := User; out := out s |}.
Definition pop_frame (s : st) : st :=
  {| inst := inst s; entries := entries s; fresh_id := fresh_id s; calls := calls s; stack := tl (stack s); at_ := at_ s; out := out s |}.

(* Undefined behaviour, or a step that cannot happen now *)
Inductive res := Ok (s : st) | Undefined | Impossible.
Definition bind_res (r : res) (f : st -> res) : res := match r with Ok s => f s | Undefined => Undefined | Impossible => Impossible end.

(* the call is over *)
Definition finish (s : st) (n : nat) (r : option Z) : res := Ok (goto (see s [Returned n r]) User).
(* :455-456, :503: the head of the list decides between sending and receiving *)
Definition loop_head (s : st) (n : nat) : res :=
  match inst s with
  | None => Undefined
  | Some x => Ok (goto s (match items x with [] => Receiving n | _ :: _ => Sending n end))
  end.

Fixpoint remove_first (i : nat) (l : list nat) : list nat :=
  match l with [] => [] | k :: t => if (k =? i)%nat then t else k :: remove_first i t end.

(* :68-74 indicate_error, and what follows it in the function *)
Definition raise (s : st) (x : rio) (f : frame) (next : st -> res) : res :=
  match on_error (core x) with
  | None => next s
  | Some c => Ok (push_frame (see s [Did (EIoError c (on_error_ctx (core x)))]) f)
  end.

(* :430-437 after the completion callback of a message that was sent at once: the logger is read
   from the instance, and with a logger each byte of the caller's buffer *)
Definition after_sent (logging : bool) (s : st) (n : nat) : res :=
  match inst s with
  | None => Undefined
  | Some _ => finish (if logging then see s [Read n] else s) n (Some 0)
  end.
(* :493-503 after the completion callback of a pending message *)
Definition after_work_sent (s : st) (n i : nat) : res :=
  match entries s i, inst s with
  | Some _, Some x =>
      let s := set_entry s i None in                                               (* :493-494 *)
      if existsb (Nat.eqb i) (items x) then                                        (* :495 list_remove *)
        loop_head (set_inst s (Some {| core := core x; items := remove_first i (items x) |})) n
      else
        let x := {| core := set_state (core x) ERROR; items := items x |} in
        raise (set_inst s (Some x)) x (InWorkFailed n) (fun s => loop_head s n)    (* :497-498 *)
  | _, _ => Undefined
  end.

(* A callback returns: what the function that made it does next *)
Definition resume (logging : bool) (f : frame) (s : st) : res :=
  match f with
  | InOpen n => finish s n (Some 0)                  (* :250, :316; freeaddrinfo is on a local *)
  | InClose n => finish s n (Some 0)                 (* :357 *)
  | InSent n => after_sent logging s n
  | InSendFailed n => finish s n (Some 407)
  | InWorkSent n i => after_work_sent s n i
  | InWorkFailed n => loop_head s n
  | InWorkBytes n => match inst s with None => Undefined | Some _ => Ok (goto s (Receiving n)) end
  end.

(* A callback that may be NULL *)
Definition callback (logging : bool) (cb : pointer) (ev : nat -> event) (f : frame) (s : st) : res :=
  match cb with
  | None => resume logging f s
  | Some c => Ok (push_frame (see s [Did (ev c)]) f)
  end.

(* What the outside answers: system calls of open, one send(), whether add_pending_io finds memory *)
Record answers := { a_sys : list Z; a_send : Z; a_memory : bool }.

(* send() on an invalid descriptor fails (EBADF) *)
Definition fd_takes (fd : Z) (a : Z) (n : nat) : Z := if fd =? -1 then -1 else kernel_takes a n.

(* :76-116 add_pending_io when there is memory *)
Definition add_entry (s : st) (x : rio) (b : list N) (cb ctx : pointer) : st :=
  {| inst := Some {| core := core x; items := items x ++ [fresh_id s] |};
     entries := fun k => if (k =? fresh_id s)%nat then Some {| p_bytes := b; p_size := length b; p_callback := cb; p_context := ctx |} else entries s k;
     fresh_id := S (fresh_id s); calls := calls s; stack := stack s; at_ := at_ s; out := out s |}.

(* :363-444 socketio_send *)
Definition re_send (logging : bool) (s : st) (x : rio) (n : nat) (b : list N) (cb ctx : pointer) (a : answers) : res :=
  if (length b =? 0)%nat then finish s n (Some 373)
  else
    match state (core x) with
    | OPEN =>
        match items x with
        | _ :: _ => if a_memory a then finish (see (add_entry s x b cb ctx) [Read n]) n (Some 0) else finish s n (Some 391)
        | [] =>
            let r := fd_takes (sock (core x)) (a_send a) (length b) in
            let s := see s [Read n; Did (ESend (sock (core x)) b r)] in
            if negb (r =? Z.of_nat (length b)) then
              if r =? -1 then raise s x (InSendFailed n) (fun s => finish s n (Some 407))
              else if a_memory a then finish (see (add_entry s x (skipn (Z.to_nat r) b) cb ctx) [Read n]) n (Some 0) else finish s n (Some 415)
            else callback logging cb (fun c => ESendComplete c ctx 0) (InSent n) s
        end
    | _ => finish s n (Some 381)
    end.

(* :218-326 socketio_open; the answers are those of socket, getaddrinfo, connect, fcntl, fcntl *)
Definition re_open (logging : bool) (s : st) (x : rio) (n : nat) (onopen openctx onbytes bytesctx onerror errorctx : pointer) (a : answers) : res :=
  let opened (s : st) (fd : Z) :=
    let c := set_state (set_callbacks (set_sock (core x) fd) onbytes bytesctx onerror errorctx) OPEN in
    callback logging onopen (fun c => EOpenComplete c openctx true) (InOpen n) (set_inst s (Some {| core := c; items := items x |})) in
  let failed (s : st) (fd : Z) (r : Z) :=
    finish (see (set_inst s (Some {| core := set_sock (core x) (-1); items := items x |})) (if fd =? -1 then [] else [Did (ECloseFd fd)])) n (Some r) in
  match state (core x) with
  | CLOSED =>
      if negb (sock (core x) =? -1) then opened s (sock (core x))
      else
        let fd := Z.max (-1) (nth 0 (a_sys a) 0) in
        let s := see s [Did (ESocket fd)] in
        if fd <? 0 then failed s (-1) 261
        else
          let e := nth 1 (a_sys a) 0 in
          let s := see s [Did (EGetaddrinfo (hostname (core x)) (port (core x)) e)] in
          if negb (e =? 0) then failed s fd 277
          else
            let e := nth 2 (a_sys a) 0 in
            let s := see s [Did (EConnect fd e)] in
            if negb (e =? 0) then failed s fd 287
            else
              let e := nth 3 (a_sys a) 0 in
              let s := see s [Did (EFcntl fd e)] in
              if e =? -1 then failed s fd 299
              else
                let e := nth 4 (a_sys a) 0 in
                let s := see s [Did (EFcntl fd e)] in
                if e =? -1 then failed s fd 299 else opened s fd
  | _ => finish s n (Some 233)
  end.

(* :328-361 socketio_close *)
Definition re_close (logging : bool) (s : st) (x : rio) (n : nat) (onclose ctx : pointer) : res :=
  match state (core x) with
  | CLOSED | CLOSING => finish s n (Some 0)
  | _ =>
      let s := see s [Did (EShutdown (sock (core x))); Did (ECloseFd (sock (core x)))] in
      let x := {| core := set_state (set_sock (core x) (-1)) CLOSED; items := items x |} in
      callback logging onclose (fun c => ECloseComplete c ctx) (InClose n) (set_inst s (Some x))
  end.

(* :199-210 the entries of the list are freed *)
Fixpoint free_entries (l : list nat) (s : st) : res :=
  match l with
  | [] => Ok s
  | i :: t => match entries s i with None => Undefined | Some _ => free_entries t (set_entry s i None) end
  end.
(* :186-216 socketio_destroy *)
Definition re_destroy (s : st) (x : rio) (n : nat) : res :=
  let s := see s (if sock (core x) =? -1 then [] else [Did (ECloseFd (sock (core x)))]) in
  bind_res (free_entries (items x) s) (fun s => finish (set_inst s None) n None).

(* :446-454 socketio_dowork up to its loops *)
Definition re_dowork (s : st) (x : rio) (n : nat) : res :=
  match state (core x) with OPEN => loop_head s n | _ => finish s n None end.

(* :456-501 one round of the sending loop, send() answering a *)
Definition re_sending (logging : bool) (s : st) (n : nat) (a : Z) : res :=
  match inst s with
  | None => Undefined
  | Some x =>
      match items x with
      | [] => Impossible
      | i :: rest =>
          match entries s i with
          | None => Undefined
          | Some p =>
              let r := fd_takes (sock (core x)) a (p_size p) in
              let s := see s [Did (ESend (sock (core x)) (firstn (p_size p) (p_bytes p)) r)] in
              if negb (r =? Z.of_nat (p_size p)) then
                if r =? -1 then
                  let x := {| core := set_state (core x) ERROR; items := rest |} in
                  raise (set_inst (set_entry s i None) (Some x)) x (InWorkFailed n) (fun s => loop_head s n)
                else
                  loop_head (set_entry s i (Some {| p_bytes := memmove_front (p_bytes p) (Z.to_nat r) (p_size p); p_size := p_size p;
                                                    p_callback := p_callback p; p_context := p_context p |})) n
              else callback logging (p_callback p) (fun c => ESendComplete c (p_context p) 0) (InWorkSent n i) s
          end
      end
  end.

(* :506-524 one round of the receiving loop, recv() answering a; on an invalid descriptor it fails *)
Definition re_receiving (logging : bool) (s : st) (n : nat) (a : option N) : res :=
  match inst s with
  | None => Undefined
  | Some x =>
      let a := if sock (core x) =? -1 then None else a in
      let s := see s [Did (ERecv (sock (core x)) a)] in
      match a with
      | None => finish s n None
      | Some b => callback logging (on_bytes (core x)) (fun c => EBytesReceived c (on_bytes_ctx (core x)) [b]) (InWorkBytes n) s
      end
  end.

(* One step: the user calls, a callback returns, or a loop of socketio_dowork makes one round *)
Inductive label := LCall (o : rop) (a : answers) | LReturn | LSend (a : Z) | LRecv (a : option N).
Definition enter (s : st) (o : rop) : st :=
  {| inst := inst s; entries := entries s; fresh_id := fresh_id s; calls := S (calls s); stack := stack s; at_ := at_ s; out := out s ++ [Called (calls s) o] |}.
Definition re_step (logging : bool) (s : st) (l : label) : res :=
  match l, at_ s with
  | LCall o a, User =>
      let n := calls s in
      let s := enter s o in
      match inst s with
      | None => Undefined
      | Some x =>
          match o with
          | ROpen oo oc ob bc oe ec => re_open logging s x n oo oc ob bc oe ec a
          | RClose cb ctx => re_close logging s x n cb ctx
          | RSend b cb ctx => re_send logging s x n b cb ctx a
          | RDowork => re_dowork s x n
          | RDestroy => re_destroy s x n
          end
      end
  | LReturn, User => match stack s with [] => Impossible | f :: _ => resume logging f (pop_frame s) end
  | LSend a, Sending n => re_sending logging s n a
  | LRecv a, Receiving n => re_receiving logging s n a
  | _, _ => Impossible
  end.
Fixpoint re_run (logging : bool) (s : st) (l : list label) : res :=
  match l with [] => Ok s | a :: t => bind_res (re_step logging s a) (fun s => re_run logging s t) end.

(* the state after socketio_create gave x *)
Definition re_start (x : sio) : st :=
  {| inst := Some {| core := x; items := [] |}; entries := fun _ => None; fresh_id := 0; calls := 0; stack := []; at_ := User; out := [] |}.
