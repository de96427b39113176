(* Model of adapters/socketio_berkeley.c: one socket io, the kernel as an adversary, and a log of
   everything observable.
   Simplifications: the pending list is a sequence (src/list.c is modelled separately: appending
   allocates one node, removing the head succeeds, stored values are not NULL); the callbacks do
   not call back into the io; the texts written to the logger are not recorded. *)
From Verif Require Import Base.
Open Scope Z_scope.

Definition pointer := option nat.            (* NULL, or some address or callback *)

(* What the io does to the outside *)
Inductive event :=
| ESocket (r : Z)                                             (* socket() returned r *)
| EGetaddrinfo (host : option (list N)) (port : Z) (r : Z)
| EConnect (fd : Z) (r : Z)
| EFcntl (fd : Z) (r : Z)
| EShutdown (fd : Z)
| ECloseFd (fd : Z)
| ESend (fd : Z) (offered : list N) (r : Z)                  (* send() was given these bytes and returned r *)
| ERecv (fd : Z) (r : option N)                              (* recv() gave a byte, or none *)
| EOpenComplete (cb : nat) (ctx : pointer) (ok : bool)
| ECloseComplete (cb : nat) (ctx : pointer)
| ESendComplete (cb : nat) (ctx : pointer) (r : Z)           (* 0 = IO_SEND_OK, xio.h:19-24 *)
| EBytesReceived (cb : nat) (ctx : pointer) (b : list N)
| EIoError (cb : nat) (ctx : pointer).

(* socketio_berkeley.c:25-32 *)
Inductive io_state := CLOSED | OPENING | OPEN | CLOSING | ERROR.

(* socketio_berkeley.c:34-41: [p_bytes] is the whole allocated block *)
Record pending := { p_bytes : list N; p_size : nat; p_callback : pointer; p_context : pointer }.

(* socketio_berkeley.c:43-55 *)
Record sio := { sock : Z; on_bytes : pointer; on_bytes_ctx : pointer; on_error : pointer; on_error_ctx : pointer;
                hostname : option (list N); port : Z; state : io_state; queue : list pending }.

(* The world: the io (None once destroyed), what the kernel will answer, the log, and whether a
   call of socketio_dowork has not come to its end (the kernel's answers to send ended first:
   this is how an execution is cut in the middle). *)
Record world := { io : option sio; k_sys : list Z; k_send : list Z; k_recv : list (option N); log : list event; cut : bool }.

Definition set_io (w : world) (x : option sio) : world :=
  {| io := x; k_sys := k_sys w; k_send := k_send w; k_recv := k_recv w; log := log w; cut := cut w |}.
Definition emit (w : world) (l : list event) : world :=
  {| io := io w; k_sys := k_sys w; k_send := k_send w; k_recv := k_recv w; log := log w ++ l; cut := cut w |}.
Definition set_sends (w : world) (l : list Z) : world :=
  {| io := io w; k_sys := k_sys w; k_send := l; k_recv := k_recv w; log := log w; cut := cut w |}.
Definition set_recvs (w : world) (l : list (option N)) : world :=
  {| io := io w; k_sys := k_sys w; k_send := k_send w; k_recv := l; log := log w; cut := cut w |}.
Definition set_cut (w : world) : world :=
  {| io := io w; k_sys := k_sys w; k_send := k_send w; k_recv := k_recv w; log := log w; cut := true |}.
(* the next answer of a system call other than send and recv: 0 when none is left *)
Definition next_sys (w : world) : Z * world :=
  (hd 0 (k_sys w), {| io := io w; k_sys := tl (k_sys w); k_send := k_send w; k_recv := k_recv w; log := log w; cut := cut w |}).

Definition set_state (x : sio) (st : io_state) : sio :=
  {| sock := sock x; on_bytes := on_bytes x; on_bytes_ctx := on_bytes_ctx x; on_error := on_error x; on_error_ctx := on_error_ctx x;
     hostname := hostname x; port := port x; state := st; queue := queue x |}.
Definition set_sock (x : sio) (fd : Z) : sio :=
  {| sock := fd; on_bytes := on_bytes x; on_bytes_ctx := on_bytes_ctx x; on_error := on_error x; on_error_ctx := on_error_ctx x;
     hostname := hostname x; port := port x; state := state x; queue := queue x |}.
Definition set_queue (x : sio) (q : list pending) : sio :=
  {| sock := sock x; on_bytes := on_bytes x; on_bytes_ctx := on_bytes_ctx x; on_error := on_error x; on_error_ctx := on_error_ctx x;
     hostname := hostname x; port := port x; state := state x; queue := q |}.
Definition set_callbacks (x : sio) (ob obc oe oec : pointer) : sio :=
  {| sock := sock x; on_bytes := ob; on_bytes_ctx := obc; on_error := oe; on_error_ctx := oec;
     hostname := hostname x; port := port x; state := state x; queue := queue x |}.

(* A call of a callback that may be NULL *)
Definition call (cb : pointer) (f : nat -> event) : list event := match cb with Some c => [f c] | None => [] end.

(* socketio_berkeley.c:68-74 indicate_error *)
Definition indicate_error (x : sio) : list event := call (on_error x) (fun c => EIoError c (on_error_ctx x)).

(* The kernel: send() returns -1, or takes at most what it is given, and at most MAX_RW_COUNT =
   0x7ffff000 bytes.  So the result fits an int, and the comparisons at :401 and :468 of an int
   with a size_t are equality of numbers (-1 becomes 2^64-1, which is no size). *)
Definition max_rw : Z := 2147479552.
Definition kernel_takes (answer : Z) (n : nat) : Z :=
  if answer <? 0 then -1 else Z.min answer (Z.min (Z.of_nat n) max_rw).

(* socketio_berkeley.c:76-116 add_pending_io: the entry, its bytes, the list node *)
Definition add_pending_io (x : sio) (b : list N) (cb ctx : pointer) : M (bool * sio) :=
  (a <- alloc ;;
   if negb a then ret (false, x)
   else a <- alloc ;;
        if negb a then ret (false, x)
        else a <- alloc ;;
             if negb a then ret (false, x)
             else ret (true, set_queue x (queue x ++ [{| p_bytes := b; p_size := length b; p_callback := cb; p_context := ctx |}])))%m.

(* inc/azure_c_shared_utility/socketio.h SOCKETIO_CONFIG *)
Record config := { c_hostname : option (list N); c_port : Z; c_accepted : option Z }.

(* socketio_berkeley.c:118-184 socketio_create.  Reading a NULL accepted_socket (:155) is undefined. *)
Definition socketio_create (c : option config) : M (option sio) :=
  match c with
  | None => ret None
  | Some c =>
      (a <- alloc ;;
       if negb a then ret None
       else a <- alloc ;;                                     (* list_create, :133 *)
            if negb a then ret None
            else
              hs <- match c_hostname c with
                    | Some h => (a <- alloc ;; ret ((if a then Some h else None), -1))
                    | None => (fd <- lift (c_accepted c) ;; ret (None, fd))
                    end ;;
              match fst hs with
              | None => if snd hs =? -1 then ret None
                        else ret (Some {| sock := snd hs; on_bytes := None; on_bytes_ctx := None; on_error := None; on_error_ctx := None;
                                          hostname := None; port := c_port c; state := CLOSED; queue := [] |})
              | Some h => ret (Some {| sock := snd hs; on_bytes := None; on_bytes_ctx := None; on_error := None; on_error_ctx := None;
                                       hostname := Some h; port := c_port c; state := CLOSED; queue := [] |})
              end)%m
  end.

(* The calls of the API.  [h] = false: the handle is NULL.  The caller's buffer: NULL or its bytes. *)
Inductive op :=
| OOpen (h : bool) (onopen openctx onbytes bytesctx onerror errorctx : pointer)
| OClose (h : bool) (onclose ctx : pointer)
| OSend (h : bool) (buf : option (list N)) (size : nat) (onsent ctx : pointer)
| ODowork (h : bool)
| OSetOption (h : bool)
| ODestroy (h : bool).

(* socketio_berkeley.c:186-216 socketio_destroy: the pending entries are freed without a callback *)
Definition socketio_destroy (w : world) (x : sio) : world :=
  set_io (emit w (if sock x =? -1 then [] else [ECloseFd (sock x)])) None.

(* socketio_berkeley.c:218-326 socketio_open *)
Definition socketio_open (w : world) (x : sio) (onopen openctx onbytes bytesctx onerror errorctx : pointer) : Z * world :=
  match state x with
  | CLOSED =>
      if negb (sock x =? -1) then                              (* :235-251 an accepted socket *)
        let x := set_callbacks x onbytes bytesctx onerror errorctx in
        let x := set_state x OPEN in
        (0, emit (set_io w (Some x)) (call onopen (fun c => EOpenComplete c openctx true)))
      else
        let '(fd, w) := next_sys w in                         (* :257; its only failure is -1 *)
        let fd := Z.max (-1) fd in
        let w := emit w [ESocket fd] in
        let x := set_sock x fd in
        if fd <? 0 then (261, set_io w (Some x))
        else
          let '(e, w) := next_sys w in                        (* :271 *)
          let w := emit w [EGetaddrinfo (hostname x) (port x) e] in
          if negb (e =? 0) then (277, set_io (emit w [ECloseFd fd]) (Some (set_sock x (-1))))
          else
            let '(e, w) := next_sys w in                      (* :281 *)
            let w := emit w [EConnect fd e] in
            if negb (e =? 0) then (287, set_io (emit w [ECloseFd fd]) (Some (set_sock x (-1))))
            else
              let '(flags, w) := next_sys w in                (* :293 *)
              let w := emit w [EFcntl fd flags] in
              if flags =? -1 then (299, set_io (emit w [ECloseFd fd]) (Some (set_sock x (-1))))
              else
                let '(r, w) := next_sys w in                  (* :294 *)
                let w := emit w [EFcntl fd r] in
                if r =? -1 then (299, set_io (emit w [ECloseFd fd]) (Some (set_sock x (-1))))
                else
                  let x := set_callbacks x onbytes bytesctx onerror errorctx in
                  let x := set_state x OPEN in
                  (0, emit (set_io w (Some x)) (call onopen (fun c => EOpenComplete c openctx true)))
  | _ => (233, w)
  end.

(* socketio_berkeley.c:328-361 socketio_close: the result is 0 in both branches (:357) *)
Definition socketio_close (w : world) (x : sio) (onclose ctx : pointer) : Z * world :=
  match state x with
  | CLOSED | CLOSING => (0, w)
  | _ =>
      let w := emit w [EShutdown (sock x); ECloseFd (sock x)] in
      let x := set_sock x (-1) in
      let x := set_state x CLOSED in
      (0, emit (set_io w (Some x)) (call onclose (fun c => ECloseComplete c ctx)))
  end.

(* socketio_berkeley.c:363-444 socketio_send; [b] = the first size bytes of the buffer.  When the
   kernel's answers have ended, it takes everything. *)
Definition socketio_send (w : world) (x : sio) (b : list N) (onsent ctx : pointer) : M (Z * world) :=
  match state x with
  | OPEN =>
      match queue x with
      | _ :: _ =>
          (r <- add_pending_io x b onsent ctx ;;
           if negb (fst r) then ret (391, w) else ret (0, set_io w (Some (snd r))))%m
      | [] =>
          let r := kernel_takes (hd (Z.of_nat (length b)) (k_send w)) (length b) in
          let w := emit (set_sends w (tl (k_send w))) [ESend (sock x) b r] in
          if negb (r =? Z.of_nat (length b)) then
            if r =? -1 then ret (407, emit w (indicate_error x))
            else (q <- add_pending_io x (skipn (Z.to_nat r) b) onsent ctx ;;
                  if negb (fst q) then ret (415, w) else ret (0, set_io w (Some (snd q))))%m
          else ret (0, emit w (call onsent (fun c => ESendComplete c ctx 0)))
      end
  | _ => ret (381, w)
  end.

(* memmove(bytes, bytes + n, size - n), :483: the first size - n bytes of the block are replaced *)
Definition memmove_front (block : list N) (n size : nat) : list N :=
  firstn (size - n) (skipn n block) ++ skipn (size - n) block.

(* socketio_berkeley.c:455-504: the loop of socketio_dowork over the pending list, one send() per
   round; cut when the answers end. *)
Fixpoint send_pending (answers : list Z) (w : world) (x : sio) : world * sio :=
  match queue x with
  | [] => (set_sends w answers, x)
  | p :: rest =>
      match answers with
      | [] => (set_cut (set_sends w []), x)
      | a :: answers =>
          let offered := firstn (p_size p) (p_bytes p) in
          let r := kernel_takes a (p_size p) in
          let w := emit w [ESend (sock x) offered r] in
          if negb (r =? Z.of_nat (p_size p)) then
            if r =? -1 then
              let x := set_queue x rest in
              let x := set_state x ERROR in
              send_pending answers (emit w (indicate_error x)) x
            else
              let p' := {| p_bytes := memmove_front (p_bytes p) (Z.to_nat r) (p_size p); p_size := p_size p;
                           p_callback := p_callback p; p_context := p_context p |} in
              send_pending answers w (set_queue x (p' :: rest))
          else
            let w := emit w (call (p_callback p) (fun c => ESendComplete c (p_context p) 0)) in
            send_pending answers w (set_queue x rest)
      end
  end.

(* socketio_berkeley.c:506-524: one byte per recv() until there is none (0 or -1) *)
Fixpoint receive (answers : list (option N)) (w : world) (x : sio) : world :=
  match answers with
  | [] => set_recvs (emit w [ERecv (sock x) None]) []
  | None :: answers => set_recvs (emit w [ERecv (sock x) None]) answers
  | Some b :: answers =>
      receive answers (emit w (ERecv (sock x) (Some b) :: call (on_bytes x) (fun c => EBytesReceived c (on_bytes_ctx x) [b]))) x
  end.

(* socketio_berkeley.c:446-527 socketio_dowork *)
Definition socketio_dowork (w : world) (x : sio) : world :=
  match state x with
  | OPEN =>
      let '(w, x) := send_pending (k_send w) w x in
      let w := set_io w (Some x) in
      if cut w then w else receive (k_recv w) w x
  | _ => w
  end.

(* A call.  Undefined: on a destroyed io, inside an unfinished dowork, or with a size beyond the buffer. *)
Definition step (w : world) (o : op) : M (option Z * world) :=
  if cut w then undef
  else
    match o with
    | OOpen false _ _ _ _ _ _ => ret (Some 226, w)                      (* :223-227 *)
    | OOpen true a b c d e f => (x <- lift (io w) ;; let '(r, w) := socketio_open w x a b c d e f in ret (Some r, w))%m
    | OClose false _ _ => ret (Some 334, w)                              (* :332-335 *)
    | OClose true a b => (x <- lift (io w) ;; let '(r, w) := socketio_close w x a b in ret (Some r, w))%m
    | OSend h buf size cb ctx =>                                          (* :367-374 *)
        match h, buf with
        | true, Some buf =>
            if (size =? 0)%nat then ret (Some 373, w)
            else (x <- lift (io w) ;;
                  b <- lift (if (size <=? length buf)%nat then Some (firstn size buf) else None) ;;
                  r <- socketio_send w x b cb ctx ;;
                  ret (Some (fst r), snd r))%m
        | _, _ => ret (Some 373, w)
        end
    | ODowork false => ret (None, w)
    | ODowork true => (x <- lift (io w) ;; ret (None, socketio_dowork w x))%m
    | OSetOption _ => ret (Some 532, w)                                  (* :529-533 *)
    | ODestroy false => ret (None, w)
    | ODestroy true => (x <- lift (io w) ;; ret (None, socketio_destroy w x))%m
    end.
