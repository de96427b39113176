(* Model of src/tlsio_wolfssl.c: one TLS io over wolfSSL, in an arbitrary environment.  wolfSSL is
   an arbitrary machine: while one of its functions runs it may call the three functions the io
   registered with it (receive, send, handshake done) in any order and number, then it returns.
   Whenever the io calls out (the underlying xio, or a callback of the user), the environment may,
   before it returns, deliver any events of the underlying io and make any calls of the API, to
   any depth.
   Simplifications: the io is not destroyed by a call made from inside one of its own calls
   (create and destroy are in WolfIo_Create); the block socket_io_read_bytes of
   socket_io_read_byte_count bytes is the list of its bytes (a realloc that cannot shrink it leaves
   it as it is, :206-210); counts stay below 2^31; the underlying io delivers at least one byte at
   a time; sizes given to wolfSSL are below 2^31. *)
From Verif Require Import Base.
Open Scope Z_scope.

Definition pointer := option nat.

(* tlsio_wolfssl.c:18-26 *)
Inductive tlsio_state := NOT_OPEN | OPENING_UNDERLYING_IO | IN_HANDSHAKE | OPEN | CLOSING | ERROR.

(* The calls of the API; [h] = false: the handle is NULL *)
Inductive op :=
| OOpen (h : bool) (onopen openctx onbytes bytesctx onerror errorctx : pointer)
| OClose (h : bool) (onclose ctx : pointer)
| OSend (h : bool) (b : list N) (onsent ctx : pointer)
| ODowork (h : bool).

(* The callbacks the underlying io makes (the four handlers passed to xio_open and xio_close) *)
Inductive uevent := UOpened (ok : bool) | UClosed | UError | UBytes (b : list N).

(* The calls out of the io *)
Inductive ask :=
| QOpen                                                        (* xio_open *)
| QClose                                                       (* xio_close *)
| QSend (b : list N) (onsent ctx : pointer)                    (* xio_send *)
| QDowork                                                      (* xio_dowork *)
| QOpenComplete (cb : nat) (ctx : pointer) (ok : bool)         (* the user's callbacks *)
| QCloseComplete (cb : nat) (ctx : pointer)
| QBytes (cb : nat) (ctx : pointer) (b : list N)
| QError (cb : nat) (ctx : pointer).

(* What the environment does before a call out returns, and what it returns *)
Inductive action := AEvent (e : uevent) | AOp (o : op).
Record answer := { a_actions : list action; a_ret : Z }.

(* wolfSSL: its functions, and what it does while one runs *)
Inductive function := WConnect | WRead (size : nat) | WWrite (b : list N).
Inductive want :=
| WRecv (size : nat)                                           (* calls on_io_recv for up to size bytes *)
| WSend (b : list N)                                           (* calls on_io_send *)
| WHandshakeDone                                               (* calls on_handshake_done *)
| WReturn (r : Z) (b : list N).                                (* returns r; wolfSSL_read gives the bytes b *)
Inductive input := IBegin (f : function) | IGot (r : Z) (b : list N) | ISent (r : Z) | IDone.
Record engine := { est : Type; e_step : est -> input -> est * want }.

(* What is observed *)
Inductive event :=
| LCall (o : op)                                               (* an API call begins *)
| LReturn (o : op) (r : Z)                                     (* and returns r *)
| LEvent (e : uevent)                                          (* the underlying io makes a callback *)
| LLost (b : list N)                                           (* no memory for received bytes *)
| LAsk (q : ask)                                               (* the io calls out *)
| LAnswer (q : ask) (a : answer)                               (* the environment chooses its answer to q *)
| LBegin (f : function)                                        (* a function of wolfSSL is called *)
| LWant (v : want)                                             (* wolfSSL calls the io, or returns *)
| LTold (i : input)                                            (* and what it is told *)
| LRead (b : list N).                                          (* wolfSSL_read gave b *)

Section WolfIo.
Context (E : engine).

(* tlsio_wolfssl.c:28-47 *)
Record world := {
  state : tlsio_state;
  on_bytes : pointer; on_bytes_ctx : pointer;
  on_open : pointer; on_open_ctx : pointer;
  on_close : pointer; on_close_ctx : pointer;
  on_error : pointer; on_error_ctx : pointer;
  on_sent : pointer; on_sent_ctx : pointer;
  ssl : est E; rbytes : list N;
  allocs : list bool;                                          (* answers of realloc, true when none is left *)
  answers : list answer;                                       (* of the environment *)
  log : list event }.

Definition set_state (w : world) (s : tlsio_state) : world :=
  {| state := s; on_bytes := on_bytes w; on_bytes_ctx := on_bytes_ctx w; on_open := on_open w; on_open_ctx := on_open_ctx w;
     on_close := on_close w; on_close_ctx := on_close_ctx w; on_error := on_error w; on_error_ctx := on_error_ctx w;
     on_sent := on_sent w; on_sent_ctx := on_sent_ctx w;
     ssl := ssl w; rbytes := rbytes w; allocs := allocs w; answers := answers w; log := log w |}.
Definition set_open_callbacks (w : world) (oo ooc ob obc oe oec : pointer) : world :=
  {| state := state w; on_bytes := ob; on_bytes_ctx := obc; on_open := oo; on_open_ctx := ooc;
     on_close := on_close w; on_close_ctx := on_close_ctx w; on_error := oe; on_error_ctx := oec;
     on_sent := on_sent w; on_sent_ctx := on_sent_ctx w;
     ssl := ssl w; rbytes := rbytes w; allocs := allocs w; answers := answers w; log := log w |}.
Definition set_close_callback (w : world) (oc occ : pointer) : world :=
  {| state := state w; on_bytes := on_bytes w; on_bytes_ctx := on_bytes_ctx w; on_open := on_open w; on_open_ctx := on_open_ctx w;
     on_close := oc; on_close_ctx := occ; on_error := on_error w; on_error_ctx := on_error_ctx w;
     on_sent := on_sent w; on_sent_ctx := on_sent_ctx w;
     ssl := ssl w; rbytes := rbytes w; allocs := allocs w; answers := answers w; log := log w |}.
Definition set_send_callback (w : world) (os osc : pointer) : world :=
  {| state := state w; on_bytes := on_bytes w; on_bytes_ctx := on_bytes_ctx w; on_open := on_open w; on_open_ctx := on_open_ctx w;
     on_close := on_close w; on_close_ctx := on_close_ctx w; on_error := on_error w; on_error_ctx := on_error_ctx w;
     on_sent := os; on_sent_ctx := osc;
     ssl := ssl w; rbytes := rbytes w; allocs := allocs w; answers := answers w; log := log w |}.
Definition set_ssl (w : world) (s : est E) : world :=
  {| state := state w; on_bytes := on_bytes w; on_bytes_ctx := on_bytes_ctx w; on_open := on_open w; on_open_ctx := on_open_ctx w;
     on_close := on_close w; on_close_ctx := on_close_ctx w; on_error := on_error w; on_error_ctx := on_error_ctx w;
     on_sent := on_sent w; on_sent_ctx := on_sent_ctx w;
     ssl := s; rbytes := rbytes w; allocs := allocs w; answers := answers w; log := log w |}.
Definition set_rbytes (w : world) (b : list N) : world :=
  {| state := state w; on_bytes := on_bytes w; on_bytes_ctx := on_bytes_ctx w; on_open := on_open w; on_open_ctx := on_open_ctx w;
     on_close := on_close w; on_close_ctx := on_close_ctx w; on_error := on_error w; on_error_ctx := on_error_ctx w;
     on_sent := on_sent w; on_sent_ctx := on_sent_ctx w;
     ssl := ssl w; rbytes := b; allocs := allocs w; answers := answers w; log := log w |}.
Definition set_allocs (w : world) (l : list bool) : world :=
  {| state := state w; on_bytes := on_bytes w; on_bytes_ctx := on_bytes_ctx w; on_open := on_open w; on_open_ctx := on_open_ctx w;
     on_close := on_close w; on_close_ctx := on_close_ctx w; on_error := on_error w; on_error_ctx := on_error_ctx w;
     on_sent := on_sent w; on_sent_ctx := on_sent_ctx w;
     ssl := ssl w; rbytes := rbytes w; allocs := l; answers := answers w; log := log w |}.
Definition set_answers (w : world) (l : list answer) : world :=
  {| state := state w; on_bytes := on_bytes w; on_bytes_ctx := on_bytes_ctx w; on_open := on_open w; on_open_ctx := on_open_ctx w;
     on_close := on_close w; on_close_ctx := on_close_ctx w; on_error := on_error w; on_error_ctx := on_error_ctx w;
     on_sent := on_sent w; on_sent_ctx := on_sent_ctx w;
     ssl := ssl w; rbytes := rbytes w; allocs := allocs w; answers := l; log := log w |}.
Definition add_log (w : world) (e : event) : world :=
  {| state := state w; on_bytes := on_bytes w; on_bytes_ctx := on_bytes_ctx w; on_open := on_open w; on_open_ctx := on_open_ctx w;
     on_close := on_close w; on_close_ctx := on_close_ctx w; on_error := on_error w; on_error_ctx := on_error_ctx w;
     on_sent := on_sent w; on_sent_ctx := on_sent_ctx w;
     ssl := ssl w; rbytes := rbytes w; allocs := allocs w; answers := answers w; log := log w ++ [e] |}.

(* Computations.  [None]: the execution was cut in the middle (it did not come back yet); the
   world, and its log, are those of that moment. *)
Definition C (A : Type) := world -> option A * world.
Definition done {A} (a : A) : C A := fun w => (Some a, w).
Definition cut {A} : C A := fun w => (None, w).
Definition bind {A B} (m : C A) (f : A -> C B) : C B :=
  fun w => match m w with (Some a, w) => f a w | (None, w) => (None, w) end.
Definition get : C world := fun w => (Some w, w).
Definition change (f : world -> world) : C unit := fun w => (Some tt, f w).
Declare Scope c_scope.
Delimit Scope c_scope with c.
Local Notation "x <- m ;; k" := (bind m (fun x => k)) (at level 61, m at next level, right associativity) : c_scope.
Local Notation "m ;; k" := (bind m (fun _ => k)) (at level 61, right associativity) : c_scope.
Local Open Scope c_scope.

Definition emit (e : event) : C unit := change (fun w => add_log w e).
(* realloc to a larger size *)
Definition alloc : C bool :=
  w <- get ;; change (fun w => set_allocs w (tl (allocs w))) ;; done (hd true (allocs w)).

Section Code.
Context (env : ask -> C Z).                                    (* the calls out *)
Context (loops : nat).                                         (* after so many rounds of a loop the execution is cut *)

(* tlsio_wolfssl.c:60-66 *)
Definition indicate_error : C unit :=
  w <- get ;;
  match on_error w with
  | None => done tt
  | Some cb => env (QError cb (on_error_ctx w)) ;; done tt
  end.

(* tlsio_wolfssl.c:68-74 *)
Definition indicate_open_complete (ok : bool) : C unit :=
  w <- get ;;
  match on_open w with
  | None => done tt
  | Some cb => env (QOpenComplete cb (on_open_ctx w) ok) ;; done tt
  end.

(* tlsio_wolfssl.c:180-187 the loop of on_io_recv *)
Fixpoint await_bytes (n : nat) : C unit :=
  w <- get ;;
  match rbytes w with
  | _ :: _ => done tt
  | [] =>
      match n with
      | O => cut
      | S n =>
          env QDowork ;;
          w <- get ;;
          match state w with
          | OPEN => done tt
          | _ => await_bytes n
          end
      end
  end.

(* tlsio_wolfssl.c:174-221; WOLFSSL_CBIO_ERR_WANT_READ is -2 *)
Definition on_io_recv (size : nat) : C (Z * list N) :=
  await_bytes loops ;;
  w <- get ;;
  let b := firstn size (rbytes w) in
  change (fun w => set_rbytes w (skipn size (rbytes w))) ;;
  w <- get ;;
  match b, state w with
  | [], OPEN => done (-2, [])
  | _, _ => done (Z.of_nat (length b), b)
  end.

(* tlsio_wolfssl.c:223-240 *)
Definition on_io_send (b : list N) : C Z :=
  w <- get ;;
  r <- env (QSend b (on_sent w) (on_sent_ctx w)) ;;
  if negb (r =? 0) then
    change (fun w => set_state w ERROR) ;; indicate_error ;; done 0
  else done (Z.of_nat (length b)).

(* tlsio_wolfssl.c:242-252 *)
Definition on_handshake_done : C unit :=
  w <- get ;;
  match state w with
  | IN_HANDSHAKE => change (fun w => set_state w OPEN) ;; indicate_open_complete true
  | _ => done tt
  end.

(* one step of wolfSSL *)
Definition ssl_step (i : input) : C want :=
  w <- get ;;
  change (fun v => set_ssl v (fst (e_step E (ssl w) i))) ;;
  emit (LWant (snd (e_step E (ssl w) i))) ;;
  done (snd (e_step E (ssl w) i)).
(* wolfSSL runs: it calls the io until it returns *)
Fixpoint running (n : nat) (i : input) : C (Z * list N) :=
  match n with
  | O => cut
  | S n =>
      v <- ssl_step i ;;
      match v with
      | WReturn r b => done (r, b)
      | WRecv size => x <- on_io_recv size ;; emit (LTold (IGot (fst x) (snd x))) ;; running n (IGot (fst x) (snd x))
      | WSend b => r <- on_io_send b ;; emit (LTold (ISent r)) ;; running n (ISent r)
      | WHandshakeDone => on_handshake_done ;; emit (LTold IDone) ;; running n IDone
      end
  end.
Definition wolf (f : function) : C (Z * list N) := emit (LBegin f) ;; running loops (IBegin f).
Definition wolfSSL_connect : C Z := x <- wolf WConnect ;; done (fst x).
Definition wolfSSL_write (b : list N) : C Z := x <- wolf (WWrite b) ;; done (fst x).
(* at most size bytes; none stands for a result <= 0 *)
Definition wolfSSL_read (size : nat) : C (list N) := x <- wolf (WRead size) ;; emit (LRead (firstn size (snd x))) ;; done (firstn size (snd x)).

(* tlsio_wolfssl.c:76-95 *)
Fixpoint decode_ssl_received_bytes (n : nat) : C unit :=
  match n with
  | O => cut
  | S n =>
      b <- wolfSSL_read 64 ;;
      match b with
      | [] => done tt
      | _ =>
          w <- get ;;
          match on_bytes w with
          | None => done tt
          | Some cb => env (QBytes cb (on_bytes_ctx w) b) ;; done tt
          end ;;
          decode_ssl_received_bytes n
      end
  end.

(* tlsio_wolfssl.c:97-117; SSL_SUCCESS is 1 *)
Definition on_underlying_io_open_complete (ok : bool) : C unit :=
  if negb ok then
    change (fun w => set_state w ERROR) ;; indicate_open_complete false
  else
    change (fun w => set_state w IN_HANDSHAKE) ;;
    r <- wolfSSL_connect ;;
    if negb (r =? 1) then indicate_open_complete false else done tt.

(* tlsio_wolfssl.c:119-135 *)
Definition on_underlying_io_bytes_received (b : list N) : C unit :=
  a <- alloc ;;
  if negb a then
    emit (LLost b) ;; change (fun w => set_state w ERROR) ;; indicate_error
  else change (fun w => set_rbytes w (rbytes w ++ b)).

(* tlsio_wolfssl.c:137-159 *)
Definition on_underlying_io_error : C unit :=
  w <- get ;;
  match state w with
  | OPENING_UNDERLYING_IO | IN_HANDSHAKE =>
      change (fun w => set_state w ERROR) ;; indicate_open_complete false
  | OPEN => change (fun w => set_state w ERROR) ;; indicate_error
  | _ => done tt
  end.

(* tlsio_wolfssl.c:161-172 *)
Definition on_underlying_io_close_complete : C unit :=
  w <- get ;;
  match state w with
  | CLOSING =>
      match on_close w with
      | None => done tt
      | Some cb => env (QCloseComplete cb (on_close_ctx w)) ;; done tt
      end
  | _ => done tt
  end.

(* tlsio_wolfssl.c:376-429 *)
Definition tlsio_wolfssl_open (oo ooc ob obc oe oec : pointer) : C Z :=
  w <- get ;;
  match state w with
  | NOT_OPEN =>
      change (fun w => set_open_callbacks w oo ooc ob obc oe oec) ;;
      change (fun w => set_state w OPENING_UNDERLYING_IO) ;;
      r <- env QOpen ;;
      if negb (r =? 0) then
        change (fun w => set_state w NOT_OPEN) ;; done 408
      else
        change (fun w => set_state w IN_HANDSHAKE) ;;
        r <- wolfSSL_connect ;;
        if negb (r =? 1) then done 418 else done 0
  | _ => done 390
  end.

(* tlsio_wolfssl.c:431-466 *)
Definition tlsio_wolfssl_close (oc occ : pointer) : C Z :=
  w <- get ;;
  match state w with
  | NOT_OPEN | CLOSING => done 446
  | _ =>
      change (fun w => set_state w CLOSING) ;;
      change (fun w => set_close_callback w oc occ) ;;
      r <- env QClose ;;
      if negb (r =? 0) then done 456 else done 0
  end.

(* tlsio_wolfssl.c:468-502; the int result is compared with the size_t size *)
Definition tlsio_wolfssl_send (b : list N) (onsent ctx : pointer) : C Z :=
  w <- get ;;
  match state w with
  | OPEN =>
      change (fun w => set_send_callback w onsent ctx) ;;
      r <- wolfSSL_write b ;;
      if negb (r mod 18446744073709551616 =? Z.of_nat (length b)) then done 492 else done 0
  | _ => done 482
  end.

(* tlsio_wolfssl.c:504-517 *)
Definition tlsio_wolfssl_dowork : C Z :=
  w <- get ;;
  match state w with
  | NOT_OPEN | ERROR => done 0
  | _ => decode_ssl_received_bytes loops ;; env QDowork ;; done 0
  end.

(* the API, with the NULL checks of :380, :435, :472, :506 *)
Definition call (o : op) : C Z :=
  match o with
  | OOpen h oo ooc ob obc oe oec => if h then tlsio_wolfssl_open oo ooc ob obc oe oec else done 382
  | OClose h oc occ => if h then tlsio_wolfssl_close oc occ else done 437
  | OSend h b os osc => if h then tlsio_wolfssl_send b os osc else done 474
  | ODowork h => if h then tlsio_wolfssl_dowork else done 0
  end.
Definition api (o : op) : C unit := emit (LCall o) ;; r <- call o ;; emit (LReturn o r).

(* the callbacks registered at :405 and :454 *)
Definition handle (e : uevent) : C unit :=
  emit (LEvent e) ;;
  match e with
  | UOpened ok => on_underlying_io_open_complete ok
  | UClosed => on_underlying_io_close_complete
  | UError => on_underlying_io_error
  | UBytes b => on_underlying_io_bytes_received b
  end.

Fixpoint acts (l : list action) : C unit :=
  match l with
  | [] => done tt
  | AEvent e :: l => handle e ;; acts l
  | AOp o :: l => api o ;; acts l
  end.
End Code.

(* The environment takes its next answer, acts, and returns.  When the answers (or the fuel) end,
   the execution is cut. *)
Fixpoint environment (fuel : nat) (q : ask) : C Z :=
  emit (LAsk q) ;;
  match fuel with
  | O => cut
  | S f =>
      w <- get ;;
      match answers w with
      | [] => cut
      | a :: l =>
          change (fun w => set_answers w l) ;;
          emit (LAnswer q a) ;;
          acts (environment f) f (a_actions a) ;;
          done (a_ret a)
      end
  end.

(* tlsio_wolfssl.c:287-299, :333-345: the io after tlsio_wolfssl_create *)
Definition initial (s : est E) (al : list bool) (an : list answer) : world :=
  {| state := NOT_OPEN; on_bytes := None; on_bytes_ctx := None; on_open := None; on_open_ctx := None;
     on_close := None; on_close_ctx := None; on_error := None; on_error_ctx := None; on_sent := None; on_sent_ctx := None;
     ssl := s; rbytes := []; allocs := al; answers := an; log := [] |}.

(* Everything that happens to one io: calls of the API and spontaneous events *)
Definition run (fuel : nat) (s : est E) (al : list bool) (an : list answer) (l : list action) : option unit * world :=
  acts (environment fuel) fuel l (initial s al an).
End WolfIo.
