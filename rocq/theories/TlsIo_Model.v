(* Model of src/tlsio_openssl.c: one TLS io, OpenSSL as an arbitrary machine, and an arbitrary
   environment.  Whenever the io calls out (the underlying xio, or a callback of the user), the
   environment may, before it returns, deliver any events of the underlying io and make any
   calls of the API, to any depth; so re-entrant callbacks are covered.
   Simplifications: the io is not destroyed by a call made from inside one of its own calls
   (tlsio_openssl_destroy is modelled with tlsio_openssl_create in TlsIo_Create); memory BIOs are
   byte queues; texts written to the logger are not recorded. *)
From Verif Require Import Base.
Open Scope Z_scope.

Definition pointer := option nat.

(* tlsio_openssl.c:19-27 *)
Inductive tlsio_state := NOT_OPEN | OPENING_UNDERLYING_IO | IN_HANDSHAKE | OPEN | CLOSING | ERROR.

(* The calls of the API; [h] = false: the handle is NULL *)
Inductive op :=
| OOpen (h : bool) (onopen openctx onbytes bytesctx onerror errorctx : pointer)
| OClose (h : bool) (onclose ctx : pointer)
| OSend (h : bool) (b : list N) (onsent ctx : pointer)
| ODowork (h : bool).

(* The callbacks the underlying io makes (the four handlers passed to xio_open and xio_close) *)
Inductive uevent := UOpened (ok : bool) | UClosed | UError | UBytes (b : list N).

(* The calls out of the io *)
Inductive ask :=
| QOpen                                                        (* xio_open *)
| QClose                                                       (* xio_close *)
| QSend (b : list N) (onsent ctx : pointer)                    (* xio_send *)
| QDowork                                                      (* xio_dowork *)
| QOpenComplete (cb : nat) (ctx : pointer) (ok : bool)         (* the user's callbacks *)
| QCloseComplete (cb : nat) (ctx : pointer)
| QBytes (cb : nat) (ctx : pointer) (b : list N)
| QError (cb : nat) (ctx : pointer).

(* What the environment does before a call out returns, and what it returns *)
Inductive action := AEvent (e : uevent) | AOp (o : op).
Record answer := { a_actions : list action; a_ret : Z }.

(* What is observed *)
Inductive event :=
| LCall (o : op)                                               (* an API call begins *)
| LReturn (o : op) (r : Z)                                     (* and returns r *)
| LEvent (e : uevent)                                          (* the underlying io makes a callback *)
| LAsk (q : ask)                                               (* the io calls out *)
| LAnswer (q : ask) (a : answer)                               (* the environment chooses its answer to q *)
| LFinished (b : bool)                                         (* SSL_is_init_finished answered b *)
| LPut (b : list N)                                            (* OpenSSL wrote b to the outgoing BIO *)
| LGot (b : list N) (ok : bool)                                (* b was to be written to the incoming BIO *)
| LWrite (b : list N) (r : Z)                                  (* SSL_write *)
| LRead (b : list N).                                          (* SSL_read gave b *)

(* OpenSSL: any state machine *)
Record engine := {
  est : Type;
  e_finished : est -> bool;                                    (* SSL_is_init_finished *)
  e_handshake : est -> est * list N;                           (* SSL_do_handshake: what it writes out *)
  e_feed : est -> list N -> est * bool;                        (* BIO_write to the incoming BIO: false = not everything was taken *)
  e_read : est -> est * list N * list N;                       (* SSL_read: the plain text (none: <= 0), what it writes out *)
  e_write : est -> list N -> est * Z * list N                  (* SSL_write: its result, what it writes out *)
}.

Section TlsIo.
Context (E : engine).

(* tlsio_openssl.c:29-46 *)
Record world := {
  state : tlsio_state;
  on_bytes : pointer; on_bytes_ctx : pointer;
  on_open : pointer; on_open_ctx : pointer;
  on_close : pointer; on_close_ctx : pointer;
  on_error : pointer; on_error_ctx : pointer;
  ssl : est E; out_bio : list N;
  allocs : list bool;                                          (* answers of malloc, true when none is left *)
  answers : list answer;                                       (* of the environment *)
  log : list event }.

Definition set_state (w : world) (s : tlsio_state) : world :=
  {| state := s; on_bytes := on_bytes w; on_bytes_ctx := on_bytes_ctx w; on_open := on_open w; on_open_ctx := on_open_ctx w;
     on_close := on_close w; on_close_ctx := on_close_ctx w; on_error := on_error w; on_error_ctx := on_error_ctx w;
     ssl := ssl w; out_bio := out_bio w; allocs := allocs w; answers := answers w; log := log w |}.
Definition set_open_callbacks (w : world) (oo ooc ob obc oe oec : pointer) : world :=
  {| state := state w; on_bytes := ob; on_bytes_ctx := obc; on_open := oo; on_open_ctx := ooc;
     on_close := on_close w; on_close_ctx := on_close_ctx w; on_error := oe; on_error_ctx := oec;
     ssl := ssl w; out_bio := out_bio w; allocs := allocs w; answers := answers w; log := log w |}.
Definition set_close_callback (w : world) (oc occ : pointer) : world :=
  {| state := state w; on_bytes := on_bytes w; on_bytes_ctx := on_bytes_ctx w; on_open := on_open w; on_open_ctx := on_open_ctx w;
     on_close := oc; on_close_ctx := occ; on_error := on_error w; on_error_ctx := on_error_ctx w;
     ssl := ssl w; out_bio := out_bio w; allocs := allocs w; answers := answers w; log := log w |}.
Definition set_ssl (w : world) (s : est E) : world :=
  {| state := state w; on_bytes := on_bytes w; on_bytes_ctx := on_bytes_ctx w; on_open := on_open w; on_open_ctx := on_open_ctx w;
     on_close := on_close w; on_close_ctx := on_close_ctx w; on_error := on_error w; on_error_ctx := on_error_ctx w;
     ssl := s; out_bio := out_bio w; allocs := allocs w; answers := answers w; log := log w |}.
Definition set_out (w : world) (b : list N) : world :=
  {| state := state w; on_bytes := on_bytes w; on_bytes_ctx := on_bytes_ctx w; on_open := on_open w; on_open_ctx := on_open_ctx w;
     on_close := on_close w; on_close_ctx := on_close_ctx w; on_error := on_error w; on_error_ctx := on_error_ctx w;
     ssl := ssl w; out_bio := b; allocs := allocs w; answers := answers w; log := log w |}.
Definition set_allocs (w : world) (l : list bool) : world :=
  {| state := state w; on_bytes := on_bytes w; on_bytes_ctx := on_bytes_ctx w; on_open := on_open w; on_open_ctx := on_open_ctx w;
     on_close := on_close w; on_close_ctx := on_close_ctx w; on_error := on_error w; on_error_ctx := on_error_ctx w;
     ssl := ssl w; out_bio := out_bio w; allocs := l; answers := answers w; log := log w |}.
Definition set_answers (w : world) (l : list answer) : world :=
  {| state := state w; on_bytes := on_bytes w; on_bytes_ctx := on_bytes_ctx w; on_open := on_open w; on_open_ctx := on_open_ctx w;
     on_close := on_close w; on_close_ctx := on_close_ctx w; on_error := on_error w; on_error_ctx := on_error_ctx w;
     ssl := ssl w; out_bio := out_bio w; allocs := allocs w; answers := l; log := log w |}.
Definition add_log (w : world) (e : event) : world :=
  {| state := state w; on_bytes := on_bytes w; on_bytes_ctx := on_bytes_ctx w; on_open := on_open w; on_open_ctx := on_open_ctx w;
     on_close := on_close w; on_close_ctx := on_close_ctx w; on_error := on_error w; on_error_ctx := on_error_ctx w;
     ssl := ssl w; out_bio := out_bio w; allocs := allocs w; answers := answers w; log := log w ++ [e] |}.

(* Computations.  [None]: the execution was cut in the middle (it did not come back yet); the
   world, and its log, are those of that moment. *)
Definition C (A : Type) := world -> option A * world.
Definition done {A} (a : A) : C A := fun w => (Some a, w).
Definition cut {A} : C A := fun w => (None, w).
Definition bind {A B} (m : C A) (f : A -> C B) : C B :=
  fun w => match m w with (Some a, w) => f a w | (None, w) => (None, w) end.
Definition get : C world := fun w => (Some w, w).
Definition change (f : world -> world) : C unit := fun w => (Some tt, f w).
Declare Scope c_scope.
Delimit Scope c_scope with c.
Local Notation "x <- m ;; k" := (bind m (fun x => k)) (at level 61, m at next level, right associativity) : c_scope.
Local Notation "m ;; k" := (bind m (fun _ => k)) (at level 61, right associativity) : c_scope.
Local Open Scope c_scope.

Definition emit (e : event) : C unit := change (fun w => add_log w e).

(* malloc *)
Definition alloc : C bool :=
  w <- get ;; change (fun w => set_allocs w (tl (allocs w))) ;; done (hd true (allocs w)).

(* SSL_is_init_finished *)
Definition SSL_is_init_finished : C bool :=
  w <- get ;; emit (LFinished (e_finished E (ssl w))) ;; done (e_finished E (ssl w)).
(* SSL_do_handshake; its result is not used *)
Definition SSL_do_handshake : C unit :=
  w <- get ;;
  change (fun w => set_ssl w (fst (e_handshake E (ssl w)))) ;;
  change (fun v => set_out v (out_bio v ++ snd (e_handshake E (ssl w)))) ;;
  emit (LPut (snd (e_handshake E (ssl w)))).
(* BIO_write(in_bio, ...) == size *)
Definition BIO_write_in (b : list N) : C bool :=
  w <- get ;;
  change (fun w => set_ssl w (fst (e_feed E (ssl w) b))) ;;
  emit (LGot b (snd (e_feed E (ssl w) b))) ;;
  done (snd (e_feed E (ssl w) b)).
(* SSL_read(ssl, buffer, 64): at most 64 bytes; none stands for a result <= 0 *)
Definition SSL_read : C (list N) :=
  w <- get ;;
  change (fun w => set_ssl w (fst (fst (e_read E (ssl w))))) ;;
  change (fun v => set_out v (out_bio v ++ snd (e_read E (ssl w)))) ;;
  emit (LPut (snd (e_read E (ssl w)))) ;;
  emit (LRead (firstn 64 (snd (fst (e_read E (ssl w)))))) ;;
  done (firstn 64 (snd (fst (e_read E (ssl w))))).
(* SSL_write(ssl, buffer, size); size <= INT_MAX *)
Definition SSL_write (b : list N) : C Z :=
  w <- get ;;
  change (fun w => set_ssl w (fst (fst (e_write E (ssl w) b)))) ;;
  change (fun v => set_out v (out_bio v ++ snd (e_write E (ssl w) b))) ;;
  emit (LPut (snd (e_write E (ssl w) b))) ;;
  emit (LWrite b (snd (fst (e_write E (ssl w) b)))) ;;
  done (snd (fst (e_write E (ssl w) b))).
(* BIO_ctrl_pending(out_bio) converted to int *)
Definition to_int (n : Z) : Z := let m := n mod 4294967296 in if m <? 2147483648 then m else m - 4294967296.
Definition BIO_ctrl_pending : C Z := w <- get ;; done (to_int (Z.of_nat (length (out_bio w)))).
(* BIO_read(out_bio, ..., n) for 0 < n: the first n bytes *)
Definition BIO_read (n : Z) : C (list N) :=
  w <- get ;;
  change (fun w => set_out w (skipn (Z.to_nat n) (out_bio w))) ;;
  done (firstn (Z.to_nat n) (out_bio w)).

Section Code.
Context (env : ask -> C Z).                                    (* the calls out *)
Context (loops : nat).                                         (* after so many rounds of the SSL_read loop the execution is cut *)

(* tlsio_openssl.c:59-70 *)
Definition indicate_error : C unit :=
  w <- get ;;
  match on_error w with
  | None => done tt
  | Some cb => env (QError cb (on_error_ctx w)) ;; done tt
  end.

(* tlsio_openssl.c:72-82 *)
Definition indicate_open_complete (ok : bool) : C unit :=
  w <- get ;;
  match on_open w with
  | None => done tt
  | Some cb => env (QOpenComplete cb (on_open_ctx w) ok) ;; done tt
  end.

(* tlsio_openssl.c:84-126 *)
Definition write_outgoing_bytes (onsent ctx : pointer) : C Z :=
  pending <- BIO_ctrl_pending ;;
  if pending <=? 0 then done 0
  else
    a <- alloc ;;
    if negb a then done 98
    else
      b <- BIO_read pending ;;
      if negb (Z.of_nat (length b) =? pending) then done 105
      else
        r <- env (QSend b onsent ctx) ;;
        if negb (r =? 0) then done 112 else done 0.

(* tlsio_openssl.c:128-170 *)
Definition send_handshake_bytes : C Z :=
  f <- SSL_is_init_finished ;;
  if (f : bool) then
    change (fun w => set_state w OPEN) ;; indicate_open_complete true ;; done 0
  else
    SSL_do_handshake ;;
    f <- SSL_is_init_finished ;;
    if (f : bool) then
      change (fun w => set_state w OPEN) ;; indicate_open_complete true ;; done 0
    else
      r <- write_outgoing_bytes None None ;;
      if negb (r =? 0) then done 153
      else
        f <- SSL_is_init_finished ;;
        if (f : bool) then
          change (fun w => set_state w OPEN) ;; indicate_open_complete true ;; done 0
        else done 0.

(* tlsio_openssl.c:172-202 *)
Definition on_underlying_io_close_complete : C unit :=
  w <- get ;;
  match state w with
  | OPENING_UNDERLYING_IO | IN_HANDSHAKE =>
      change (fun w => set_state w NOT_OPEN) ;; indicate_open_complete false
  | CLOSING =>
      change (fun w => set_state w NOT_OPEN) ;;
      match on_close w with
      | None => done tt
      | Some cb => env (QCloseComplete cb (on_close_ctx w)) ;; done tt
      end
  | _ => done tt
  end.

(* the xio_close of :214, :226 and :309 *)
Definition give_up : C unit :=
  r <- env QClose ;;
  if negb (r =? 0) then indicate_open_complete false else done tt.

(* tlsio_openssl.c:204-240 *)
Definition on_underlying_io_open_complete (ok : bool) : C unit :=
  w <- get ;;
  match state w with
  | OPENING_UNDERLYING_IO =>
      if ok then
        f <- SSL_is_init_finished ;;
        if (f : bool) then give_up
        else
          change (fun w => set_state w IN_HANDSHAKE) ;;
          r <- send_handshake_bytes ;;
          if negb (r =? 0) then give_up else done tt
      else indicate_open_complete false
  | _ => done tt
  end.

(* tlsio_openssl.c:242-261 *)
Definition on_underlying_io_error : C unit :=
  w <- get ;;
  match state w with
  | OPENING_UNDERLYING_IO | IN_HANDSHAKE =>
      change (fun w => set_state w NOT_OPEN) ;; indicate_open_complete false
  | OPEN => indicate_error
  | _ => done tt
  end.

(* tlsio_openssl.c:263-286 decode_ssl_received_bytes: always 0, so :320-322 cannot be reached *)
Fixpoint decode_ssl_received_bytes (n : nat) : C unit :=
  match n with
  | O => cut
  | S n =>
      b <- SSL_read ;;
      match b with
      | [] => done tt
      | _ =>
          w <- get ;;
          match on_bytes w with
          | None => done tt
          | Some cb => env (QBytes cb (on_bytes_ctx w) b) ;; done tt
          end ;;
          decode_ssl_received_bytes n
      end
  end.

(* tlsio_openssl.c:288-327 *)
Definition on_underlying_io_bytes_received (b : list N) : C unit :=
  ok <- BIO_write_in b ;;
  if negb ok then
    change (fun w => set_state w ERROR) ;; indicate_error
  else
    w <- get ;;
    match state w with
    | IN_HANDSHAKE =>
        r <- send_handshake_bytes ;;
        if negb (r =? 0) then give_up else done tt
    | OPEN => decode_ssl_received_bytes loops
    | _ => done tt
    end.

(* tlsio_openssl.c:491-535 *)
Definition tlsio_openssl_open (oo ooc ob obc oe oec : pointer) : C Z :=
  w <- get ;;
  match state w with
  | NOT_OPEN =>
      change (fun w => set_open_callbacks w oo ooc ob obc oe oec) ;;
      change (fun w => set_state w OPENING_UNDERLYING_IO) ;;
      r <- env QOpen ;;
      if negb (r =? 0) then done 524 else done 0
  | _ => done 506
  end.

(* tlsio_openssl.c:537-575 *)
Definition tlsio_openssl_close (oc occ : pointer) : C Z :=
  w <- get ;;
  match state w with
  | NOT_OPEN | CLOSING => done 553
  | _ =>
      change (fun w => set_state w CLOSING) ;;
      change (fun w => set_close_callback w oc occ) ;;
      r <- env QClose ;;
      if negb (r =? 0) then done 564 else done 0
  end.

(* tlsio_openssl.c:577-619; the int result is compared with the size_t size *)
Definition tlsio_openssl_send (b : list N) (onsent ctx : pointer) : C Z :=
  w <- get ;;
  match state w with
  | OPEN =>
      r <- SSL_write b ;;
      if negb (r mod 18446744073709551616 =? Z.of_nat (length b)) then done 600
      else
        r <- write_outgoing_bytes onsent ctx ;;
        if negb (r =? 0) then done 607 else done 0
  | _ => done 592
  end.

(* tlsio_openssl.c:621-637 *)
Definition tlsio_openssl_dowork : C Z :=
  w <- get ;;
  match state w with
  | NOT_OPEN | ERROR => done 0
  | _ => env QDowork ;; done 0
  end.

(* the API, with the NULL checks of :495, :541, :581, :623 *)
Definition call (o : op) : C Z :=
  match o with
  | OOpen h oo ooc ob obc oe oec => if h then tlsio_openssl_open oo ooc ob obc oe oec else done 497
  | OClose h oc occ => if h then tlsio_openssl_close oc occ else done 543
  | OSend h b os osc => if h then tlsio_openssl_send b os osc else done 583
  | ODowork h => if h then tlsio_openssl_dowork else done 0
  end.

Definition api (o : op) : C unit := emit (LCall o) ;; r <- call o ;; emit (LReturn o r).

(* the callbacks registered at :522 and at every xio_close *)
Definition handle (e : uevent) : C unit :=
  emit (LEvent e) ;;
  match e with
  | UOpened ok => on_underlying_io_open_complete ok
  | UClosed => on_underlying_io_close_complete
  | UError => on_underlying_io_error
  | UBytes b => on_underlying_io_bytes_received b
  end.

Fixpoint acts (l : list action) : C unit :=
  match l with
  | [] => done tt
  | AEvent e :: l => handle e ;; acts l
  | AOp o :: l => api o ;; acts l
  end.
End Code.

(* The environment takes its next answer, acts, and returns.  When the answers (or the fuel) end,
   the execution is cut. *)
Fixpoint environment (fuel : nat) (q : ask) : C Z :=
  emit (LAsk q) ;;
  match fuel with
  | O => cut
  | S f =>
      w <- get ;;
      match answers w with
      | [] => cut
      | a :: l =>
          change (fun w => set_answers w l) ;;
          emit (LAnswer q a) ;;
          acts (environment f) f (a_actions a) ;;
          done (a_ret a)
      end
  end.

(* tlsio_openssl.c:368-381, :460-461: the io after tlsio_openssl_create *)
Definition initial (s : est E) (al : list bool) (an : list answer) : world :=
  {| state := NOT_OPEN; on_bytes := None; on_bytes_ctx := None; on_open := None; on_open_ctx := None;
     on_close := None; on_close_ctx := None; on_error := None; on_error_ctx := None;
     ssl := s; out_bio := []; allocs := al; answers := an; log := [] |}.

(* Everything that happens to one io: calls of the API and spontaneous events *)
Definition run (fuel : nat) (s : est E) (al : list bool) (an : list answer) (l : list action) : option unit * world :=
  acts (environment fuel) fuel l (initial s al an).
End TlsIo.
