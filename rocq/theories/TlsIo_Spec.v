(* What the histories of a TLS io say: definitions over the observed events only. *)
From Verif Require Import Base TlsIo_Model.
Open Scope Z_scope.

Definition count {A} (p : A -> bool) (l : list A) : nat := length (filter p l).

Definition same_pointer (a b : pointer) : bool :=
  match a, b with Some x, Some y => Nat.eqb x y | None, None => true | _, _ => false end.

(* calls of open that pass this open-complete callback and context *)
Definition is_open_call (cb : nat) (ctx : pointer) (e : event) : bool :=
  match e with LCall (OOpen _ (Some c) x _ _ _ _) => Nat.eqb c cb && same_pointer x ctx | _ => false end.
Definition open_calls (cb : nat) (ctx : pointer) (l : list event) : nat := count (is_open_call cb ctx) l.
(* calls of this open-complete callback with this context *)
Definition is_open_complete (cb : nat) (ctx : pointer) (e : event) : bool :=
  match e with LAsk (QOpenComplete c x _) => Nat.eqb c cb && same_pointer x ctx | _ => false end.
Definition open_completes (cb : nat) (ctx : pointer) (l : list event) : nat := count (is_open_complete cb ctx) l.

Definition is_close_call (cb : nat) (ctx : pointer) (e : event) : bool :=
  match e with LCall (OClose _ (Some c) x) => Nat.eqb c cb && same_pointer x ctx | _ => false end.
Definition close_calls (cb : nat) (ctx : pointer) (l : list event) : nat := count (is_close_call cb ctx) l.
Definition is_close_complete (cb : nat) (ctx : pointer) (e : event) : bool :=
  match e with LAsk (QCloseComplete c x) => Nat.eqb c cb && same_pointer x ctx | _ => false end.
Definition close_completes (cb : nat) (ctx : pointer) (l : list event) : nat := count (is_close_complete cb ctx) l.

(* all open-complete callbacks; those that report success; the times the underlying io was opened *)
Definition all_completes (l : list event) : nat :=
  count (fun e => match e with LAsk (QOpenComplete _ _ _) => true | _ => false end) l.
Definition ok_completes (l : list event) : nat :=
  count (fun e => match e with LAsk (QOpenComplete _ _ ok) => ok | _ => false end) l.
Definition underlying_opens (l : list event) : nat :=
  count (fun e => match e with LAsk QOpen => true | _ => false end) l.

(* What the TLS io relies on from the underlying io: a failed open is reported by the result of
   xio_open and not by its callback, xio_close does not fail, and xio_send without a completion
   callback that did anything else than take the bytes (it reported an error) does not return 0.
   adapters/socketio_berkeley.c has these properties, see TlsIo_Socket. *)
Definition polite_event (e : event) : Prop :=
  match e with
  | LEvent (UOpened false) => False
  | LAnswer QClose a => a_ret a = 0
  | LAnswer (QSend _ None _) a => a_actions a = [] \/ a_ret a <> 0
  | _ => True
  end.
Definition polite (l : list event) : Prop := Forall polite_event l.

(* the bytes OpenSSL produced for the peer, and those handed to the underlying io *)
Fixpoint produced (l : list event) : list N :=
  match l with [] => [] | LPut b :: l => b ++ produced l | _ :: l => produced l end.
Fixpoint handed (l : list event) : list N :=
  match l with [] => [] | LAsk (QSend b _ _) :: l => b ++ handed l | _ :: l => handed l end.
(* the pieces of plain text SSL_read gave, and those passed to the user *)
Fixpoint pieces (l : list event) : list (list N) :=
  match l with [] => [] | LRead (b :: bs) :: l => (b :: bs) :: pieces l | _ :: l => pieces l end.
Fixpoint passed_on (l : list event) : list (list N) :=
  match l with [] => [] | LAsk (QBytes _ _ b) :: l => b :: passed_on l | _ :: l => passed_on l end.

(* the handshake was seen finished since the underlying io was last opened *)
Fixpoint ready_from (r : bool) (l : list event) : bool :=
  match l with
  | [] => r
  | LAsk QOpen :: l => ready_from false l
  | LFinished true :: l => ready_from true l
  | _ :: l => ready_from r l
  end.
Definition ready (l : list event) : bool := ready_from false l.

(* an OpenSSL whose handshake, once finished, stays finished *)
Record stays_finished (E : engine) : Prop := {
  sf_handshake : forall s, e_finished E s = true -> e_finished E (fst (e_handshake E s)) = true;
  sf_feed : forall s b, e_finished E s = true -> e_finished E (fst (e_feed E s b)) = true;
  sf_read : forall s, e_finished E s = true -> e_finished E (fst (fst (e_read E s))) = true;
  sf_write : forall s b, e_finished E s = true -> e_finished E (fst (fst (e_write E s b))) = true }.

Definition has_open_callback (e : event) : Prop :=
  match e with LCall (OOpen _ None _ _ _ _ _) => False | _ => True end.
Definition has_bytes_callback (e : event) : Prop :=
  match e with LCall (OOpen _ _ _ None _ _ _) => False | _ => True end.
Definition not_closing (e : event) : Prop :=
  match e with LCall (OClose _ _ _) => False | _ => True end.
Definition takes_bytes (e : event) : Prop :=
  match e with LGot _ false => False | _ => True end.

(* no open was refused or failed *)
Definition accepted (e : event) : Prop :=
  match e with LReturn (OOpen _ _ _ _ _ _ _) r => r = 0 | _ => True end.
(* histories in which opens are accepted, the user does not close, and memory for received bytes
   does not run out *)
Definition good_event (e : event) : Prop := polite_event e /\ not_closing e /\ takes_bytes e /\ accepted e.
Definition good (l : list event) : Prop := Forall good_event l.

(* calls of send with this completion callback and context, and uses of them at the underlying io *)
Definition is_send_call (cb : nat) (ctx : pointer) (e : event) : bool :=
  match e with LCall (OSend _ _ (Some c) x) => Nat.eqb c cb && same_pointer x ctx | _ => false end.
Definition send_calls (cb : nat) (ctx : pointer) (l : list event) : nat := count (is_send_call cb ctx) l.
Definition is_send_handed (cb : nat) (ctx : pointer) (e : event) : bool :=
  match e with LAsk (QSend _ (Some c) x) => Nat.eqb c cb && same_pointer x ctx | _ => false end.
Definition sends_handed (cb : nat) (ctx : pointer) (l : list event) : nat := count (is_send_handed cb ctx) l.
