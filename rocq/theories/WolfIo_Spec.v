(* What the histories of a wolfSSL io say: definitions over the observed events only. *)
From Verif Require Import Base WolfIo_Model.
Open Scope Z_scope.

Definition count {A} (p : A -> bool) (l : list A) : nat := length (filter p l).

(* the bytes the underlying io delivered, and those given to wolfSSL *)
Fixpoint delivered (l : list event) : list N :=
  match l with [] => [] | LEvent (UBytes b) :: l => b ++ delivered l | _ :: l => delivered l end.
Fixpoint given (l : list event) : list N :=
  match l with [] => [] | LTold (IGot _ b) :: l => b ++ given l | _ :: l => given l end.
(* memory for received bytes did not run out *)
Definition is_lost (e : event) : bool := match e with LLost _ => true | _ => false end.
Definition memory_sufficed (l : list event) : Prop := existsb is_lost l = false.

(* the records wolfSSL wrote for the peer, and those handed to the underlying io *)
Fixpoint records (l : list event) : list (list N) :=
  match l with [] => [] | LWant (WSend b) :: l => b :: records l | _ :: l => records l end.
Fixpoint handed (l : list event) : list (list N) :=
  match l with [] => [] | LAsk (QSend b _ _) :: l => b :: handed l | _ :: l => handed l end.

(* the pieces of plain text wolfSSL_read gave, and those passed to the user *)
Fixpoint pieces (l : list event) : list (list N) :=
  match l with [] => [] | LRead (b :: bs) :: l => (b :: bs) :: pieces l | _ :: l => pieces l end.
Fixpoint passed_on (l : list event) : list (list N) :=
  match l with [] => [] | LAsk (QBytes _ _ b) :: l => b :: passed_on l | _ :: l => passed_on l end.
Definition has_bytes_callback (e : event) : Prop :=
  match e with LCall (OOpen _ _ _ None _ _ _) => False | _ => True end.

(* wolfSSL reported the end of the handshake since the underlying io was last opened *)
Fixpoint ready_from (r : bool) (l : list event) : bool :=
  match l with
  | [] => r
  | LAsk QOpen :: l => ready_from false l
  | LWant WHandshakeDone :: l => ready_from true l
  | _ :: l => ready_from r l
  end.
Definition ready (l : list event) : bool := ready_from false l.
(* plain text given to wolfSSL to send; success of an open reported to the user *)
Definition needs_ready (e : event) : bool :=
  match e with LBegin (WWrite _) | LAsk (QOpenComplete _ _ true) => true | _ => false end.

(* results of open *)
Definition open_returned (r : Z) (e : event) : bool := match e with LReturn (OOpen true _ _ _ _ _ _) x => x =? r | _ => false end.
Definition opens (r : Z) (l : list event) : nat := count (open_returned r) l.

(* the completion callback and context of the last send whose data was given to wolfSSL *)
Definition note_send (s : (pointer * pointer) * (pointer * pointer)) (e : event) : (pointer * pointer) * (pointer * pointer) :=
  match e with
  | LCall (OSend true _ cb ctx) => ((cb, ctx), snd s)            (* a send is called *)
  | LBegin (WWrite _) => (fst s, fst s)                          (* and its data given to wolfSSL *)
  | _ => s
  end.
Definition send_owner (l : list event) : pointer * pointer := snd (fold_left note_send l ((None, None), (None, None))).

(* the underlying io makes no callback before it was opened *)
Definition is_underlying_open (e : event) : bool := match e with LAsk QOpen => true | _ => false end.
Definition events_after_open (l : list event) : Prop := forall l1 e l2, l = l1 ++ LEvent e :: l2 -> existsb is_underlying_open l1 = true.

(* an environment that does nothing more *)
Definition inert (a : answer) : Prop := a_actions a = [].
