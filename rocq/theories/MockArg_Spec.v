(* What the validated bytes of a buffer are. *)
From Verif Require Import Base MockArg_Model.

(* pieces of the expected content: (offset, bytes) *)
Definition piece : Type := (nat * list N)%type.
Definition wanted (l : list piece) (pos : nat) (b : N) : Prop := exists off d, In (off, d) l /\ off <= pos /\ nth_error d (pos - off) = Some b.
Definition consistent (l : list piece) : Prop := forall pos b c, wanted l pos b -> wanted l pos c -> b = c.
Definition agrees (l : list piece) (mem : list N) : Prop := forall pos b, wanted l pos b -> nth_error mem pos = Some b.
(* the end of the piece that begins last, of those the longest, is the end of all *)
Definition ends_in_order (l : list piece) : Prop := forall o d o' d', In (o, d) l -> In (o', d') l -> o < o' -> o + length d <= o' + length d'.
Definition readable (l : list piece) (mem : list N) : Prop := forall o d, In (o, d) l -> o + length d <= length mem.
(* a text of the buffer: the wanted bytes as in [content], dots elsewhere, nothing after the last of them *)
Definition text_of (l : list piece) (content : nat -> N -> Prop) (t : list token) : Prop :=
  (forall pos b, wanted l pos b -> exists c, content pos c /\ nth_error t pos = Some (Byte c)) /\
  (forall pos k, nth_error t pos = Some k -> k = Dots \/ exists b, wanted l pos b) /\
  forall pos, pos < length t -> exists last b, pos <= last /\ wanted l last b.
(* the validations added one after the other with memory *)
Fixpoint add_all (l : list piece) (vs : list validation) (o : oracle) : option (outcome (list validation) * oracle) :=
  match l with
  | [] => Some (Done vs, o)
  | (off, d) :: l => match AddBufferValidation vs d off o with Some (Done vs, o) => add_all l vs o | x => x end
  end.
(* the copy-out buffers added one after the other *)
Fixpoint copy_all (l : list piece) (cs : list validation) (o : oracle) : option (list validation * oracle) :=
  match l with
  | [] => Some (cs, o)
  | (off, d) :: l => match AddCopyOutArgumentBuffer cs d off o with Some (cs, o) => copy_all l cs o | None => None end
  end.
(* the byte the last of the pieces that covers a place has there *)
Definition newest (l : list piece) (pos : nat) (b : N) : Prop := exists early off d late, l = early ++ (off, d) :: late /\ off <= pos /\ nth_error d (pos - off) = Some b /\ forall c, ~ wanted late pos c.
