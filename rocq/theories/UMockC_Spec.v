(* Numbers as people read them. *)
From Verif Require Import Base UMockC_Model.
Local Open Scope Z_scope.

Definition digit (c : N) : Prop := (48 <= c <= 57)%N.
Definition value (s : list N) : Z := fold_left (fun a c => 10 * a + (Z.of_N c - 48)) s 0.
(* digits, without a useless zero in front *)
Definition numeral (s : list N) (z : Z) : Prop := s <> [] /\ Forall digit s /\ value s = z /\ (forall t, s = 48%N :: t -> t = []).
Definition signed_numeral (s : list N) (z : Z) : Prop := (0 <= z /\ numeral s z) \/ (z < 0 /\ exists t, s = 45%N :: t /\ numeral t (- z)).
(* "-12.345678" is the number of millionths it says *)
Definition fixed_point (s : list N) (negative : bool) (q : Z) : Prop :=
  exists a b, s = (if negative then [45%N] else []) ++ a ++ [46%N] ++ b /\ numeral a (q / 10 ^ 6) /\ length b = 6%nat /\ Forall digit b /\ value b = q mod 10 ^ 6.
(* q millionths is as near as can be to |m| * 2^e *)
Definition rounds (q m e : Z) : Prop := if 0 <=? e then q = Z.abs m * 2 ^ e * 10 ^ 6 else 2 * Z.abs (q * 2 ^ (- e) - Z.abs m * 10 ^ 6) <= 2 ^ (- e).
