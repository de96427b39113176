(* Decimal numerals. *)
From Verif Require Import Base.
Open Scope N_scope.

Definition is_digit (c : N) : Prop := ch "0" <= c <= ch "9".

(* The number a numeral denotes. *)
Fixpoint numeral_value (acc : N) (ds : list N) : N :=
  match ds with
  | [] => acc
  | c :: t => numeral_value (10 * acc + (c - ch "0")) t
  end.

(* ds is the shortest decimal numeral of v: digits only, no superfluous zero. *)
Definition decimal (v : N) (ds : list N) : Prop :=
  Forall is_digit ds /\ numeral_value 0 ds = v /\
  match ds with
  | [] => False
  | [c] => True
  | c :: _ => c <> ch "0"
  end.

Example decimal_example : decimal 1207 (str "1207").
Proof. repeat split; try (vm_compute; congruence); repeat constructor; vm_compute; congruence. Qed.
