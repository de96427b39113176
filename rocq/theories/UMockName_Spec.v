(* What two names of the same type are. *)
From Verif Require Import Base.

(* A type name is words and stars; white space only separates. *)
Inductive token := Word (w : list N) | Star.
Definition white (c : N) : bool := existsb (N.eqb c) [9; 10; 11; 12; 13; 32]%N.
Definition flush (cur : list N) : list token := match cur with [] => [] | _ => [Word cur] end.
Fixpoint lex (cur : list N) (s : list N) : list token :=
  match s with
  | [] => flush cur
  | c :: s =>
      if white c then flush cur ++ lex [] s
      else if (c =? 42)%N then flush cur ++ Star :: lex [] s
      else lex (cur ++ [c]) s
  end.
Definition tokens (s : list N) : list token := lex [] s.
(* The normal name: one space between two words, none about a star. *)
Fixpoint render (ts : list token) : list N :=
  match ts with
  | [] => []
  | Star :: ts => 42%N :: render ts
  | Word a :: ts => a ++ match ts with Word _ :: _ => 32%N :: render ts | _ => render ts end
  end.
