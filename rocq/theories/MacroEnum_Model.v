(* Model of inc/azure_c_shared_utility/macro_utils.h:10950-10997: the two functions DEFINE_ENUM_STRINGS generates for an enumeration,
   given the list of its constants' names (the preprocessor's counting, COUNT_ARG and FOR_EACH_1, is taken to give that list; the
   constants have no values of their own, so the n-th is n). *)
From Verif Require Import Base Strings_Model.
Local Open Scope Z_scope.

(* the type a compiler gives an enumeration without negative constants: unsigned int (gcc, clang) or int (Microsoft) *)
Inductive underlying := UnsignedInt | SignedInt.
Definition representable (u : underlying) (v : Z) : Prop := match u with UnsignedInt => 0 <= v < 2 ^ 32 | SignedInt => - 2 ^ 31 <= v < 2 ^ 31 end.
(* :10961-10972 enumNameStrings: None is a read outside the array *)
Definition enum_Strings (names : list (list N)) (value : Z) : option (option (list N)) :=
  if Z.of_nat (length names) <=? value then Some None
  else if value <? 0 then None
  else match nth_error names (Z.to_nat value) with Some s => Some (Some s) | None => None end.
(* :10973-10994 enumName_FromString: the result, and what is stored *)
Fixpoint find_string (names : list (list N)) (s : list N) (i : Z) : option Z :=
  match names with
  | [] => None
  | n :: names => if strcmp s n =? 0 then Some i else find_string names s (i + 1)
  end.
Definition enum_FromString (names : list (list N)) (enumAsString : option (list N)) (destination : bool) : Z * option Z :=
  match enumAsString with
  | None => (10979, None)
  | Some s => if negb destination then (10979, None) else match find_string names s 0 with Some i => (0, Some i) | None => (10992, None) end
  end.
