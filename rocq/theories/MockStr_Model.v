(* Model of testtools/micromock/inc/micromockcharstararenullterminatedstrings.h and the .cpp beside it: the value of an argument or a
   result of type char* (the class for const char* is the same, :113-196).  Undefined behaviour is None. *)
From Verif Require Import Base Crt_Model Strings_Model.

(* m_OriginalValue is a caller's pointer, or was never set *)
Record value := { m_Value : option (list N); m_OriginalValue : option nat }.
(* :33-46; [p]: the pointer given, [content]: what is there, None for NULL *)
Definition construct (p : nat) (content : option block) : M value :=
  match content with
  | None => ret {| m_Value := None; m_OriginalValue := None |}
  | Some b => (t <- lift (ctext b) ;; ok <- alloc ;; if ok then ret {| m_Value := Some t; m_OriginalValue := Some p |} else undef)%m
  end.
(* :79-103 *)
Definition SetValue (v : value) (p : nat) (content : option block) : M value :=
  match content with
  | None => ret {| m_Value := None; m_OriginalValue := m_OriginalValue v |}
  | Some b => (t <- lift (ctext b) ;; ok <- alloc ;; if ok then ret {| m_Value := Some t; m_OriginalValue := Some p |} else undef)%m
  end.
(* the .cpp, operator== *)
Definition equal (l r : value) : bool :=
  match m_Value l, m_Value r with
  | None, None => true
  | Some a, Some b => (strcmp a b =? 0)%Z
  | _, _ => false
  end.
(* :57-71 *)
Definition ToString (v : value) : list N := match m_Value v with None => [78; 85; 76; 76]%N | Some t => t end.
(* mockcallargument.h:137-142: where the copied-out bytes of such an argument go; None: an undefined pointer *)
Definition copy_out_destination (v : value) : option nat := m_OriginalValue v.
