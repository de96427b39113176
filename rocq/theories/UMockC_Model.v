(* Model of testtools/umock_c/src/umocktypes_c.c:15-280 and umocktypes_charptr.c:14-204: the functions of the types of C
   and of strings that the mocking library uses. *)
From Verif Require Import Base Strings_Model UMockTypes_Model.
Local Open Scope Z_scope.

(* printf's decimal numbers *)
Fixpoint dec (fuel : nat) (n : Z) : list N :=
  match fuel with
  | O => []
  | S k => if n <? 10 then [Z.to_N (48 + n)] else dec k (n / 10) ++ [Z.to_N (48 + n mod 10)]
  end.
Definition decimal (n : Z) : list N := dec (S (Z.to_nat (Z.log2 n))) n.
Definition print_signed (z : Z) : list N := if z <? 0 then 45%N :: decimal (- z) else decimal z.

(* the integer types; the bits of long and size_t are the platform's *)
Inductive ctype := CChar | CUnsignedChar | CShort | CUnsignedShort | CInt | CUnsignedInt | CLong | CUnsignedLong | CLongLong | CUnsignedLongLong | CSize.
Record platform := { long_bits : Z; size_bits : Z }.
Definition bits (p : platform) (t : ctype) : Z :=
  match t with CChar | CUnsignedChar => 8 | CShort | CUnsignedShort => 16 | CInt | CUnsignedInt => 32 | CLong | CUnsignedLong => long_bits p | CLongLong | CUnsignedLongLong => 64 | CSize => size_bits p end.
Definition is_signed (t : ctype) : bool := match t with CChar | CShort | CInt | CLong | CLongLong => true | _ => false end.
(* the values of a type; char is taken to be signed *)
Definition in_type (p : platform) (t : ctype) (z : Z) : Prop := if is_signed t then - 2 ^ (bits p t - 1) <= z < 2 ^ (bits p t - 1) else 0 <= z < 2 ^ bits p t.
(* what printf prints for the specifiers of umocktypes_c.c:98-280.  All fit their type but size_t's "%u", which prints the 32 bits it
   finds in the argument's register (the C standard leaves it undefined when size_t is wider). *)
Definition sprintf_int (t : ctype) (z : Z) : list N := print_signed (match t with CSize => z mod 2 ^ 32 | _ => z end).

(* umocktypes_c.c:15-40: the text is written to temp_buffer[32] first *)
Definition stringify (text : list N) : M (option block) :=
  (temp <- lift (store_all (fresh 32) 0 (text ++ [0%N])) ;;
   ok <- alloc ;;
   if negb ok then ret None
   else
     ret (Some (firstn (length text + 1) temp)))%m.
Definition umocktypes_stringify_int (t : ctype) (value : option Z) : M (option block) :=
  match value with None => ret None | Some z => stringify (sprintf_int t z) end.
(* :42-55 *)
Definition umocktypes_are_equal_int (left right : option Z) : Z :=
  match left, right with Some l, Some r => if l =? r then 1 else 0 | _, _ => -1 end.
(* :57-72: the answer, and what is at the destination afterwards *)
Definition umocktypes_copy_int (destination : bool) (source : option Z) : Z * option Z :=
  if destination then match source with Some z => (0, Some z) | None => (63, None) end else (63, None).

(* float and double: m * 2^e, an infinity, or not a number.  A zero has no sign here; long double's "%lf" reads a double
   where a long double was passed, which is undefined *)
Inductive real := Finite (m e : Z) | Infinite (negative : bool) | NaN.
(* millionths, rounded to nearest, ties to even *)
Definition nearest (a b : Z) : Z := let q := a / b in let r := a mod b in if 2 * r <? b then q else if 2 * r =? b then (if Z.even q then q else q + 1) else q + 1.
Definition millionths (m e : Z) : Z := if 0 <=? e then m * 2 ^ e * 10 ^ 6 else nearest (m * 10 ^ 6) (2 ^ (- e)).
Fixpoint padded (n : nat) (z : Z) : list N := match n with O => [] | S n => padded n (z / 10) ++ [Z.to_N (48 + z mod 10)] end.
Definition sprintf_f (x : real) : list N :=
  match x with
  | Finite m e => let q := millionths (Z.abs m) e in (if m <? 0 then [45%N] else []) ++ decimal (q / 10 ^ 6) ++ [46%N] ++ padded 6 (q mod 10 ^ 6)
  | Infinite n => (if n then [45%N] else []) ++ [105; 110; 102]%N
  | NaN => [110; 97; 110]%N
  end.
Definition umocktypes_stringify_real (long_double : bool) (value : option real) : M (option block) :=
  match value with None => ret None | Some x => if long_double then undef else stringify (sprintf_f x) end.
(* a == b *)
Definition same_real (a b : real) : bool :=
  match a, b with
  | Finite m e, Finite m' e' => m * 2 ^ (e - Z.min e e') =? m' * 2 ^ (e' - Z.min e e')
  | Infinite n, Infinite n' => Bool.eqb n n'
  | _, _ => false
  end.
Definition umocktypes_are_equal_real (left right : option real) : Z :=
  match left, right with Some l, Some r => if same_real l r then 1 else 0 | _, _ => -1 end.

(* umocktypes_charptr.c:14-39 and :109-134.  A value is a char*; its address is never NULL here (None: the char* is NULL) *)
Definition umocktypes_stringify_charptr (value : option (list N)) : M (option block) :=
  match value with
  | None => undef (* strlen(NULL) *)
  | Some s =>
      (ok <- alloc ;;
       if negb ok then ret None
       else
         let n := length s in
         r <- lift (store (fresh (n + 3)) 0 34) ;;
         r <- lift (store_all r 1 s) ;;
         r <- lift (store r (n + 1) 34) ;;
         r <- lift (store r (n + 2) 0) ;;
         ret (Some r))%m
  end.
(* :42-65 and :137-160; [same]: the two addresses are the same *)
Definition umocktypes_are_equal_charptr (same : bool) (left right : option (list N)) : option Z :=
  if same then Some 1 else match left, right with Some l, Some r => Some (if strcmp l r =? 0 then 1 else 0) | _, _ => None end.
(* :67-97 and :162-192: the answer and the new string *)
Definition umocktypes_copy_charptr (source : option (list N)) : M (Z * option block) :=
  match source with
  | None => undef (* strlen(NULL) *)
  | Some s => (ok <- alloc ;; if negb ok then ret (86, None) else r <- lift (store_all (fresh (length s + 1)) 0 (s ++ [0%N])) ;; ret (0, Some r))%m
  end.
