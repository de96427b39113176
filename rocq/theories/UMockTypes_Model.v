(* Model of testtools/umock_c/src/umocktypes.c and of the registrations of umocktypes_c.c and umocktypes_charptr.c:
   the types the mocking library knows.  The functions registered for a type are adversaries: an operation that
   calls one carries the answer it will give, and the call is noted. *)
From Verif Require Import Base Strings_Model UMockName_Model.
Local Open Scope Z_scope.

Definition pointer := option nat.                    (* NULL, or some address or function *)
(* umocktypes.c:14-21 *)
Record handlers := { h_type : list N; stringify_func : nat; copy_func : nat; free_func : nat; are_equal_func : nat }.
(* umocktypes.c:23-31, the module's variables; [names] counts the normalised names allocated and not freed *)
Record types := { type_handlers : list handlers; initialized : bool; names : nat }.
Definition types_start := {| type_handlers := []; initialized := false; names := 0 |}.
Definition more_names (s : types) : types := {| type_handlers := type_handlers s; initialized := initialized s; names := S (names s) |}.
Definition free_name (s : types) : types := {| type_handlers := type_handlers s; initialized := initialized s; names := pred (names s) |}.

(* calls of registered functions *)
Inductive tcall := Stringify (f : nat) (v : nat) | AreEqual (f : nat) (l r : nat) | Copy (f : nat) (d s : nat) | Free (f : nat) (v : nat).

Inductive top :=
| TInit | TDeinit
| TRegister (t : option (list N)) (st eq cp fr : pointer)
| TStringify (t : option (list N)) (v : pointer) (answer : pointer)
| TAreEqual (t : option (list N)) (l r : pointer) (answer : Z)
| TCopy (t : option (list N)) (d s : pointer) (answer : Z)
| TFree (t : option (list N)) (v : pointer).
Inductive tret := TZ (z : Z) | TP (p : pointer) | TU.

(* the C string at the start of a block; None when it has no end, or is not written *)
Fixpoint string_in (b : block) : option (list N) :=
  match b with
  | [] | None :: _ => None
  | Some c :: t => if (c =? 0)%N then Some [] else match string_in t with Some s => Some (c :: s) | None => None end
  end.
(* umocktypes.c:33-57 get_value_type_handlers *)
Fixpoint get_value_type_handlers (l : list handlers) (name : list N) : option handlers :=
  match l with
  | [] => None
  | h :: l => if strcmp (h_type h) name =? 0 then Some h else get_value_type_handlers l name
  end.
(* normalise, which allocates a name when it succeeds *)
Definition normalize (s : types) (t : option (list N)) : M (option (list N) * types) :=
  (b <- umocktypename_normalize t ;;
   match b with
   | None => ret (None, s)
   | Some b => n <- lift (string_in b) ;; ret (Some n, more_names s)
   end)%m.

(* umocktypes.c:60-81 *)
Definition umocktypes_init (s : types) : Z * types :=
  if initialized s then (67, s) else (0, {| type_handlers := []; initialized := true; names := names s |}).
(* umocktypes.c:83-104: the names of the registered types are freed *)
Definition umocktypes_deinit (s : types) : types :=
  if initialized s then {| type_handlers := []; initialized := false; names := names s - length (type_handlers s) |} else s.
(* umocktypes.c:106-175 *)
Definition umocktypes_register_type (s : types) (t : option (list N)) (st eq cp fr : pointer) : M (Z * types) :=
  match t, st, eq, cp, fr with
  | Some _, Some st, Some eq, Some cp, Some fr =>
      if negb (initialized s) then ret (122, s)
      else
        (r <- normalize s t ;;
         let '(n, s) := r in
         match n with
         | None => ret (130, s)
         | Some n =>
             match get_value_type_handlers (type_handlers s) n with
             | Some h =>
                 let s := free_name s in
                 if negb (st =? stringify_func h)%nat || negb (eq =? are_equal_func h)%nat || negb (cp =? copy_func h)%nat || negb (fr =? free_func h)%nat
                 then ret (145, s) else ret (0, s)
             | None =>
                 ok <- alloc ;;
                 if negb ok then ret (160, free_name s)
                 else ret (0, {| type_handlers := type_handlers s ++ [{| h_type := n; stringify_func := st; copy_func := cp; free_func := fr; are_equal_func := eq |}];
                                 initialized := initialized s; names := names s |})
             end
         end)%m
  | _, _, _, _, _ => ret (117, s)
  end.
(* umocktypes.c:178-220 *)
Definition umocktypes_stringify (s : types) (t : option (list N)) (v answer : pointer) : M (pointer * list tcall * types) :=
  match t, v with
  | Some _, Some v =>
      if negb (initialized s) then ret (None, [], s)
      else
        (r <- normalize s t ;;
         let '(n, s) := r in
         match n with
         | None => ret (None, [], s)
         | Some n =>
             match get_value_type_handlers (type_handlers s) n with
             | None => ret (None, [], free_name s)
             | Some h => ret (answer, [Stringify (stringify_func h) v], free_name s)
             end
         end)%m
  | _, _ => ret (None, [], s)
  end.
(* umocktypes.c:223-293 *)
Definition umocktypes_are_equal (s : types) (t : option (list N)) (l r : pointer) (answer : Z) : M (Z * list tcall * types) :=
  match t, l, r with
  | Some _, Some l, Some r =>
      if negb (initialized s) then ret (-1, [], s)
      else
        (x <- normalize s t ;;
         let '(n, s) := x in
         match n with
         | None => ret (-1, [], s)
         | Some n =>
             match get_value_type_handlers (type_handlers s) n with
             | None => ret (-1, [], free_name s)
             | Some h =>
                 if (l =? r)%nat then ret (1, [], free_name s)
                 else ret (if answer =? 1 then 1 else if answer =? 0 then 0 else -1, [AreEqual (are_equal_func h) l r], free_name s)
             end
         end)%m
  | _, _, _ => ret (-1, [], s)
  end.
(* umocktypes.c:296-345 *)
Definition umocktypes_copy (s : types) (t : option (list N)) (d src : pointer) (answer : Z) : M (Z * list tcall * types) :=
  match t, d, src with
  | Some _, Some d, Some src =>
      if negb (initialized s) then ret (-1, [], s)
      else
        (x <- normalize s t ;;
         let '(n, s) := x in
         match n with
         | None => ret (-1, [], s)
         | Some n =>
             match get_value_type_handlers (type_handlers s) n with
             | None => ret (331, [], free_name s)
             | Some h => ret (answer, [Copy (copy_func h) d src], free_name s)
             end
         end)%m
  | _, _, _ => ret (-1, [], s)
  end.
(* umocktypes.c:348-373 *)
Definition umocktypes_free (s : types) (t : option (list N)) (v : pointer) : M (list tcall * types) :=
  match t, v with
  | Some _, Some v =>
      if negb (initialized s) then ret ([], s)
      else
        (x <- normalize s t ;;
         let '(n, s) := x in
         match n with
         | None => ret ([], s)
         | Some n =>
             match get_value_type_handlers (type_handlers s) n with
             | None => ret ([], free_name s)
             | Some h => ret ([Free (free_func h) v], free_name s)
             end
         end)%m
  | _, _ => ret ([], s)
  end.

(* one call of the module, and a history of calls *)
Definition tstep (s : types) (op : top) : M (tret * list tcall * types) :=
  match op with
  | TInit => let '(r, s) := umocktypes_init s in ret (TZ r, [], s)
  | TDeinit => ret (TU, [], umocktypes_deinit s)
  | TRegister t st eq cp fr => (r <- umocktypes_register_type s t st eq cp fr ;; ret (TZ (fst r), [], snd r))%m
  | TStringify t v a => (r <- umocktypes_stringify s t v a ;; let '(p, c, s) := r in ret (TP p, c, s))%m
  | TAreEqual t l r a => (x <- umocktypes_are_equal s t l r a ;; let '(z, c, s) := x in ret (TZ z, c, s))%m
  | TCopy t d src a => (x <- umocktypes_copy s t d src a ;; let '(z, c, s) := x in ret (TZ z, c, s))%m
  | TFree t v => (x <- umocktypes_free s t v ;; let '(c, s) := x in ret (TU, c, s))%m
  end.
Fixpoint thistory (s : types) (ops : list top) : M (list (tret * list tcall) * types) :=
  match ops with
  | [] => ret ([], s)
  | op :: ops => (r <- tstep s op ;; let '(x, c, s) := r in t <- thistory s ops ;; ret ((x, c) :: fst t, snd t))%m
  end.
