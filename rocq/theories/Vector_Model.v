(* Model of src/vector.c.  The heap of VECTOR objects is a list of slots (None once
   destroyed).  size_t arithmetic is modulo 2^64.  realloc(p, 0) behaves as in glibc
   (frees p, returns NULL).  Pointers into a vector's storage are offsets from its
   start; using one after the storage moved is the caller's error and is not
   modelled (an offset stays meaningful).  find_if's predicate is a pure function of
   the element's bytes. *)
From Verif Require Import Base.
From Verif Require Export Mem.
Open Scope N_scope.

(* vector.c:14-19 *)
Record VECTOR := { storage : ptr; count : N; elementSize : N }.

Definition vectors := list (option VECTOR).

(* The elements argument of push_back: NULL, bytes elsewhere, or a pointer into the
   storage of vector h at offset k. *)
Inductive vsrc := VSNull | VSBytes (l : list N) | VSOf (h k : nat).

(* A pointer result: NULL, an offset into the vector's own storage (possibly past
   its end), or an address computed from a NULL storage. *)
Inductive vptr := VNull | VAt (off : N) | VWild.

Inductive vret :=
| VRH (h : option nat)           (* VECTOR_HANDLE *)
| VRI (ok : bool)                (* int: true = 0 *)
| VRP (p : vptr)                 (* void* *)
| VRB (c : option (list N))      (* bytes the client reads (None: got NULL) *)
| VRN (n : N)                    (* size_t *)
| VRU.                           (* void *)

Inductive vop :=
| VCreate (es : N)
| VDestroy (h : option nat)
| VPush (h : option nat) (s : vsrc) (n : N)
| VErase (h : option nat) (p : vptr) (n : N)
| VClear (h : option nat)
| VElement (h : option nat) (i : N)
| VFront (h : option nat)
| VBack (h : option nat)
| VFindIf (h : option nat) (pred : option (list N -> bool)) (value : bool)
                                  (* value: whether the value argument is non-NULL *)
| VSize (h : option nat)
| VGet (h : nat) (i : N)          (* the client reads an element through VECTOR_element *)
| VSet (h : nat) (i : N) (l : list N).  (* the client overwrites an element *)

Definition getvec (st : vectors) (h : nat) : option VECTOR :=
  match nth_error st h with Some (Some v) => Some v | _ => None end.
Definition vset (st : vectors) (h : nat) (v : VECTOR) : vectors := upd st h (Some v).

(* n readable bytes at a source; None = undefined *)
Definition vread_src (st : vectors) (s : vsrc) (n : nat) : option block :=
  match s with
  | VSNull => if (n =? 0)%nat then Some [] else None
  | VSBytes l => if (n <=? length l)%nat then Some (firstn n (filled l)) else None
  | VSOf h k => match getvec st h with
                | Some v => match storage v with
                            | PBlock c => if (k + n <=? length c)%nat then Some (firstn n (skipn k c)) else None
                            | _ => None
                            end
                | None => None
                end
  end.

Definition vsrc_null (s : vsrc) : bool := match s with VSNull => true | _ => false end.
Definition vsrc_aliases (s : vsrc) (h : nat) : bool :=
  match s with VSOf h' _ => (h' =? h)%nat | _ => false end.

(* storage + off, as an address *)
Definition vaddr (v : VECTOR) (off : N) : vptr :=
  match storage v with
  | PNull => if off =? 0 then VNull else VWild
  | _ => VAt off
  end.

(* n bytes at offset off of the storage, all of them written; None = undefined *)
Definition defined_bytes (b : block) : option (list N) :=
  fold_right (fun c acc => match c, acc with Some x, Some l => Some (x :: l) | _, _ => None end)
    (Some []) b.
Definition vread (v : VECTOR) (off n : N) : option (list N) :=
  match storage v with
  | PBlock c => if off + n <=? N.of_nat (length c)
                then defined_bytes (firstn (N.to_nat n) (skipn (N.to_nat off) c)) else None
  | _ => None
  end.

(* vector.c:21-38 VECTOR_create *)
Definition VECTOR_create (st : vectors) (es : N) : M (vret * vectors) :=
  (ok <- alloc ;;
   ret (if ok then (VRH (Some (length st)),
                    st ++ [Some {| storage := PNull; count := 0; elementSize := es |}])
        else (VRH None, st)))%m.

(* vector.c:40-48 internal_VECTOR_clear *)
Definition internal_VECTOR_clear (v : VECTOR) : option VECTOR :=
  match free_ptr (storage v) with
  | Some _ => Some {| storage := PNull; count := 0; elementSize := elementSize v |}
  | None => None
  end.

(* vector.c:50-58 VECTOR_destroy *)
Definition VECTOR_destroy (st : vectors) (h : option nat) : M (vret * vectors) :=
  match h with
  | None => ret (VRU, st)
  | Some i => (v <- lift (getvec st i) ;; _ <- lift (internal_VECTOR_clear v) ;;
               ret (VRU, upd st i None))%m
  end.

(* vector.c:61-88 VECTOR_push_back; elements inside the block being reallocated are
   invalid at the memcpy of line 81 *)
Definition VECTOR_push_back (st : vectors) (h : option nat) (s : vsrc) (n : N) : M (vret * vectors) :=
  match h with
  | None => ret (VRI false, st)
  | Some i =>
      if vsrc_null s || (n =? 0) then ret (VRI false, st)
      else
        (v <- lift (getvec st i) ;;
         let curSize := wrap (elementSize v * count v) in
         let appendSize := wrap (elementSize v * n) in
         x <- realloc_ptr (storage v) (wrap (curSize + appendSize)) ;;
         match x with
         | (Some (PBlock nb), _) =>
             cs <- lift (if vsrc_aliases s i then None else vread_src st s (N.to_nat appendSize)) ;;
             b' <- lift (memcpy_to nb (N.to_nat curSize) cs) ;;
             ret (VRI true, vset st i {| storage := PBlock b'; count := wrap (count v + n);
                                         elementSize := elementSize v |})
         | (_, p) => ret (VRI false, vset st i {| storage := p; count := count v;
                                                  elementSize := elementSize v |})
         end)%m
  end.

(* memmove of len bytes inside block c from offset src to offset dst *)
Definition memmove_in (c : block) (dst src len : N) : option block :=
  if len =? 0 then Some c
  else if (dst + len <=? N.of_nat (length c)) && (src + len <=? N.of_nat (length c))
  then memcpy_to c (N.to_nat dst) (firstn (N.to_nat len) (skipn (N.to_nat src) c))
  else None.

(* vector.c:91-110 VECTOR_erase *)
Definition VECTOR_erase (st : vectors) (h : option nat) (p : vptr) (n : N) : M (vret * vectors) :=
  match h, p with
  | None, _ => ret (VRU, st)
  | Some _, VNull => ret (VRU, st)
  | Some i, _ =>
      if n =? 0 then ret (VRU, st)
      else
        (v <- lift (getvec st i) ;;
         match p, storage v with
         | VAt off, PBlock c =>
             let src := off + wrap (elementSize v * n) in
             let srcEnd := wrap (elementSize v * count v) in
             (* srcEnd - src converted to size_t *)
             let len := wrap (srcEnd + two64 - wrap src) in
             c' <- lift (memmove_in c off src len) ;;
             let count' := wrap (count v + two64 - n) in
             if count' =? 0 then
               ret (VRU, vset st i {| storage := PNull; count := count'; elementSize := elementSize v |})
             else
               (* line 107: the result of realloc is stored unchecked *)
               x <- realloc_ptr (PBlock c') (wrap (elementSize v * count')) ;;
               ret (VRU, vset st i {| storage := match fst x with Some q => q | None => PNull end;
                                      count := count'; elementSize := elementSize v |})
         | _, _ => undef
         end)%m
  end.

(* vector.c:112-119 VECTOR_clear *)
Definition VECTOR_clear (st : vectors) (h : option nat) : M (vret * vectors) :=
  match h with
  | None => ret (VRU, st)
  | Some i => (v <- lift (getvec st i) ;; v' <- lift (internal_VECTOR_clear v) ;;
               ret (VRU, vset st i v'))%m
  end.

(* vector.c:123-135 VECTOR_element: the bound check of line 129 is <= *)
Definition element_ptr (v : VECTOR) (i : N) : vptr :=
  if i <=? count v then vaddr v (wrap (elementSize v * i)) else VNull.
Definition VECTOR_element (st : vectors) (h : option nat) (i : N) : M (vret * vectors) :=
  match h with
  | None => ret (VRP VNull, st)
  | Some k => (v <- lift (getvec st k) ;; ret (VRP (element_ptr v i), st))%m
  end.

(* vector.c:137-146 VECTOR_front *)
Definition VECTOR_front (st : vectors) (h : option nat) : M (vret * vectors) :=
  match h with
  | None => ret (VRP VNull, st)
  | Some k => (v <- lift (getvec st k) ;; ret (VRP (vaddr v 0), st))%m
  end.

(* vector.c:148-157 VECTOR_back *)
Definition VECTOR_back (st : vectors) (h : option nat) : M (vret * vectors) :=
  match h with
  | None => ret (VRP VNull, st)
  | Some k => (v <- lift (getvec st k) ;;
               ret (VRP (vaddr v (wrap (elementSize v * wrap (count v + two64 - 1)))), st))%m
  end.

(* vector.c:166-174: the loop, from index i, with n iterations left *)
Fixpoint find_loop (v : VECTOR) (pred : list N -> bool) (i : N) (n : nat) : option vptr :=
  match n with
  | O => Some VNull
  | S n' => match vread v (wrap (elementSize v * i)) (elementSize v) with
            | None => None
            | Some e => if pred e then Some (vaddr v (wrap (elementSize v * i)))
                        else find_loop v pred (i + 1) n'
            end
  end.
(* vector.c:159-177 VECTOR_find_if *)
Definition VECTOR_find_if (st : vectors) (h : option nat) (pred : option (list N -> bool)) (value : bool)
    : M (vret * vectors) :=
  match h, pred, value with
  | Some k, Some f, true =>
      (v <- lift (getvec st k) ;;
       p <- lift (find_loop v f 0 (N.to_nat (count v))) ;;
       ret (VRP p, st))%m
  | _, _, _ => ret (VRP VNull, st)
  end.

(* vector.c:181-190 VECTOR_size *)
Definition VECTOR_size (st : vectors) (h : option nat) : M (vret * vectors) :=
  match h with
  | None => ret (VRN 0, st)
  | Some k => (v <- lift (getvec st k) ;; ret (VRN (count v), st))%m
  end.

(* A client reading / writing one element through the pointer of VECTOR_element. *)
Definition client_get (st : vectors) (h : nat) (i : N) : M (vret * vectors) :=
  (v <- lift (getvec st h) ;;
   match element_ptr v i with
   | VNull => ret (VRB None, st)
   | VAt off => l <- lift (vread v off (elementSize v)) ;; ret (VRB (Some l), st)
   | VWild => undef
   end)%m.
Definition client_set (st : vectors) (h : nat) (i : N) (l : list N) : M (vret * vectors) :=
  (v <- lift (getvec st h) ;;
   match element_ptr v i, storage v with
   | VNull, _ => ret (VRI false, st)
   | VAt off, PBlock c =>
       c' <- lift (memcpy_to c (N.to_nat off) (filled l)) ;;
       ret (VRI true, vset st h {| storage := PBlock c'; count := count v; elementSize := elementSize v |})
   | _, _ => undef
   end)%m.

Definition vstep (st : vectors) (op : vop) : M (vret * vectors) :=
  match op with
  | VCreate es => VECTOR_create st es
  | VDestroy h => VECTOR_destroy st h
  | VPush h s n => VECTOR_push_back st h s n
  | VErase h p n => VECTOR_erase st h p n
  | VClear h => VECTOR_clear st h
  | VElement h i => VECTOR_element st h i
  | VFront h => VECTOR_front st h
  | VBack h => VECTOR_back st h
  | VFindIf h p b => VECTOR_find_if st h p b
  | VSize h => VECTOR_size st h
  | VGet h i => client_get st h i
  | VSet h i l => client_set st h i l
  end.
