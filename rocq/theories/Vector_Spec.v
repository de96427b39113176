(* Specification of the VECTOR module: a growable array.  Slot i is the vector of
   handle i (None once destroyed): its element size and the list of its elements,
   each a list of that many bytes.  A pointer to element i is [VAt (es * i)]. *)
From Verif Require Import Base Vector_Model.
Open Scope N_scope.

Record varray := { v_es : N; v_elems : list (list N) }.
Definition varrays := list (option varray).

Definition vlive (sp : varrays) (h : nat) : option varray :=
  match nth_error sp h with Some (Some a) => Some a | _ => None end.

Definition vlen (a : varray) : N := N.of_nat (length (v_elems a)).
Definition vptr_to (a : varray) (i : N) : vptr := VAt (v_es a * i).

(* cut a byte sequence into n pieces of k bytes *)
Fixpoint pieces (k n : nat) (l : list N) : list (list N) :=
  match n with
  | O => []
  | S m => firstn k l :: pieces k m (skipn k l)
  end.

(* the bytes at a source, at least n of them *)
Definition vdenote (sp : varrays) (s : vsrc) (n : N) : option (list N) :=
  match s with
  | VSNull => None
  | VSBytes l => if n <=? N.of_nat (length l) then Some l else None
  | VSOf h k => match vlive sp h with
                | Some a => let l := skipn k (concat (v_elems a)) in
                            if (n <=? N.of_nat (length l)) then Some l else None
                | None => None
                end
  end.

(* position of the first element satisfying f *)
Fixpoint first_index (f : list N -> bool) (l : list (list N)) : option N :=
  match l with
  | [] => None
  | e :: t => if f e then Some 0
              else match first_index f t with Some k => Some (k + 1) | None => None end
  end.

Definition vput (sp : varrays) (h : nat) (a : varray) (l : list (list N)) : varrays :=
  upd sp h (Some {| v_es := v_es a; v_elems := l |}).

(* the source lies inside the vector [h] itself *)
Definition lies_inside (s : vsrc) (h : nat) : bool :=
  match s with VSOf g _ => if Nat.eq_dec g h then true else false | _ => false end.

(* None = the call breaks a precondition: element size 0 (or 2^64 and more), a
   destroyed handle, sources that do not hold the elements or lie inside the vector
   itself, a total of 2^64 bytes or more, an erase whose range is not made of elements
   of the vector, an index equal to the size of a non-empty vector, the back of an
   empty vector, a value of the wrong size.  For VErase with m = false (the shrinking
   realloc fails) nothing is promised either: see C23. *)
Definition vsp_step (sp : varrays) (op : vop) (m : bool) : option (vret * varrays) :=
  match op with
  | VCreate es =>
      if (0 <? es) && (es <? two64) then
        Some (if m then (VRH (Some (length sp)), sp ++ [Some {| v_es := es; v_elems := [] |}])
              else (VRH None, sp))
      else None
  | VDestroy None => Some (VRU, sp)
  | VDestroy (Some h) => match vlive sp h with Some _ => Some (VRU, upd sp h None) | None => None end
  | VPush None _ _ => Some (VRI false, sp)
  | VPush (Some h) s n =>
      if vsrc_null s || (n =? 0) then Some (VRI false, sp)
      else if lies_inside s h then None
      else match vlive sp h with
           | None => None
           | Some a =>
               if v_es a * (vlen a + n) <? two64 then
                 match vdenote sp s (v_es a * n) with
                 | None => None
                 | Some l =>
                     Some (if m then (VRI true, vput sp h a (v_elems a ++
                                                 pieces (N.to_nat (v_es a)) (N.to_nat n) l))
                           else (VRI false, sp))
                 end
               else None
           end
  | VErase None _ _ => Some (VRU, sp)
  | VErase (Some _) VNull _ => Some (VRU, sp)
  | VErase (Some h) p n =>
      if n =? 0 then Some (VRU, sp)
      else match p, vlive sp h with
           | VAt off, Some a =>
               let i := off / v_es a in
               if (off =? v_es a * i) && (i + n <=? vlen a) && m then
                 Some (VRU, vput sp h a (firstn (N.to_nat i) (v_elems a)
                                         ++ skipn (N.to_nat (i + n)) (v_elems a)))
               else None
           | _, _ => None
           end
  | VClear None => Some (VRU, sp)
  | VClear (Some h) => match vlive sp h with Some a => Some (VRU, vput sp h a []) | None => None end
  | VElement None _ => Some (VRP VNull, sp)
  | VElement (Some h) i =>
      match vlive sp h with
      | Some a => if i <? vlen a then Some (VRP (vptr_to a i), sp)
                  else if (i =? vlen a) && negb (i =? 0) then None
                  else Some (VRP VNull, sp)
      | None => None
      end
  | VFront None => Some (VRP VNull, sp)
  | VFront (Some h) =>
      match vlive sp h with
      | Some a => Some (VRP (if vlen a =? 0 then VNull else vptr_to a 0), sp)
      | None => None
      end
  | VBack None => Some (VRP VNull, sp)
  | VBack (Some h) =>
      match vlive sp h with
      | Some a => if vlen a =? 0 then None else Some (VRP (vptr_to a (vlen a - 1)), sp)
      | None => None
      end
  | VFindIf (Some h) (Some f) true =>
      match vlive sp h with
      | Some a => Some (VRP (match first_index f (v_elems a) with
                             | Some i => vptr_to a i
                             | None => VNull
                             end), sp)
      | None => None
      end
  | VFindIf _ _ _ => Some (VRP VNull, sp)
  | VSize None => Some (VRN 0, sp)
  | VSize (Some h) => match vlive sp h with Some a => Some (VRN (vlen a), sp) | None => None end
  | VGet h i =>
      match vlive sp h with
      | Some a => if (i =? vlen a) && negb (i =? 0) then None
                  else Some (VRB (nth_error (v_elems a) (N.to_nat i)), sp)
      | None => None
      end
  | VSet h i l =>
      match vlive sp h with
      | Some a => if (i =? vlen a) && negb (i =? 0) then None
                  else if i <? vlen a then
                    if N.of_nat (length l) =? v_es a
                    then Some (VRI true, vput sp h a (upd (v_elems a) (N.to_nat i) l)) else None
                  else Some (VRI false, sp)
      | None => None
      end
  end.

(* every element has the vector's element size *)
Definition sized (k : nat) (l : list (list N)) : Prop := Forall (fun e => length e = k) l.

(* A VECTOR holding the elements of a: one block with exactly their bytes (no block
   when there are none), of less than 2^64 bytes, and the recorded count. *)
Definition vwf (v : VECTOR) (a : varray) : Prop :=
  elementSize v = v_es a /\ 0 < v_es a < two64 /\ count v = vlen a /\ v_es a * vlen a < two64 /\
  sized (N.to_nat (v_es a)) (v_elems a) /\
  storage v = match v_elems a with [] => PNull | _ => PBlock (filled (concat (v_elems a))) end.

Definition vrepresents (st : vectors) (sp : varrays) : Prop :=
  Forall2 (fun x y => match x, y with
                      | Some v, Some a => vwf v a
                      | None, None => True
                      | _, _ => False
                      end) st sp.
