(* Specification of the doubly linked lists: every list head owns the sequence of the
   entries inserted in it. *)
From Verif Require Import Base DList_Model.

Definition dspec := list (nat * list nat).      (* head, entries in order *)

Definition entries (sp : dspec) (h : nat) : option (list nat) :=
  match find (fun p => fst p =? h) sp with Some p => Some (snd p) | None => None end.
Definition setentries (sp : dspec) (h : nat) (es : list nat) : dspec :=
  map (fun p => if fst p =? h then (h, es) else p) sp.
Definition drop (sp : dspec) (h : nat) : dspec := filter (fun p => negb (fst p =? h)) sp.
Definition memb (x : nat) (l : list nat) : bool := existsb (Nat.eqb x) l.
Definition used (sp : dspec) (x : nat) : bool := existsb (fun p => memb x (fst p :: snd p)) sp.
Definition removed (e : nat) (es : list nat) : list nat := filter (fun x => negb (x =? e)) es.

(* None = broken precondition: initialising or inserting something that is already in
   a list, naming something that is no list, removing what is not in the list, or
   appending a list to itself. *)
Definition dsp_step (sp : dspec) (op : dop) (m : bool) : option (dret * dspec) :=
  match op with
  | DInit h => if used sp h then None else Some (DRUnit, (h, []) :: sp)
  | DIsEmpty h =>
      match entries sp h with
      | Some es => Some (DRInt (match es with [] => true | _ => false end), sp)
      | None => None
      end
  | DInsertTail h e =>
      match entries sp h with
      | Some es => if used sp e then None else Some (DRUnit, setentries sp h (es ++ [e]))
      | None => None
      end
  | DInsertHead h e =>
      match entries sp h with
      | Some es => if used sp e then None else Some (DRUnit, setentries sp h (e :: es))
      | None => None
      end
  | DRemoveHead h =>
      match entries sp h with
      | Some [] => Some (DRPtr h, sp)
      | Some (e :: t) => Some (DRPtr e, setentries sp h t)
      | None => None
      end
  | DRemoveEntry h e =>
      match entries sp h with
      | Some es =>
          if memb e es then
            Some (DRInt (match removed e es with [] => true | _ => false end),
                  setentries sp h (removed e es))
          else None
      | None => None
      end
  | DAppend h l =>
      (* the appended head becomes an entry, followed by its entries *)
      match entries sp h, entries sp l with
      | Some es, Some ls => if h =? l then None
                            else Some (DRUnit, setentries (drop sp l) h (es ++ l :: ls))
      | _, _ => None
      end
  end.

(* What a client sees following the links n times. *)
Fixpoint walk (f : nat -> nat) (n a : nat) : list nat :=
  match n with O => [] | S k => f a :: walk f k (f a) end.

(* Forwards the entries in order, backwards in reverse order, each time back to the
   head. *)
Definition spelled (m : dmem) (h : nat) (es : list nat) : Prop :=
  walk (Flink m) (S (length es)) h = es ++ [h] /\
  walk (Blink m) (S (length es)) h = rev es ++ [h].

Definition drepresents (m : dmem) (sp : dspec) : Prop :=
  forall h es, entries sp h = Some es -> spelled m h es.
