(* Specification of the list module: each live list is a sequence of (handle, item)
   pairs, oldest first; handles are numbered in the order of the additions. *)
From Verif Require Import Base List_Model.
Open Scope N_scope.

Definition seqn := list (nat * N).
Record lspec := { added : nat; seqs : list (option seqn) }.

Definition seq_of (sp : lspec) (l : nat) : option seqn :=
  match nth_error (seqs sp) l with Some (Some s) => Some s | _ => None end.
Definition setseq (sp : lspec) (l : nat) (s : option seqn) : lspec :=
  {| added := added sp; seqs := upd (seqs sp) l s |}.

Definition handle_of (s : seqn) : option nat :=
  match s with [] => None | (i, _) :: _ => Some i end.

(* The part of a sequence starting at handle i. *)
Fixpoint from (i : nat) (s : seqn) : option seqn :=
  match s with
  | [] => None
  | (j, v) :: t => if (j =? i)%nat then Some s else from i t
  end.

(* ... in whichever list has it. *)
Fixpoint locate (i : nat) (ss : list (option seqn)) : option seqn :=
  match ss with
  | [] => None
  | Some s :: t => match from i s with Some r => Some r | None => locate i t end
  | None :: t => locate i t
  end.

(* The first pair satisfying f, with the handles inspected up to it. *)
Fixpoint first_match (f : nat -> N -> bool) (s : seqn) : option nat * list nat :=
  match s with
  | [] => (None, [])
  | (i, v) :: t => if f i v then (Some i, [i])
                   else let (r, cs) := first_match f t in (r, i :: cs)
  end.

Definition without (i : nat) (s : seqn) : seqn := filter (fun p => negb (fst p =? i)%nat) s.
Definition has (i : nat) (s : seqn) : bool := existsb (fun p => (fst p =? i)%nat) s.

(* None = a destroyed or unknown list, or an item handle that is in no list. *)
Definition lsp_step (sp : lspec) (op : lop) (m : bool) : option (lret * lspec) :=
  match op with
  | LCreate =>
      if m then Some (LRList (Some (length (seqs sp))),
                      {| added := added sp; seqs := seqs sp ++ [Some []] |})
      else Some (LRList None, sp)
  | LDestroy None => Some (LRInt true, sp)
  | LDestroy (Some l) =>
      match seq_of sp l with Some _ => Some (LRInt true, setseq sp l None) | None => None end
  | LAdd None _ => Some (LRItem None, sp)
  | LAdd (Some l) v =>
      match seq_of sp l with
      | None => None
      | Some s =>
          if v =? 0 then Some (LRItem None, sp)
          else if m then Some (LRItem (Some (added sp)),
                 {| added := S (added sp); seqs := upd (seqs sp) l (Some (s ++ [(added sp, v)])) |})
          else Some (LRItem None, sp)
      end
  | LRemove (Some l) (Some i) =>
      match seq_of sp l with
      | None => None
      | Some s => if has i s then Some (LRInt true, setseq sp l (Some (without i s)))
                  else Some (LRInt false, sp)
      end
  | LRemove _ _ => Some (LRInt false, sp)
  | LHead None => Some (LRItem None, sp)
  | LHead (Some l) =>
      match seq_of sp l with Some s => Some (LRItem (handle_of s), sp) | None => None end
  | LNext None => Some (LRItem None, sp)
  | LNext (Some i) =>
      match locate i (seqs sp) with
      | Some (_ :: t) => Some (LRItem (handle_of t), sp)
      | _ => None
      end
  | LValue None => Some (LRVal 0, sp)
  | LValue (Some i) =>
      match locate i (seqs sp) with
      | Some ((_, v) :: _) => Some (LRVal v, sp)
      | _ => None
      end
  | LFind (Some l) (Some f) =>
      match seq_of sp l with
      | Some s => Some (LRFind (fst (first_match f s)) (snd (first_match f s)), sp)
      | None => None
      end
  | LFind _ _ => Some (LRFind None [], sp)
  end.
