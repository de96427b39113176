(* Model of src/list.c: a heap of nodes (None once freed) linked by [next], and a
   table of list objects, each holding its head.  Addresses are positions in the
   heap and are never reused.  The item a client stores is a non-NULL pointer, here
   a positive number; 0 is NULL.  Loops take as fuel one more than the number of
   nodes ever allocated; running out of fuel (a cycle) is undefined, and proved never
   to happen.  The match function is a pure predicate on the item's handle and value. *)
From Verif Require Import Base.
Open Scope N_scope.

(* list.c:13-17 *)
Record node := { item : N; next : option nat }.
Record lheap := { nodes : list (option node); heads : list (option (option nat)) }.

Definition getnode (ns : list (option node)) (a : nat) : option node :=
  match nth_error ns a with Some (Some n) => Some n | _ => None end.
Definition gethead (st : lheap) (l : nat) : option (option nat) :=
  match nth_error (heads st) l with Some (Some h) => Some h | _ => None end.
Definition sethead (st : lheap) (l : nat) (h : option nat) : lheap :=
  {| nodes := nodes st; heads := upd (heads st) l (Some h) |}.
Definition setnodes (st : lheap) (ns : list (option node)) : lheap :=
  {| nodes := ns; heads := heads st |}.

Inductive lret :=
| LRList (l : option nat)
| LRItem (i : option nat)
| LRInt (ok : bool)                            (* true = 0 *)
| LRVal (v : N)
| LRFind (i : option nat) (calls : list nat).  (* and the items the match function saw *)

Inductive lop :=
| LCreate
| LDestroy (l : option nat)
| LAdd (l : option nat) (v : N)
| LRemove (l i : option nat)
| LHead (l : option nat)
| LNext (i : option nat)
| LValue (i : option nat)
| LFind (l : option nat) (f : option (nat -> N -> bool)).

(* list.c:24-37 list_create *)
Definition list_create (st : lheap) : M (lret * lheap) :=
  (ok <- alloc ;;
   ret (if ok then (LRList (Some (length (heads st))),
                    {| nodes := nodes st; heads := heads st ++ [Some None] |})
        else (LRList None, st)))%m.

(* list.c:46-51: free every node from the head on *)
Fixpoint destroy_loop (fuel : nat) (ns : list (option node)) (h : option nat) : option (list (option node)) :=
  match h with
  | None => Some ns
  | Some a =>
      match fuel with
      | O => None
      | S k => match getnode ns a with
               | Some n => destroy_loop k (upd ns a None) (next n)
               | None => None
               end
      end
  end.

(* list.c:39-56 list_destroy *)
Definition list_destroy (st : lheap) (l : option nat) : M (lret * lheap) :=
  match l with
  | None => ret (LRInt true, st)
  | Some l =>
      (h <- lift (gethead st l) ;;
       ns <- lift (destroy_loop (S (length (nodes st))) (nodes st) h) ;;
       ret (LRInt true, {| nodes := ns; heads := upd (heads st) l None |}))%m
  end.

(* list.c:90-94: the last node *)
Fixpoint last_loop (fuel : nat) (ns : list (option node)) (a : nat) : option nat :=
  match fuel with
  | O => None
  | S k => match getnode ns a with
           | Some n => match next n with None => Some a | Some b => last_loop k ns b end
           | None => None
           end
  end.

Definition setnext (ns : list (option node)) (a : nat) (nx : option nat) : option (list (option node)) :=
  match getnode ns a with
  | Some n => Some (upd ns a (Some {| item := item n; next := nx |}))
  | None => None
  end.

(* list.c:58-102 list_add *)
Definition list_add (st : lheap) (l : option nat) (v : N) : M (lret * lheap) :=
  match l with
  | None => ret (LRItem None, st)
  | Some l =>
      if v =? 0 then ret (LRItem None, st)
      else
        (ok <- alloc ;;
         if ok then
           let a := length (nodes st) in
           let ns := nodes st ++ [Some {| item := v; next := None |}] in
           h <- lift (gethead st l) ;;
           match h with
           | None => ret (LRItem (Some a), sethead (setnodes st ns) l (Some a))
           | Some b =>
               c <- lift (last_loop (S (length ns)) ns b) ;;
               ns' <- lift (setnext ns c (Some a)) ;;
               ret (LRItem (Some a), setnodes st ns')
           end
         else ret (LRItem None, st))%m
  end.

(* list.c:120-139: the search of list_remove; Some None = reached the end,
   Some (Some (previous, next)) = found *)
Fixpoint remove_loop (fuel : nat) (ns : list (option node)) (prev cur : option nat) (i : nat)
    : option (option (option nat * option nat)) :=
  match cur with
  | None => Some None
  | Some a =>
      match fuel with
      | O => None
      | S k => match getnode ns a with
               | Some n => if (a =? i)%nat then Some (Some (prev, next n))
                           else remove_loop k ns (Some a) (next n) i
               | None => None
               end
      end
  end.

(* list.c:104-154 list_remove *)
Definition list_remove (st : lheap) (l i : option nat) : M (lret * lheap) :=
  match l, i with
  | Some l, Some i =>
      (h <- lift (gethead st l) ;;
       x <- lift (remove_loop (S (length (nodes st))) (nodes st) None h i) ;;
       match x with
       | None => ret (LRInt false, st)
       | Some (Some p, nx) =>
           ns <- lift (setnext (nodes st) p nx) ;;
           ret (LRInt true, setnodes st (upd ns i None))
       | Some (None, nx) =>
           ret (LRInt true, setnodes (sethead st l nx) (upd (nodes st) i None))
       end)%m
  | _, _ => ret (LRInt false, st)
  end.

(* list.c:156-175 list_get_head_item *)
Definition list_get_head_item (st : lheap) (l : option nat) : M (lret * lheap) :=
  match l with
  | None => ret (LRItem None, st)
  | Some l => (h <- lift (gethead st l) ;; ret (LRItem h, st))%m
  end.

(* list.c:177-193 list_get_next_item *)
Definition list_get_next_item (st : lheap) (i : option nat) : M (lret * lheap) :=
  match i with
  | None => ret (LRItem None, st)
  | Some a => (n <- lift (getnode (nodes st) a) ;; ret (LRItem (next n), st))%m
  end.

(* list.c:195-211 list_item_get_value *)
Definition list_item_get_value (st : lheap) (i : option nat) : M (lret * lheap) :=
  match i with
  | None => ret (LRVal 0, st)
  | Some a => (n <- lift (getnode (nodes st) a) ;; ret (LRVal (item n), st))%m
  end.

(* list.c:229-241: the item found, and the items the match function was called on *)
Fixpoint find_loop (fuel : nat) (ns : list (option node)) (cur : option nat) (f : nat -> N -> bool)
    : option (option nat * list nat) :=
  match cur with
  | None => Some (None, [])
  | Some a =>
      match fuel with
      | O => None
      | S k => match getnode ns a with
               | Some n =>
                   if f a (item n) then Some (Some a, [a])
                   else match find_loop k ns (next n) f with
                        | Some (r, cs) => Some (r, a :: cs)
                        | None => None
                        end
               | None => None
               end
      end
  end.

(* list.c:213-255 list_find *)
Definition list_find (st : lheap) (l : option nat) (f : option (nat -> N -> bool)) : M (lret * lheap) :=
  match l, f with
  | Some l, Some f =>
      (h <- lift (gethead st l) ;;
       x <- lift (find_loop (S (length (nodes st))) (nodes st) h f) ;;
       ret (LRFind (fst x) (snd x), st))%m
  | _, _ => ret (LRFind None [], st)
  end.

Definition lstep (st : lheap) (op : lop) : M (lret * lheap) :=
  match op with
  | LCreate => list_create st
  | LDestroy l => list_destroy st l
  | LAdd l v => list_add st l v
  | LRemove l i => list_remove st l i
  | LHead l => list_get_head_item st l
  | LNext i => list_get_next_item st i
  | LValue i => list_item_get_value st i
  | LFind l f => list_find st l f
  end.
