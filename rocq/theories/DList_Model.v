(* Model of src/doublylinkedlist.c: two fields per entry, read and written by
   address.  Entries belong to the client; every address is assumed to be a valid
   entry (arbitrary content until initialised). *)
From Verif Require Import Base.

(* doublylinkedlist.h: DLIST_ENTRY *)
Record dmem := { Flink : nat -> nat; Blink : nat -> nat }.

Definition set (f : nat -> nat) (a v : nat) : nat -> nat := fun x => if x =? a then v else f x.
Definition setF (m : dmem) (a v : nat) : dmem := {| Flink := set (Flink m) a v; Blink := Blink m |}.
Definition setB (m : dmem) (a v : nat) : dmem := {| Flink := Flink m; Blink := set (Blink m) a v |}.

Inductive dret := DRUnit | DRInt (nonzero : bool) | DRPtr (a : nat).

(* doublylinkedlist.c:10-18 *)
Definition DList_InitializeListHead (m : dmem) (h : nat) : dret * dmem :=
  (DRUnit, setF (setB m h h) h h).

(* doublylinkedlist.c:20-28 *)
Definition DList_IsListEmpty (m : dmem) (h : nat) : dret * dmem :=
  (DRInt (Flink m h =? h), m).

(* doublylinkedlist.c:30-47 *)
Definition DList_RemoveEntryList (m : dmem) (e : nat) : dret * dmem :=
  let f := Flink m e in
  let b := Blink m e in
  let m1 := setF m b f in
  let m2 := setB m1 f b in
  (DRInt (f =? b), m2).

(* doublylinkedlist.c:49-65 *)
Definition DList_RemoveHeadList (m : dmem) (h : nat) : dret * dmem :=
  let e := Flink m h in
  let f := Flink m e in
  let m1 := setF m h f in
  let m2 := setB m1 f h in
  (DRPtr e, m2).

(* doublylinkedlist.c:69-84 *)
Definition DList_InsertTailList (m : dmem) (h e : nat) : dret * dmem :=
  let b := Blink m h in
  let m1 := setF m e h in
  let m2 := setB m1 e b in
  let m3 := setF m2 b e in
  let m4 := setB m3 h e in
  (DRUnit, m4).

(* doublylinkedlist.c:87-101 *)
Definition DList_AppendTailList (m : dmem) (h l : nat) : dret * dmem :=
  let lend := Blink m h in
  let m1 := setF m (Blink m h) l in
  let m2 := setB m1 h (Blink m1 l) in
  let m3 := setF m2 (Blink m2 l) h in
  let m4 := setB m3 l lend in
  (DRUnit, m4).

(* doublylinkedlist.c:105-111 *)
Definition DList_InsertHeadList (m : dmem) (h e : nat) : dret * dmem :=
  let m1 := setB m e h in
  let m2 := setF m1 e (Flink m1 h) in
  let m3 := setB m2 (Flink m2 h) e in
  let m4 := setF m3 h e in
  (DRUnit, m4).

(* The calls.  In DRemoveEntry the first argument only names the list the entry is
   in, for the specification: the code does not get it. *)
Inductive dop :=
| DInit (h : nat)
| DIsEmpty (h : nat)
| DInsertTail (h e : nat)
| DInsertHead (h e : nat)
| DRemoveHead (h : nat)
| DRemoveEntry (ghost_list e : nat)
| DAppend (h l : nat).

Definition dstep (m : dmem) (op : dop) : M (dret * dmem) :=
  match op with
  | DInit h => ret (DList_InitializeListHead m h)
  | DIsEmpty h => ret (DList_IsListEmpty m h)
  | DInsertTail h e => ret (DList_InsertTailList m h e)
  | DInsertHead h e => ret (DList_InsertHeadList m h e)
  | DRemoveHead h => ret (DList_RemoveHeadList m h)
  | DRemoveEntry _ e => ret (DList_RemoveEntryList m e)
  | DAppend h l => ret (DList_AppendTailList m h l)
  end.
