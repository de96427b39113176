(* What the two strings a test compares tell it: statements on top of the specification of tests. *)
From Verif Require Import Base UMock_Model UMock_Spec.
Local Open Scope Z_scope.

(* the code under test makes these calls one after the other, and the library has the memory for them *)
Inductive calls_made (w : world) : test -> list nat -> test -> Prop :=
| cm_nil t : calls_made w t [] t
| cm_cons t h m t1 hs t2 : says w t (UActual (Some h) true) (UMatch 0 m) t1 false -> calls_made w t1 hs t2 -> calls_made w t (h :: hs) t2.
(* the actual call h is what the expected call e stands for *)
Definition answers (w : world) (t : test) (e h : nat) : Prop :=
  exists a b, nth_error (made t) e = Some a /\ nth_error (made t) h = Some b /\ same w a b = 1.
Definition reads_alike (w : world) (t : test) (e h : nat) : Prop :=
  exists a b x, nth_error (made t) e = Some a /\ nth_error (made t) h = Some b /\ text_of w a = Some x /\ text_of w b = Some x.
(* no name and no argument has an opening bracket in it *)
Definition plain (w : world) (t : test) : Prop :=
  Forall (fun c => ~ In 91%N (function_name c) /\ forall a, str_of w (data_stringify c) (umockcall_data c) = Some a -> ~ In 91%N a) (made t).
