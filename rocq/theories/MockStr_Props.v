(* Proofs about string values of mocks. *)
From Verif Require Import Base Crt_Model Strings_Model Strings_Props MockStr_Model.

(* With memory, two strings captured from the caller are equal exactly when both are NULL or both have the same text. *)
Theorem mock_strings_equal_partial p q a b : (forall x, a = Some x -> ctext x <> None) -> (forall y, b = Some y -> ctext y <> None) ->
  exists v w, construct p a [] = Some (v, []) /\ construct q b [] = Some (w, []) /\
    (equal v w = true <-> match a, b with None, None => True | Some x, Some y => ctext x = ctext y | _, _ => False end).
Proof.
  intros A B. destruct a as [x|], b as [y|]; unfold construct, bind, lift, alloc, ret.
  1: destruct (ctext x) as [t|] eqn:X; [|destruct (A _ eq_refl X)]; destruct (ctext y) as [u|] eqn:Y; [|destruct (B _ eq_refl Y)].
  2: destruct (ctext x) as [t|] eqn:X; [|destruct (A _ eq_refl X)].
  3: destruct (ctext y) as [u|] eqn:Y; [|destruct (B _ eq_refl Y)].
  all: eexists _, _; split; [reflexivity|]; split; [reflexivity|]; unfold equal; cbn [m_Value]; try (split; [discriminate|intros []]).
  - rewrite Z.eqb_eq, strcmp_eq. split; congruence.
  - tauto.
Qed.
(* What was captured stays: a later SetValue gives the same value as capturing anew. *)
Theorem mock_string_set v p b : ctext b <> None -> exists w, SetValue v p (Some b) [] = Some (w, []) /\ construct p (Some b) [] = Some (w, []) /\ Some (ToString w) = ctext b.
Proof. intros T. unfold SetValue, construct, bind, lift, alloc, ret. destruct (ctext b) as [t|] eqn:E; [|congruence]. eexists. split; [reflexivity|]. split; reflexivity. Qed.
Theorem mock_string_null v p o : exists w, SetValue v p None o = Some (w, o) /\ m_Value w = None /\ ToString w = [78; 85; 76; 76]%N.
Proof. eexists. split; [reflexivity|]. split; reflexivity. Qed.
Theorem mock_string_case : exists v w, construct 1 (Some (filled [65; 0; 66]%N)) [] = Some (v, []) /\ construct 2 (Some (filled [65; 0]%N)) [] = Some (w, []) /\ equal v w = true /\ copy_out_destination v = Some 1%nat.
Proof. eexists _, _. split; [reflexivity|]. split; [reflexivity|]. split; reflexivity. Qed.
(* NULL and the text "NULL" look the same; a NULL argument leaves the pointer for copied-out bytes undefined; no memory is undefined. *)
Theorem mock_string_refuted : exists v w, construct 1 None [] = Some (v, []) /\ construct 2 (Some (filled [78; 85; 76; 76; 0]%N)) [] = Some (w, []) /\ equal v w = false /\ ToString v = ToString w /\
  copy_out_destination v = None /\ construct 2 (Some (filled [78; 0]%N)) [false] = None.
Proof. eexists _, _. split; [reflexivity|]. split; [reflexivity|]. repeat split. Qed.
