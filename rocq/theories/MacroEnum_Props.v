(* Proofs about the strings of enumerations. *)
From Verif Require Import Base Strings_Model Strings_Props MacroEnum_Model.
Local Open Scope Z_scope.

Lemma find_at names s : forall i, match find_string names s i with
  | Some j => i <= j /\ nth_error names (Z.to_nat (j - i)) = Some s /\ forall k, (k < Z.to_nat (j - i))%nat -> nth_error names k <> Some s
  | None => ~ In s names end.
Proof.
  induction names as [|n names IH]; intros i; [intros []|]. cbn [find_string]. pose proof (strcmp_eq s n) as E. destruct (Z.eqb_spec (strcmp s n) 0) as [Q|Q].
  - apply E in Q. subst n. rewrite Z.sub_diag. split; [lia|]. split; [reflexivity|]. intros k K. cbn in K. lia.
  - specialize (IH (i + 1)). destruct (find_string names s (i + 1)) as [j|].
    + destruct IH as (A & B & C). split; [lia|]. replace (Z.to_nat (j - i)) with (S (Z.to_nat (j - (i + 1)))) by lia. split; [exact B|]. intros [|k] K; [cbn; intros X; injection X as ->; apply Q, E; reflexivity|]. apply C. lia.
    + intros [->|I]; [apply Q, E; reflexivity|exact (IH I)].
Qed.
(* The text of a constant is its name, every other value has no text, and the text of a value reads back as the value, when
   enumerations are unsigned or the value is not negative. *)
Theorem enum_text_partial u names v : representable u v -> u = UnsignedInt \/ 0 <= v ->
  exists t, enum_Strings names v = Some t /\ (forall s, t = Some s <-> (0 <= v /\ nth_error names (Z.to_nat v) = Some s)) /\ (t = None <-> Z.of_nat (length names) <= v).
Proof.
  intros R H. assert (P : 0 <= v) by (destruct H as [->|H]; [cbn in R; lia|exact H]). unfold enum_Strings. destruct (Z.leb_spec (Z.of_nat (length names)) v) as [L|L].
  - exists None. split; [reflexivity|]. split; [|tauto]. intros s. split; [discriminate|]. intros (_ & E). assert (X : nth_error names (Z.to_nat v) <> None) by congruence; apply nth_error_Some in X; lia.
  - destruct (Z.ltb_spec v 0); [lia|]. destruct (nth_error names (Z.to_nat v)) as [s|] eqn:E; [|apply nth_error_None in E; lia]. exists (Some s). split; [reflexivity|]. split; [intros x; intuition congruence|split; [discriminate|lia] ].
Qed.
Theorem enum_read_spec names s : NoDup names -> exists r o, enum_FromString names (Some s) true = (r, o) /\
  ((r = 0 /\ exists i, o = Some i /\ 0 <= i /\ nth_error names (Z.to_nat i) = Some s) \/ (r <> 0 /\ o = None /\ ~ In s names)).
Proof.
  intros D. cbn [enum_FromString negb]. pose proof (find_at names s 0) as F. destruct (find_string names s 0) as [j|].
  - rewrite Z.sub_0_r in F. destruct F as (A & B & _). eexists _, _. split; [reflexivity|]. left. split; [reflexivity|]. exists j. auto.
  - eexists _, _. split; [reflexivity|]. right. split; [discriminate|]. auto.
Qed.
Theorem enum_round_trip_spec names v s : NoDup names -> 0 <= v -> enum_Strings names v = Some (Some s) -> enum_FromString names (Some s) true = (0, Some v).
Proof.
  intros D P E. unfold enum_Strings in E. destruct (Z.of_nat (length names) <=? v); [discriminate E|]. destruct (v <? 0); [discriminate E|]. destruct (nth_error names (Z.to_nat v)) as [x|] eqn:Q; [|discriminate E]. injection E as ->.
  cbn [enum_FromString negb]. pose proof (find_at names s 0) as F. destruct (find_string names s 0) as [j|]; [|destruct F; eapply nth_error_In; exact Q]. rewrite Z.sub_0_r in F. destruct F as (A & B & _).
  assert (L : (Z.to_nat v < length names)%nat) by (apply nth_error_Some; congruence). rewrite NoDup_nth_error in D. assert (Z.to_nat v = Z.to_nat j) by (apply D; [exact L|congruence]). repeat f_equal. lia.
Qed.
Theorem enum_read_back_spec names v s : enum_FromString names (Some s) true = (0, Some v) -> enum_Strings names v = Some (Some s).
Proof.
  cbn [enum_FromString negb]. pose proof (find_at names s 0) as F. destruct (find_string names s 0) as [j|]; [|discriminate]. rewrite Z.sub_0_r in F. destruct F as (A & B & _). intros E. injection E as <-.
  unfold enum_Strings. assert (L : (Z.to_nat j < length names)%nat) by (apply nth_error_Some; congruence). destruct (Z.leb_spec (Z.of_nat (length names)) j); [lia|]. destruct (Z.ltb_spec j 0); [lia|]. rewrite B. reflexivity.
Qed.
Theorem enum_null_arguments names s d : fst (enum_FromString names None d) <> 0 /\ snd (enum_FromString names None d) = None /\ fst (enum_FromString names s false) <> 0 /\ snd (enum_FromString names s false) = None.
Proof. destruct s; repeat split; discriminate. Qed.
Theorem enum_case : let names := [[79; 75]; [66; 65; 68]]%N in NoDup names /\ enum_Strings names 1 = Some (Some [66; 65; 68]%N) /\ enum_Strings names 2 = Some None /\ enum_FromString names (Some [79; 75]%N) true = (0, Some 0).
Proof. split; [repeat constructor; cbn; intuition discriminate|]. repeat split. Qed.
(* Where enumerations are int, a negative value is below the count, and the array is read before its beginning. *)
Theorem negative_enum_refuted : exists names v, representable SignedInt v /\ enum_Strings names v = None.
Proof. exists [[79; 75]%N], (-1). split; [cbn; lia|reflexivity]. Qed.
