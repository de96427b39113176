(* Theorems about src/doublylinkedlist.c: C21, C22. *)
From Verif Require Import Base Refine DList_Model DList_Spec DList_Proofs.

(** * C21 *)

Lemma dinv_init m : dinv m [].
Proof. constructor; [constructor|..]; intros; discriminate. Qed.

(* From any memory content, every history of calls that keeps to the preconditions
   (see dsp_step) returns what the sequences say and leaves every list spelled forwards
   by Flink and backwards by Blink. *)
Theorem dlists_refine_sequences : forall (ops : list dop) (m : dmem) rs sp,
  srun dsp_step [] ops (repeat true (length ops)) = Some (rs, sp) ->
  forall o, exists m' o', run dstep m ops o = Some ((rs, m'), o') /\ drepresents m' sp.
Proof.
  intros ops m rs sp H o.
  assert (G : forall ms, length ms = length ops -> srun dsp_step [] ops ms = srun dsp_step [] ops (repeat true (length ops))).
  { clear. generalize (@nil (nat * list nat)) as sp. induction ops as [|op ops IH]; intros sp [|b ms] Hl; try discriminate; [reflexivity|].
    cbn. assert (E : dsp_step sp op b = dsp_step sp op true) by (destruct op; reflexivity). rewrite E.
    destruct (dsp_step sp op true) as [[r sp1]|]; [|reflexivity]. rewrite (IH sp1 ms) by (cbn in Hl; lia). reflexivity. }
  destruct (refinement dstep dsp_step dinv dlist_simulate ops m [] o (dinv_init m)) as (ms & Hl & _ & Hr).
  rewrite <- (G ms Hl) in H. destruct (Hr rs sp H) as (m' & o' & E & I).
  exists m', o'. split; [exact E|]. intros h es He. apply ring_spelled, (di_ring _ _ I), He.
Qed.

(* Every link in a list that was built is inverted by the opposite link. *)
Theorem dlists_links_inverse : forall m sp h es, dinv m sp -> entries sp h = Some es ->
  forall x, In x (h :: es) -> Blink m (Flink m x) = x /\ Flink m (Blink m x) = x.
Proof.
  intros m sp h es I E x Hx. destruct (di_ring _ _ I _ _ E) as [F B]. pose proof (di_nodup _ _ I _ _ E) as N.
  assert (Q : forall l1 l2, h :: es = l1 ++ x :: l2 -> forall y u, l2 ++ [h] = y :: u ->
     Flink m x = y /\ Blink m y = x).
  { intros l1 l2 El y u Ey. change (h :: es ++ [h]) with ((h :: es) ++ [h]) in F, B.
    rewrite El, <- app_assoc in F, B. cbn [app] in F, B. rewrite Ey in F, B.
    apply flinks_app in F. apply blinks_app in B. split; [apply F|apply B]. }
  split.
  - destruct (in_split _ _ Hx) as (l1 & l2 & El).
    assert (Ey : exists y u, l2 ++ [h] = y :: u) by (destruct l2; cbn; eauto). destruct Ey as (y & u & Ey).
    destruct (Q l1 l2 El y u Ey) as [-> ->]. reflexivity.
  - (* the predecessor of x in the ring *)
    assert (P : exists b l1 l2 u, h :: es = l1 ++ b :: l2 /\ l2 ++ [h] = x :: u).
    { destruct Hx as [<-|Hx].
      - destruct (snoc_of h es) as (p & b & Ep). exists b, p, [], []. split; [exact Ep|reflexivity].
      - destruct (in_split _ _ Hx) as (l1 & l2 & ->). destruct (snoc_of h l1) as (p & b & Ep).
        exists b, p, (x :: l2), (l2 ++ [h]). split; [|reflexivity].
        change (h :: l1 ++ x :: l2) with ((h :: l1) ++ x :: l2). rewrite Ep, <- app_assoc. reflexivity. }
    destruct P as (b & l1 & l2 & u & El & Eu).
    assert (R : Flink m b = x /\ Blink m x = b).
    { change (h :: es ++ [h]) with ((h :: es) ++ [h]) in F, B.
      rewrite El, <- app_assoc in F, B. cbn [app] in F, B. rewrite Eu in F, B.
      apply flinks_app in F. apply blinks_app in B. split; [apply F|apply B]. }
    destruct R as [R1 R2]. rewrite R2. exact R1.
Qed.

(* What a call is about: the lists it names and the entry it is given. *)
Definition whole (sp : dspec) (h : nat) : list nat :=
  h :: match entries sp h with Some es => es | None => [] end.
Definition scope (sp : dspec) (op : dop) : list nat :=
  match op with
  | DInit h => [h]
  | DIsEmpty _ => []
  | DInsertTail h e | DInsertHead h e => e :: whole sp h
  | DRemoveHead h | DRemoveEntry h _ => whole sp h
  | DAppend h l => whole sp h ++ whole sp l
  end.

(* Every other entry - in another list or in none - keeps both its links. *)
Theorem dlists_untouched : forall m sp op r sp' o m' o' x,
  dinv m sp -> dsp_step sp op true = Some (r, sp') -> dstep m op o = Some ((r, m'), o') ->
  ~ In x (scope sp op) -> Flink m' x = Flink m x /\ Blink m' x = Blink m x.
Proof.
  intros m sp op r sp' o m' o' x I P H Hx.
  assert (Bin : forall h es, entries sp h = Some es -> In (Blink m h) (h :: es)).
  { intros h es E. destruct (snoc_of h es) as (p & b & Ep).
    rewrite (ring_last _ _ _ _ _ (di_ring _ _ I _ _ E) Ep), Ep. apply in_or_app. right. left. reflexivity. }
  assert (FBin : forall h es y, entries sp h = Some es -> In y (h :: es) -> In (Flink m y) (h :: es) /\ In (Blink m y) (h :: es)).
  { intros h es y E Hy. destruct (di_ring _ _ I _ _ E) as [F B].
    assert (G : forall z, In z (es ++ [h]) -> In z (h :: es)).
    { intros z Hz. apply in_app_or in Hz. cbn in *. intuition. }
    split.
    - change (h :: es ++ [h]) with ((h :: es) ++ [h]) in F.
      destruct (in_split _ _ Hy) as (l1 & l2 & El). rewrite El, <- app_assoc in F. cbn [app] in F. apply flinks_app in F.
      destruct F as [_ F].
      assert (Ez : exists z u, l2 ++ [h] = z :: u) by (destruct l2; cbn; eauto). destruct Ez as (z & u & Ez).
      rewrite Ez in F. destruct F as [-> _]. apply G.
      assert (Et : es ++ [h] = tl ((l1 ++ y :: l2) ++ [h])) by (rewrite <- El; reflexivity).
      rewrite Et, <- app_assoc. cbn [app]. rewrite Ez. destruct l1; cbn; [left; reflexivity|].
      apply in_or_app. right. right. left. reflexivity.
    - destruct Hy as [<-|Hy]; [apply Bin, E|]. destruct (in_split _ _ Hy) as (l1 & l2 & ->).
      destruct (snoc_of h l1) as (p & b & Ep).
      change (h :: (l1 ++ y :: l2) ++ [h]) with (((h :: l1) ++ y :: l2) ++ [h]) in B.
      rewrite Ep, <- !app_assoc in B. cbn [app] in B. apply blinks_app in B. destruct B as [_ [-> _]].
      change (h :: l1 ++ y :: l2) with ((h :: l1) ++ y :: l2). rewrite Ep, <- app_assoc. apply in_or_app. right. left. reflexivity. }
  destruct op as [h|h|h e|h e|h|h e|h l]; cbn [dsp_step scope] in *; unfold whole in Hx;
    cbn in H; injection H as <- <- <-; cbn [Flink Blink setF setB].
  - rewrite !set_other by (intros ->; apply Hx; left; reflexivity). auto.
  - auto.
  - destruct (entries sp h) as [es|] eqn:E; [|discriminate]. pose proof (FBin h es h E (or_introl eq_refl)) as [H1 H2].
    rewrite !set_other; [auto|..]; intros ->; apply Hx; cbn in *; tauto.
  - destruct (entries sp h) as [es|] eqn:E; [|discriminate]. pose proof (FBin h es h E (or_introl eq_refl)) as [H1 H2].
    destruct (used sp e) eqn:U; [discriminate|]. pose proof (used_false _ _ _ _ U E) as He.
    rewrite (set_other (Flink m) e (Flink m h) h) by (intros ->; apply He; left; reflexivity).
    rewrite !set_other; [auto|..]; intros ->; apply Hx; cbn in *; tauto.
  - destruct (entries sp h) as [es|] eqn:E; [|discriminate]. pose proof (FBin h es h E (or_introl eq_refl)) as [H1 H2].
    pose proof (FBin h es _ E H1) as [H3 _].
    rewrite !set_other; [auto|..]; intros ->; apply Hx; cbn in *; tauto.
  - destruct (entries sp h) as [es|] eqn:E; [|discriminate]. destruct (memb e es) eqn:Me; [|discriminate].
    apply memb_in in Me. pose proof (FBin h es e E (or_intror Me)) as [H1 H2].
    rewrite !set_other; [auto|..]; intros ->; apply Hx; assumption.
  - destruct (entries sp h) as [es|] eqn:E; [|discriminate]. destruct (entries sp l) as [ls|] eqn:E'; [|discriminate].
    destruct (Nat.eqb_spec h l) as [|Hne]; [discriminate|].
    pose proof (FBin h es h E (or_introl eq_refl)) as [H1 H2].
    pose proof (FBin l ls l E' (or_introl eq_refl)) as [H3 H4].
    rewrite (set_other (Blink m) h (Blink m l) l) by congruence.
    rewrite !set_other; [auto|..]; intros ->; apply Hx, in_or_app;
      solve [left; left; reflexivity | left; assumption | right; left; reflexivity | right; assumption].
Qed.

(* Two lists with three and two entries, a removal in the middle, then a splice. *)
Example dlists_history :
  srun dsp_step []
    [DInit 1; DInsertTail 1 11; DInsertTail 1 12; DInsertHead 1 10; DInit 2; DInsertTail 2 21; DInsertTail 2 22;
     DRemoveEntry 1 11; DRemoveHead 2; DIsEmpty 2; DAppend 1 2; DRemoveEntry 1 22] (repeat true 12) =
  Some ([DRUnit; DRUnit; DRUnit; DRUnit; DRUnit; DRUnit; DRUnit; DRInt false; DRPtr 21; DRInt false; DRUnit; DRInt false],
        [(1, [10; 12; 2])]).
Proof. vm_compute. reflexivity. Qed.

(** * C22: splicing *)

(* AppendTailList(h, l): afterwards the list of h is its old entries, then l itself,
   then the entries of l, in order. *)
Theorem dlists_append : forall m sp h es l ls o,
  dinv m sp -> entries sp h = Some es -> entries sp l = Some ls -> h <> l ->
  exists m', dstep m (DAppend h l) o = Some ((DRUnit, m'), o) /\ spelled m' h (es ++ l :: ls) /\
    (forall k ks, entries sp k = Some ks -> k <> h -> k <> l -> spelled m' k ks).
Proof.
  intros m sp h es l ls o I E E' Hne.
  destruct (dlist_simulate m sp (DAppend h l) o I) as (b & _ & H).
  cbn [dsp_step] in H. rewrite E, E' in H. destruct (Nat.eqb_spec h l) as [|_]; [contradiction|].
  destruct (H _ _ eq_refl) as (m' & o' & used & Es & I' & _ & _).
  assert (Ho : o' = o) by (cbn in Es; injection Es as _ <-; reflexivity). subst o'.
  exists m'. split; [exact Es|].
  assert (Ed : entries (drop sp l) h = Some es).
  { rewrite entries_drop. destruct (Nat.eqb_spec l h); [congruence|exact E]. }
  split.
  - apply ring_spelled, (di_ring _ _ I'). rewrite (entries_set _ _ _ _ _ Ed), Nat.eqb_refl. reflexivity.
  - intros k ks Ek Hkh Hkl. apply ring_spelled, (di_ring _ _ I'). rewrite (entries_set _ _ _ _ _ Ed).
    destruct (Nat.eqb_spec h k); [congruence|]. rewrite entries_drop. destruct (Nat.eqb_spec l k); [congruence|exact Ek].
Qed.

Print Assumptions dlists_refine_sequences.
