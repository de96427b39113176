(* Proofs about the model of src/doublylinkedlist.c. *)
From Verif Require Import Base Refine DList_Model DList_Spec.

Fixpoint flinks (f : nat -> nat) (l : list nat) : Prop :=
  match l with
  | x :: (y :: _) as t => f x = y /\ flinks f t
  | _ => True
  end.
Fixpoint blinks (b : nat -> nat) (l : list nat) : Prop :=
  match l with
  | x :: (y :: _) as t => b y = x /\ blinks b t
  | _ => True
  end.

Definition ring (m : dmem) (h : nat) (es : list nat) : Prop :=
  flinks (Flink m) (h :: es ++ [h]) /\ blinks (Blink m) (h :: es ++ [h]).

Record dinv (m : dmem) (sp : dspec) : Prop := {
  di_keys : NoDup (map fst sp);
  di_ring : forall h es, entries sp h = Some es -> ring m h es;
  di_nodup : forall h es, entries sp h = Some es -> NoDup (h :: es);
  di_disj : forall h es h' es' x, entries sp h = Some es -> entries sp h' = Some es' ->
     In x (h :: es) -> In x (h' :: es') -> h = h' }.

Lemma flinks_app f : forall l1 x l2, flinks f (l1 ++ x :: l2) <-> flinks f (l1 ++ [x]) /\ flinks f (x :: l2).
Proof.
  induction l1 as [|a l1 IH]; intros x l2; [cbn; tauto|].
  specialize (IH x l2). destruct l1 as [|b l1]; cbn in *; tauto.
Qed.
Lemma blinks_app f : forall l1 x l2, blinks f (l1 ++ x :: l2) <-> blinks f (l1 ++ [x]) /\ blinks f (x :: l2).
Proof.
  induction l1 as [|a l1 IH]; intros x l2; [cbn; tauto|].
  specialize (IH x l2). destruct l1 as [|b l1]; cbn in *; tauto.
Qed.
Lemma flinks_frame f g : forall l x, (forall y, In y l -> g y = f y) -> flinks f (l ++ [x]) -> flinks g (l ++ [x]).
Proof.
  induction l as [|a l IH]; intros x H F; [exact I|]. specialize (IH x).
  destruct l as [|b l]; cbn in *.
  - split; [|exact I]. rewrite H by auto. apply F.
  - split; [rewrite H by auto; apply F|]. apply IH; [|apply F]. intros y Hy. apply H. tauto.
Qed.
Lemma blinks_frame f g : forall l x, (forall y, In y l -> g y = f y) -> blinks f (x :: l) -> blinks g (x :: l).
Proof.
  induction l as [|a l IH]; intros x H F; [exact I|]. destruct F as [E F]. split.
  - rewrite H by (left; reflexivity). exact E.
  - apply IH; [|exact F]. intros y Hy. apply H. right. exact Hy.
Qed.

Lemma set_same f a v : set f a v a = v.
Proof. unfold set. rewrite Nat.eqb_refl. reflexivity. Qed.
Lemma set_other f a v x : x <> a -> set f a v x = f x.
Proof. intros H. unfold set. destruct (Nat.eqb_spec x a); [contradiction|reflexivity]. Qed.

(* Last element of a nonempty list *)
Lemma snoc_of (h : nat) es : exists p b, h :: es = p ++ [b].
Proof.
  destruct (exists_last (l := h :: es)) as (p & b & E); [discriminate|]. eauto.
Qed.

Lemma ring_last m h es p b : ring m h es -> h :: es = p ++ [b] -> Blink m h = b.
Proof.
  intros [_ R] E. change (h :: es ++ [h]) with ((h :: es) ++ [h]) in R. rewrite E, <- app_assoc in R.
  apply blinks_app in R. cbn in R. tauto.
Qed.
Lemma ring_first m h es y t : ring m h es -> es ++ [h] = y :: t -> Flink m h = y.
Proof. intros [R _] E. rewrite E in R. apply R. Qed.

Lemma ring_frame m m' h es : (forall x, In x (h :: es) -> Flink m' x = Flink m x /\ Blink m' x = Blink m x) ->
  ring m h es -> ring m' h es.
Proof.
  intros H [F B]. split.
  - apply (flinks_frame (Flink m) (Flink m') (h :: es) h); [intros y Hy; apply H, Hy|exact F].
  - apply (blinks_frame (Blink m) (Blink m') (es ++ [h]) h); [|exact B].
    intros y Hy. apply H. apply in_app_or in Hy. cbn in *. intuition.
Qed.

(* The walks *)
Lemma walk_flinks f : forall l x, flinks f (x :: l) -> walk f (length l) x = l.
Proof.
  induction l as [|y l IH]; intros x F; [reflexivity|]. destruct F as [E F]. cbn. rewrite E. f_equal. apply IH, F.
Qed.
Lemma walk_blinks b : forall l x, blinks b (l ++ [x]) -> walk b (length l) x = rev l.
Proof.
  induction l as [|y l IH] using rev_ind; intros x B; [reflexivity|].
  rewrite app_length, Nat.add_1_r, rev_app_distr. cbn [rev app walk].
  rewrite <- app_assoc in B. apply blinks_app in B. destruct B as [B1 B2]. cbn in B2. destruct B2 as [-> _].
  f_equal. apply IH, B1.
Qed.
Lemma ring_spelled m h es : ring m h es -> spelled m h es.
Proof.
  intros [F B]. split.
  - pose proof (walk_flinks _ _ _ F) as W. rewrite app_length, Nat.add_1_r in W. exact W.
  - change (rev es ++ [h]) with (rev (h :: es)). rewrite <- (walk_blinks (Blink m) (h :: es) h B). reflexivity.
Qed.

(* Bookkeeping of the specification *)
Lemma memb_in x l : memb x l = true <-> In x l.
Proof. unfold memb. rewrite existsb_exists. split; [intros (y & H & E); apply Nat.eqb_eq in E; subst; exact H|].
  intros H. exists x. split; [exact H|apply Nat.eqb_refl]. Qed.

Lemma entries_in sp h es : entries sp h = Some es -> In (h, es) sp.
Proof.
  unfold entries. destruct (find _ sp) as [[h' es']|] eqn:E; [|discriminate]. intros H. injection H as <-.
  apply find_some in E. destruct E as [E1 E2]. cbn in E2. apply Nat.eqb_eq in E2. subst. exact E1.
Qed.
Lemma used_false sp x h es : used sp x = false -> entries sp h = Some es -> ~ In x (h :: es).
Proof.
  intros U E Hin. apply entries_in in E.
  assert (used sp x = true); [|congruence]. unfold used. apply existsb_exists. exists (h, es).
  split; [exact E|]. apply memb_in, Hin.
Qed.
Lemma entries_set sp h es h' es0 : entries sp h = Some es0 ->
  entries (setentries sp h es) h' = if h =? h' then Some es else entries sp h'.
Proof.
  unfold entries, setentries. induction sp as [|[k ks] sp IH]; cbn; [discriminate|].
  destruct (Nat.eqb_spec k h) as [->|Hk]; cbn.
  - intros _. destruct (Nat.eqb_spec h h') as [->|Hne]; [reflexivity|].
    clear IH. induction sp as [|[k' ks'] sp IH]; cbn; [reflexivity|].
    destruct (Nat.eqb_spec k' h) as [->|]; cbn.
    + destruct (Nat.eqb_spec h h'); [contradiction|]. exact IH.
    + destruct (k' =? h'); [reflexivity|exact IH].
  - intros E. destruct (Nat.eqb_spec k h') as [->|Hk'].
    + destruct (Nat.eqb_spec h h'); [congruence|reflexivity].
    + apply IH, E.
Qed.
Lemma entries_drop sp l h' : entries (drop sp l) h' = if l =? h' then None else entries sp h'.
Proof.
  unfold entries, drop. induction sp as [|[k ks] sp IH]; cbn; [destruct (l =? h'); reflexivity|].
  destruct (Nat.eqb_spec k l) as [->|Hk]; cbn.
  - destruct (Nat.eqb_spec l h'); [exact IH|exact IH].
  - destruct (Nat.eqb_spec k h') as [->|]; [destruct (Nat.eqb_spec l h'); [congruence|reflexivity]|exact IH].
Qed.

(* One list changes its entries from es to es'; m' differs from m only on addresses of
   the old list and on addresses in no list. *)
Lemma dinv_update m m' sp h es es' :
  dinv m sp -> entries sp h = Some es ->
  ring m' h es' -> NoDup (h :: es') ->
  (forall x, In x es' -> In x es \/ used sp x = false) ->
  (forall x, ~ In x (h :: es) -> used sp x = true -> Flink m' x = Flink m x /\ Blink m' x = Blink m x) ->
  dinv m' (setentries sp h es').
Proof.
  intros I E R N Hi Hf. constructor.
  - unfold setentries. rewrite map_map. replace (map _ sp) with (map fst sp); [apply (di_keys _ _ I)|].
    apply map_ext. intros [k ks]. cbn. destruct (Nat.eqb_spec k h); [cbn; auto|reflexivity].
  - intros k ks. rewrite (entries_set _ _ _ _ _ E). destruct (Nat.eqb_spec h k) as [->|Hne]; intros Ek.
    + injection Ek as <-. exact R.
    + apply (ring_frame m); [|apply (di_ring _ _ I), Ek]. intros x Hx. apply Hf.
      * intros Hx'. apply Hne. eapply (di_disj _ _ I h es k ks x); eauto.
      * unfold used. apply existsb_exists. exists (k, ks). split; [apply entries_in, Ek|apply memb_in, Hx].
  - intros k ks. rewrite (entries_set _ _ _ _ _ E). destruct (Nat.eqb_spec h k) as [->|Hne]; intros Ek.
    + injection Ek as <-. exact N.
    + apply (di_nodup _ _ I), Ek.
  - assert (Q : forall k ks x, entries sp k = Some ks -> In x (h :: es') -> In x (k :: ks) -> h = k).
    { intros k ks x Ek H1 H2. destruct H1 as [->|H1].
      - eapply (di_disj _ _ I x es k ks x); eauto. left. reflexivity.
      - destruct (Hi x H1) as [H3|H3].
        + eapply (di_disj _ _ I h es k ks x); eauto. right. exact H3.
        + exfalso. eapply used_false; eauto. }
    intros k ks k' ks' x. rewrite !(entries_set _ _ _ _ _ E).
    destruct (Nat.eqb_spec h k) as [Hk|Hk]; destruct (Nat.eqb_spec h k') as [Hk'|Hk']; intros E1 E2 H1 H2.
    + congruence.
    + injection E1 as <-. subst k. eapply Q; eauto.
    + injection E2 as <-. subst k'. symmetry. eapply Q; eauto.
    + eapply (di_disj _ _ I); eauto.
Qed.

Lemma removed_split e l1 l2 : NoDup (l1 ++ e :: l2) -> removed e (l1 ++ e :: l2) = l1 ++ l2.
Proof.
  intros N. assert (Q : forall l, ~ In e l -> removed e l = l).
  { induction l as [|x l IH]; intros H; [reflexivity|]. cbn in *. destruct (Nat.eqb_spec x e); [tauto|].
    cbn. f_equal. apply IH. tauto. }
  apply NoDup_remove_2 in N. unfold removed in *. rewrite filter_app. cbn. rewrite Nat.eqb_refl. cbn.
  rewrite !Q by (intros H; apply N, in_or_app; tauto). reflexivity.
Qed.


Lemma dinv_ext m m' sp : (forall x, Flink m' x = Flink m x /\ Blink m' x = Blink m x) ->
  dinv m sp -> dinv m' sp.
Proof.
  intros H I. constructor; [apply (di_keys _ _ I)| |apply (di_nodup _ _ I)|apply (di_disj _ _ I)].
  intros h es E. apply (ring_frame m); [intros; apply H|apply (di_ring _ _ I), E].
Qed.

Lemma used_true m sp x : dinv m sp -> used sp x = true ->
  exists h es, entries sp h = Some es /\ In x (h :: es).
Proof.
  intros I U. unfold used in U. apply existsb_exists in U. destruct U as ([h es] & Hin & Hx).
  exists h, es. split; [|apply memb_in, Hx]. pose proof (di_keys _ _ I) as K. clear - Hin K.
  unfold entries. induction sp as [|[k ks] sp IH]; [destruct Hin|]. cbn in *. inversion K as [|? ? Hn K']; subst.
  destruct Hin as [Hin|Hin].
  - injection Hin as -> ->. rewrite Nat.eqb_refl. reflexivity.
  - destruct (Nat.eqb_spec k h) as [->|]; [|apply IH; assumption].
    exfalso. apply Hn. apply in_map_iff. exists (h, es). auto.
Qed.

Lemma dinv_drop m sp l : dinv m sp -> dinv m (drop sp l).
Proof.
  intros I. constructor.
  - unfold drop. pose proof (di_keys _ _ I) as K. clear - K.
    induction sp as [|[k ks] sp IH]; [constructor|]. cbn in *. inversion K as [|? ? Hn K']; subst.
    destruct (k =? l); cbn; [auto|]. constructor; [|auto]. intros H. apply Hn.
    apply in_map_iff in H. destruct H as (q & E & Hq). apply filter_In in Hq. apply in_map_iff. exists q. tauto.
  - intros k ks. rewrite entries_drop. destruct (l =? k); [discriminate|]. apply (di_ring _ _ I).
  - intros k ks. rewrite entries_drop. destruct (l =? k); [discriminate|]. apply (di_nodup _ _ I).
  - intros k ks k' ks' x. rewrite !entries_drop. destruct (l =? k); [discriminate|]. destruct (l =? k'); [discriminate|].
    apply (di_disj _ _ I).
Qed.

(* Two consecutive pieces make a ring. *)
Lemma flinks_join f p b y u : flinks f (p ++ [b]) -> f b = y -> flinks f (y :: u) -> flinks f (p ++ b :: y :: u).
Proof. intros H1 H2 H3. apply flinks_app. split; [exact H1|]. split; [exact H2|exact H3]. Qed.
Lemma blinks_join f p b y u : blinks f (p ++ [b]) -> f y = b -> blinks f (y :: u) -> blinks f (p ++ b :: y :: u).
Proof. intros H1 H2 H3. apply blinks_app. split; [exact H1|]. split; [exact H2|exact H3]. Qed.

Lemma dlist_simulate : simulates dstep dsp_step dinv.
Proof.
  intros m sp op o I. change (sim1 dinv (dstep m op) (fun m => dsp_step sp op m) o).
  destruct op as [h|h|h e|h e|h|h e|h l]; cbn [dstep dsp_step].
  - (* init *)
    destruct (used sp h) eqn:U; [snone; reflexivity|]. sret. injection Hg as <- <-.
    eexists. split; [reflexivity|].
    assert (Q : forall k, entries ((h, []) :: sp) k = if h =? k then Some [] else entries sp k).
    { intros k. unfold entries. cbn. destruct (h =? k); reflexivity. }
    constructor.
    + cbn. constructor; [|apply (di_keys _ _ I)]. intros H. apply in_map_iff in H. destruct H as ([k ks] & E & Hin).
      cbn in E. subst k. assert (used sp h = true); [|congruence]. unfold used. apply existsb_exists.
      exists (h, ks). split; [exact Hin|]. cbn. rewrite Nat.eqb_refl. reflexivity.
    + intros k ks. rewrite Q. destruct (Nat.eqb_spec h k) as [->|Hne]; intros E.
      * injection E as <-. split; cbn; rewrite set_same; auto.
      * apply (ring_frame m); [|apply (di_ring _ _ I), E]. intros x Hx. cbn.
        rewrite !set_other; [auto| |]; intros ->; eapply used_false; eauto.
    + intros k ks. rewrite Q. destruct (Nat.eqb_spec h k) as [->|Hne]; intros E.
      * injection E as <-. constructor; [tauto|constructor].
      * apply (di_nodup _ _ I), E.
    + intros k ks k' ks' x. rewrite !Q.
      destruct (Nat.eqb_spec h k) as [Hk|Hk]; destruct (Nat.eqb_spec h k') as [Hk'|Hk']; intros E E' H1 H2.
      * congruence.
      * injection E as <-. destruct H1 as [<-|[]]. exfalso. subst. eapply used_false; eauto.
      * injection E' as <-. destruct H2 as [<-|[]]. exfalso. subst. eapply used_false; eauto.
      * eapply (di_disj _ _ I); eauto.
  - (* is empty *)
    destruct (entries sp h) as [es|] eqn:E; [|snone; reflexivity]. sret. injection Hg as <- <-.
    unfold DList_IsListEmpty. eexists. split; [|exact I].
    pose proof (di_ring _ _ I _ _ E) as R. pose proof (di_nodup _ _ I _ _ E) as N.
    destruct es as [|x es].
    + rewrite (ring_first _ _ _ _ _ R eq_refl), Nat.eqb_refl. reflexivity.
    + rewrite (ring_first _ _ _ _ _ R eq_refl). inversion N; subst.
      destruct (Nat.eqb_spec x h) as [->|]; [exfalso; cbn in *; tauto|reflexivity].
  - (* insert tail *)
    destruct (entries sp h) as [es|] eqn:E; [|snone; reflexivity].
    destruct (used sp e) eqn:U; [snone; reflexivity|]. sret. injection Hg as <- <-.
    unfold DList_InsertTailList. eexists. split; [reflexivity|].
    pose proof (di_ring _ _ I _ _ E) as R. pose proof (di_nodup _ _ I _ _ E) as N.
    pose proof (used_false _ _ _ _ U E) as He.
    destruct (snoc_of h es) as (p & b & Ep).
    rewrite (ring_last _ _ _ _ _ R Ep).
    assert (Np : NoDup (p ++ [b])) by (rewrite <- Ep; exact N).
    assert (Hb : In b (h :: es)) by (rewrite Ep; apply in_or_app; right; left; reflexivity).
    assert (Hbp : ~ In b p) by (apply NoDup_remove_2 in Np; rewrite app_nil_r in Np; exact Np).
    assert (Hpe : forall y, In y p -> In y (h :: es)) by (intros y Hy; rewrite Ep; apply in_or_app; tauto).
    assert (Hh : ~ In h es) by (inversion N; assumption).
    destruct R as [F B]. change (h :: es ++ [h]) with ((h :: es) ++ [h]) in F, B.
    rewrite Ep, <- app_assoc in F, B. apply flinks_app in F. destruct F as [F _].
    apply blinks_app in B. destruct B as [B _]. rewrite <- Ep in B.
    eapply (dinv_update m _ sp h es (es ++ [e]) I E).
    + assert (El : h :: (es ++ [e]) ++ [h] = p ++ b :: e :: [h]).
      { change (h :: (es ++ [e]) ++ [h]) with (((h :: es) ++ [e]) ++ [h]). rewrite Ep, <- !app_assoc. reflexivity. }
      split; cbn [Flink Blink setF setB]; rewrite El.
      * apply flinks_join.
        -- eapply flinks_frame; [|exact F]. intros y Hy. rewrite !set_other; [reflexivity| |].
           ++ intros ->. apply He, Hpe, Hy.
           ++ intros ->. apply Hbp, Hy.
        -- apply set_same.
        -- split; [|exact Logic.I]. rewrite set_other, set_same; [reflexivity|]. intros ->. apply He, Hb.
      * apply blinks_join.
        -- rewrite <- Ep. eapply blinks_frame; [|exact B]. intros y Hy. rewrite !set_other; [reflexivity| |].
           ++ intros ->. apply He. right. exact Hy.
           ++ intros ->. apply Hh, Hy.
        -- rewrite set_other, set_same; [reflexivity|]. intros ->. apply He. left. reflexivity.
        -- split; [|exact Logic.I]. apply set_same.
    + change (h :: es ++ [e]) with ((h :: es) ++ [e]). apply NoDup_app_intro; [exact N|constructor; [tauto|constructor]|].
      intros x Hx [<-|[]]. apply He, Hx.
    + intros x Hx. apply in_app_or in Hx. destruct Hx as [Hx|[<-|[]]]; auto.
    + intros x Hx Hu. cbn. rewrite !set_other; [auto|..]; intros ->; try congruence; cbn in *; tauto.
  - (* insert head *)
    destruct (entries sp h) as [es|] eqn:E; [|snone; reflexivity].
    destruct (used sp e) eqn:U; [snone; reflexivity|]. sret. injection Hg as <- <-.
    unfold DList_InsertHeadList. eexists. split; [reflexivity|].
    pose proof (di_ring _ _ I _ _ E) as R. pose proof (di_nodup _ _ I _ _ E) as N.
    pose proof (used_false _ _ _ _ U E) as He.
    assert (Hh : ~ In h es) by (inversion N; assumption).
    assert (Ey : exists y u, es ++ [h] = y :: u) by (destruct es; cbn; eauto). destruct Ey as (y & u & Ey).
    cbn [Flink Blink setF setB].
    assert (Eh : set (Flink m) e (Flink m h) h = y).
    { rewrite set_other by (intros ->; apply He; left; reflexivity). apply (ring_first _ _ _ _ _ R Ey). }
    rewrite Eh. rewrite (ring_first _ _ _ _ _ R Ey).
    assert (Hyin : In y (h :: es)).
    { assert (In y (es ++ [h])) by (rewrite Ey; left; reflexivity). apply in_app_or in H. cbn in *. intuition. }
    assert (Nu : ~ In y u).
    { assert (Nx : NoDup (es ++ [h])).
      { inversion N; subst. apply NoDup_app_intro; [assumption|constructor; [tauto|constructor]|].
        intros x Hx [<-|[]]. tauto. }
      rewrite Ey in Nx. inversion Nx; assumption. }
    assert (Hu : forall x, In x u -> In x (h :: es)).
    { intros x Hx. assert (In x (es ++ [h])) by (rewrite Ey; right; exact Hx). apply in_app_or in H. cbn in *. intuition. }
    destruct R as [F B]. rewrite Ey in B. destruct B as [_ B].
    assert (F' : flinks (Flink m) (es ++ [h])) by (rewrite Ey in F |- *; apply F).
    eapply (dinv_update m _ sp h es (e :: es) I E).
    + split; cbn [Flink Blink app setF setB].
      * split; [apply set_same|].
        assert (G : flinks (set (set (Flink m) e y) h e) (es ++ [h])).
        { eapply flinks_frame; [|exact F']. intros x Hx. rewrite !set_other; [reflexivity| |].
          - intros ->. apply He. right. exact Hx.
          - intros ->. apply Hh, Hx. }
        rewrite Ey in G |- *. split; [|exact G].
        rewrite set_other, set_same; [reflexivity|]. intros ->. apply He. left. reflexivity.
      * split.
        -- rewrite set_other, set_same; [reflexivity|]. intros ->. apply He, Hyin.
        -- rewrite Ey. split; [apply set_same|]. eapply blinks_frame; [|exact B].
           intros x Hx. rewrite !set_other; [reflexivity| |].
           ++ intros ->. apply He, Hu, Hx.
           ++ intros ->. apply Nu, Hx.
    + inversion N; subst. constructor; [cbn; intros [<-|H]; [apply He; left; reflexivity|tauto]|].
      constructor; [intros H; apply He; right; exact H|assumption].
    + intros x [<-|Hx]; auto.
    + intros x Hx Hu'. cbn. rewrite !set_other; [auto|..]; intros ->; try congruence; cbn in *; tauto.
  - (* remove head *)
    destruct (entries sp h) as [es|] eqn:E; [|snone; reflexivity].
    pose proof (di_ring _ _ I _ _ E) as R. pose proof (di_nodup _ _ I _ _ E) as N.
    unfold DList_RemoveHeadList.
    destruct es as [|e t].
    + sret. injection Hg as <- <-.
      assert (Fh : Flink m h = h) by apply (ring_first _ _ _ _ _ R eq_refl).
      assert (Bh : Blink m h = h) by apply (ring_last m h [] [] h R eq_refl).
      rewrite !Fh. eexists. split; [reflexivity|]. eapply dinv_ext; [|exact I].
      intros x. cbn. unfold set. destruct (Nat.eqb_spec x h) as [->|]; auto.
    + sret. injection Hg as <- <-.
      assert (Fh : Flink m h = e) by apply (ring_first _ _ _ _ _ R eq_refl). rewrite Fh.
      assert (Ey : exists y u, t ++ [h] = y :: u) by (destruct t; cbn; eauto). destruct Ey as (y & u & Ey).
      destruct R as [F B]. cbn [app] in F, B. destruct F as [_ F]. destruct B as [_ B].
      rewrite Ey in F, B. destruct F as [Fe F]. destruct B as [Be B]. rewrite Fe.
      eexists. split; [reflexivity|].
      pose proof (proj1 (NoDup_cons_iff _ _) N) as [Hh N']. pose proof (proj1 (NoDup_cons_iff _ _) N') as [He N''].
      assert (Hyin : In y (h :: e :: t)).
      { assert (H : In y (t ++ [h])) by (rewrite Ey; left; reflexivity). apply in_app_or in H. cbn in *. intuition. }
      assert (Nu : ~ In y u).
      { assert (Nx : NoDup (t ++ [h])).
        { apply NoDup_app_intro; [assumption|constructor; [tauto|constructor]|].
          intros x Hx [<-|[]]. apply Hh. right. exact Hx. }
        rewrite Ey in Nx. inversion Nx; assumption. }
      eapply (dinv_update m _ sp h (e :: t) t I E).
      * split; cbn [Flink Blink setF setB].
        -- assert (G : flinks (set (Flink m) h y) (t ++ [h])).
           { rewrite <- Ey in F. eapply flinks_frame; [|exact F]. intros x Hx. rewrite set_other; [reflexivity|].
             intros ->. apply Hh. right. exact Hx. }
           rewrite Ey in G |- *. split; [apply set_same|exact G].
        -- rewrite Ey. split; [apply set_same|]. eapply blinks_frame; [|exact B].
           intros x Hx. rewrite set_other; [reflexivity|]. intros ->. apply Nu, Hx.
      * constructor; [intros H; apply Hh; right; exact H|exact N''].
      * intros x Hx. left. right. exact Hx.
      * intros x Hx Hu. cbn. rewrite !set_other; [auto|..]; intros ->; cbn in *; tauto.
  - (* remove entry *)
    destruct (entries sp h) as [es|] eqn:E; [|snone; reflexivity].
    destruct (memb e es) eqn:Me; [|snone; reflexivity]. apply memb_in in Me.
    pose proof (di_ring _ _ I _ _ E) as R. pose proof (di_nodup _ _ I _ _ E) as N.
    destruct (in_split _ _ Me) as (l1 & l2 & ->).
    assert (Ne : NoDup (l1 ++ e :: l2)) by (inversion N; assumption).
    rewrite (removed_split e l1 l2 Ne).
    sret. injection Hg as <- <-.
    destruct (snoc_of h l1) as (p & b & Ep).
    assert (Ey : exists y u, l2 ++ [h] = y :: u) by (destruct l2; cbn; eauto). destruct Ey as (y & u & Ey).
    destruct R as [F B].
    assert (El : h :: (l1 ++ e :: l2) ++ [h] = p ++ b :: e :: y :: u).
    { rewrite <- app_assoc. cbn [app]. rewrite Ey. change (h :: l1 ++ e :: y :: u) with ((h :: l1) ++ e :: y :: u).
      rewrite Ep, <- app_assoc. reflexivity. }
    rewrite El in F, B. apply flinks_app in F. apply blinks_app in B.
    destruct F as [F1 [Fb [Fe F2]]]. destruct B as [B1 [Be [By B2]]].
    unfold DList_RemoveEntryList. rewrite Fe, Be.
    (* distinctness *)
    change (h :: l1 ++ e :: l2) with ((h :: l1) ++ e :: l2) in N.
    destruct (NoDup_app_elim _ _ N) as (N1 & N2 & Nd). rewrite Ep in N1.
    assert (Hbp : ~ In b p) by (apply NoDup_remove_2 in N1; rewrite app_nil_r in N1; exact N1).
    assert (Hb1 : In b (h :: l1)) by (rewrite Ep; apply in_or_app; right; left; reflexivity).
    assert (Hy1 : In y (l2 ++ [h])) by (rewrite Ey; left; reflexivity).
    assert (Hh1 : ~ In h l1) by (rewrite <- Ep in N1; inversion N1; assumption).
    assert (Hh2 : ~ In h (e :: l2)) by (intros H; eapply Nd; [left; reflexivity|exact H]).
    assert (Nu : ~ In y u).
    { assert (Nx : NoDup (l2 ++ [h])).
      { inversion N2; subst. apply NoDup_app_intro; [assumption|constructor; [tauto|constructor]|].
        intros x Hx [<-|[]]. apply Hh2. right. exact Hx. }
      rewrite Ey in Nx. inversion Nx; assumption. }
    eexists. split.
    { f_equal. f_equal. f_equal. destruct l1 as [|a l1].
      - destruct p as [|? [|? ?]]; cbn in Ep; try discriminate. injection Ep as ->.
        destruct l2 as [|c l2]; cbn in Ey; injection Ey as <- <-; cbn.
        + apply Nat.eqb_refl.
        + destruct (Nat.eqb_spec c b) as [->|]; [|reflexivity]. exfalso. apply Hh2. right. left. reflexivity.
      - cbn. destruct (Nat.eqb_spec y b) as [->|]; [|reflexivity]. exfalso.
        assert (Hb2 : In b (a :: l1)).
        { destruct p as [|q p]; cbn in Ep; [discriminate|]. injection Ep as -> Ep. rewrite Ep.
          apply in_or_app. right. left. reflexivity. }
        apply in_app_or in Hy1. destruct Hy1 as [Hy1|[<-|[]]].
        + eapply Nd; [right; exact Hb2|right; exact Hy1].
        + apply Hh1, Hb2. }
    eapply (dinv_update m _ sp h (l1 ++ e :: l2) (l1 ++ l2) I E).
    + assert (El' : h :: (l1 ++ l2) ++ [h] = p ++ b :: y :: u).
      { rewrite <- app_assoc, Ey. change (h :: l1 ++ y :: u) with ((h :: l1) ++ y :: u).
        rewrite Ep, <- app_assoc. reflexivity. }
      split; cbn [Flink Blink setF setB]; rewrite El'.
      * apply flinks_join.
        -- eapply flinks_frame; [|exact F1]. intros x Hx. rewrite set_other; [reflexivity|]. intros ->. apply Hbp, Hx.
        -- apply set_same.
        -- rewrite <- Ey in F2 |- *. eapply flinks_frame; [|exact F2]. intros x Hx. rewrite set_other; [reflexivity|].
           intros ->. eapply Nd; [exact Hb1|right; exact Hx].
      * apply blinks_join.
        -- rewrite <- Ep in B1 |- *. eapply blinks_frame; [|exact B1]. intros x Hx. rewrite set_other; [reflexivity|].
           intros ->. apply in_app_or in Hy1. destruct Hy1 as [Hy1|[<-|[]]]; [|contradiction].
           eapply Nd; [right; exact Hx|right; exact Hy1].
        -- apply set_same.
        -- eapply blinks_frame; [|exact B2]. intros x Hx. rewrite set_other; [reflexivity|]. intros ->. apply Nu, Hx.
    + change (h :: l1 ++ l2) with ((h :: l1) ++ l2). eapply NoDup_remove_1, N.
    + intros x Hx. left. apply in_app_or in Hx. apply in_or_app. cbn. tauto.
    + intros x Hx Hu. cbn. rewrite !set_other; [auto|..]; intros ->; apply Hx.
      * apply in_app_or in Hy1. cbn. rewrite in_app_iff. cbn in *. tauto.
      * cbn in Hb1 |- *. rewrite in_app_iff. tauto.
  - (* append *)
    destruct (entries sp h) as [es|] eqn:E; [|snone; reflexivity].
    destruct (entries sp l) as [ls|] eqn:E'; [|snone; reflexivity].
    destruct (Nat.eqb_spec h l) as [Hhl|Hhl]; [snone; reflexivity|]. sret. injection Hg as <- <-.
    pose proof (di_ring _ _ I _ _ E) as R. pose proof (di_nodup _ _ I _ _ E) as N.
    pose proof (di_ring _ _ I _ _ E') as R'. pose proof (di_nodup _ _ I _ _ E') as N'.
    destruct (snoc_of h es) as (p & b & Ep). destruct (snoc_of l ls) as (q & c & Eq).
    assert (Hd : forall x, In x (h :: es) -> In x (l :: ls) -> False).
    { intros x H1 H2. apply Hhl. eapply (di_disj _ _ I); eauto. }
    unfold DList_AppendTailList. cbn [Flink Blink setF setB].
    rewrite (ring_last _ _ _ _ _ R Ep).
    assert (Bl : Blink m l = c) by apply (ring_last _ _ _ _ _ R' Eq).
    rewrite (set_other (Blink m) h (Blink m l) l) by congruence. rewrite Bl.
    eexists. split; [reflexivity|].
    assert (Hb : In b (h :: es)) by (rewrite Ep; apply in_or_app; right; left; reflexivity).
    assert (Hc : In c (l :: ls)) by (rewrite Eq; apply in_or_app; right; left; reflexivity).
    assert (Np : NoDup (p ++ [b])) by (rewrite <- Ep; exact N).
    assert (Nq : NoDup (q ++ [c])) by (rewrite <- Eq; exact N').
    assert (Hbp : ~ In b p) by (apply NoDup_remove_2 in Np; rewrite app_nil_r in Np; exact Np).
    assert (Hcq : ~ In c q) by (apply NoDup_remove_2 in Nq; rewrite app_nil_r in Nq; exact Nq).
    assert (Hpe : forall y, In y p -> In y (h :: es)) by (intros y Hy; rewrite Ep; apply in_or_app; tauto).
    assert (Hqe : forall y, In y q -> In y (l :: ls)) by (intros y Hy; rewrite Eq; apply in_or_app; tauto).
    assert (Hh : ~ In h es) by (inversion N; assumption).
    assert (Hl : ~ In l ls) by (inversion N'; assumption).
    destruct R as [F B]. change (h :: es ++ [h]) with ((h :: es) ++ [h]) in F, B.
    rewrite Ep, <- app_assoc in F, B. apply flinks_app in F. destruct F as [F _].
    apply blinks_app in B. destruct B as [B _]. rewrite <- Ep in B.
    destruct R' as [F' B']. change (l :: ls ++ [l]) with ((l :: ls) ++ [l]) in F', B'.
    rewrite Eq, <- app_assoc in F', B'. apply flinks_app in F'. destruct F' as [F' _].
    apply blinks_app in B'. destruct B' as [B' _]. rewrite <- Eq in B'.
    assert (Ed : entries (drop sp l) h = Some es).
    { rewrite entries_drop. destruct (Nat.eqb_spec l h); [congruence|exact E]. }
    eapply (dinv_update m _ (drop sp l) h es (es ++ l :: ls) (dinv_drop _ _ _ I) Ed).
    + split; cbn [Flink Blink setF setB].
      * assert (El : h :: (es ++ l :: ls) ++ [h] = p ++ b :: (q ++ c :: [h])).
        { change (h :: (es ++ l :: ls) ++ [h]) with (((h :: es) ++ l :: ls) ++ [h]). rewrite Ep, Eq, <- !app_assoc. reflexivity. }
        rewrite El. apply flinks_app. split.
        -- eapply flinks_frame; [|exact F]. intros x Hx. rewrite !set_other; [reflexivity| |].
           ++ intros ->. apply Hbp, Hx.
           ++ intros ->. eapply Hd; [apply Hpe, Hx|exact Hc].
        -- assert (G : flinks (set (set (Flink m) b l) c h) (q ++ c :: [h])).
           { apply flinks_app. split.
             - eapply flinks_frame; [|exact F']. intros x Hx. rewrite !set_other; [reflexivity| |].
               + intros ->. eapply Hd; [exact Hb|apply Hqe, Hx].
               + intros ->. apply Hcq, Hx.
             - split; [apply set_same|exact Logic.I]. }
           assert (Et : q ++ c :: [h] = l :: ls ++ [h]).
           { change (c :: [h]) with ([c] ++ [h]). rewrite app_assoc, <- Eq. reflexivity. }
           rewrite Et in G |- *. split; [|exact G]. rewrite set_other, set_same; [reflexivity|].
           intros ->. eapply Hd; eauto.
      * assert (El : h :: (es ++ l :: ls) ++ [h] = p ++ b :: l :: ls ++ [h]).
        { change (h :: (es ++ l :: ls) ++ [h]) with (((h :: es) ++ l :: ls) ++ [h]). rewrite Ep, <- !app_assoc. reflexivity. }
        rewrite El. apply blinks_join.
        -- rewrite <- Ep. eapply blinks_frame; [|exact B]. intros x Hx. rewrite !set_other; [reflexivity| |].
           ++ intros ->. apply Hh, Hx.
           ++ intros ->. eapply Hd; [right; exact Hx|left; reflexivity].
        -- apply set_same.
        -- change (l :: ls ++ [h]) with ((l :: ls) ++ [h]). rewrite Eq, <- app_assoc. apply blinks_app. split.
           ++ rewrite <- Eq. eapply blinks_frame; [|exact B']. intros x Hx. rewrite !set_other; [reflexivity| |].
              ** intros ->. eapply Hd; [left; reflexivity|right; exact Hx].
              ** intros ->. apply Hl, Hx.
           ++ split; [|exact Logic.I]. rewrite set_other, set_same; [reflexivity|exact Hhl].
    + change (h :: es ++ l :: ls) with ((h :: es) ++ l :: ls). apply NoDup_app_intro; assumption.
    + intros x Hx. apply in_app_or in Hx. destruct Hx as [Hx|Hx]; [left; exact Hx|right].
      destruct (used (drop sp l) x) eqn:U; [|reflexivity]. exfalso.
      destruct (used_true m _ _ (dinv_drop _ _ l I) U) as (k & ks & Ek & Hk).
      rewrite entries_drop in Ek. destruct (Nat.eqb_spec l k) as [|Hlk]; [discriminate|].
      apply Hlk. eapply (di_disj _ _ I l ls k ks x); eauto.
    + intros x Hx U. destruct (used_true m _ _ (dinv_drop _ _ l I) U) as (k & ks & Ek & Hk).
      rewrite entries_drop in Ek. destruct (Nat.eqb_spec l k) as [|Hlk]; [discriminate|].
      assert (Hxl : ~ In x (l :: ls)).
      { intros H. apply Hlk. eapply (di_disj _ _ I l ls k ks x); eauto. }
      cbn. rewrite !set_other; [auto|..]; intros ->; cbn in *; tauto.
Qed.
