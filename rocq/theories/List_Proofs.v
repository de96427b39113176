(* Proofs about the model of src/list.c. *)
From Verif Require Import Base Refine List_Model List_Spec.
Open Scope N_scope.

(* The nodes reachable from a head spell out a sequence. *)
Inductive chain (ns : list (option node)) : option nat -> seqn -> Prop :=
| chain_nil : chain ns None []
| chain_cons a n s : getnode ns a = Some n -> chain ns (next n) s ->
    chain ns (Some a) ((a, item n) :: s).

Definition hs (s : seqn) : list nat := map fst s.

Record lrep (st : lheap) (sp : lspec) : Prop := {
  lr_len : length (heads st) = length (seqs sp);
  lr_added : added sp = length (nodes st);
  lr_chain : forall l s, seq_of sp l = Some s -> exists h, gethead st l = Some h /\ chain (nodes st) h s;
  lr_dead : forall l, seq_of sp l = None -> gethead st l = None;
  lr_nodup : forall l s, seq_of sp l = Some s -> NoDup (hs s);
  lr_disj : forall l l' s s' i, l <> l' -> seq_of sp l = Some s -> seq_of sp l' = Some s' ->
     In i (hs s) -> In i (hs s') -> False;
  (* no leak: every node that is not freed is in some live list *)
  lr_owned : forall a n, getnode (nodes st) a = Some n -> exists l s, seq_of sp l = Some s /\ In a (hs s) }.

Lemma getnode_upd_same ns a x : (a < length ns)%nat -> getnode (upd ns a (Some x)) a = Some x.
Proof. intros H. unfold getnode. rewrite upd_same by exact H. reflexivity. Qed.
Lemma getnode_upd_other ns a b x : a <> b -> getnode (upd ns a x) b = getnode ns b.
Proof. intros H. unfold getnode. rewrite upd_other by exact H. reflexivity. Qed.
Lemma getnode_lt ns a n : getnode ns a = Some n -> (a < length ns)%nat.
Proof.
  unfold getnode. destruct (nth_error ns a) eqn:E; [|discriminate]. intros _.
  apply nth_error_Some. congruence.
Qed.
Lemma getnode_app ns x a : (a < length ns)%nat -> getnode (ns ++ [x]) a = getnode ns a.
Proof. intros H. unfold getnode. rewrite nth_error_app1 by exact H. reflexivity. Qed.

Lemma chain_upd ns h s a x : chain ns h s -> ~ In a (hs s) -> chain (upd ns a x) h s.
Proof.
  induction 1 as [|b n s E C IH]; intros Hn; [constructor|]. cbn in Hn.
  constructor.
  - rewrite getnode_upd_other; [exact E|intros ->; tauto].
  - apply IH. tauto.
Qed.
Lemma chain_app ns h s x : chain ns h s -> chain (ns ++ [x]) h s.
Proof.
  induction 1 as [|b n s E C IH]; [constructor|]. constructor; [|exact IH].
  rewrite getnode_app; [exact E|eapply getnode_lt, E].
Qed.
Lemma chain_in_lt ns h s i : chain ns h s -> In i (hs s) -> (i < length ns)%nat.
Proof.
  induction 1 as [|b n s E C IH]; intros Hi; [destruct Hi|]. cbn in Hi. destruct Hi as [->|Hi]; [|auto].
  eapply getnode_lt, E.
Qed.
Lemma chain_head ns h s : chain ns h s -> h = handle_of s.
Proof. destruct 1; reflexivity. Qed.

(* A sequence without duplicates is no longer than the heap: the fuel suffices. *)
Lemma chain_length ns h s : chain ns h s -> NoDup (hs s) -> (length s <= length ns)%nat.
Proof.
  intros C D. rewrite <- (map_length fst s). fold (hs s).
  rewrite <- (seq_length (length ns) 0). apply NoDup_incl_length; [exact D|].
  intros i Hi. apply in_seq. pose proof (chain_in_lt _ _ _ _ C Hi). lia.
Qed.

Lemma last_loop_ok ns : forall s k a v t, s = (a, v) :: t -> chain ns (Some a) s -> (length s <= k)%nat ->
  exists pre b w, s = pre ++ [(b, w)] /\ last_loop k ns a = Some b.
Proof.
  induction s as [|p s IH]; intros k a v t E C Hk; [discriminate|]. injection E as -> <-.
  inversion C as [|a0 n s0 E C']; subst. destruct k as [|k]; [cbn in Hk; lia|]. cbn [last_loop].
  rewrite E. destruct (next n) as [b|] eqn:En.
  - inversion C' as [|b0 n' s0 E' C'']; subst.
    destruct (IH k b (item n') s0 eq_refl C') as (pre & c & w & Es & El); [cbn in *; lia|].
    exists ((a, item n) :: pre), c, w. split; [cbn; rewrite Es; reflexivity|exact El].
  - inversion C'; subst. exists [], a, (item n). split; reflexivity.
Qed.

Lemma chain_snoc ns : forall pre h b w c v,
  chain ns h (pre ++ [(b, w)]) -> NoDup (hs (pre ++ [(b, w)])) -> ~ In c (hs (pre ++ [(b, w)])) ->
  getnode ns c = Some {| item := v; next := None |} ->
  chain (upd ns b (Some {| item := w; next := Some c |})) h (pre ++ [(b, w)] ++ [(c, v)]).
Proof.
  induction pre as [|[a u] pre IH]; intros h b w c v C D Hc Hn.
  - cbn in *. inversion C as [|b0 n s0 E C']; subst.
    change (item n) with (item {| item := item n; next := Some c |}) at 2.
    constructor.
    + apply getnode_upd_same. eapply getnode_lt, E.
    + cbn [next]. change v with (item {| item := v; next := None |}).
      constructor; [|constructor]. rewrite getnode_upd_other; [exact Hn|intros ->; tauto].
  - cbn in *. inversion C as [|b0 n s0 E C']; subst. inversion D as [|x l Hx D']; subst.
    constructor.
    + rewrite getnode_upd_other; [exact E|]. intros ->. apply Hx. unfold hs. rewrite map_app.
      apply in_or_app. right. left. reflexivity.
    + apply IH; auto.
Qed.

Lemma has_in i s : has i s = true <-> In i (hs s).
Proof.
  unfold has, hs. rewrite existsb_exists, in_map_iff. split.
  - intros ((j & v) & Hin & E). cbn in E. exists (j, v). split; [cbn; lia|exact Hin].
  - intros ((j & v) & E & Hin). exists (j, v). split; [exact Hin|cbn in *; lia].
Qed.
Lemma has_false i s : has i s = false <-> ~ In i (hs s).
Proof. rewrite <- has_in. destruct (has i s); split; congruence || tauto || (intros; exfalso; tauto). Qed.

Lemma without_app i s t : without i (s ++ t) = without i s ++ without i t.
Proof. apply filter_app. Qed.
Lemma without_id i s : ~ In i (hs s) -> without i s = s.
Proof.
  induction s as [|[j v] s IH]; intros H; [reflexivity|]. cbn in *.
  destruct (Nat.eqb_spec j i); [tauto|]. cbn. f_equal. apply IH. tauto.
Qed.
Lemma hs_without i s x : In x (hs (without i s)) -> In x (hs s).
Proof.
  unfold hs, without. rewrite !in_map_iff. intros (p & E & Hin). apply filter_In in Hin.
  exists p. tauto.
Qed.
Lemma not_in_without i s : ~ In i (hs (without i s)).
Proof.
  unfold hs, without. rewrite in_map_iff. intros (p & E & Hin). apply filter_In in Hin.
  destruct Hin as [_ Hb]. rewrite E, Nat.eqb_refl in Hb. discriminate.
Qed.
Lemma nodup_without i s : NoDup (hs s) -> NoDup (hs (without i s)).
Proof.
  induction s as [|[j v] s IH]; intros D; [constructor|]. cbn in *. inversion D as [|? ? Hx D']; subst.
  destruct (Nat.eqb_spec j i); cbn; [auto|]. constructor; [|auto]. intros H. apply Hx. eapply hs_without, H.
Qed.

Lemma remove_loop_ok ns i : forall s k prev h, chain ns h s -> (length s <= k)%nat ->
  match remove_loop k ns prev h i with
  | None => False
  | Some None => ~ In i (hs s)
  | Some (Some (p, nx)) =>
      exists pre v post, s = pre ++ (i, v) :: post /\ ~ In i (hs pre) /\ chain ns nx post /\
        p = match rev pre with [] => prev | (j, _) :: _ => Some j end
  end.
Proof.
  induction s as [|[a v] s IH]; intros k prev h C Hk.
  - inversion C; subst. destruct k; cbn; tauto.
  - inversion C as [|a0 n s0 E C']; subst. destruct k as [|k]; [cbn in Hk; lia|]. cbn [remove_loop].
    rewrite E. destruct (Nat.eqb_spec a i) as [->|Hne].
    + exists [], (item n), s. cbn. auto.
    + specialize (IH k (Some a) (next n) C' ltac:(cbn in Hk; lia)).
      destruct (remove_loop k ns (Some a) (next n) i) as [[[p nx]|]|]; [| |contradiction].
      * destruct IH as (pre & v & post & -> & Hpre & Cp & ->).
        exists ((a, item n) :: pre), v, post. cbn. split; [reflexivity|]. split; [tauto|].
        split; [exact Cp|]. destruct (rev pre) as [|[j u] r] eqn:Er; [reflexivity|reflexivity].
      * cbn. tauto.
Qed.

Lemma chain_cut ns : forall pre h b w i v post nx,
  chain ns h (pre ++ (b, w) :: (i, v) :: post) -> NoDup (hs (pre ++ (b, w) :: (i, v) :: post)) ->
  chain ns nx post ->
  chain (upd (upd ns b (Some {| item := w; next := nx |})) i None) h (pre ++ (b, w) :: post).
Proof.
  induction pre as [|[a u] pre IH]; intros h b w i v post nx C D Cp.
  - cbn in *. inversion C as [|b0 n s0 E C']; subst. inversion D as [|x l Hx D']; subst.
    inversion D' as [|x' l' Hx' D'']; subst. cbn in Hx.
    change (item n) with (item {| item := item n; next := nx |}) at 2. constructor.
    + rewrite getnode_upd_other; [|intros ->; tauto]. apply getnode_upd_same. eapply getnode_lt, E.
    + cbn [next]. apply chain_upd; [|exact Hx']. apply chain_upd; [exact Cp|tauto].
  - cbn in *. inversion C as [|b0 n s0 E C']; subst. inversion D as [|x l Hx D']; subst.
    unfold hs in Hx. rewrite map_app in Hx. cbn in Hx.
    constructor.
    + rewrite !getnode_upd_other; [exact E| |]; intros ->; apply Hx, in_or_app; right; cbn; auto.
    + eapply IH; eauto.
Qed.

Lemma destroy_loop_ok : forall s k ns h, chain ns h s -> NoDup (hs s) -> (length s <= k)%nat ->
  exists ns', destroy_loop k ns h = Some ns' /\ length ns' = length ns /\
    (forall i n, getnode ns' i = Some n -> getnode ns i = Some n /\ ~ In i (hs s)) /\
    forall h' s', chain ns h' s' -> (forall i, In i (hs s) -> ~ In i (hs s')) -> chain ns' h' s'.
Proof.
  induction s as [|[a v] s IH]; intros k ns h C D Hk.
  - inversion C; subst. exists ns. split; [destruct k; reflexivity|]. split; [reflexivity|]. split; [cbn; tauto|]. auto.
  - inversion C as [|a0 n s0 E C']; subst. inversion D as [|x l Hx D']; subst.
    destruct k as [|k]; [cbn in Hk; lia|]. cbn [destroy_loop]. rewrite E.
    destruct (IH k (upd ns a None) (next n)) as (ns' & El & Hl & Hfree & Hc).
    + apply chain_upd; assumption.
    + exact D'.
    + cbn in Hk. lia.
    + exists ns'. split; [exact El|]. split; [rewrite Hl; apply upd_length|]. split.
      { intros i m Hi. destruct (Hfree i m Hi) as [H1 H2]. destruct (Nat.eq_dec a i) as [->|Hne].
        - unfold getnode in H1. rewrite upd_same in H1 by (eapply getnode_lt, E). discriminate.
        - rewrite getnode_upd_other in H1 by exact Hne. split; [exact H1|]. cbn. tauto. }
      intros h' s' C2 Hd. apply Hc.
      * apply chain_upd; [exact C2|]. apply Hd. left. reflexivity.
      * intros i Hi. apply Hd. right. exact Hi.
Qed.

Lemma find_loop_ok ns f : forall s k h, chain ns h s -> (length s <= k)%nat ->
  find_loop k ns h f = Some (first_match f s).
Proof.
  induction s as [|[a v] s IH]; intros k h C Hk.
  - inversion C; subst. destruct k; reflexivity.
  - inversion C as [|a0 n s0 E C']; subst. destruct k as [|k]; [cbn in Hk; lia|]. cbn.
    rewrite E. destruct (f a (item n)); [reflexivity|].
    rewrite (IH k (next n) C') by (cbn in Hk; lia). destruct (first_match f s); reflexivity.
Qed.

Lemma from_chain ns i : forall s h t, chain ns h s -> from i s = Some t -> chain ns (Some i) t.
Proof.
  induction s as [|[a v] s IH]; intros h t C E; [discriminate|]. inversion C as [|a0 n s0 En C']; subst.
  cbn in E. destruct (Nat.eqb_spec a i) as [->|].
  - injection E as <-. exact C.
  - eapply IH; eauto.
Qed.

Lemma locate_some i : forall ss t, locate i ss = Some t -> exists l s, nth_error ss l = Some (Some s) /\ from i s = Some t.
Proof.
  induction ss as [|[s|] ss IH]; intros t H; cbn in H; [discriminate| |].
  - destruct (from i s) as [r|] eqn:E.
    + injection H as <-. exists 0%nat, s. auto.
    + destruct (IH t H) as (l & s' & E1 & E2). exists (S l), s'. auto.
  - destruct (IH t H) as (l & s' & E1 & E2). exists (S l), s'. auto.
Qed.

Lemma seq_of_setseq sp l l' x : (l < length (seqs sp))%nat ->
  seq_of (setseq sp l x) l' = if (l =? l')%nat then x else seq_of sp l'.
Proof.
  intros H. unfold seq_of, setseq. cbn. destruct (Nat.eqb_spec l l') as [->|Hne].
  - rewrite upd_same by exact H. destruct x; reflexivity.
  - rewrite upd_other by exact Hne. reflexivity.
Qed.
Lemma seq_of_lt sp l s : seq_of sp l = Some s -> (l < length (seqs sp))%nat.
Proof.
  unfold seq_of. destruct (nth_error (seqs sp) l) eqn:E; [|discriminate]. intros _.
  apply nth_error_Some. congruence.
Qed.

Lemma gethead_sethead st l l' x : (l < length (heads st))%nat ->
  gethead (sethead st l x) l' = if (l =? l')%nat then Some x else gethead st l'.
Proof.
  intros H. unfold gethead, sethead. cbn. destruct (Nat.eqb_spec l l') as [->|Hne].
  - rewrite upd_same by exact H. reflexivity.
  - rewrite upd_other by exact Hne. reflexivity.
Qed.

(* Updating one list's sequence: what has to be shown. *)
Lemma lrep_update st sp st' l s s' ad :
  lrep st sp -> seq_of sp l = Some s ->
  length (heads st') = length (heads st) -> ad = length (nodes st') ->
  (exists h, gethead st' l = Some h /\ chain (nodes st') h s') ->
  (forall l', l' <> l -> gethead st' l' = gethead st l') ->
  (forall h' t, (forall i, In i (hs s) -> ~ In i (hs t)) -> chain (nodes st) h' t -> chain (nodes st') h' t) ->
  NoDup (hs s') ->
  (forall i, In i (hs s') -> In i (hs s) \/ i = added sp) ->
  (forall a n, getnode (nodes st') a = Some n -> In a (hs s') \/ (~ In a (hs s) /\ exists n', getnode (nodes st) a = Some n')) ->
  lrep st' {| added := ad; seqs := upd (seqs sp) l (Some s') |}.
Proof.
  intros R L Hl Ha Hc Hg Hf Hn Hi Ho. pose proof (seq_of_lt _ _ _ L) as Hlt.
  assert (Q : forall l', seq_of {| added := ad; seqs := upd (seqs sp) l (Some s') |} l' =
      if (l =? l')%nat then Some s' else seq_of sp l').
  { intros l'. apply (seq_of_setseq sp l l' (Some s') Hlt). }
  constructor; cbn.
  - rewrite Hl, upd_length. apply (lr_len _ _ R).
  - exact Ha.
  - intros l' t. rewrite Q. destruct (Nat.eqb_spec l l') as [->|Hne]; intros E.
    + injection E as <-. exact Hc.
    + rewrite Hg by auto. destruct (lr_chain _ _ R l' t E) as (h & Eh & C). exists h. split; [exact Eh|].
      apply Hf; [|exact C]. intros i H1 H2. eapply (lr_disj _ _ R l l' s t i); eauto.
  - intros l'. rewrite Q. destruct (Nat.eqb_spec l l') as [->|Hne]; intros E; [discriminate|].
    rewrite Hg by auto. apply (lr_dead _ _ R), E.
  - intros l' t. rewrite Q. destruct (Nat.eqb_spec l l') as [->|Hne]; intros E.
    + injection E as <-. exact Hn.
    + eapply (lr_nodup _ _ R), E.
  - assert (Hx : forall k t i, l <> k -> seq_of sp k = Some t -> In i (hs s') -> In i (hs t) -> False).
    { intros k t i Hne E H1 H2. destruct (Hi i H1) as [H3| ->].
      - eapply (lr_disj _ _ R l k s t i); eauto.
      - destruct (lr_chain _ _ R k t E) as (h & _ & C). pose proof (chain_in_lt _ _ _ _ C H2).
        rewrite (lr_added _ _ R) in H. lia. }
    intros k k' t t' i Hne E E' H1 H2. rewrite Q in E, E'.
    destruct (Nat.eqb_spec l k) as [Ek|Ek]; destruct (Nat.eqb_spec l k') as [Ek'|Ek']; try congruence.
    + injection E as <-. eapply (Hx k' t' i); eauto.
    + injection E' as <-. eapply (Hx k t i); eauto.
    + eapply (lr_disj _ _ R k k' t t' i); eauto.
  - intros a n Hn'. destruct (Ho a n Hn') as [H|(H & n' & Hg')].
    + exists l, s'. rewrite Q, Nat.eqb_refl. auto.
    + destruct (lr_owned _ _ R a n' Hg') as (k & t & E & Ht). exists k, t. rewrite Q.
      destruct (Nat.eqb_spec l k) as [->|]; [|auto]. exfalso. apply H. congruence.
Qed.

Lemma list_simulate : simulates lstep lsp_step lrep.
Proof.
  intros st sp op o R. change (sim1 lrep (lstep st op) (fun m => lsp_step sp op m) o).
  destruct op as [|l|l v|l i|l|i|i|l f]; cbn [lstep].
  - (* create *)
    apply sim1_alloc. intros m r sp' Hg. destruct m; cbn in Hg; injection Hg as <- <-.
    2:{ eexists. split; [reflexivity|exact R]. }
    eexists. split; [rewrite (lr_len _ _ R); reflexivity|].
    assert (Q : forall l, seq_of {| added := added sp; seqs := seqs sp ++ [Some []] |} l =
       if (l =? length (seqs sp))%nat then Some [] else seq_of sp l).
    { intros l. unfold seq_of. cbn. destruct (Nat.eqb_spec l (length (seqs sp))) as [->|Hne].
      - rewrite nth_error_app2, Nat.sub_diag by lia. reflexivity.
      - destruct (Nat.lt_ge_cases l (length (seqs sp))) as [H|H].
        + rewrite nth_error_app1 by exact H. reflexivity.
        + rewrite (proj2 (nth_error_None (seqs sp ++ [Some []]) l)) by (rewrite app_length; cbn; lia).
          rewrite (proj2 (nth_error_None (seqs sp) l)) by lia. reflexivity. }
    assert (G : forall l, gethead {| nodes := nodes st; heads := heads st ++ [Some None] |} l =
       if (l =? length (seqs sp))%nat then Some None else gethead st l).
    { intros l. rewrite <- (lr_len _ _ R). unfold gethead. cbn. destruct (Nat.eqb_spec l (length (heads st))) as [->|Hne].
      - rewrite nth_error_app2, Nat.sub_diag by lia. reflexivity.
      - destruct (Nat.lt_ge_cases l (length (heads st))) as [H|H].
        + rewrite nth_error_app1 by exact H. reflexivity.
        + rewrite (proj2 (nth_error_None (heads st ++ [Some None]) l)) by (rewrite app_length; cbn; lia).
          rewrite (proj2 (nth_error_None (heads st) l)) by lia. reflexivity. }
    constructor; cbn.
    + rewrite !app_length. rewrite (lr_len _ _ R). reflexivity.
    + apply (lr_added _ _ R).
    + intros l s. rewrite Q, G. destruct (l =? length (seqs sp))%nat; intros E.
      * injection E as <-. exists None. split; [reflexivity|constructor].
      * apply (lr_chain _ _ R), E.
    + intros l. rewrite Q, G. destruct (l =? length (seqs sp))%nat; intros E; [discriminate|].
      apply (lr_dead _ _ R), E.
    + intros l s. rewrite Q. destruct (l =? length (seqs sp))%nat; intros E.
      * injection E as <-. constructor.
      * eapply (lr_nodup _ _ R), E.
    + intros l l' s s' i Hne. rewrite !Q.
      destruct (l =? length (seqs sp))%nat; destruct (l' =? length (seqs sp))%nat; intros E E'.
      * injection E as <-. cbn. tauto.
      * injection E as <-. cbn. tauto.
      * injection E' as <-. cbn. tauto.
      * eapply (lr_disj _ _ R); eauto.
    + intros a n Ha. destruct (lr_owned _ _ R a n Ha) as (l & s & E & Hin). exists l, s. rewrite Q.
      destruct (Nat.eqb_spec l (length (seqs sp))) as [->|]; [|auto].
      apply seq_of_lt in E. lia.
  - (* destroy *)
    destruct l as [l|]; cbn [lsp_step list_destroy]; [|same R].
    destruct (seq_of sp l) as [s|] eqn:L; [|snone; reflexivity].
    destruct (lr_chain _ _ R l s L) as (h & Eh & C). rewrite Eh, bind_lift_some.
    pose proof (lr_nodup _ _ R _ _ L) as D. pose proof (chain_length _ _ _ C D) as Hlen.
    destruct (destroy_loop_ok s (S (length (nodes st))) (nodes st) h C D ltac:(lia)) as (ns' & -> & Hl & Hfree & Hc).
    rewrite bind_lift_some. sret. injection Hg as <- <-. eexists. split; [reflexivity|].
    pose proof (seq_of_lt _ _ _ L) as Hlt.
    assert (G : forall l', gethead {| nodes := ns'; heads := upd (heads st) l None |} l' =
       if (l =? l')%nat then None else gethead st l').
    { intros l'. unfold gethead. cbn. destruct (Nat.eqb_spec l l') as [->|Hne].
      - rewrite upd_same by (rewrite (lr_len _ _ R); exact Hlt). reflexivity.
      - rewrite upd_other by exact Hne. reflexivity. }
    constructor; cbn.
    + rewrite !upd_length. apply (lr_len _ _ R).
    + rewrite Hl. apply (lr_added _ _ R).
    + intros l' t. rewrite seq_of_setseq, G by exact Hlt. destruct (Nat.eqb_spec l l') as [->|Hne]; [discriminate|].
      intros E. destruct (lr_chain _ _ R l' t E) as (h' & E' & C'). exists h'. split; [exact E'|].
      apply Hc; [exact C'|]. intros i H1 H2. eapply (lr_disj _ _ R l l'); eauto.
    + intros l'. rewrite seq_of_setseq, G by exact Hlt. destruct (Nat.eqb_spec l l') as [->|Hne]; [reflexivity|].
      apply (lr_dead _ _ R).
    + intros l' t. rewrite seq_of_setseq by exact Hlt. destruct (Nat.eqb_spec l l') as [->|Hne]; [discriminate|].
      apply (lr_nodup _ _ R).
    + intros k k' t t' i Hne. rewrite !seq_of_setseq by exact Hlt.
      destruct (Nat.eqb_spec l k); [discriminate|]. destruct (Nat.eqb_spec l k'); [discriminate|].
      apply (lr_disj _ _ R); exact Hne.
    + intros a n Ha. destruct (Hfree a n Ha) as [H1 H2].
      destruct (lr_owned _ _ R a n H1) as (k & t & E & Hin). exists k, t.
      rewrite seq_of_setseq by exact Hlt. destruct (Nat.eqb_spec l k) as [->|]; [|auto].
      exfalso. apply H2. congruence.
  - (* add *)
    destruct l as [l|]; cbn [lsp_step list_add]; [|same R].
    destruct (seq_of sp l) as [s|] eqn:L; [|snone; reflexivity].
    destruct (N.eqb_spec v 0) as [Hv|Hv]; [same R|].
    apply sim1_alloc. intros m r sp' Hg. destruct m; cbv beta iota in Hg; injection Hg as <- <-.
    2:{ eexists. split; [reflexivity|exact R]. }
    destruct (lr_chain _ _ R l s L) as (h & Eh & C). cbv zeta. rewrite Eh, bind_lift_some.
    pose proof (lr_nodup _ _ R _ _ L) as D. pose proof (chain_length _ _ _ C D) as Hlen.
    set (a := length (nodes st)). set (ns := nodes st ++ [Some {| item := v; next := None |}]).
    assert (Ha : added sp = a) by apply (lr_added _ _ R). rewrite Ha.
    assert (Hna : getnode ns a = Some {| item := v; next := None |}).
    { unfold getnode, ns, a. rewrite nth_error_app2, Nat.sub_diag by lia. reflexivity. }
    assert (Cn : chain ns h s) by (apply chain_app, C).
    assert (Hfresh : ~ In a (hs s)).
    { intros H. pose proof (chain_in_lt _ _ _ _ C H). unfold a in *. lia. }
    assert (Hln : length ns = S a) by (unfold ns, a; rewrite app_length; cbn; lia).
    assert (Dn : NoDup (hs (s ++ [(a, v)]))).
    { unfold hs. rewrite map_app. cbn. apply NoDup_app_intro; [exact D|constructor; [tauto|constructor]|].
      intros x H1 [<-|[]]. apply Hfresh, H1. }
    assert (Hin : forall i, In i (hs (s ++ [(a, v)])) -> In i (hs s) \/ i = added sp).
    { intros i. unfold hs. rewrite map_app, in_app_iff. cbn. rewrite Ha. intuition. }
    destruct h as [b|].
    + inversion C as [|b0 n s0 E C']; subst s b0.
      destruct (last_loop_ok ns ((b, item n) :: s0) (S (length ns)) b (item n) s0 eq_refl Cn) as (pre & c & w & Es & El).
      { cbn in *. rewrite Hln. unfold a. lia. }
      rewrite El, bind_lift_some. unfold setnext.
      set (s := (b, item n) :: s0) in *.
      assert (Ec : exists nc, getnode ns c = Some nc /\ item nc = w).
      { clear - Cn Es. rewrite Es in Cn. clear Es. revert Cn. generalize (Some b) as h.
        induction pre as [|[x u] pre IH]; intros h C; inversion C; subst; eauto. }
      destruct Ec as (nc & Ec & Ew). rewrite Ec, bind_lift_some, Ew.
      eexists. split; [reflexivity|].
      eapply lrep_update; [exact R|exact L|..]; cbn [nodes heads setnodes].
      * reflexivity.
      * rewrite upd_length, Hln. reflexivity.
      * exists (Some b). split; [exact Eh|]. rewrite Es, <- app_assoc. apply chain_snoc.
        -- rewrite <- Es. exact Cn.
        -- rewrite <- Es. exact D.
        -- rewrite <- Es. exact Hfresh.
        -- exact Hna.
      * intros l' _. reflexivity.
      * intros h' t Ht Ct. apply chain_upd; [apply chain_app, Ct|]. apply Ht. rewrite Es.
        unfold hs. rewrite map_app. apply in_or_app. right. left. reflexivity.
      * exact Dn.
      * exact Hin.
      * intros x nx Hx. destruct (in_dec Nat.eq_dec x (hs (s ++ [(a, v)]))) as [Hi|Hi]; [left; exact Hi|right].
        assert (Hi1 : ~ In x (hs s)) by (intros Hc; apply Hi; unfold hs in *; rewrite map_app; apply in_or_app; left; exact Hc).
        assert (Hi2 : x <> a) by (intros ->; apply Hi; unfold hs; rewrite map_app; apply in_or_app; right; left; reflexivity).
        split; [exact Hi1|].
        assert (Hcx : c <> x).
        { intros ->. apply Hi1. rewrite Es. unfold hs. rewrite map_app. apply in_or_app. right. left. reflexivity. }
        rewrite getnode_upd_other in Hx by exact Hcx. exists nx. unfold ns in Hx.
        rewrite getnode_app in Hx; [exact Hx|]. pose proof (getnode_lt _ _ _ Hx) as Hlx.
        rewrite app_length in Hlx. cbn in Hlx. unfold a in Hi2. lia.
    + inversion C; subst s. eexists. split; [reflexivity|].
      eapply lrep_update; [exact R|exact L|..]; cbn [nodes heads setnodes sethead].
      * apply upd_length.
      * rewrite Hln. reflexivity.
      * exists (Some a). split.
        -- change (gethead (sethead (setnodes st ns) l (Some a)) l = Some (Some a)).
           rewrite gethead_sethead, Nat.eqb_refl; [reflexivity|]. cbn. rewrite (lr_len _ _ R). eapply seq_of_lt, L.
        -- cbn. change v with (item {| item := v; next := None |}). constructor; [exact Hna|constructor].
      * intros l' Hne. change (gethead (sethead (setnodes st ns) l (Some a)) l' = gethead st l').
        rewrite gethead_sethead by (cbn; rewrite (lr_len _ _ R); eapply seq_of_lt, L).
        destruct (Nat.eqb_spec l l'); [congruence|reflexivity].
      * intros h' t _ Ct. apply chain_app, Ct.
      * exact Dn.
      * exact Hin.
      * intros x nx Hx. destruct (Nat.eq_dec x a) as [->|Hxa]; [left; left; reflexivity|right].
        split; [tauto|]. exists nx. unfold ns in Hx.
        rewrite getnode_app in Hx; [exact Hx|]. pose proof (getnode_lt _ _ _ Hx) as Hlx.
        rewrite app_length in Hlx. cbn in Hlx. unfold a in Hxa. lia.
  - (* remove *)
    destruct l as [l|]; [|destruct i; same R]. destruct i as [i|]; [|same R].
    cbn [lsp_step list_remove].
    destruct (seq_of sp l) as [s|] eqn:L; [|snone; reflexivity].
    destruct (lr_chain _ _ R l s L) as (h & Eh & C). rewrite Eh, bind_lift_some.
    pose proof (lr_nodup _ _ R _ _ L) as D. pose proof (chain_length _ _ _ C D) as Hlen.
    pose proof (seq_of_lt _ _ _ L) as Hlt.
    pose proof (remove_loop_ok (nodes st) i s (S (length (nodes st))) None h C ltac:(lia)) as H.
    destruct (remove_loop _ _ _ _ _) as [[[p nx]|]|]; [| |contradiction].
    + destruct H as (pre & v & post & Es & Hpre & Cp & ->).
      assert (Hh : has i s = true).
      { apply has_in. rewrite Es. unfold hs. rewrite map_app. apply in_or_app. right. left. reflexivity. }
      rewrite Hh. rewrite bind_lift_some.
      assert (Hpost : ~ In i (hs post)).
      { rewrite Es in D. unfold hs in D. rewrite map_app in D. cbn in D. apply NoDup_remove_2 in D.
        intros H. apply D, in_or_app. right. exact H. }
      assert (Ew : without i s = pre ++ post).
      { rewrite Es, without_app. change (without i ((i, v) :: post)) with (if negb (i =? i)%nat then (i, v) :: without i post else without i post).
        rewrite Nat.eqb_refl. cbn [negb]. rewrite !without_id by assumption. reflexivity. }
      rewrite Ew. assert (Dw : NoDup (hs (pre ++ post))) by (rewrite <- Ew; apply nodup_without, D).
      assert (Hiw : forall x, In x (hs (pre ++ post)) -> In x (hs s) \/ x = added sp).
      { intros x. rewrite <- Ew. intros H. left. eapply hs_without, H. }
      assert (Hii : In i (hs s)) by (apply has_in, Hh).
      assert (Hown : forall x, (x <> i /\ exists n, getnode (nodes st) x = Some n) ->
        In x (hs (pre ++ post)) \/ (~ In x (hs s) /\ exists n, getnode (nodes st) x = Some n)).
      { intros x [Hx Hn]. destruct (in_dec Nat.eq_dec x (hs s)) as [Hs|Hs]; [left|right; auto].
        rewrite Es in Hs. unfold hs in *. rewrite map_app in *. cbn in Hs. rewrite in_app_iff in *. cbn in Hs.
        destruct Hs as [Hs|[Hs|Hs]]; [auto|congruence|auto]. }
      destruct (rev pre) as [|[b w] r] eqn:Er.
      * assert (pre = []) by (apply (f_equal (@rev _)) in Er; rewrite rev_involutive in Er; exact Er). subst pre.
        sret. injection Hg as <- <-. eexists. split; [reflexivity|].
        eapply lrep_update; [exact R|exact L|..]; cbn [nodes heads setnodes sethead].
        -- apply upd_length.
        -- rewrite upd_length. apply (lr_added _ _ R).
        -- exists nx. split.
           ++ change (gethead (sethead st l nx) l = Some nx).
              rewrite gethead_sethead, Nat.eqb_refl; [reflexivity|]. rewrite (lr_len _ _ R). exact Hlt.
           ++ cbn. apply chain_upd; [exact Cp|exact Hpost].
        -- intros l' Hne. change (gethead (sethead st l nx) l' = gethead st l').
           rewrite gethead_sethead by (rewrite (lr_len _ _ R); exact Hlt).
           destruct (Nat.eqb_spec l l'); [congruence|reflexivity].
        -- intros h' t Ht Ct. apply chain_upd; [exact Ct|]. apply Ht, Hii.
        -- exact Dw.
        -- exact Hiw.
        -- intros x m Hx. apply Hown. destruct (Nat.eq_dec i x) as [->|Hne].
           ++ unfold getnode in Hx. rewrite upd_same in Hx; [discriminate|].
              eapply chain_in_lt; [exact C|exact Hii].
           ++ split; [congruence|]. rewrite getnode_upd_other in Hx by exact Hne. eauto.
      * assert (Ep : pre = rev r ++ [(b, w)]).
        { rewrite <- (rev_involutive pre), Er. reflexivity. }
        assert (Es' : s = rev r ++ (b, w) :: (i, v) :: post) by (rewrite Es, Ep, <- app_assoc; reflexivity).
        assert (Ec : exists nc, getnode (nodes st) b = Some nc /\ item nc = w).
        { clear - C Es'. rewrite Es' in C. clear Es'. revert h C.
          induction (rev r) as [|[x u] q IH]; intros h C; inversion C; subst; eauto. }
        destruct Ec as (nc & Ec & Enw). unfold setnext. rewrite Ec, bind_lift_some, Enw.
        sret. injection Hg as <- <-. eexists. split; [reflexivity|].
        eapply lrep_update; [exact R|exact L|..]; cbn [nodes heads setnodes].
        -- reflexivity.
        -- rewrite !upd_length. apply (lr_added _ _ R).
        -- exists h. split; [exact Eh|]. rewrite Ep, <- app_assoc. cbn [app].
           eapply (chain_cut (nodes st) (rev r) h b w i v post nx).
           ++ rewrite <- Es'. exact C.
           ++ rewrite <- Es'. exact D.
           ++ exact Cp.
        -- intros l' _. reflexivity.
        -- intros h' t Ht Ct. apply chain_upd; [apply chain_upd; [exact Ct|]|].
           ++ apply Ht. rewrite Es'. unfold hs. rewrite map_app. apply in_or_app. right. left. reflexivity.
           ++ apply Ht, Hii.
        -- exact Dw.
        -- exact Hiw.
        -- intros x m Hx. apply Hown. destruct (Nat.eq_dec i x) as [->|Hne].
           ++ unfold getnode in Hx. rewrite upd_same in Hx; [discriminate|]. rewrite upd_length.
              eapply chain_in_lt; [exact C|exact Hii].
           ++ split; [congruence|]. rewrite getnode_upd_other in Hx by exact Hne.
              destruct (Nat.eq_dec b x) as [->|Hbx]; [eauto|].
              rewrite getnode_upd_other in Hx by exact Hbx. eauto.
    + assert (Hh : has i s = false) by (apply has_false, H). rewrite Hh, bind_lift_some. same R.
  - (* head *)
    destruct l as [l|]; cbn [lsp_step list_get_head_item]; [|same R].
    destruct (seq_of sp l) as [s|] eqn:L; [|snone; reflexivity].
    destruct (lr_chain _ _ R l s L) as (h & Eh & C). rewrite Eh, bind_lift_some.
    rewrite (chain_head _ _ _ C). same R.
  - (* next *)
    destruct i as [i|]; cbn [lsp_step list_get_next_item]; [|same R].
    destruct (locate i (seqs sp)) as [t|] eqn:E; [|snone; reflexivity].
    destruct (locate_some _ _ _ E) as (l & s & En & Ef).
    destruct (lr_chain _ _ R l s) as (h & Eh & C); [unfold seq_of; rewrite En; reflexivity|].
    pose proof (from_chain _ _ _ _ _ C Ef) as Ci. inversion Ci as [|a n s0 Eg C']; subst.
    rewrite Eg, bind_lift_some. rewrite (chain_head _ _ _ C'). same R.
  - (* value *)
    destruct i as [i|]; cbn [lsp_step list_item_get_value]; [|same R].
    destruct (locate i (seqs sp)) as [t|] eqn:E; [|snone; reflexivity].
    destruct (locate_some _ _ _ E) as (l & s & En & Ef).
    destruct (lr_chain _ _ R l s) as (h & Eh & C); [unfold seq_of; rewrite En; reflexivity|].
    pose proof (from_chain _ _ _ _ _ C Ef) as Ci. inversion Ci as [|a n s0 Eg C']; subst.
    rewrite Eg, bind_lift_some. same R.
  - (* find *)
    destruct l as [l|]; [|destruct f; same R]. destruct f as [f|]; [|same R].
    cbn [lsp_step list_find].
    destruct (seq_of sp l) as [s|] eqn:L; [|snone; reflexivity].
    destruct (lr_chain _ _ R l s L) as (h & Eh & C). rewrite Eh, bind_lift_some.
    pose proof (lr_nodup _ _ R _ _ L) as D. pose proof (chain_length _ _ _ C D) as Hlen.
    rewrite (find_loop_ok _ f s _ h C) by lia. rewrite bind_lift_some. same R.
Qed.
