(* What each call of HTTPAPIEX does to the handle and to the layer below. *)
From Verif Require Import Base Mem Refine Map_Model Map_Spec Map_Proofs HttpHeaders_Model Buffer_Model Strings_Model HttpApiEx_Model HttpApiEx_Spec HttpApiEx_Proofs.
From Coq Require Import Permutation.
Open Scope N_scope.

(* The handle between calls: nothing below, or a connection; every saved option has a live
   clone of its own, there are no other clones, and names are distinct. *)
Record resting (d : exdata) (w : world) (vals latest conn : settings) : Prop := {
  q_k : k d = (-1)%Z \/ k d = 2%Z;
  q_handle : handle_ok d;
  q_res : resolves w (savedOptions d) vals;
  q_names : NoDup (map fst vals);
  q_clones : NoDup (map snd (savedOptions d));
  q_noleak : forall c v, clone_value w c = Some v -> In c (map snd (savedOptions d));
  q_latest : forall n, setting n latest = setting n vals;
  q_agree : k d = 2%Z -> agree latest conn
}.

Lemma build_ensures d hs bs type path reqh reqc status resh resc :
  ensures (buildAllRequests d hs bs type path reqh reqc status resh resc) (fun '(b, _, _) =>
    match b with
    | None => True
    | Some u => u_reqc u <> None /\ u_type u = type /\ u_status u = status /\ u_path u = match path with Some p => p | None => [] end
    end).
Proof.
  unfold buildAllRequests. apply ensures_skip. intros [[[c|] oc] bs1]; [|apply ensures_ret; exact I].
  apply ensures_skip. intros [[[h|] oh] hs1]; [|apply ensures_skip; intros; apply ensures_ret; exact I].
  apply ensures_skip. intros [[[rh|] orh] hs2]; [|apply ensures_skip; intros; apply ensures_skip; intros; apply ensures_ret; exact I].
  apply ensures_skip. intros [[[rc|] orc] bs2]; [|do 3 (apply ensures_skip; intros); apply ensures_ret; exact I].
  apply ensures_ret. cbn. repeat split; discriminate.
Qed.

Lemma low_of_start d : low_of (if (k d =? -1)%Z then set_k d 0 else d) = low_of d.
Proof. destruct (Z.eqb_spec (k d) (-1)) as [E|E]; [|reflexivity]. unfold low_of. cbn. rewrite E. reflexivity. Qed.

Definition keeps_latest (d d' : exdata) : Prop := hostName d' = hostName d /\ savedOptions d' = savedOptions d.

Lemma execute_ensures fuel d w vals latest conn type path reqh reqc status resh resc : resting d w vals latest conn ->
  ensures (HTTPAPIEX_ExecuteRequest fuel d w type path reqh reqc status resh resc) (fun '(r, d', w') =>
    exists evs, w_trace w' = w_trace w ++ evs /\ w_clones w' = w_clones w /\ keeps_latest d d' /\
      told latest conn evs /\ low_run (low_of d) evs = Some (low_of d') /\
      ((9 <= fuel)%nat -> r <> StillRunning /\ (count is_init evs <= 1 /\ count is_create evs <= 2 /\ count is_request evs <= 3)%nat) /\
      w_status w' = (if status then match last_request evs with Some q => a_status (r_answer q) | None => w_status w end else w_status w) /\
      (forall q, In (ERequest q) evs -> r_type q = type /\ r_path q = match path with Some p => p | None => [] end) /\
      (r <> StillRunning -> resting d' w' vals latest (told_after conn evs)) /\
      match r with
      | HTTPAPIEX_OK => k d' = 2%Z /\ exists q, last_request evs = Some q /\ succeeded q
      | HTTPAPIEX_RECOVERYFAILED => k d' = (-1)%Z /\ failed_so_far evs
      | StillRunning => True
      | _ => k d' = k d /\ evs = []
      end).
Proof.
  intros [Qk Qh Qr Qn Qc Ql Qt Qa]. unfold HTTPAPIEX_ExecuteRequest.
  assert (Hnone : forall r hs bs, r = HTTPAPIEX_INVALID_ARG \/ r = HTTPAPIEX_ERROR ->
     exists evs, w_trace (with_objects w hs bs) = w_trace w ++ evs /\ w_clones (with_objects w hs bs) = w_clones w /\ keeps_latest d d /\
      told latest conn evs /\ low_run (low_of d) evs = Some (low_of d) /\
      ((9 <= fuel)%nat -> r <> StillRunning /\ (count is_init evs <= 1 /\ count is_create evs <= 2 /\ count is_request evs <= 3)%nat) /\
      w_status (with_objects w hs bs) = (if status then match last_request evs with Some q => a_status (r_answer q) | None => w_status w end else w_status w) /\
      (forall q, In (ERequest q) evs -> r_type q = type /\ r_path q = match path with Some p => p | None => [] end) /\
      (r <> StillRunning -> resting d (with_objects w hs bs) vals latest (told_after conn evs)) /\
      match r with
      | HTTPAPIEX_OK => k d = 2%Z /\ exists q, last_request evs = Some q /\ succeeded q
      | HTTPAPIEX_RECOVERYFAILED => k d = (-1)%Z /\ failed_so_far evs
      | StillRunning => True
      | _ => k d = k d /\ evs = []
      end).
  { intros r hs bs Hr. exists []. rewrite app_nil_r. cbn. split; [reflexivity|]. split; [reflexivity|]. split; [split; reflexivity|]. split; [exact I|]. split; [reflexivity|].
    split; [intros _; destruct Hr as [-> | ->]; (split; [discriminate|lia])|]. split; [destruct status; reflexivity|]. split; [intros q []|].
    split; [intros _; split; assumption|]. destruct Hr as [-> | ->]; auto. }
  destruct (N.leb_spec 5 type) as [Ht|Ht].
  { apply ensures_ret. assert (Ew : with_objects w (w_headers w) (w_buffers w) = w) by (destruct w; reflexivity).
    pose proof (Hnone HTTPAPIEX_INVALID_ARG (w_headers w) (w_buffers w) (or_introl eq_refl)) as H. rewrite Ew in H. exact H. }
  eapply ensures_bind; [apply build_ensures|]. intros [[[u|] hs] bs] Hu; [|apply ensures_ret; apply Hnone; auto].
  destruct Hu as (Hu & Hty & Hst & Hpa). set (w1 := with_objects w hs bs). set (d1 := if (k d =? -1)%Z then set_k d 0 else d).
  assert (Hk1 : (k d1 = 0 \/ k d1 = 2)%Z).
  { unfold d1. destruct (Z.eqb_spec (k d) (-1)) as [E|E]; cbn; lia. }
  assert (Hi : inv (fun _ _ _ => True) u latest (low_of d) conn d d1 []).
  { split; cbn.
    - unfold d1. rewrite low_of_start. reflexivity.
    - unfold d1, handle_ok in *. destruct (Z.eqb_spec (k d) (-1)) as [E|E]; [|exact Qh]. cbn. rewrite E in Qh. split; [discriminate|]. intros H. apply Qh in H. discriminate.
    - unfold d1, same_data. destruct (k d =? -1)%Z; auto.
    - exact I.
    - intros H. apply Qa. unfold d1 in H. destruct (Z.eqb_spec (k d) (-1)); [discriminate H|exact H].
    - intros q []. }
  assert (HA := sequence_ensures (fun _ _ _ => True) u vals latest Qn Qt (low_of d) conn d
    (fun _ _ _ _ _ _ => I) ltac:(intros; intros ? [] ? ?; intros; exact I) Hu fuel [false; false; false] d1 w1 [] Hi (fun q H => match H with end) ltac:(lia) Qr I).
  assert (HB : ensures (sequence fuel u [false; false; false] d1 w1) (fun '(r, d', w') => (9 <= fuel)%nat -> r <> StillRunning /\
      exists evs, w_trace w' = w_trace w1 ++ evs /\ (count is_init evs <= 1 /\ count is_create evs <= 2 /\ count is_request evs <= 3)%nat)).
  { intros o x o' E. destruct x as [[r d'] w']. intros Hf.
    assert (Hb : exists b, budget (k d1) [false; false; false] = Some b /\ (fst (fst (fst b)) <= 9)%nat /\ (snd (fst (fst b)) <= 1 /\ snd (fst b) <= 2 /\ snd b <= 3)%nat).
    { destruct Hk1 as [-> | ->]; eexists; (split; [reflexivity|cbn; lia]). }
    destruct Hb as (b & Hb & Hb9 & Hbb).
    pose proof (sequence_budget fuel u vals [false; false; false] d1 w1 b Hb ltac:(lia) Hu) as H.
    assert (Hr1 : resolves w1 (savedOptions d1) vals) by (unfold d1; destruct (k d =? -1)%Z; exact Qr).
    destruct (H Hr1 _ _ _ E) as (H1 & evs & H2 & H3). split; [exact H1|]. exists evs. split; [exact H2|].
    destruct b as [[[? ?] ?] ?]. unfold within in H3. cbn in *. lia. }
  eapply ensures_bind; [exact (ensures_and _ _ _ HA HB)|]. clear HA HB.
  intros [[r d'] w'] ((evs & (Hinv & Hend) & Htr & Hcl & Hs & _) & Hbud). cbn [app] in Hinv, Hend.
  apply ensures_skip. intros bs1. apply ensures_skip. intros hs1. apply ensures_skip. intros bs2. apply ensures_skip. intros hs2.
  apply ensures_ret. exists evs. cbn. destruct Hinv as [Il Ih [Is1 Is2] It Ia Iq].
  split; [exact Htr|]. split; [exact Hcl|]. split; [split; assumption|]. split; [exact It|]. split; [exact Il|].
  split. { intros Hf. destruct (Hbud Hf) as (H1 & evs' & H2 & H3). split; [exact H1|]. rewrite Htr in H2. apply app_inv_head in H2. subst evs'. exact H3. }
  split; [rewrite Hs; unfold status_after; rewrite Hst; reflexivity|].
  split. { intros q Hq. destruct (Iq q Hq) as (H1 & H2 & _). rewrite Hty in H1. rewrite Hpa in H2. auto. }
  split.
  - intros Hr. split.
    + destruct r; try (left; exact (proj1 Hend)); try (right; exact (proj1 Hend)); try contradiction.
    + exact Ih.
    + rewrite Is2. eapply resolves_clones; [|exact Qr]. cbn. exact Hcl.
    + exact Qn.
    + rewrite Is2. exact Qc.
    + intros c v. unfold clone_value. cbn. rewrite Hcl. rewrite Is2. apply Ql.
    + exact Qt.
    + exact Ia.
  - destruct r; auto; destruct Hend.
Qed.

(** * SetOption *)

Lemma update_some l n c old l' : update_option l n c = Some (old, l') ->
  exists pre post, l = pre ++ (n, old) :: post /\ l' = pre ++ (n, c) :: post /\ ~ In n (map fst pre).
Proof.
  revert l'. induction l as [|[m x] t IH]; intros l' H; cbn in H; [discriminate|]. rewrite strcmp_teq in H.
  destruct (teq m n) eqn:E.
  - injection H as <- <-. apply teq_eq in E. subst m. exists [], t. cbn. auto.
  - destruct (update_option t n c) as [[y t']|] eqn:Eu; [|discriminate]. injection H as <- <-.
    destruct (IH t' eq_refl) as (pre & post & -> & -> & Hn). exists ((m, x) :: pre), post. repeat split; auto.
    cbn. intros [H|H]; [subst m; rewrite teq_refl in E; discriminate|auto].
Qed.
Lemma update_none l n c : update_option l n c = None -> ~ In n (map fst l).
Proof.
  induction l as [|[m x] t IH]; cbn; intros H; [auto|]. rewrite strcmp_teq in H. destruct (teq m n) eqn:E; [discriminate|].
  destruct (update_option t n c) as [[]|]; [discriminate|]. intros [K|K]; [subst m; rewrite teq_refl in E; discriminate|].
  exact (IH eq_refl K).
Qed.
Lemma setting_app n a b : setting n (a ++ b) = match setting n a with Some v => Some v | None => setting n b end.
Proof. induction a as [|[m v] a IH]; [reflexivity|]. cbn. destruct (teq m n); [reflexivity|exact IH]. Qed.
Lemma setting_none n l : ~ In n (map fst l) -> setting n l = None.
Proof.
  induction l as [|[m v] l IH]; cbn; intros H; [reflexivity|]. destruct (teq m n) eqn:E; [apply teq_eq in E; subst m; exfalso; auto|].
  apply IH. auto.
Qed.
Lemma resolves_names w saved vals : resolves w saved vals -> map fst saved = map fst vals.
Proof. induction 1 as [|[n c] [m v] ? ? [H1 H2] _ IH]; [reflexivity|]. cbn in *. congruence. Qed.

Lemma clone_push w v c : clone_value (with_clones w (w_clones w ++ [Some v])) c =
  if (c =? length (w_clones w))%nat then Some v else clone_value w c.
Proof.
  unfold clone_value. cbn. destruct (Nat.eqb_spec c (length (w_clones w))) as [->|H].
  - rewrite nth_error_app2, Nat.sub_diag by lia. reflexivity.
  - destruct (Nat.lt_ge_cases c (length (w_clones w))) as [K|K].
    + rewrite nth_error_app1 by exact K. reflexivity.
    + rewrite (proj2 (nth_error_None (w_clones w ++ [Some v]) c)) by (rewrite app_length; cbn; lia).
      rewrite (proj2 (nth_error_None (w_clones w) c)) by exact K. reflexivity.
Qed.
Lemma clone_live w c v : clone_value w c = Some v -> (c < length (w_clones w))%nat.
Proof. unfold clone_value. intros H. apply nth_error_Some. destruct (nth_error (w_clones w) c); congruence. Qed.
Lemma nth_upd {A} (l : list A) i j x : nth_error (upd l i x) j = if (i =? j)%nat && (i <? length l)%nat then Some x else nth_error l j.
Proof.
  revert i j. induction l as [|y l IH]; intros [|i] [|j]; cbn; try reflexivity; try (rewrite andb_false_r; reflexivity). rewrite IH. reflexivity.
Qed.
Lemma free_clone_value w c w' : free_clone w c = Some w' -> w' = with_clones w (w_clones w') /\ forall x, clone_value w' x = if (x =? c)%nat then None else clone_value w x.
Proof.
  unfold free_clone. destruct (clone_value w c) as [v|] eqn:E; [|discriminate]. intros H. injection H as <-. split; [reflexivity|].
  intros x. pose proof (clone_live _ _ _ E) as Hl. unfold clone_value. cbn. rewrite nth_upd. rewrite (Nat.eqb_sym x c).
  destruct (Nat.eqb_spec c x) as [->|K]; cbn [andb]; [|reflexivity]. apply Nat.ltb_lt in Hl. rewrite Hl. reflexivity.
Qed.

Lemma resolves_split w pre n old post vals : resolves w (pre ++ (n, old) :: post) vals ->
  exists vpre v vpost, vals = vpre ++ (n, v) :: vpost /\ resolves w pre vpre /\ clone_value w old = Some v /\ resolves w post vpost.
Proof.
  intros H. apply Forall2_app_inv_l in H. destruct H as (vpre & rest & H1 & H2 & ->). inversion H2 as [|? [m v] ? vpost [E1 E2] H3]; subst.
  cbn in *. subst m. eauto 8.
Qed.
Lemma resolves_frame w w' saved vals : (forall c, In c (map snd saved) -> clone_value w' c = clone_value w c) -> resolves w saved vals -> resolves w' saved vals.
Proof.
  intros H R. induction R as [|[n c] [m v] saved vals [E1 E2] R IH]; [constructor|]. constructor.
  - cbn in *. split; [exact E1|]. rewrite H by auto. exact E2.
  - apply IH. intros x Hx. apply H. right. exact Hx.
Qed.
Lemma NoDup_mid {A} (a b : list A) x y : ~ In y (a ++ b) -> NoDup (a ++ x :: b) -> NoDup (a ++ y :: b).
Proof.
  intros Hy H. apply NoDup_remove in H. destruct H as [H _].
  apply (Permutation_NoDup (Permutation_middle a b y)). constructor; assumption.
Qed.

(* createOrUpdateOption: the new value is saved, or its clone is freed and nothing changes *)
Lemma create_or_update_ensures d w vals latest conn n v : resting d w vals latest conn ->
  ensures (createOrUpdateOption d (with_clones w (w_clones w ++ [Some v])) n (length (w_clones w))) (fun '(ok, d', w') =>
    w_trace w' = w_trace w /\ w_status w' = w_status w /\ k d' = k d /\ httpHandle d' = httpHandle d /\ hostName d' = hostName d /\
    if (ok : bool) then exists vals', forall conn', (k d = 2%Z -> agree (put n v latest) conn') -> resting d' w' vals' (put n v latest) conn'
    else d' = d /\ resting d w' vals latest conn).
Proof.
  intros [Qk Qh Qr Qn Qc Ql Qt Qa]. unfold createOrUpdateOption. set (c := length (w_clones w)). set (wp := with_clones w (w_clones w ++ [Some v])).
  assert (Hlt : forall x, In x (map snd (savedOptions d)) -> x <> c).
  { intros x Hx ->. clear - Qr Hx. induction Qr as [|[m y] [m' v'] ? ? [E1 E2] _ IH]; [destruct Hx|]. cbn in *. destruct Hx as [Hx|Hx]; [|auto].
    subst y. apply clone_live in E2. unfold c in E2. lia. }
  assert (Hwp : forall x, clone_value wp x = if (x =? c)%nat then Some v else clone_value w x) by (intros x; apply clone_push).
  destruct (update_option (savedOptions d) n c) as [[old l]|] eqn:Eu.
  - destruct (update_some _ _ _ _ _ Eu) as (pre & post & Es & -> & Hpre).
    apply ensures_blift. intros w' Ef. destruct (free_clone_value _ _ _ Ef) as [Ew Hv]. apply ensures_ret.
    rewrite Ew. cbn. split; [reflexivity|]. split; [reflexivity|]. split; [reflexivity|]. split; [reflexivity|]. split; [reflexivity|].
    rewrite Es in *. destruct (resolves_split _ _ _ _ _ _ Qr) as (vpre & vo & vpost & -> & R1 & R2 & R3).
    pose proof (resolves_names _ _ _ R1) as N1. pose proof (resolves_names _ _ _ R3) as N3.
    rewrite map_app in Qc, Hlt, Ql. cbn [map snd] in Qc, Hlt, Ql. rewrite map_app in Qn. cbn [map fst] in Qn.
    assert (Hoc : (old =? c)%nat = false) by (apply Nat.eqb_neq, Hlt, in_elt).
    pose proof (NoDup_remove_2 _ _ _ Qc) as Hold.
    exists (vpre ++ (n, v) :: vpost). intros conn' Hag. rewrite <- Ew. split; cbn.
    + exact Qk.
    + exact Qh.
    + assert (Hfr : forall x, In x (map snd pre ++ map snd post) -> clone_value w' x = clone_value w x).
      { intros x Hx. rewrite Hv, Hwp. assert (x <> c) by (apply Hlt; rewrite in_app_iff in *; cbn; tauto).
        assert (x <> old) by (intros ->; auto). destruct (Nat.eqb_spec x old), (Nat.eqb_spec x c); congruence. }
      apply Forall2_app; [eapply resolves_frame; [|exact R1]; intros x Hx; apply Hfr, in_or_app; auto|].
      constructor; [cbn; split; [reflexivity|]; rewrite Hv, Hwp, Nat.eqb_sym, Hoc, Nat.eqb_refl; reflexivity|].
      eapply resolves_frame; [|exact R3]. intros x Hx. apply Hfr, in_or_app. auto.
    + rewrite map_app. cbn. exact Qn.
    + rewrite map_app. cbn. eapply NoDup_mid; [|exact Qc]. intros K. apply (Hlt c); [|reflexivity]. rewrite in_app_iff in *. cbn. tauto.
    + intros x y Hx. rewrite map_app. cbn. rewrite Hv, Hwp in Hx. destruct (Nat.eqb_spec x old); [discriminate|].
      destruct (Nat.eqb_spec x c) as [->|]; [apply in_elt|]. apply Ql in Hx. rewrite in_app_iff in *. cbn in *. intuition congruence.
    + intros m. specialize (Qt m). rewrite setting_app in *. cbn [setting] in *. destruct (teq n m) eqn:Em.
      * apply teq_eq in Em. subst m. rewrite setting_none by (rewrite <- N1; exact Hpre). reflexivity.
      * exact Qt.
    + exact Hag.
  - pose proof (update_none _ _ _ Eu) as Hn. apply ensures_skip. intros [].
    + apply ensures_ret. cbn. split; [reflexivity|]. split; [reflexivity|]. split; [reflexivity|]. split; [reflexivity|]. split; [reflexivity|].
      exists (vals ++ [(n, v)]). intros conn' Hag. split; cbn.
      * exact Qk.
      * exact Qh.
      * apply Forall2_app; [|constructor; [|constructor]; cbn; split; [reflexivity|]; rewrite Hwp, Nat.eqb_refl; reflexivity].
        eapply resolves_frame; [|exact Qr]. intros x Hx. rewrite Hwp. apply Hlt in Hx. destruct (Nat.eqb_spec x c); congruence.
      * rewrite map_app. cbn. apply (Permutation_NoDup (Permutation_cons_append _ n)). constructor; [|exact Qn].
        rewrite <- (resolves_names _ _ _ Qr). exact Hn.
      * rewrite map_app. cbn. apply (Permutation_NoDup (Permutation_cons_append _ c)). constructor; [|exact Qc].
        intros K. exact (Hlt c K eq_refl).
      * intros x y. rewrite map_app, Hwp, in_app_iff. cbn. destruct (Nat.eqb_spec x c) as [->|]; [auto|]. intros Hx. left. eapply Ql, Hx.
      * intros m. rewrite setting_app. cbn. rewrite <- Qt. destruct (teq n m) eqn:Em.
        -- apply teq_eq in Em. subst m. rewrite Qt, setting_none; [reflexivity|]. rewrite <- (resolves_names _ _ _ Qr). exact Hn.
        -- destruct (setting m latest); reflexivity.
      * exact Hag.
    + apply ensures_blift. intros w' Ef. destruct (free_clone_value _ _ _ Ef) as [Ew Hv]. apply ensures_ret.
      rewrite Ew. cbn. split; [reflexivity|]. split; [reflexivity|]. split; [reflexivity|]. split; [reflexivity|]. split; [reflexivity|].
      split; [reflexivity|]. rewrite <- Ew. split; try assumption.
      * eapply resolves_frame; [|exact Qr]. intros x Hx. rewrite Hv, Hwp. apply Hlt in Hx. destruct (Nat.eqb_spec x c); congruence.
      * intros x y. rewrite Hv, Hwp. destruct (Nat.eqb_spec x c); [discriminate|]. apply Ql.
Qed.

Lemma setoption_ensures d w vals latest conn n v : resting d w vals latest conn ->
  ensures (HTTPAPIEX_SetOption d w n v) (fun '(r, d', w') =>
    exists evs vals', w_trace w' = w_trace w ++ evs /\ w_status w' = w_status w /\ k d' = k d /\ hostName d' = hostName d /\
      let c := (XSetOption n v, XR r, evs) in
      resting d' w' vals' (in_force latest c) (told_after conn evs) /\ told (in_force latest c) conn evs /\
      low_run (low_of d) evs = Some (low_of d') /\ r <> StillRunning /\
      count is_init evs = 0%nat /\ count is_create evs = 0%nat /\ count is_request evs = 0%nat).
Proof.
  intros Q. unfold HTTPAPIEX_SetOption.
  assert (Hnone : forall r w1, r = HTTPAPIEX_INVALID_ARG \/ r = HTTPAPIEX_ERROR -> w_trace w1 = w_trace w -> w_status w1 = w_status w -> resting d w1 vals latest conn ->
    exists evs vals', w_trace w1 = w_trace w ++ evs /\ w_status w1 = w_status w /\ k d = k d /\ hostName d = hostName d /\
      let c := (XSetOption n v, XR r, evs) in
      resting d w1 vals' (in_force latest c) (told_after conn evs) /\ told (in_force latest c) conn evs /\
      low_run (low_of d) evs = Some (low_of d) /\ r <> StillRunning /\
      count is_init evs = 0%nat /\ count is_create evs = 0%nat /\ count is_request evs = 0%nat).
  { intros r w1 Hr Ht Hs Q1. exists [], vals. rewrite app_nil_r. cbn. split; [exact Ht|]. split; [exact Hs|]. split; [reflexivity|]. split; [reflexivity|].
    split; [destruct Hr as [-> | ->], n, v; exact Q1|]. split; [exact I|]. split; [reflexivity|]. split; [destruct Hr as [-> | ->]; discriminate|auto]. }
  destruct n as [n|]; [|apply ensures_ret; apply Hnone; auto]. destruct v as [v|]; [|apply ensures_ret; apply Hnone; auto].
  destruct (cstr_okb n); [|apply ensures_undef]. cbn [negb]. cbn [next_answer].
  set (a := match w_answers w with [] => _ | _ => _ end). match goal with |- context [with_clones ?x _] => set (wn := x) end.
  assert (Qn : resting d wn vals latest conn) by (destruct Q; split; assumption).
  destruct (a_result a); [|apply ensures_ret; apply Hnone; auto..].
  eapply ensures_bind; [exact (create_or_update_ensures d wn vals latest conn n v Qn)|].
  intros [[[] d'] w'] (Ht & Hs & Hk & Hh & Hhost & H); cbn [negb].
  - destruct H as (vals' & H). destruct (httpHandle d') as [h|] eqn:Eh.
    + cbn [next_answer]. set (b := match w_answers w' with [] => _ | _ => _ end).
      assert (K2 : k d = 2%Z) by (apply (q_handle _ _ _ _ _ Q); congruence).
      apply ensures_ret. exists [EOption (Some h) n v (a_result b)], vals'. cbn [w_trace log w_status].
      split; [rewrite Ht; reflexivity|]. split; [exact Hs|]. split; [exact Hk|]. split; [exact Hhost|]. cbv zeta.
      replace (in_force latest _) with (put n v latest) by (cbn; destruct (a_result b); reflexivity). cbn [told told_after].
      split.
      { assert (Hag : agree (put n v latest) (put n v conn)).
        { intros m x. unfold put. cbn. destruct (teq n m); [auto|]. apply (q_agree _ _ _ _ _ Q K2). }
        specialize (H (put n v conn) (fun _ => Hag)). destruct H. split; assumption. }
      split; [exact I|].
      split. { cbn. unfold low_of. rewrite Hk, K2, <- Hh, Eh. cbn. rewrite Nat.eqb_refl. reflexivity. }
      split; [destruct (a_result b); discriminate|]. cbn. auto.
    + assert (K2 : k d <> 2%Z) by (intros K; apply (q_handle _ _ _ _ _ Q) in K; congruence).
      apply ensures_ret. exists [], vals'. rewrite app_nil_r. split; [exact Ht|]. split; [exact Hs|]. split; [exact Hk|]. split; [exact Hhost|]. cbn.
      split; [apply H; intros K; contradiction|]. split; [exact I|]. split; [unfold low_of; rewrite Hk, Eh, <- Hh; reflexivity|]. split; [discriminate|auto].
  - destruct H as [-> H]. apply ensures_ret. apply Hnone; auto.
Qed.

(** * A call, a history *)

Record stepped (latest conn : settings) (d : exdata) (w : world) (op : exop) (r : exret) (d' : exdata) (w' : world) (evs : list event) : Prop := {
  s_trace : w_trace w' = w_trace w ++ evs;
  s_rest : exists vals, resting d' w' vals (in_force latest (op, r, evs)) (told_after conn evs);
  s_told : told (in_force latest (op, r, evs)) conn evs;
  s_low : low_run (low_of d) evs = Some (low_of d');
  s_counts : (count is_init evs <= 1 /\ count is_create evs <= 2 /\ count is_request evs <= 3)%nat;
  s_ended : r <> XR StillRunning;
  s_host : hostName d' = hostName d;
  s_result : match op, r with
    | XExecute type path _ _ status _ _, XR HTTPAPIEX_OK => k d' = 2%Z /\ exists q, last_request evs = Some q /\ succeeded q
    | XExecute type path _ _ status _ _, XR HTTPAPIEX_RECOVERYFAILED => k d' = (-1)%Z /\ failed_so_far evs
    | XExecute type path _ _ status _ _, _ => k d' = k d /\ evs = []
    | _, _ => k d' = k d /\ last_request evs = None
    end;
  s_status : w_status w' = match op with
    | XExecute _ _ _ _ true _ _ => match last_request evs with Some q => a_status (r_answer q) | None => w_status w end
    | _ => w_status w
    end;
  s_args : forall q, In (ERequest q) evs ->
    match op with XExecute type path _ _ _ _ _ => r_type q = type /\ r_path q = match path with Some p => p | None => [] end | _ => False end
}.

Lemma count0 p l : count p l = 0%nat -> forall e, In e l -> p e = false.
Proof.
  unfold count. induction l as [|x l IH]; cbn; [intros _ e []|]. destruct (p x) eqn:E; cbn; [discriminate|]. intros H e [->|K]; [exact E|auto].
Qed.
Lemma no_requests l : count is_request l = 0%nat -> last_request l = None /\ forall q, ~ In (ERequest q) l.
Proof.
  intros H. pose proof (count0 _ _ H) as K. split; [|intros q Hq; apply K in Hq; discriminate].
  clear H. induction l as [|e l IH]; [reflexivity|]. cbn. rewrite IH by (intros x Hx; apply K; right; exact Hx).
  specialize (K e (or_introl eq_refl)). destruct e; [reflexivity..|discriminate].
Qed.

Lemma exstep_ensures fuel d w vals latest conn op : (9 <= fuel)%nat -> resting d w vals latest conn ->
  ensures (exstep fuel (d, w) op) (fun '(r, (d', w')) => exists evs, stepped latest conn d w op r d' w' evs).
Proof.
  intros Hf Q. destruct op as [type path reqh reqc status resh resc|n v|op|op]; cbn [exstep].
  - eapply ensures_bind; [apply (execute_ensures fuel d w vals latest conn type path reqh reqc status resh resc Q)|].
    intros [[r d'] w'] (evs & Ht & Hc & [Hh _] & Hto & Hl & Hb & Hs & Ha & Hq & He). destruct (Hb Hf) as [Hr Hcnt]. specialize (Hq Hr).
    apply ensures_ret. exists evs. assert (Ef : in_force latest (XExecute type path reqh reqc status resh resc, XR r, evs) = latest) by reflexivity.
    split; try assumption.
    + exists vals. rewrite Ef. exact Hq.
    + congruence.
    + destruct r; auto. congruence.
  - eapply ensures_bind; [apply (setoption_ensures d w vals latest conn n v Q)|].
    intros [[r d'] w'] (evs & vals' & Ht & Hs & Hk & Hh & Hq & Hto & Hl & Hr & C1 & C2 & C3). destruct (no_requests _ C3) as [L1 L2].
    apply ensures_ret. exists evs. split; try assumption.
    + exists vals'. exact Hq.
    + rewrite C1, C2, C3. lia.
    + congruence.
    + auto.
  - apply ensures_skip. intros x. apply ensures_ret. exists []. split; cbn; rewrite ?app_nil_r; auto; try lia; try discriminate; try tauto.
    exists vals. destruct Q; split; assumption.
  - apply ensures_skip. intros x. apply ensures_ret. exists []. split; cbn; rewrite ?app_nil_r; auto; try lia; try discriminate; try tauto.
    exists vals. destruct Q; split; assumption.
Qed.

Lemma history_ensures fuel ops : forall d w vals latest conn, (9 <= fuel)%nat -> resting d w vals latest conn ->
  ensures (history fuel (d, w) ops) (fun '(h, (d', w')) =>
    map (fun c => fst (fst c)) h = ops /\
    w_trace w' = w_trace w ++ events h /\ (exists vals', resting d' w' vals' (fold_left in_force h latest) (told_after conn (events h))) /\
    told_all latest conn h /\ low_run (low_of d) (events h) = Some (low_of d') /\ hostName d' = hostName d /\
    (k d' =? 2)%Z = fold_left up_after h (k d =? 2)%Z /\
    Forall (fun c => exists latest0 conn0 d0 w0 d1 w1, stepped latest0 conn0 d0 w0 (fst (fst c)) (snd (fst c)) d1 w1 (snd c)) h).
Proof.
  induction ops as [|op ops IH]; intros d w vals latest conn Hf Q; cbn [history].
  { apply ensures_ret. unfold events. cbn. rewrite app_nil_r. split; [reflexivity|]. split; [reflexivity|]. split; [eauto|]. auto 8. }
  eapply ensures_bind; [apply (exstep_ensures fuel d w vals latest conn op Hf Q)|]. intros [r [d1 w1]] (evs & Hst). pose proof Hst as [Ht (vals1 & Hq) Hto Hl Hcnt Hr Hh Hres _ _].
  cbn [fst snd]. eapply ensures_bind; [apply (IH d1 w1 vals1 _ _ Hf Hq)|]. intros [h [d2 w2]] (I0 & I1 & I2 & I3 & I4 & I5 & I6 & I7).
  apply ensures_ret. cbn [fst snd]. rewrite Ht, skipn_app, skipn_all, Nat.sub_diag. cbn [skipn app].
  unfold events in *. cbn [map concat snd fold_left fst].
  split; [cbn; congruence|]. split; [rewrite I1, Ht, app_assoc; reflexivity|]. split; [rewrite told_after_app; exact I2|].
  split; [split; assumption|]. split; [rewrite low_run_app, Hl; exact I4|]. split; [congruence|]. split; [|constructor; [|exact I7]; exists latest, conn, d, w, d1, w1; exact Hst].
  rewrite I6. f_equal. destruct op; cbn [up_after]; try (destruct Hres as [-> _]; reflexivity).
  destruct r as [[]| |]; try (destruct Hres as [-> _]; reflexivity).
Qed.

(* nothing cloned and not freed *)
Lemma free_options_ensures l : forall w w', NoDup (map snd l) -> free_options l w = Some w' ->
  w' = with_clones w (w_clones w') /\ forall c, clone_value w' c = if existsb (Nat.eqb c) (map snd l) then None else clone_value w c.
Proof.
  induction l as [|[n c] l IH]; intros w w' Hd H; cbn in H.
  - injection H as <-. split; [destruct w; reflexivity|reflexivity].
  - destruct (free_clone w c) as [w1|] eqn:E; [|discriminate]. destruct (free_clone_value _ _ _ E) as [E1 E2].
    inversion Hd; subst. destruct (IH w1 w' ltac:(assumption) H) as [F1 F2]. split.
    + rewrite F1. rewrite E1. destruct w'; reflexivity.
    + intros x. rewrite F2, E2. cbn. destruct (Nat.eqb_spec x c); cbn; [destruct (existsb _ _); reflexivity|reflexivity].
Qed.
Lemma free_options_defined l : forall w vals, NoDup (map snd l) -> resolves w l vals -> free_options l w <> None.
Proof.
  induction l as [|[n c] l IH]; intros w vals Hd Hr; cbn; [discriminate|]. inversion Hr as [|? [m v] ? vals' [E1 E2] Hr']; subst. cbn in *.
  destruct (free_clone w c) as [w1|] eqn:E; [|unfold free_clone in E; rewrite E2 in E; discriminate].
  inversion Hd; subst. apply (IH w1 vals'); [assumption|]. eapply resolves_frame; [|exact Hr']. intros x Hx.
  rewrite (proj2 (free_clone_value _ _ _ E)). destruct (Nat.eqb_spec x c); [congruence|reflexivity].
Qed.
Lemma destroy_ensures d w vals latest conn : resting d w vals latest conn -> forall o,
  exists w' evs, HTTPAPIEX_Destroy d w o = Some (w', o) /\ w_trace w' = w_trace w ++ evs /\ low_run (low_of d) evs = Some Down /\
    count is_init evs = 0%nat /\ count is_create evs = 0%nat /\ count is_request evs = 0%nat /\
    w_headers w' = w_headers w /\ w_buffers w' = w_buffers w /\ w_status w' = w_status w /\ (forall c, clone_value w' c = None).
Proof.
  intros [Qk Qh Qr Qn Qc Ql Qt Qa] o. unfold HTTPAPIEX_Destroy. set (w1 := if (k d =? 2)%Z then _ else _).
  assert (Hc : w_clones w1 = w_clones w) by (unfold w1; destruct (k d =? 2)%Z; reflexivity).
  assert (Hr1 : resolves w1 (savedOptions d) vals) by (eapply resolves_clones; [exact Hc|exact Qr]).
  destruct (free_options (savedOptions d) w1) as [w'|] eqn:E; [|destruct (free_options_defined _ _ _ Qc Hr1 E)].
  destruct (free_options_ensures _ _ _ Qc E) as [E1 E2]. exists w', (if (k d =? 2)%Z then [EClose (httpHandle d); EDeinit] else []).
  cbn [lift]. split; [reflexivity|]. rewrite E1. cbn. unfold w1, low_of. destruct Qk as [K|K]; rewrite K; cbn.
  - rewrite app_nil_r. repeat (split; [reflexivity|]). intros c. change (clone_value (with_clones w (w_clones w')) c) with (clone_value w' c).
    rewrite E2. destruct (existsb (Nat.eqb c) (map snd (savedOptions d))) eqn:X; [reflexivity|]. unfold clone_value. rewrite Hc.
    change (clone_value w c = None). destruct (clone_value w c) as [v|] eqn:V; [|reflexivity]. apply Ql in V.
    assert (existsb (Nat.eqb c) (map snd (savedOptions d)) = true) by (apply existsb_exists; exists c; split; [exact V|apply Nat.eqb_refl]). congruence.
  - rewrite <- app_assoc. split; [reflexivity|]. split.
    { destruct (httpHandle d) as [h|] eqn:Eh; [|exfalso; apply (proj1 Qh K); exact Eh]. rewrite Nat.eqb_refl. reflexivity. }
    repeat (split; [reflexivity|]). intros c. change (clone_value (with_clones _ (w_clones w')) c) with (clone_value w' c).
    rewrite E2. destruct (existsb (Nat.eqb c) (map snd (savedOptions d))) eqn:X; [reflexivity|]. unfold clone_value. rewrite Hc.
    change (clone_value w c = None). destruct (clone_value w c) as [v|] eqn:V; [|reflexivity]. apply Ql in V.
    assert (existsb (Nat.eqb c) (map snd (savedOptions d)) = true) by (apply existsb_exists; exists c; split; [exact V|apply Nat.eqb_refl]). congruence.
Qed.

Lemma create_ensures host : ensures (HTTPAPIEX_Create host) (fun x => match x with
  | Some d => host = Some (hostName d) /\ cstr_ok (hostName d) /\ k d = (-1)%Z /\ httpHandle d = None /\ savedOptions d = []
  | None => True end).
Proof.
  unfold HTTPAPIEX_Create. destruct host as [t|]; [|apply ensures_ret; exact I]. destruct (cstr_okb t) eqn:E; [|apply ensures_undef].
  apply ensures_skip. intros []; apply ensures_ret; [|exact I]. cbn. repeat split. apply cstr_okb_ok. exact E.
Qed.
Lemma start_resting d hs bs st ans : k d = (-1)%Z -> httpHandle d = None -> savedOptions d = [] -> resting d (start hs bs st ans) [] [] [].
Proof.
  intros H1 H2 H3. split; rewrite ?H3; cbn; auto; try constructor.
  - rewrite H1. discriminate.
  - rewrite H2. congruence.
  - intros c v H. unfold clone_value in H. cbn in H. destruct c; discriminate.
  - rewrite H1. discriminate.
Qed.
