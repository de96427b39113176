(* Proofs about the model of src/httpapiex.c: the loop and the calls it makes. *)
From Verif Require Import Base Mem Refine Map_Model Map_Spec Map_Proofs HttpHeaders_Model Buffer_Model Strings_Model HttpApiEx_Model HttpApiEx_Spec.
Open Scope N_scope.

(** * What holds when a computation returns *)

Definition ensures {A} (m : M A) (Q : A -> Prop) : Prop := forall o a o', m o = Some (a, o') -> Q a.
Lemma ensures_ret {A} (a : A) (Q : A -> Prop) : Q a -> ensures (ret a) Q.
Proof. intros H o b o' E. injection E as <- _. exact H. Qed.
Lemma ensures_lift {A} (x : option A) (Q : A -> Prop) : (forall a, x = Some a -> Q a) -> ensures (lift x) Q.
Proof. intros H o b o' E. unfold lift in E. destruct x; [|discriminate]. injection E as <- _. auto. Qed.
Lemma ensures_bind {A B} (m : M A) (f : A -> M B) (P : A -> Prop) (Q : B -> Prop) :
  ensures m P -> (forall a, P a -> ensures (f a) Q) -> ensures (bind m f) Q.
Proof.
  intros Hm Hf o b o' E. unfold bind in E. destruct (m o) as [[a o1]|] eqn:Em; [|discriminate].
  exact (Hf a (Hm _ _ _ Em) _ _ _ E).
Qed.
Lemma ensures_any {A} (m : M A) : ensures m (fun _ => True).
Proof. intros o a o' _. exact I. Qed.
Lemma ensures_weaken {A} (m : M A) (P Q : A -> Prop) : ensures m P -> (forall a, P a -> Q a) -> ensures m Q.
Proof. intros H K o a o' E. apply K. exact (H _ _ _ E). Qed.
Lemma ensures_undef {A} (Q : A -> Prop) : ensures undef Q.
Proof. intros o a o' E. discriminate. Qed.
(* skip a step of which nothing needs to be known *)
Lemma ensures_skip {A B} (m : M A) (f : A -> M B) (Q : B -> Prop) : (forall a, ensures (f a) Q) -> ensures (bind m f) Q.
Proof. intros H. eapply ensures_bind; [apply ensures_any|]. intros a _. apply H. Qed.
Lemma ensures_blift {A B} (x : option A) (f : A -> M B) (Q : B -> Prop) : (forall a, x = Some a -> ensures (f a) Q) -> ensures (bind (lift x) f) Q.
Proof. intros H. eapply ensures_bind; [apply ensures_lift; intros a E; exact E|]. exact H. Qed.

Lemma Forall2_imp {A B} (P Q : A -> B -> Prop) l1 l2 : (forall x y, P x y -> Q x y) -> Forall2 P l1 l2 -> Forall2 Q l1 l2.
Proof. intros H. induction 1; constructor; auto. Qed.

(** * Traces *)

Lemma low_run_app s a b : low_run s (a ++ b) = match low_run s a with Some s' => low_run s' b | None => None end.
Proof. revert s. induction a as [|e a IH]; intros s; [reflexivity|]. cbn. destruct (low_step s e); [apply IH|reflexivity]. Qed.
Lemma told_app l c a b : told l c (a ++ b) <-> told l c a /\ told l (told_after c a) b.
Proof.
  revert c. induction a as [|e a IH]; intros c; [cbn; tauto|].
  destruct e; cbn [app told told_after]; rewrite ?IH; tauto.
Qed.
Lemma told_after_app c a b : told_after c (a ++ b) = told_after (told_after c a) b.
Proof. revert c. induction a as [|e a IH]; intros c; [reflexivity|]. destruct e; cbn; apply IH. Qed.
Lemma last_request_app a b : last_request (a ++ b) = match last_request b with Some q => Some q | None => last_request a end.
Proof.
  induction a as [|e a IH]; [cbn; destruct (last_request b); reflexivity|]. cbn. rewrite IH. destruct (last_request b); [reflexivity|].
  destruct (last_request a); reflexivity.
Qed.
Lemma count_app p a b : count p (a ++ b) = (count p a + count p b)%nat.
Proof. unfold count. rewrite filter_app, app_length. reflexivity. Qed.

(** * Options *)

Definition resolves (w : world) (saved : list (text * nat)) (vals : settings) : Prop :=
  Forall2 (fun x y => fst x = fst y /\ clone_value w (snd x) = Some (snd y)) saved vals.

(* the events of replaying *)
Inductive replayed (h : option nat) : settings -> list event -> Prop :=
| rep_nil : replayed h [] []
| rep_cons n v r vals evs : replayed h vals evs -> replayed h ((n, v) :: vals) (EOption h n v r :: evs).

Lemma clone_value_log w e c : clone_value (log w e) c = clone_value w c.
Proof. reflexivity. Qed.
Lemma clone_value_next w c : clone_value (snd (next_answer w)) c = clone_value w c.
Proof. reflexivity. Qed.

Lemma replay_ensures h saved : forall w vals, resolves w saved vals ->
  ensures (replay h saved w) (fun w' => exists evs, replayed h vals evs /\ w_trace w' = w_trace w ++ evs /\ w_clones w' = w_clones w /\
    w_status w' = w_status w /\ w_headers w' = w_headers w /\ w_buffers w' = w_buffers w).
Proof.
  induction saved as [|[n c] saved IH]; intros w vals Hr; inversion Hr as [|? [n' v] ? vals' [Hn Hv] Hr']; subst; cbn [replay].
  - apply ensures_ret. exists []. split; [constructor|]. rewrite app_nil_r. auto 6.
  - cbn in Hn, Hv. subst n'. apply ensures_blift. intros v' Ev. rewrite Hv in Ev. injection Ev as <-. cbn [next_answer].
    match goal with |- ensures (replay h saved ?w1) _ => set (w1' := w1) end.
    eapply ensures_weaken; [apply (IH w1' vals')|].
    + eapply Forall2_imp; [|exact Hr']. intros [] []. cbn. auto.
    + intros w' (evs & H1 & H2 & H3). eexists. split; [constructor; exact H1|]. rewrite H2. cbn.
      split; [rewrite <- app_assoc; reflexivity|exact H3].
Qed.

Lemma replayed_low h vals evs : replayed (Some h) vals evs -> low_run (Up (Some h)) evs = Some (Up (Some h)).
Proof. induction 1; [reflexivity|]. cbn. rewrite Nat.eqb_refl. assumption. Qed.
Lemma replayed_told h vals evs latest c : replayed h vals evs -> told latest c evs.
Proof. intros H. revert c. induction H; intros c; cbn; auto. Qed.
Lemma replayed_after h vals evs c n : replayed h vals evs -> NoDup (map fst vals) ->
  setting n (told_after c evs) = match setting n vals with Some v => Some v | None => setting n c end.
Proof.
  intros H. revert c. induction H as [|m v r vals evs _ IH]; intros c Hd; [reflexivity|]. cbn in Hd |- *. inversion Hd as [|? ? Hm Hd']; subst.
  rewrite IH by exact Hd'. unfold put. cbn [setting]. destruct (teq m n) eqn:E; [|destruct (setting n vals); reflexivity].
  apply teq_eq in E. subst m. destruct (setting n vals) eqn:Es; [|reflexivity]. exfalso. apply Hm. clear - Es. induction vals as [|[m x] t IH]; [discriminate|].
  cbn in *. destruct (teq m n) eqn:E; [apply teq_eq in E; left; exact E|right; auto].
Qed.
Lemma replayed_requests h vals evs : replayed h vals evs -> last_request evs = None /\ count is_init evs = 0%nat /\ count is_create evs = 0%nat /\ count is_request evs = 0%nat.
Proof. induction 1; cbn; auto. destruct IHreplayed as (-> & Hc). auto. Qed.
Lemma replayed_in h vals evs q : replayed h vals evs -> ~ In (ERequest q) evs.
Proof. induction 1; cbn; [auto|]. intros [H1|H1]; [discriminate|auto]. Qed.

(** * One round of the loop *)

(* The calls of one attempt.  I: what is known of the objects. *)
Section Attempt.
  Variable I : list event -> hstate -> buffers -> Prop.      (* given the calls made so far *)
  Variable u : used.
  Variable vals : settings.

  (* the arguments of a request *)
  Definition sent (q : request) : Prop :=
    r_type q = u_type u /\ r_path q = u_path u /\ r_headers q = u_reqh u /\
    exists t bs b, I t (r_state q) bs /\ (exists i, u_reqc u = Some i /\ getbuf bs i = Some b) /\
      content_of b = Some (r_content q) /\ r_length q = size b.

  Inductive made (d : exdata) : bool -> exdata -> list event -> Prop :=
  | made_init r : k d = 0%Z -> made d (low_ok r) d [EInit r]
  | made_noconn : k d = 1%Z -> made d false (set_handle d None) [ECreate (hostName d) None]
  | made_conn h evs : k d = 1%Z -> replayed (Some h) vals evs ->
      made d true (set_handle d (Some h)) (ECreate (hostName d) (Some h) :: evs)
  | made_request q : k d = 2%Z -> r_conn q = httpHandle d -> sent q ->
      made d (low_ok (a_result (r_answer q))) d [ERequest q].

  Definition status_after (s : N) (evs : list event) : N :=
    if u_status u then match last_request evs with Some q => a_status (r_answer q) | None => s end else s.

  Hypothesis Hquiet : forall t e hs bs, is_request e = false -> I t hs bs -> I (t ++ [e]) hs bs.
  Hypothesis Hkeep : forall a w, I (w_trace w) (w_headers w) (w_buffers w) ->
    ensures (respond a w (u_status u) (u_resh u) (u_resc u)) (fun '(stored, w') =>
      forall q, r_answer q = a -> r_stored q = stored -> I (w_trace w ++ [ERequest q]) (w_headers w') (w_buffers w')).
  Hypothesis Hreqc : u_reqc u <> None.

  Lemma respond_frame a w ws rh rb : ensures (respond a w ws rh rb) (fun '(_, w') =>
    w_trace w' = w_trace w /\ w_clones w' = w_clones w /\ w_status w' = if ws then a_status a else w_status w).
  Proof.
    unfold respond. apply ensures_skip. intros hs. apply ensures_skip. intros [r bs]. apply ensures_ret.
    destruct ws; cbn; auto.
  Qed.

  Lemma ensures_and {A} (m : M A) P Q : ensures m P -> ensures m Q -> ensures m (fun a => P a /\ Q a).
  Proof. intros H K o a o' E. split; [exact (H _ _ _ E)|exact (K _ _ _ E)]. Qed.

  Lemma quiet_all evs : forall t hs bs, (forall e, In e evs -> is_request e = false) -> I t hs bs -> I (t ++ evs) hs bs.
  Proof using Hquiet.
    induction evs as [|e evs IH]; intros t hs bs Hq Hi; [rewrite app_nil_r; exact Hi|].
    replace (t ++ e :: evs) with ((t ++ [e]) ++ evs) by (rewrite <- app_assoc; reflexivity).
    apply IH; [intros x Hx; apply Hq; right; exact Hx|]. apply Hquiet; [apply Hq; left; reflexivity|exact Hi].
  Qed.
  Lemma replayed_quiet h vs evs e : replayed h vs evs -> In e evs -> is_request e = false.
  Proof using. clear. induction 1; cbn; [intros []|]. intros [<-|H1]; auto. Qed.

  Lemma attempt_ensures d w : (k d = 0 \/ k d = 1 \/ k d = 2)%Z -> resolves w (savedOptions d) vals -> I (w_trace w) (w_headers w) (w_buffers w) ->
    ensures (attempt u d w) (fun '(ok, d', w') => exists evs, made d ok d' evs /\
      w_trace w' = w_trace w ++ evs /\ w_clones w' = w_clones w /\ w_status w' = status_after (w_status w) evs /\
      I (w_trace w') (w_headers w') (w_buffers w')).
  Proof.
    intros Hk Hr Hi. unfold attempt. destruct Hk as [Hk|[Hk|Hk]]; rewrite Hk; cbn [next_answer].
    - apply ensures_ret. eexists. split; [apply made_init; exact Hk|]. cbn. unfold status_after. cbn.
      destruct (u_status u); repeat (split; [reflexivity|]); apply Hquiet; auto.
    - set (a := match w_answers w with [] => _ | _ => _ end). match goal with |- context [log ?x _] => set (wn := x) end.
      destruct (a_handle a) as [h|].
      + eapply ensures_bind; [apply (replay_ensures (Some h) (savedOptions d) (log wn (ECreate (hostName d) (Some h))) vals Hr)|].
        intros w' (evs & Hev & Ht & Hc & Hs & Hh & Hb). apply ensures_ret. eexists. split; [apply made_conn; [exact Hk|exact Hev]|].
        rewrite Ht, Hc, Hs, Hh, Hb. cbn. rewrite <- app_assoc. unfold status_after. cbn. destruct (replayed_requests _ _ _ Hev) as (-> & _).
        split; [reflexivity|]. split; [reflexivity|]. split; [destruct (u_status u); reflexivity|].
        apply quiet_all; [|exact Hi]. intros e. cbn. intros [<-|He]; [reflexivity|]. eapply replayed_quiet; eassumption.
      + apply ensures_ret. eexists. split; [apply made_noconn; exact Hk|]. cbn. unfold status_after. cbn.
        destruct (u_status u); repeat (split; [reflexivity|]); apply Hquiet; auto.
    - set (a := match w_answers w with [] => _ | _ => _ end). destruct (u_reqc u) as [i|] eqn:Ei; [|congruence]. unfold BUFFER_u_char, BUFFER_length.
      eapply ensures_bind with (P := fun x => exists b c, getbuf (w_buffers w) i = Some b /\ content_of b = Some c /\ x = (BRP c, w_buffers w)).
      { apply ensures_blift. intros b Eb. apply ensures_blift. intros c Ec. apply ensures_ret. eauto. }
      intros x (b & c & Eb & Ec & ->). cbn [fst]. apply ensures_blift. intros c' E. injection E as <-.
      eapply ensures_bind with (P := fun x => x = (BRN (size b), w_buffers w)).
      { rewrite Eb. apply ensures_blift. intros b' E. injection E as <-. apply ensures_ret. reflexivity. }
      intros x ->. cbn [fst]. apply ensures_blift. intros len E. injection E as <-.
      match goal with |- context [respond a ?x] => set (wn := x) end.
      eapply ensures_bind; [apply ensures_and; [apply respond_frame|apply (Hkeep a wn); exact Hi]|].
      intros [stored w'] ((Ht & Hc & Hs) & Hi'). match goal with |- context [ERequest ?q] => set (q0 := q) end. apply ensures_ret. exists [ERequest q0]. split.
      + change (low_ok (a_result a)) with (low_ok (a_result (r_answer q0))).
        apply made_request; [exact Hk|reflexivity|]. repeat split. exists (w_trace w), (w_buffers w), b. cbn. split; [exact Hi|]. eauto.
      + cbn [log w_trace w_clones w_status w_headers w_buffers]. rewrite Ht, Hc, Hs. cbn. unfold status_after. cbn.
        repeat (split; [reflexivity|]). apply (Hi' q0); reflexivity.
  Qed.

  (* the calls of going back *)
  Definition back_events (d : exdata) : list event :=
    match (k d - 1)%Z with 0%Z => [EDeinit] | 1%Z => [EClose (httpHandle d)] | _ => [] end.
  Definition back_data (d : exdata) : exdata :=
    match (k d - 1)%Z with 1%Z => set_handle (set_k d 1) None | x => set_k d x end.
  Definition verdict (d : exdata) : option ex_result := if (0 <=? k d)%Z then None else Some HTTPAPIEX_RECOVERYFAILED.

  Lemma step_back_events d w : exists w', step_back d w = (back_data d, w') /\ w_trace w' = w_trace w ++ back_events d /\
    w_clones w' = w_clones w /\ w_status w' = w_status w /\ w_headers w' = w_headers w /\ w_buffers w' = w_buffers w.
  Proof.
    unfold step_back, back_data, back_events. cbn [k set_k].
    destruct (k d - 1)%Z as [|[]|]; eexists; (split; [reflexivity|]); cbn; rewrite ?app_nil_r; auto 6.
  Qed.

  (* The outcomes of a round in state k, st: what happens to k, to st, to the data, and the calls made *)
  Inductive rounded (st : list bool) (d : exdata) : option ex_result -> list bool -> exdata -> list event -> Prop :=
  | ro_tried st' : st_get st (k d) = Some true -> st_set st (k d) false = Some st' ->
      rounded st d (verdict (back_data d)) st' (back_data d) (back_events d)
  | ro_failed d1 evs st' : st_get st (k d) = Some false -> made d false d1 evs -> st_set st (k d1) false = Some st' ->
      rounded st d (verdict (back_data d1)) st' (back_data d1) (evs ++ back_events d1)
  | ro_next d1 evs st1 st2 : st_get st (k d) = Some false -> made d true d1 evs -> k d1 <> 2%Z ->
      st_set st (k d1) true = Some st1 -> st_set st1 (k d1 + 1) false = Some st2 ->
      rounded st d (verdict (set_k d1 (k d1 + 1))) st2 (set_k d1 (k d1 + 1)) evs
  | ro_done d1 evs : st_get st (k d) = Some false -> made d true d1 evs -> k d1 = 2%Z ->
      rounded st d (Some HTTPAPIEX_OK) st d1 evs.

  Lemma status_after_app s a b : status_after (status_after s a) b = status_after s (a ++ b).
  Proof using u. clear Hquiet Hkeep. unfold status_after. rewrite last_request_app. destruct (u_status u), (last_request b); reflexivity. Qed.
  Lemma status_back s d : status_after s (back_events d) = s.
  Proof using u. clear Hquiet Hkeep. unfold status_after, back_events. destruct (k d - 1)%Z as [|[]|]; cbn; destruct (u_status u); reflexivity. Qed.

  Lemma back_quiet d e : In e (back_events d) -> is_request e = false.
  Proof using. clear. unfold back_events. destruct (k d - 1)%Z as [|[]|]; cbn; intros H; destruct H as [<-|[]] || destruct H; reflexivity. Qed.

  Lemma round_ensures st d w : (k d = 0 \/ k d = 1 \/ k d = 2)%Z -> resolves w (savedOptions d) vals -> I (w_trace w) (w_headers w) (w_buffers w) ->
    ensures (round u st d w) (fun '(r, st', d', w') => exists evs, rounded st d r st' d' evs /\
      w_trace w' = w_trace w ++ evs /\ w_clones w' = w_clones w /\ w_status w' = status_after (w_status w) evs /\
      I (w_trace w') (w_headers w') (w_buffers w')).
  Proof.
    intros Hk Hr Hi. unfold round. replace (2 <? k d)%Z with false by lia.
    apply ensures_blift. intros [] Et.
    - rewrite bind_ret. cbv beta iota.
      apply ensures_blift. intros st' Es. destruct (step_back_events d w) as (w' & -> & Ht & Hc & Hs & Hh & Hb).
      apply ensures_ret. exists (back_events d). split; [apply ro_tried; assumption|].
      rewrite Ht, Hc, Hs, Hh, Hb, status_back. repeat (split; [reflexivity|]). apply quiet_all; [intros e; apply back_quiet|exact Hi].
    - eapply ensures_bind; [apply attempt_ensures; eassumption|]. intros [[ok d1] w1] (evs & Hm & Ht & Hc & Hs & Hi1).
      destruct ok.
      + destruct (Z.eqb_spec (k d1) 2) as [E2|E2].
        * apply ensures_ret. exists evs. split; [apply ro_done; assumption|auto].
        * apply ensures_blift. intros st1 E1. apply ensures_blift. intros st2 E3. apply ensures_ret.
          exists evs. split; [eapply ro_next; eassumption|auto].
      + apply ensures_blift. intros st' Es. destruct (step_back_events d1 w1) as (w' & -> & Ht' & Hc' & Hs' & Hh & Hb).
        apply ensures_ret. exists (evs ++ back_events d1). split; [eapply ro_failed; eassumption|].
        rewrite Ht', Hc', Hs', Hh, Hb, Hc, Hs, <- status_after_app, status_back. rewrite Ht, app_assoc. rewrite Ht in Hi1.
        repeat (split; [reflexivity|]). apply quiet_all; [intros e; apply back_quiet|exact Hi1].
  Qed.
End Attempt.

(** * The whole loop *)

(* where the layer below is, by k *)
Definition low_of (d : exdata) : low_state :=
  if (k d =? 2)%Z then Up (httpHandle d) else if (k d =? 1)%Z then Up None else Down.
(* the handle is set exactly when k is 2 *)
Definition handle_ok (d : exdata) : Prop := k d = 2%Z <-> httpHandle d <> None.
Definition agree (latest conn : settings) : Prop := forall n v, setting n latest = Some v -> setting n conn = Some v.

Section Loop.
  Variable I : list event -> hstate -> buffers -> Prop.
  Variable u : used.
  Variable vals latest : settings.     (* the saved options; the settings in force *)
  Hypothesis Hnodup : NoDup (map fst vals).
  Hypothesis Hlatest : forall n, setting n latest = setting n vals.
  Variable s0 : low_state.             (* before the loop: the layer below, what the connection was told *)
  Variable c0 : settings.
  Variable d0 : exdata.
  Hypothesis Hquiet : forall t e hs bs, is_request e = false -> I t hs bs -> I (t ++ [e]) hs bs.
  Hypothesis Hkeep : forall a w, I (w_trace w) (w_headers w) (w_buffers w) ->
    ensures (respond a w (u_status u) (u_resh u) (u_resc u)) (fun '(stored, w') =>
      forall q, r_answer q = a -> r_stored q = stored -> I (w_trace w ++ [ERequest q]) (w_headers w') (w_buffers w')).
  Hypothesis Hreqc : u_reqc u <> None.

  Definition same_data (d : exdata) : Prop := hostName d = hostName d0 /\ savedOptions d = savedOptions d0.
  (* in the loop: every request failed so far *)
  Record inv (d : exdata) (seg : list event) : Prop := {
    i_low : low_run s0 seg = Some (low_of d);
    i_handle : handle_ok d;
    i_same : same_data d;
    i_told : told latest c0 seg;
    i_agree : k d = 2%Z -> agree latest (told_after c0 seg);
    i_sent : forall q, In (ERequest q) seg -> sent I u q
  }.
  Definition failed_so_far (seg : list event) : Prop := forall q, In (ERequest q) seg -> ~ succeeded q.

  Lemma inv_back d seg : inv d seg -> (k d = 0 \/ k d = 1 \/ k d = 2)%Z ->
    inv (back_data d) (seg ++ back_events d) /\ k (back_data d) = (k d - 1)%Z.
  Proof.
    intros [Il Ih [Is1 Is2] It Ia Iq] Hk.
    assert (Hq : forall q, In (ERequest q) (seg ++ back_events d) -> In (ERequest q) seg).
    { intros q. rewrite in_app_iff. unfold back_events. destruct (k d - 1)%Z as [|[]|]; cbn; intuition discriminate. }
    unfold back_data, back_events in *. destruct Hk as [Hk|[Hk|Hk]]; unfold handle_ok, low_of in *; rewrite Hk in *; cbn in *.
    - split; [|reflexivity]. rewrite app_nil_r in *. split; auto; try (split; assumption); cbn; [unfold handle_ok; cbn; split; [discriminate|]; intros H; apply Ih in H; discriminate|discriminate].
    - split; [|reflexivity]. split; cbn; try (split; assumption).
      + rewrite low_run_app, Il. reflexivity.
      + unfold handle_ok. cbn. split; [discriminate|]. intros H. apply Ih in H. discriminate.
      + apply told_app. split; [exact It|exact Logic.I].
      + discriminate.
      + intros q H. apply Iq, Hq, H.
    - split; [|reflexivity]. split; cbn; try (split; assumption).
      + rewrite low_run_app, Il. cbn. destruct (httpHandle d) as [h|] eqn:E; [|exfalso; apply (proj1 Ih eq_refl); reflexivity].
        rewrite Nat.eqb_refl. reflexivity.
      + unfold handle_ok. cbn. split; [discriminate|]. intros H. congruence.
      + apply told_app. split; [exact It|exact Logic.I].
      + discriminate.
      + intros q H. apply Iq, Hq, H.
  Qed.
  Lemma failed_back d seg : failed_so_far seg -> failed_so_far (seg ++ back_events d).
  Proof.
    intros H q. rewrite in_app_iff. intros [K|K]; [exact (H q K)|]. exfalso. unfold back_events in K.
    destruct (k d - 1)%Z as [|[]|]; cbn in K; intuition discriminate.
  Qed.

  (* a failed attempt leaves things as they were; a good one moves on *)
  Lemma inv_failed d d1 seg evs : inv d seg -> made I u vals d false d1 evs -> failed_so_far seg ->
    inv d1 (seg ++ evs) /\ k d1 = k d /\ failed_so_far (seg ++ evs).
  Proof.
    intros [Il Ih [Is1 Is2] It Ia Iq] Hm Hf. inversion Hm as [r Hk E1 E2 E3|Hk E1 E2|? ? Hk|q Hk Hc Hs E1 E2 E3]; subst; unfold low_of, handle_ok in *; rewrite Hk in *; cbn in *.
    - split; [split; cbn; try (split; assumption)|split; [first [exact Hk|reflexivity]|]].
      + rewrite low_run_app, Il. unfold low_of. rewrite Hk. destruct r; [discriminate E1|reflexivity..].
      + unfold handle_ok. rewrite Hk. exact Ih.
      + apply told_app. split; [exact It|exact Logic.I].
      + rewrite Hk. discriminate.
      + intros q. rewrite in_app_iff. cbn. intros [H|[H|[]]]; [auto|discriminate].
      + intros q. rewrite in_app_iff. cbn. intros [H|[H|[]]]; [exact (Hf q H)|discriminate].
    - split; [split; cbn; try (split; assumption)|split; [first [exact Hk|reflexivity]|]].
      + rewrite low_run_app, Il. unfold low_of. cbn. rewrite Hk. reflexivity.
      + unfold handle_ok. cbn. rewrite Hk. split; [discriminate|congruence].
      + apply told_app. split; [exact It|exact Logic.I].
      + rewrite Hk. discriminate.
      + intros q. rewrite in_app_iff. cbn. intros [H|[H|[]]]; [auto|discriminate].
      + intros q. rewrite in_app_iff. cbn. intros [H|[H|[]]]; [exact (Hf q H)|discriminate].
    - assert (Hn : ~ succeeded q) by (unfold succeeded; intros H; rewrite H in E1; discriminate).
      split; [split; cbn; try (split; assumption)|split; [reflexivity|]].
      + rewrite low_run_app, Il. unfold low_of. rewrite Hk. cbn. destruct (httpHandle d1) as [h|] eqn:E; [|exfalso; apply (proj1 Ih eq_refl); reflexivity].
        rewrite Hc, Nat.eqb_refl. reflexivity.
      + unfold handle_ok. rewrite Hk. exact Ih.
      + apply told_app. split; [exact It|]. cbn. split; [apply Ia; reflexivity|exact Logic.I].
      + intros _. rewrite told_after_app. cbn. apply Ia. reflexivity.
      + intros q'. rewrite in_app_iff. cbn. intros [H|[H|[]]]; [auto|]. injection H as <-. exact Hs.
      + intros q'. rewrite in_app_iff. cbn. intros [H|[H|[]]]; [exact (Hf q' H)|]. injection H as <-. exact Hn.
  Qed.

  Lemma inv_next d d1 seg evs : inv d seg -> made I u vals d true d1 evs -> k d1 <> 2%Z -> failed_so_far seg ->
    inv (set_k d1 (k d1 + 1)) (seg ++ evs) /\ k d1 = k d /\ failed_so_far (seg ++ evs).
  Proof.
    intros [Il Ih [Is1 Is2] It Ia Iq] Hm H2 Hf. inversion Hm as [r Hk E1 E2 E3|Hk|h evs' Hk Hr E1 E2|q Hk Hc Hs E1 E2 E3]; subst; unfold low_of, handle_ok in *; rewrite Hk in *; cbn in *; [| |congruence].
    - split; [split; cbn; try (split; assumption)|split; [first [exact Hk|reflexivity]|]].
      + rewrite low_run_app, Il. unfold low_of. cbn. rewrite ?Hk. destruct r; [reflexivity|discriminate E1..].
      + unfold handle_ok. cbn. rewrite ?Hk. cbn. split; [discriminate|]. intros H. apply Ih in H. discriminate.
      + apply told_app. split; [exact It|exact Logic.I].
      + rewrite ?Hk. discriminate.
      + intros q. rewrite in_app_iff. cbn. intros [H|[H|[]]]; [auto|discriminate].
      + intros q. rewrite in_app_iff. cbn. intros [H|[H|[]]]; [exact (Hf q H)|discriminate].
    - assert (Hq : forall q, In (ERequest q) (seg ++ ECreate (hostName d) (Some h) :: evs') -> In (ERequest q) seg).
      { intros q. rewrite in_app_iff. intros [H|[H|H]]; [exact H|discriminate|]. exfalso. exact (replayed_in _ _ _ _ Hr H). }
      split; [split; cbn; try (split; assumption)|split; [first [exact Hk|reflexivity]|]].
      + rewrite low_run_app, Il. unfold low_of. cbn. rewrite ?Hk. cbn. apply (replayed_low _ _ _ Hr).
      + unfold handle_ok. cbn. rewrite ?Hk. split; [discriminate|reflexivity].
      + apply told_app. split; [exact It|]. cbn. eapply replayed_told, Hr.
      + intros _ n v Hn. rewrite told_after_app. cbn. rewrite (replayed_after _ _ _ _ _ Hr Hnodup). rewrite Hlatest in Hn. rewrite Hn. reflexivity.
      + intros q H. apply Iq, Hq, H.
      + intros q H. exact (Hf q (Hq q H)).
  Qed.

  Lemma inv_done d d1 seg evs : inv d seg -> made I u vals d true d1 evs -> k d1 = 2%Z ->
    inv d1 (seg ++ evs) /\ exists q, last_request (seg ++ evs) = Some q /\ succeeded q.
  Proof.
    intros [Il Ih [Is1 Is2] It Ia Iq] Hm H2. inversion Hm as [r Hk E1 E2 E3|Hk|h evs' Hk Hr E1 E2|q Hk Hc Hs E1 E2 E3]; subst; unfold low_of, handle_ok in *; rewrite Hk in *; cbn in *; try congruence.
    split; [split; cbn; try (split; assumption)|].
    + rewrite low_run_app, Il. unfold low_of. rewrite Hk. cbn. destruct (httpHandle d1) as [h|] eqn:E; [|exfalso; apply (proj1 Ih eq_refl); reflexivity].
      rewrite Hc, Nat.eqb_refl. reflexivity.
    + unfold handle_ok. rewrite Hk. exact Ih.
    + apply told_app. split; [exact It|]. cbn. split; [apply Ia; reflexivity|exact Logic.I].
    + intros _. rewrite told_after_app. cbn. apply Ia. reflexivity.
    + intros q'. rewrite in_app_iff. cbn. intros [H|[H|[]]]; [auto|]. injection H as <-. exact Hs.
    + exists q. rewrite last_request_app. cbn. split; [reflexivity|]. unfold succeeded. destruct (a_result (r_answer q)); [reflexivity|discriminate E1..].
  Qed.

  (* how the loop ends *)
  Definition ended (r : ex_result) (d : exdata) (seg : list event) : Prop :=
    inv d seg /\
    match r with
    | HTTPAPIEX_OK => k d = 2%Z /\ exists q, last_request seg = Some q /\ succeeded q
    | HTTPAPIEX_RECOVERYFAILED => k d = (-1)%Z /\ failed_so_far seg
    | StillRunning => True
    | _ => False
    end.

  Lemma resolves_clones w w' saved vs : w_clones w' = w_clones w -> resolves w saved vs -> resolves w' saved vs.
  Proof. intros E. apply Forall2_imp. intros [n c] [m v]. unfold clone_value. cbn. rewrite E. auto. Qed.

  Lemma sequence_ensures fuel : forall st d w seg, inv d seg -> failed_so_far seg -> (k d = 0 \/ k d = 1 \/ k d = 2)%Z ->
    resolves w (savedOptions d0) vals -> I (w_trace w) (w_headers w) (w_buffers w) ->
    ensures (sequence fuel u st d w) (fun '(r, d', w') => exists evs, ended r d' (seg ++ evs) /\
      w_trace w' = w_trace w ++ evs /\ w_clones w' = w_clones w /\ w_status w' = status_after u (w_status w) evs /\ I (w_trace w') (w_headers w') (w_buffers w')).
  Proof.
    induction fuel as [|fuel IH]; intros st d w seg Hi Hf Hk Hr HI; cbn [sequence].
    { apply ensures_ret. exists []. rewrite !app_nil_r. split; [split; [exact Hi|exact Logic.I]|]. unfold status_after. destruct (u_status u); auto. }
    eapply ensures_bind; [apply (round_ensures I u vals Hquiet Hkeep Hreqc); [exact Hk|rewrite (proj2 (i_same _ _ Hi)); exact Hr|exact HI]|].
    intros [[[r st'] d'] w'] (evs & Hro & Ht & Hc & Hs & HI').
    assert (Hend : forall r, r <> StillRunning -> ended r d' (seg ++ evs) -> ensures (ret (r, d', w')) (fun '(r, d', w') => exists evs, ended r d' (seg ++ evs) /\
      w_trace w' = w_trace w ++ evs /\ w_clones w' = w_clones w /\ w_status w' = status_after u (w_status w) evs /\ I (w_trace w') (w_headers w') (w_buffers w'))).
    { intros r0 _ He. apply ensures_ret. exists evs. auto. }
    assert (Hgo : inv d' (seg ++ evs) -> failed_so_far (seg ++ evs) -> (k d' = 0 \/ k d' = 1 \/ k d' = 2 \/ k d' = -1)%Z -> r = verdict d' ->
      ensures (match r with Some r0 => ret (r0, d', w') | None => sequence fuel u st' d' w' end) (fun '(r, d', w') => exists evs, ended r d' (seg ++ evs) /\
      w_trace w' = w_trace w ++ evs /\ w_clones w' = w_clones w /\ w_status w' = status_after u (w_status w) evs /\ I (w_trace w') (w_headers w') (w_buffers w'))).
    { intros Hi' Hf' Hk' ->. unfold verdict. destruct (Z.leb_spec 0 (k d')) as [K|K].
      - eapply ensures_weaken; [eapply (IH st' d' w' (seg ++ evs) Hi' Hf'); [lia| |exact HI']|].
        + eapply resolves_clones; [exact Hc|exact Hr].
        + intros [[r1 d1] w1] (evs1 & He & H1 & H2 & H3 & H4). exists (evs ++ evs1). rewrite app_assoc. split; [exact He|].
          split; [rewrite H1, Ht; symmetry; apply app_assoc|]. split; [congruence|]. split; [rewrite H3, Hs; apply status_after_app|exact H4].
      - apply Hend; [discriminate|]. split; [exact Hi'|]. split; [lia|exact Hf']. }
    inversion Hro as [? Eg Es E1 E2 E3 E4|d1 ev1 ? Eg Hm Es E1 E2 E3 E4|d1 ev1 st1 ? Eg Hm H2 Es1 Es2 E1 E2 E3 E4|d1 ev1 Eg Hm H2 E1 E2 E3 E4]; subst r d' evs.
    - destruct (inv_back d seg Hi Hk) as [Hi' Ek]. apply Hgo; auto; [apply failed_back, Hf|]. rewrite Ek. lia.
    - destruct (inv_failed d d1 seg ev1 Hi Hm Hf) as (Hi1 & Ek1 & Hf1).
      destruct (inv_back d1 (seg ++ ev1) Hi1) as [Hi' Ek]; [rewrite Ek1; exact Hk|]. rewrite app_assoc in *.
      apply Hgo; auto; [apply failed_back, Hf1|]. rewrite Ek. lia.
    - destruct (inv_next d d1 seg ev1 Hi Hm H2 Hf) as (Hi1 & Ek1 & Hf1). apply Hgo; auto. cbn. lia.
    - destruct (inv_done d d1 seg ev1 Hi Hm H2) as (Hi1 & Hl). apply Hend; [discriminate|]. split; auto.
  Qed.
End Loop.

(** * Number of rounds and of calls *)

(* for every state the loop gets into: rounds left, inits, connections and requests at most *)
Definition budget (kk : Z) (st : list bool) : option (nat * nat * nat * nat) :=
  match kk, st with
  | 2%Z, [false; false; false] => Some (9, 1, 2, 3)
  | 1%Z, [false; false; false] => Some (8, 1, 2, 2)
  | 2%Z, [false; true; false] => Some (7, 1, 1, 2)
  | 1%Z, [false; true; false] => Some (6, 1, 1, 1)
  | 0%Z, [false; false; false] => Some (5, 1, 1, 1)
  | 1%Z, [true; false; false] => Some (4, 0, 1, 1)
  | 2%Z, [true; true; false] => Some (3, 0, 0, 1)
  | 1%Z, [true; true; false] => Some (2, 0, 0, 0)
  | 0%Z, [true; false; false] => Some (1, 0, 0, 0)
  | _, _ => None
  end%nat.

Definition within (evs : list event) (b b' : nat * nat * nat * nat) : Prop :=
  let '(_, i, c, q) := b in let '(_, i', c', q') := b' in
  (count is_init evs + i' <= i /\ count is_create evs + c' <= c /\ count is_request evs + q' <= q)%nat.

Lemma back_counts d : count is_init (back_events d) = 0%nat /\ count is_create (back_events d) = 0%nat /\ count is_request (back_events d) = 0%nat.
Proof. unfold back_events. destruct (k d - 1)%Z as [|[]|]; cbn; auto. Qed.
Lemma made_counts I u vals d ok d1 evs : made I u vals d ok d1 evs -> k d1 = k d /\
  count is_init evs = (if (k d =? 0)%Z then 1%nat else 0%nat) /\ count is_create evs = (if (k d =? 1)%Z then 1%nat else 0%nat) /\
  count is_request evs = (if (k d =? 2)%Z then 1%nat else 0%nat).
Proof.
  inversion 1 as [r Hk|Hk|h evs' Hk Hr|q Hk]; subst; rewrite ?Hk; cbn; auto.
  destruct (replayed_requests _ _ _ Hr) as (_ & C1 & C2 & C3). unfold count in *. cbn. rewrite C1, C2, C3, Hk. auto.
Qed.

Lemma back_k d : (k d = 0 \/ k d = 1 \/ k d = 2)%Z -> k (back_data d) = (k d - 1)%Z.
Proof. unfold back_data. intros [H|[H|H]]; rewrite H; reflexivity. Qed.

Ltac budget_state := let z := fresh "kk" in let x := fresh "bb" in intros z [| [] [| [] [| [] [|] ] ] ] x; destruct z as [|[|[]|]|]; cbn; intros; try discriminate.
Lemma budget_k : forall z st b, budget z st = Some b -> (z = 0 \/ z = 1 \/ z = 2)%Z.
Proof. budget_state; auto. Qed.

Lemma round_budget I u vals st d r st' d' evs b : budget (k d) st = Some b -> rounded I u vals st d r st' d' evs ->
  match r with
  | Some x => x <> StillRunning /\ within evs b (0, 0, 0, 0)%nat /\ (1 <= fst (fst (fst b)))%nat
  | None => exists b', budget (k d') st' = Some b' /\ within evs b b' /\ (fst (fst (fst b')) < fst (fst (fst b)))%nat
  end.
Proof.
  intros Hb Hro. pose proof (budget_k _ _ _ Hb) as Hk.
  assert (Hst : forall a b0 c, st = [a; b0; c] -> st_get st (k d) = Some (if (k d =? 0)%Z then a else if (k d =? 1)%Z then b0 else c)).
  { intros a b0 c ->. destruct Hk as [-> | [-> | ->] ]; reflexivity. }
  inversion Hro as [? Eg Es|d1 ev1 ? Eg Hm Es|d1 ev1 st1 ? Eg Hm H2 Es1 Es2|d1 ev1 Eg Hm H2]; subst; try (destruct (made_counts _ _ _ _ _ _ _ Hm) as (Ek & C1 & C2 & C3)).
  - destruct (back_counts d) as (C1 & C2 & C3). unfold verdict. rewrite (back_k d Hk). unfold within.
    rewrite C1, C2, C3. clear Hro.
    destruct st as [|[] [|[] [|[] [|] ] ] ]; destruct Hk as [Hk|[Hk|Hk]]; rewrite Hk in *; cbn in *; try discriminate;
      injection Hb as <-; injection Es as <-; cbn; try (eexists; split; [reflexivity|]); cbn; repeat split; try lia; discriminate.
  - destruct (back_counts d1) as (B1 & B2 & B3). unfold verdict. rewrite (back_k d1) by lia. unfold within.
    rewrite !count_app, C1, C2, C3, B1, B2, B3, Ek in *. clear Hro.
    destruct st as [|[] [|[] [|[] [|] ] ] ]; destruct Hk as [Hk|[Hk|Hk]]; rewrite Hk in *; cbn in *; try discriminate;
      injection Hb as <-; injection Es as <-; cbn; try (eexists; split; [reflexivity|]); cbn; repeat split; try lia; discriminate.
  - unfold verdict. cbn [k set_k]. unfold within. rewrite C1, C2, C3, Ek in *. clear Hro.
    destruct st as [|[] [|[] [|[] [|] ] ] ]; destruct Hk as [Hk|[Hk|Hk]]; rewrite Hk in *; cbn in *; try discriminate; try congruence;
      injection Hb as <-; injection Es1 as <-; injection Es2 as <-; cbn; try (eexists; split; [reflexivity|]); cbn; repeat split; try lia; discriminate.
  - unfold within. rewrite C1, C2, C3, Ek in *. clear Hro.
    destruct st' as [|[] [|[] [|[] [|] ] ] ]; destruct Hk as [Hk|[Hk|Hk]]; rewrite Hk in *; cbn in *; try discriminate; try congruence;
      injection Hb as <-; cbn; repeat split; try lia; discriminate.
Qed.

Lemma sequence_budget fuel : forall u vals st d w b, budget (k d) st = Some b -> (fst (fst (fst b)) <= fuel)%nat ->
  u_reqc u <> None -> resolves w (savedOptions d) vals ->
  ensures (sequence fuel u st d w) (fun '(r, d', w') => r <> StillRunning /\ exists evs, w_trace w' = w_trace w ++ evs /\ within evs b (0, 0, 0, 0)%nat).
Proof.
  induction fuel as [|fuel IH]; intros u vals st d w b Hb Hf Hu Hr.
  { exfalso. revert Hb Hf. generalize (k d). clear. revert st b. intros st b z. revert z st b. budget_state; match goal with H : Some _ = Some _ |- _ => injection H as <- end; cbn in *; lia. }
  cbn [sequence]. eapply ensures_bind; [apply (round_ensures (fun _ _ _ => True) u vals); [intros; exact I|intros; intros ? [] ? ?; intros; exact I|exact Hu|eapply budget_k; exact Hb|exact Hr|exact I]|].
  intros [[[r st'] d'] w'] (evs & Hro & Ht & Hc & _). pose proof (round_budget _ _ _ _ _ _ _ _ _ _ Hb Hro) as H.
  destruct r as [r|].
  - apply ensures_ret. split; [apply H|]. exists evs. split; [exact Ht|apply H].
  - destruct H as (b' & Hb' & Hw & Hlt).
    eapply ensures_weaken; [eapply (IH u vals st' d' w' b' Hb'); [lia|exact Hu|]|].
    + assert (Hs : savedOptions d' = savedOptions d).
      { assert (Hm1 : forall ok d1 ev, made (fun _ _ _ => True) u vals d ok d1 ev -> savedOptions d1 = savedOptions d) by (inversion 1; subst; reflexivity).
        assert (Hb1 : forall d1, savedOptions (back_data d1) = savedOptions d1) by (intros d1; unfold back_data; destruct (k d1 - 1)%Z as [|[]|]; reflexivity).
        inversion Hro; subst; rewrite ?Hb1; cbn; eauto. }
      rewrite Hs. eapply resolves_clones; [exact Hc|exact Hr].
    + intros [[r1 d1] w1] (H1 & evs1 & Ht1 & Hw1). split; [exact H1|]. exists (evs ++ evs1). split; [rewrite Ht1, Ht, app_assoc; reflexivity|].
      destruct b as [[[? ?] ?] ?], b' as [[[? ?] ?] ?]. unfold within in *. rewrite !count_app. lia.
Qed.
