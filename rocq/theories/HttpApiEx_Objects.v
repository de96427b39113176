(* The objects of HTTPAPIEX calls: every step is defined, and what it does to the headers and
   buffers, stated on the lists and contents they represent. *)
From Verif Require Import Base Mem Refine Map_Model Map_Spec Map_Proofs Map_Props HttpHeaders_Model HttpHeaders_Spec HttpHeaders_Proofs
  Buffer_Model Buffer_Spec Buffer_Proofs Strings_Model Crt_Model Crt_Spec Crt_Proofs Crt_Props HttpApiEx_Model HttpApiEx_Spec HttpApiEx_Proofs.
Open Scope N_scope.

Definition defined {A} (m : M A) : Prop := forall o, m o <> None.
Lemma defined_ret {A} (a : A) : defined (ret a).
Proof. intros o. discriminate. Qed.
Lemma defined_lift {A} (x : option A) : x <> None -> defined (lift x).
Proof. intros H o. destruct x; [discriminate|congruence]. Qed.
Lemma defined_bind {A B} (m : M A) (f : A -> M B) (P : A -> Prop) :
  defined m -> ensures m P -> (forall a, P a -> defined (f a)) -> defined (bind m f).
Proof.
  intros Hm He Hf o. unfold bind. destruct (m o) as [[a o']|] eqn:E; [|destruct (Hm o E)]. apply Hf. exact (He _ _ _ E).
Qed.
Lemma defined_blift {A B} (x : option A) a (f : A -> M B) : x = Some a -> defined (f a) -> defined (bind (lift x) f).
Proof. intros -> H o. apply H. Qed.

Lemma upd_id {A} (l : list A) i x : nth_error l i = Some x -> upd l i x = l.
Proof. revert i. induction l as [|y l IH]; intros [|i] H; cbn in *; try discriminate; [congruence|f_equal; auto]. Qed.
Lemma upd_upd {A} (l : list A) i x y : upd (upd l i x) i y = upd l i y.
Proof. revert i. induction l as [|z l IH]; intros [|i]; cbn; try reflexivity. f_equal. apply IH. Qed.

(** * Headers and buffers *)

Lemma hsim st sp op : hrepresents st sp -> (forall m, hsp_step sp op m <> None) ->
  defined (hstep st op) /\ ensures (hstep st op) (fun x => exists m sp', hsp_step sp op m = Some (merge_codes (fst x), sp') /\ hrepresents (snd x) sp').
Proof.
  intros HR Hs. assert (K : forall o, exists m r sp' s' o', hsp_step sp op m = Some (merge_codes r, sp') /\ hstep st op o = Some ((r, s'), o') /\ hrepresents s' sp').
  { intros o. destruct (headers_simulate st sp op o HR) as (m & _ & H). destruct (hsp_step sp op m) as [[r sp']|] eqn:E; [|destruct (Hs m E)].
    destruct (H r sp' eq_refl) as (s' & o' & us & E1 & E2 & _). unfold hstep_merged, bind in E1. destruct (hstep st op o) as [[[r0 s0] o0]|]; [|discriminate].
    cbn in E1. injection E1 as <- <- <-. eauto 10. }
  split.
  - intros o E. destruct (K o) as (m & r & sp' & s' & o' & _ & E1 & _). congruence.
  - intros o [r s'] o' E. destruct (K o) as (m & r1 & sp' & s1 & o1 & E1 & E2 & E3). rewrite E in E2. injection E2 as -> -> ->. eauto.
Qed.
Lemma bsim st sp op : brepresents st sp -> (forall m, bsp_step sp op m <> None) ->
  defined (bstep st op) /\ ensures (bstep st op) (fun x => exists m sp', bsp_step sp op m = Some (fst x, sp') /\ brepresents (snd x) sp').
Proof.
  intros HR Hs. assert (K : forall o, exists m r sp' s' o', bsp_step sp op m = Some (r, sp') /\ bstep st op o = Some ((r, s'), o') /\ brepresents s' sp').
  { intros o. destruct (buffer_simulate st sp op o HR) as (m & _ & H). destruct (bsp_step sp op m) as [[r sp']|] eqn:E; [|destruct (Hs m E)].
    destruct (H r sp' eq_refl) as (s' & o' & us & E1 & E2 & _). eauto 10. }
  split.
  - intros o E. destruct (K o) as (m & r & sp' & s' & o' & _ & E1 & _). congruence.
  - intros o [r s'] o' E. destruct (K o) as (m & r1 & sp' & s1 & o1 & E1 & E2 & E3). rewrite E in E2. injection E2 as -> -> ->. eauto.
Qed.

Lemma is_ok_merge r : is_ok (merge_codes r) = is_ok r.
Proof. destruct r as [| []| | | |]; reflexivity. Qed.

Lemma add_one hs hsp i l n v : hrepresents hs hsp -> hlive hsp i = Some l -> cstr_okb n = true -> cstr_okb v = true ->
  defined (HTTPHeaders_AddHeaderNameValuePair hs (Some i) (Some n) (HStr v)) /\
  ensures (HTTPHeaders_AddHeaderNameValuePair hs (Some i) (Some n) (HStr v)) (fun x =>
    exists hsp', hrepresents (snd x) hsp' /\ (if is_ok (fst x) then hsp' = upd hsp i (Some (received l (n, v))) else hsp' = hsp)).
Proof.
  intros HR HL Hn Hv. destruct (hsim hs hsp (HAdd (Some i) (Some n) (HStr v)) HR) as [D E].
  { intros m. cbn. rewrite Hn, HL, Hv. cbn. destruct (legal_name n); cbn; [|discriminate]. destruct (lookup n l); discriminate. }
  split; [exact D|]. eapply ensures_weaken; [exact E|]. intros x (m & hsp' & Hs & R). exists hsp'. split; [exact R|].
  rewrite <- is_ok_merge. cbn in Hs. rewrite Hn, HL, Hv in Hs. cbn in Hs. unfold received. cbn [fst snd].
  destruct (legal_name n); cbn in Hs; [|injection Hs as <- <-; reflexivity].
  destruct (lookup n l); unfold hset in Hs; destruct m; injection Hs as <- <-; reflexivity.
Qed.

Lemma hlive_upd sp i l j : (i < length sp)%nat -> hlive (upd sp i l) j = if (j =? i)%nat then l else hlive sp j.
Proof.
  intros H. unfold hlive. destruct (Nat.eqb_spec j i) as [->|K]; [rewrite upd_same by exact H; destruct l; reflexivity|]. rewrite upd_other by congruence. reflexivity.
Qed.
Lemma hlive_lt sp i l : hlive sp i = Some l -> (i < length sp)%nat.
Proof. unfold hlive. intros H. apply nth_error_Some. destruct (nth_error sp i); congruence. Qed.
Lemma blive_upd sp i l j : (i < length sp)%nat -> blive (upd sp i l) j = if (j =? i)%nat then l else blive sp j.
Proof.
  intros H. unfold blive. destruct (Nat.eqb_spec j i) as [->|K]; [rewrite upd_same by exact H; destruct l; reflexivity|]. rewrite upd_other by congruence. reflexivity.
Qed.
Lemma blive_lt sp i l : blive sp i = Some l -> (i < length sp)%nat.
Proof. unfold blive. intros H. apply nth_error_Some. destruct (nth_error sp i); congruence. Qed.

Lemma add_headers_ensures i ps : forall hs hsp l, hrepresents hs hsp -> hlive hsp i = Some l ->
  defined (add_headers hs (Some i) ps) /\
  ensures (add_headers hs (Some i) ps) (fun x => exists hsp' l', hrepresents (snd x) hsp' /\ hsp' = upd hsp i (Some l') /\
    (fst x = true -> l' = fold_left received ps l)).
Proof.
  induction ps as [|[n v] ps IH]; intros hs hsp l HR HL; cbn [add_headers].
  { split; [apply defined_ret|]. apply ensures_ret. exists hsp, l. split; [exact HR|]. split; [|auto]. symmetry. apply upd_id.
    unfold hlive in HL. destruct (nth_error hsp i) as [[]|]; congruence. }
  destruct (cstr_okb n && cstr_okb v) eqn:Eok.
  - apply andb_true_iff in Eok. destruct Eok as [Hn Hv]. destruct (add_one hs hsp i l n v HR HL Hn Hv) as [D1 E1].
    assert (Hrest : forall x, (exists hsp', hrepresents (snd x) hsp' /\ (if is_ok (fst x) then hsp' = upd hsp i (Some (received l (n, v))) else hsp' = hsp)) ->
       defined (add_headers (snd x) (Some i) ps) /\ ensures (add_headers (snd x) (Some i) ps) (fun y => exists hsp' l', hrepresents (snd y) hsp' /\ hsp' = upd hsp i (Some l') /\
         (is_ok (fst x) && fst y = true -> l' = fold_left received ps (received l (n, v))))).
    { intros x (hsp1 & R1 & H1). destruct (is_ok (fst x)).
      - subst hsp1. assert (L1 : hlive (upd hsp i (Some (received l (n, v)))) i = Some (received l (n, v))).
        { rewrite hlive_upd by (eapply hlive_lt; eassumption). rewrite Nat.eqb_refl. reflexivity. }
        destruct (IH _ _ _ R1 L1) as [D2 E2]. split; [exact D2|]. eapply ensures_weaken; [exact E2|].
        intros y (hsp' & l' & R' & -> & Hl). exists (upd hsp i (Some l')), l'. rewrite upd_upd in R'. split; [exact R'|]. split; [reflexivity|]. exact Hl.
      - subst hsp1. destruct (IH _ _ _ R1 HL) as [D2 E2]. split; [exact D2|]. eapply ensures_weaken; [exact E2|].
        intros y (hsp' & l' & R' & -> & _). exists (upd hsp i (Some l')), l'. split; [exact R'|]. split; [reflexivity|]. discriminate. }
    split.
    + eapply defined_bind; [exact D1|exact E1|]. intros x Hx. destruct (Hrest x Hx) as [D2 E2].
      eapply defined_bind; [exact D2|exact E2|]. intros. apply defined_ret.
    + eapply ensures_bind; [exact E1|]. intros x Hx. destruct (Hrest x Hx) as [D2 E2]. eapply ensures_bind; [exact E2|].
      intros y Hy. apply ensures_ret. exact Hy.
  - destruct (IH hs hsp l HR HL) as [D2 E2]. split.
    + eapply defined_bind; [exact D2|exact E2|]. intros. apply defined_ret.
    + eapply ensures_bind; [exact E2|]. intros y (hsp' & l' & R & -> & _). apply ensures_ret. exists (upd hsp i (Some l')), l'.
      split; [exact R|]. split; [reflexivity|discriminate].
Qed.

Lemma build_body_ensures bs bsp i b : brepresents bs bsp -> blive bsp i <> None ->
  let m := if N.of_nat (length b) <? two64 then BUFFER_build bs (Some i) (BSBytes b) (N.of_nat (length b)) else ret (BRI false, bs) in
  defined m /\ ensures m (fun x => exists bsp' c, brepresents (snd x) bsp' /\ bsp' = upd bsp i (Some c) /\ (fst x = BRI true -> c = body_content b)).
Proof.
  intros HR HL m. unfold m. clear m. destruct (blive bsp i) as [c0|] eqn:L; [|congruence]. clear HL.
  assert (Hid : bsp = upd bsp i (Some c0)) by (symmetry; apply upd_id; unfold blive in L; destruct (nth_error bsp i) as [[]|]; congruence).
  destruct (N.of_nat (length b) <? two64) eqn:Elt.
  2:{ split; [apply defined_ret|]. apply ensures_ret. exists bsp, c0. split; [exact HR|]. split; [exact Hid|discriminate]. }
  change (BUFFER_build bs (Some i) (BSBytes b) (N.of_nat (length b))) with (bstep bs (BBuild (Some i) (BSBytes b) (N.of_nat (length b)))).
  assert (Hd : forall m, bsp_step bsp (BBuild (Some i) (BSBytes b) (N.of_nat (length b))) m =
     if N.of_nat (length b) =? 0 then Some (BRI true, upd bsp i (Some None)) else bassign bsp m i (Some (map Some b))).
  { intros m. cbn. rewrite L. destruct (N.of_nat (length b) =? 0); [reflexivity|]. rewrite Elt. unfold lenN.
    replace (N.of_nat (length b) <=? N.of_nat (length b)) with true by (symmetry; apply N.leb_refl). rewrite Nat2N.id, firstn_all. reflexivity. }
  destruct (bsim bs bsp (BBuild (Some i) (BSBytes b) (N.of_nat (length b))) HR) as [D E].
  { intros m. rewrite Hd. destruct (_ =? 0); [discriminate|]. unfold bassign. destruct m; discriminate. }
  split; [exact D|]. eapply ensures_weaken; [exact E|]. intros x (m & bsp' & Hs & R). rewrite Hd in Hs.
  destruct (N.eqb_spec (N.of_nat (length b)) 0) as [Z|Z].
  - injection Hs as <- <-. exists (upd bsp i (Some None)), None. split; [exact R|]. split; [reflexivity|]. intros _.
    destruct b; [reflexivity|cbn in Z; lia].
  - unfold bassign in Hs. destruct m; injection Hs as <- <-.
    + exists (upd bsp i (Some (Some (map Some b)))), (Some (map Some b)). split; [exact R|]. split; [reflexivity|]. intros _. destruct b; [cbn in Z; lia|reflexivity].
    + exists bsp, c0. split; [exact R|]. split; [exact Hid|discriminate].
Qed.

(** * During the loop *)

Lemma requests_app a b : requests (a ++ b) = requests a ++ requests b.
Proof. induction a as [|e a IH]; [reflexivity|]. destruct e; cbn; rewrite ?IH; reflexivity. Qed.
Lemma last_request_requests l : last_request l = match rev (requests l) with [] => None | q :: _ => Some q end.
Proof.
  induction l as [|e l IH]; [reflexivity|]. cbn. rewrite IH. destruct e; cbn; try (destruct (rev (requests l)); reflexivity).

Qed.
(* t0: the calls made before the loop; rl, rb: the response headers and body before it *)
Definition around (t0 : list event) (rh rc : nat) (rl : list (text * text)) (rb : option (list (option N)))
    (hsp0 : header_lists) (bsp0 : contents) (t : list event) (hs : hstate) (bs : buffers) : Prop :=
  exists evs l c, t = t0 ++ evs /\ hrepresents hs (upd hsp0 rh (Some l)) /\ brepresents bs (upd bsp0 rc (Some c)) /\
    (all_stored (requests evs) -> l = response_headers rl (requests evs) /\ c = response_body rb (requests evs)).

Section Around.
  Variables (t0 : list event) (rh rc : nat) (rl : list (text * text)) (rb : option (list (option N))) (hsp0 : header_lists) (bsp0 : contents).
  Hypothesis Hh : (rh < length hsp0)%nat.
  Hypothesis Hb : (rc < length bsp0)%nat.
  Let I := around t0 rh rc rl rb hsp0 bsp0.

  Lemma around_quiet t e hs bs : is_request e = false -> I t hs bs -> I (t ++ [e]) hs bs.
  Proof.
    intros He (evs & l & c & -> & H1 & H2 & H3). exists (evs ++ [e]), l, c. rewrite app_assoc. split; [reflexivity|].
    replace (requests (evs ++ [e])) with (requests evs) by (rewrite requests_app; destruct e; cbn; rewrite ?app_nil_r; [reflexivity..|discriminate]). auto.
  Qed.

  Lemma around_respond a w ws : I (w_trace w) (w_headers w) (w_buffers w) ->
    defined (respond a w ws (Some rh) (Some rc)) /\
    ensures (respond a w ws (Some rh) (Some rc)) (fun '(stored, w') =>
      forall q, r_answer q = a -> r_stored q = stored -> I (w_trace w ++ [ERequest q]) (w_headers w') (w_buffers w')).
  Proof.
    intros (evs & l & c & Et & R1 & R2 & Hst). unfold respond.
    assert (L1 : hlive (upd hsp0 rh (Some l)) rh = Some l) by (rewrite hlive_upd, Nat.eqb_refl by exact Hh; reflexivity).
    assert (L2 : blive (upd bsp0 rc (Some c)) rc <> None) by (rewrite blive_upd, Nat.eqb_refl by exact Hb; discriminate).
    destruct (add_headers_ensures rh (a_headers a) _ _ _ R1 L1) as [D1 E1].
    destruct (build_body_ensures _ _ rc (a_body a) R2 L2) as [D2 E2]. split.
    - eapply defined_bind; [exact D1|exact E1|]. intros x _. eapply defined_bind; [exact D2|exact E2|]. intros. apply defined_ret.
    - eapply ensures_bind; [exact E1|]. intros x (hsp' & l' & H1 & -> & H3). eapply ensures_bind; [exact E2|]. intros y (bsp' & c' & B1 & -> & B3).
      apply ensures_ret. intros q Ea Es. rewrite Et. exists (evs ++ [ERequest q]), l', c'. rewrite app_assoc. split; [reflexivity|].
      rewrite upd_upd in H1. rewrite upd_upd in B1. cbn. split; [exact H1|]. split; [exact B1|]. rewrite requests_app. cbn. intros Hall.
      assert (Hq : r_stored q = true) by (apply Hall, in_or_app; right; left; reflexivity).
      destruct Hst as [-> ->]; [intros q' Hq'; apply Hall, in_or_app; left; exact Hq'|].
      rewrite Es in Hq. apply andb_true_iff in Hq. destruct Hq as [Q1 Q2]. rewrite (H3 Q1).
      rewrite B3 by (destruct (fst y) as [|[]| |]; try discriminate; reflexivity).
      unfold response_headers, response_body. rewrite map_app, concat_app, !fold_left_app. cbn. rewrite Ea, app_nil_r. auto.
  Qed.
End Around.

(** * The loop is defined *)

Lemma replay_defined h saved : forall w vals, resolves w saved vals -> defined (replay h saved w).
Proof.
  induction saved as [|[n c] saved IH]; intros w vals Hr; inversion Hr as [|? [m v] ? vals' [H1 H2] Hr']; subst; cbn [replay]; [apply defined_ret|].
  cbn in H2. eapply defined_blift; [exact H2|]. cbn [next_answer]. apply (IH _ vals').
  eapply Forall2_imp; [|exact Hr']. intros [] []. cbn. auto.
Qed.

Lemma st_get_some a b c z : (z = 0 \/ z = 1 \/ z = 2)%Z -> st_get [a; b; c] z <> None.
Proof. intros [-> | [-> | ->] ]; discriminate. Qed.
Lemma st_set_some a b c z x : (z = 0 \/ z = 1 \/ z = 2)%Z -> exists a' b' c', st_set [a; b; c] z x = Some [a'; b'; c'].
Proof. intros [-> | [-> | ->] ]; do 3 eexists; reflexivity. Qed.
Lemma budget_shape z st b : budget z st = Some b -> exists a c e, st = [a; c; e].
Proof. intros H. destruct st as [|a [|c [|e [|] ] ] ]; eauto; exfalso; destruct z as [|[|[]|]|]; cbn in H; try discriminate; repeat (match type of H with context [if ?x then _ else _] => destruct x end; try discriminate). Qed.

Section LoopDefined.
  Variable I : list event -> hstate -> buffers -> Prop.
  Variable u : used.
  Variable vals : settings.
  Hypothesis Hquiet : forall t e hs bs, is_request e = false -> I t hs bs -> I (t ++ [e]) hs bs.
  Hypothesis Hkeep : forall a w, I (w_trace w) (w_headers w) (w_buffers w) ->
    defined (respond a w (u_status u) (u_resh u) (u_resc u)) /\
    ensures (respond a w (u_status u) (u_resh u) (u_resc u)) (fun '(stored, w') =>
      forall q, r_answer q = a -> r_stored q = stored -> I (w_trace w ++ [ERequest q]) (w_headers w') (w_buffers w')).
  Hypothesis Hcontent : forall t hs bs, I t hs bs -> exists i b c, u_reqc u = Some i /\ getbuf bs i = Some b /\ content_of b = Some c.
  Hypothesis Hreqc : u_reqc u <> None.

  Lemma attempt_defined d w : resolves w (savedOptions d) vals -> I (w_trace w) (w_headers w) (w_buffers w) -> defined (attempt u d w).
  Proof.
    intros Hr Hi. unfold attempt. cbn [next_answer]. destruct (k d) as [|[p|[p|p|]|]|p]; try apply defined_ret.
    - destruct (Hcontent _ _ _ Hi) as (i & b & c & Ei & Eb & Ec). rewrite Ei. unfold BUFFER_u_char, BUFFER_length. rewrite Eb.
      set (m1 := bind (lift (Some b)) _). assert (X : m1 = ret (BRP c, w_buffers w)) by (unfold m1; rewrite bind_lift_some, Ec; reflexivity).
      rewrite X. rewrite bind_ret. cbn [fst]. rewrite bind_lift_some. rewrite bind_lift_some, bind_ret. cbn [fst]. rewrite bind_lift_some.
      match goal with |- context [respond ?a ?x] => destruct (Hkeep a x Hi) as [D E]; set (wn := x) in * end.
      eapply defined_bind; [exact D|exact E|]. intros [s w'] _. apply defined_ret.
    - match goal with |- context [log ?x _] => set (wn := x) end. destruct (a_handle _); [|apply defined_ret].
      eapply defined_bind with (P := fun _ => True); [|intros ? ? ? ?; exact Logic.I|intros; apply defined_ret].
      apply (replay_defined _ _ _ vals). exact Hr.
  Qed.

  Lemma round_defined st d w b : budget (k d) st = Some b -> resolves w (savedOptions d) vals -> I (w_trace w) (w_headers w) (w_buffers w) -> defined (round u st d w).
  Proof.
    intros Hb Hr Hi. pose proof (budget_k _ _ _ Hb) as Hk. destruct (budget_shape _ _ _ Hb) as (x & y & z & ->). unfold round.
    replace (2 <? k d)%Z with false by lia.
    destruct (st_get [x; y; z] (k d)) as [tried|] eqn:E; [|destruct (st_get_some _ _ _ _ Hk E)]. rewrite bind_lift_some.
    assert (Hkeep' := fun a w H => proj2 (Hkeep a w H)).
    assert (D : defined (if tried then ret (false, d, w) else attempt u d w)) by (destruct tried; [apply defined_ret|apply attempt_defined; assumption]).
    assert (Ek : ensures (if tried then ret (false, d, w) else attempt u d w) (fun '(ok, d', w') => k d' = k d)).
    { destruct tried; [apply ensures_ret; reflexivity|]. eapply ensures_weaken; [apply (attempt_ensures I u vals Hquiet Hkeep' Hreqc d w Hk Hr Hi)|].
      intros [[ok d'] w'] (evs & Hm & _). apply (made_counts _ _ _ _ _ _ _ Hm). }
    eapply defined_bind; [exact D|exact Ek|]. intros [[ok d'] w'] Hk'. destruct ok.
    - destruct (Z.eqb_spec (k d') 2) as [E2|E2]; [apply defined_ret|]. rewrite Hk' in *.
      destruct (st_set_some x y z (k d) true Hk) as (x1 & y1 & z1 & ->). rewrite bind_lift_some.
      destruct (st_set_some x1 y1 z1 (k d + 1) false ltac:(lia)) as (x2 & y2 & z2 & ->). rewrite bind_lift_some. apply defined_ret.
    - rewrite Hk'. destruct (st_set_some x y z (k d) false Hk) as (x1 & y1 & z1 & ->). rewrite bind_lift_some.
      destruct (step_back d' w'). apply defined_ret.
  Qed.

  Lemma sequence_defined fuel : forall st d w b, budget (k d) st = Some b -> resolves w (savedOptions d) vals -> I (w_trace w) (w_headers w) (w_buffers w) -> defined (sequence fuel u st d w).
  Proof.
    induction fuel as [|fuel IH]; intros st d w b Hb Hr Hi; cbn [sequence]; [apply defined_ret|].
    assert (Hkeep' := fun a w H => proj2 (Hkeep a w H)).
    eapply defined_bind; [eapply round_defined; eassumption|apply (round_ensures I u vals Hquiet Hkeep' Hreqc); [eapply budget_k; exact Hb|exact Hr|exact Hi]|].
    intros [[[r st'] d'] w'] (evs & Hro & Ht & Hc & _ & Hi'). pose proof (round_budget _ _ _ _ _ _ _ _ _ _ Hb Hro) as H.
    destruct r as [r|]; [apply defined_ret|]. destruct H as (b' & Hb' & _). eapply IH; [exact Hb'| |exact Hi'].
    assert (Hs : savedOptions d' = savedOptions d).
    { assert (Hm1 : forall ok d1 ev, made I u vals d ok d1 ev -> savedOptions d1 = savedOptions d) by (inversion 1; subst; reflexivity).
      assert (Hb1 : forall d1, savedOptions (back_data d1) = savedOptions d1) by (intros d1; unfold back_data; destruct (k d1 - 1)%Z as [|[]|]; reflexivity).
      inversion Hro; subst; rewrite ?Hb1; cbn; eauto. }
    rewrite Hs. eapply resolves_clones; [exact Hc|exact Hr].
  Qed.
End LoopDefined.

(** * Building the objects of a call *)

Lemma with_header_replace n v l : (match lookup n l with None => l ++ [(n, v)] | Some _ => replace_value n v l end) = with_header n v l.
Proof.
  unfold with_header, replace_value. destruct (lookup n l); [|reflexivity]. apply map_ext. intros [m x]. cbn.
  destruct (teq m n) eqn:E; [|reflexivity]. apply teq_eq in E. subst. reflexivity.
Qed.

Lemma replace_one hs hsp i l n v : hrepresents hs hsp -> hlive hsp i = Some l -> cstr_okb n = true -> legal_name n = true -> cstr_okb v = true ->
  defined (HTTPHeaders_ReplaceHeaderNameValuePair hs (Some i) (Some n) (HStr v)) /\
  ensures (HTTPHeaders_ReplaceHeaderNameValuePair hs (Some i) (Some n) (HStr v)) (fun x =>
    exists hsp', hrepresents (snd x) hsp' /\ (if is_ok (fst x) then hsp' = upd hsp i (Some (with_header n (trim v) l)) else hsp' = hsp)).
Proof.
  intros HR HL Hn Hg Hv. destruct (hsim hs hsp (HReplace (Some i) (Some n) (HStr v)) HR) as [D E].
  { intros m. cbn. rewrite Hn, HL, Hv, Hg. cbn. destruct (lookup n l); discriminate. }
  split; [exact D|]. eapply ensures_weaken; [exact E|]. intros x (m & hsp' & Hs & R). exists hsp'. split; [exact R|].
  rewrite <- is_ok_merge. cbn in Hs. rewrite Hn, HL, Hv, Hg in Hs. cbn in Hs. rewrite <- with_header_replace.
  destruct (lookup n l); unfold hset in Hs; destruct m; injection Hs as <- <-; reflexivity.
Qed.

(* a handle the caller gave, or a new one *)
Definition gotb (bsp : contents) (orig c : option nat) (oc : bool) (bsp' : contents) : Prop :=
  match c with
  | None => oc = false /\ orig = None /\ bsp' = bsp
  | Some i => if oc then orig = Some i /\ bsp' = bsp else orig = None /\ i = length bsp /\ bsp' = bsp ++ [Some None]
  end.
Definition goth (hsp : header_lists) (orig c : option nat) (oc : bool) (hsp' : header_lists) : Prop :=
  match c with
  | None => oc = false /\ orig = None /\ hsp' = hsp
  | Some i => if oc then orig = Some i /\ hsp' = hsp else orig = None /\ i = length hsp /\ hsp' = hsp ++ [Some []]
  end.

Lemma got_buffer bs bsp orig : brepresents bs bsp ->
  defined (buildBufferIfNotExist bs orig) /\
  ensures (buildBufferIfNotExist bs orig) (fun '(c, oc, bs') => exists bsp', brepresents bs' bsp' /\ gotb bsp orig c oc bsp').
Proof.
  intros HR. unfold buildBufferIfNotExist. destruct orig as [i|].
  { split; [apply defined_ret|]. apply ensures_ret. exists bsp. split; [exact HR|]. split; reflexivity. }
  change (BUFFER_new bs) with (bstep bs BNew). destruct (bsim bs bsp BNew HR) as [D E]; [intros []; discriminate|].
  assert (E' : ensures (bstep bs BNew) (fun x => exists h bsp', fst x = BRH h /\ brepresents (snd x) bsp' /\ gotb bsp None h false bsp')).
  { eapply ensures_weaken; [exact E|]. intros [r s] (m & bsp' & Hs & R). cbn in *. unfold bcreate in Hs.
    destruct m; injection Hs as <- <-; eexists _, _; (split; [reflexivity|]); (split; [exact R|]); cbn; auto. }
  split.
  - eapply defined_bind; [exact D|exact E'|]. intros x (h & bsp' & -> & _). apply defined_ret.
  - eapply ensures_bind; [exact E'|]. intros x (h & bsp' & -> & R & G). apply ensures_ret. eauto.
Qed.

Lemma got_headers hs hsp : hrepresents hs hsp ->
  let m := (x <- HTTPHeaders_Alloc hs ;; match fst x with HRH h => ret (h, false, snd x) | _ => undef end)%m in
  defined m /\ ensures m (fun '(h, oh, hs') => exists hsp', hrepresents hs' hsp' /\ goth hsp None h oh hsp').
Proof.
  intros HR m. unfold m. clear m. change (HTTPHeaders_Alloc hs) with (hstep hs HAlloc). destruct (hsim hs hsp HAlloc HR) as [D E]; [intros []; discriminate|].
  assert (E' : ensures (hstep hs HAlloc) (fun x => exists h hsp', fst x = HRH h /\ hrepresents (snd x) hsp' /\ goth hsp None h false hsp')).
  { eapply ensures_weaken; [exact E|]. intros [r s] (m & hsp' & Hs & R). cbn in *. destruct m; injection Hs as Hr <-.
    - destruct r as [| [] | | | |]; cbn in Hr; try discriminate. injection Hr as Hr; subst. eexists _, _; (split; [reflexivity|]); (split; [exact R|]); cbn; auto.
    - destruct r as [| [] | | | |]; cbn in Hr; try discriminate. injection Hr as Hr; subst. eexists _, _; (split; [reflexivity|]); (split; [exact R|]); cbn; auto. }
  split.
  - eapply defined_bind; [exact D|exact E'|]. intros x (h & bsp' & -> & _). apply defined_ret.
  - eapply ensures_bind; [exact E'|]. intros x (h & bsp' & -> & R & G). apply ensures_ret. eauto.
Qed.

Lemma decimal_exists v : exists ds, decimal v ds.
Proof. destruct (lsd_exists v) as [l H]. exists (rev l). apply lsd_decimal. exact H. Qed.

Lemma brep_size bs bsp c content : brepresents bs bsp -> blive bsp c = Some content ->
  exists b, getbuf bs c = Some b /\ size b = lenN (bytes_of content) /\ content_of b = Some content /\ lenN (bytes_of content) < two64.
Proof.
  intros HR HL. destruct (brep_get _ _ _ _ HR HL) as (b & Eb & Hw). exists b. split; [exact Eb|]. unfold content_of. destruct content as [l|]; cbn in Hw.
  - destruct Hw as (-> & H2 & H3). auto.
  - destruct Hw as (-> & H2). rewrite H2. repeat split.
Qed.

Lemma free_buffer_ensures bs bsp orig i : brepresents bs bsp -> blive bsp i <> None ->
  defined (free_buffer bs orig (Some i)) /\
  ensures (free_buffer bs orig (Some i)) (fun bs' => brepresents bs' (if orig then bsp else upd bsp i None)).
Proof.
  intros HR HL. unfold free_buffer. destruct orig; [split; [apply defined_ret|apply ensures_ret; exact HR]|].
  destruct (blive bsp i) as [c|] eqn:L; [|congruence]. change (BUFFER_delete bs (Some i)) with (bstep bs (BDelete (Some i))).
  destruct (bsim bs bsp (BDelete (Some i)) HR) as [D E]; [intros m; cbn; rewrite L; discriminate|]. split.
  - eapply defined_bind; [exact D|exact E|]. intros. apply defined_ret.
  - eapply ensures_bind; [exact E|]. intros x (m & bsp' & Hs & R). cbn in Hs. rewrite L in Hs. injection Hs as _ <-. apply ensures_ret. exact R.
Qed.
Lemma free_headers_ensures hs hsp orig i : hrepresents hs hsp -> hlive hsp i <> None ->
  defined (free_headers hs orig (Some i)) /\
  ensures (free_headers hs orig (Some i)) (fun hs' => hrepresents hs' (if orig then hsp else upd hsp i None)).
Proof.
  intros HR HL. unfold free_headers. destruct orig; [split; [apply defined_ret|apply ensures_ret; exact HR]|].
  destruct (hlive hsp i) as [c|] eqn:L; [|congruence]. change (HTTPHeaders_Free hs (Some i)) with (hstep hs (HFree (Some i))).
  destruct (hsim hs hsp (HFree (Some i)) HR) as [D E]; [intros m; cbn; rewrite L; discriminate|]. split.
  - eapply defined_bind; [exact D|exact E|]. intros. apply defined_ret.
  - eapply ensures_bind; [exact E|]. intros x (m & hsp' & Hs & R). cbn in Hs. rewrite L in Hs. injection Hs as _ <-. apply ensures_ret. exact R.
Qed.

Lemma hlive_snoc sp x j : hlive (sp ++ [x]) j = if (j =? length sp)%nat then x else hlive sp j.
Proof.
  unfold hlive. destruct (Nat.eqb_spec j (length sp)) as [->|K]; [rewrite nth_error_app2, Nat.sub_diag by lia; cbn; destruct x; reflexivity|].
  destruct (Nat.lt_ge_cases j (length sp)) as [H|H]; [rewrite nth_error_app1 by exact H; reflexivity|].
  rewrite (proj2 (nth_error_None sp j)) by exact H. rewrite (proj2 (nth_error_None (sp ++ [x]) j)) by (rewrite app_length; cbn; lia). reflexivity.
Qed.
Lemma blive_snoc sp x j : blive (sp ++ [x]) j = if (j =? length sp)%nat then x else blive sp j.
Proof.
  unfold blive. destruct (Nat.eqb_spec j (length sp)) as [->|K]; [rewrite nth_error_app2, Nat.sub_diag by lia; cbn; destruct x; reflexivity|].
  destruct (Nat.lt_ge_cases j (length sp)) as [H|H]; [rewrite nth_error_app1 by exact H; reflexivity|].
  rewrite (proj2 (nth_error_None sp j)) by exact H. rewrite (proj2 (nth_error_None (sp ++ [x]) j)) by (rewrite app_length; cbn; lia). reflexivity.
Qed.
Lemma hlive_out sp j : (length sp <= j)%nat -> hlive sp j = None.
Proof. intros H. unfold hlive. rewrite (proj2 (nth_error_None sp j)) by exact H. reflexivity. Qed.
Lemma blive_out sp j : (length sp <= j)%nat -> blive sp j = None.
Proof. intros H. unfold blive. rewrite (proj2 (nth_error_None sp j)) by exact H. reflexivity. Qed.

Lemma hlive_upd' sp i l j : hlive sp i <> None -> hlive (upd sp i l) j = if (j =? i)%nat then l else hlive sp j.
Proof. intros H. apply hlive_upd. destruct (hlive sp i) eqn:E; [eapply hlive_lt; exact E|congruence]. Qed.
Lemma blive_upd' sp i l j : blive sp i <> None -> blive (upd sp i l) j = if (j =? i)%nat then l else blive sp j.
Proof. intros H. apply blive_upd. destruct (blive sp i) eqn:E; [eapply blive_lt; exact E|congruence]. Qed.

Definition host_ok (d : exdata) : Prop := cstr_okb (hostName d) = true.

(* buildRequestHttpHeadersHandle *)
Lemma request_headers_ensures d hs bs hsp bsp c content reqh : host_ok d -> hrepresents hs hsp -> brepresents bs bsp -> blive bsp c = Some content ->
  (forall i, reqh = Some i -> hlive hsp i <> None) ->
  defined (buildRequestHttpHeadersHandle d hs bs (Some c) reqh) /\
  ensures (buildRequestHttpHeadersHandle d hs bs (Some c) reqh) (fun '(h, oh, hs') => exists hsp', hrepresents hs' hsp' /\
    match h with
    | None => only (fun x => x = reqh) hsp hsp'
    | Some i => exists l ds, decimal (lenN (bytes_of content)) ds /\ (length hsp <= length hsp')%nat /\
        (if oh then reqh = Some i /\ hlive hsp i = Some l else reqh = None /\ i = length hsp /\ l = []) /\
        (forall j, hlive hsp' j = if (j =? i)%nat then Some (full_headers (hostName d) ds l) else hlive hsp j)
    end).
Proof.
  intros Hho HR HB HC Hv. unfold buildRequestHttpHeadersHandle.
  set (m1 := match reqh with Some _ => _ | None => _ end).
  assert (H1 : defined m1 /\ ensures m1 (fun '(h, oh, hs') => exists hsp', hrepresents hs' hsp' /\ goth hsp reqh h oh hsp')).
  { unfold m1. destruct reqh as [i|]; [|apply (got_headers hs hsp HR)]. split; [apply defined_ret|]. apply ensures_ret. exists hsp. split; [exact HR|split; reflexivity]. }
  destruct H1 as [D1 E1]. clearbody m1.
  destruct (brep_size _ _ _ _ HB HC) as (b & Eb & Esz & _ & Hlt). destruct (decimal_exists (size b)) as [ds Hds].
  assert (Hdl : (length ds <= 20)%nat) by (apply (decimal_64bit_length (size b)); [rewrite Esz; exact Hlt|exact Hds]).
  destruct (size_tToString_correct (fresh 22) 22 (size b) ds) as (rr & tb & Et & _ & Htb); [rewrite fresh_length; lia|rewrite Esz; exact Hlt|exact Hds|].
  replace (length ds <? 22)%nat with true in Htb by (symmetry; apply Nat.ltb_lt; lia). destruct Htb as [_ Htb].
  assert (Hdok : cstr_okb ds = true).
  { apply cstr_okb_ok. destruct Hds as (Hd & _). eapply Forall_impl; [|exact Hd]. intros x Hx. unfold is_digit in Hx. unfold char_ok.
    change (ch "0") with 48 in Hx. change (ch "9") with 57 in Hx. lia. }
  assert (Hdt : trim ds = ds).
  { destruct Hds as (Hd & _). destruct ds as [|x ds']; [reflexivity|]. cbn. inversion Hd as [|? ? Hx _]; subst. unfold is_digit in Hx.
    change (ch "0") with 48 in Hx. change (ch "9") with 57 in Hx. unfold is_lws. cbn [existsb].
    replace (x =? 32) with false by lia. replace (x =? 9) with false by lia. replace (x =? 13) with false by lia. replace (x =? 10) with false by lia. reflexivity. }
  match goal with |- defined (bind m1 ?F) /\ ensures _ ?Q => set (f := F); set (post := Q) end.
  assert (Hf : forall x, (let '(h, oh, hs') := x in exists hsp', hrepresents hs' hsp' /\ goth hsp reqh h oh hsp') -> defined (f x) /\ ensures (f x) post).
  2:{ split; [eapply defined_bind; [exact D1|exact E1|]|eapply ensures_bind; [exact E1|]]; intros x Hx; apply (Hf x Hx). }
  intros [[h oh] hs1] (hsp1 & R1 & G). unfold f. destruct h as [i|].
  2:{ cbn in G. destruct G as (_ & _ & ->). split; [apply defined_ret|]. apply ensures_ret. exists hsp. split; [exact R1|]. intros j. left. reflexivity. }
  assert (Hl : exists l, hlive hsp1 i = Some l /\ (if oh then reqh = Some i /\ hlive hsp i = Some l /\ hsp1 = hsp else reqh = None /\ i = length hsp /\ l = [] /\ hsp1 = hsp ++ [Some []])).
  { cbn in G. destruct oh.
    - destruct G as (-> & ->). destruct (hlive hsp i) as [l|] eqn:El; [|destruct (Hv i eq_refl El)]. eauto.
    - destruct G as (-> & -> & ->). exists []. split; [|auto]. rewrite hlive_snoc, Nat.eqb_refl. reflexivity. }
  destruct Hl as (l & Hl1 & Hl2). clear G.
  change (BUFFER_length bs (Some c)) with (bind (lift (getbuf bs c)) (fun b => ret (BRN (size b), bs))). rewrite Eb, bind_lift_some, bind_ret. cbn [fst].
  rewrite bind_lift_some. rewrite Et, bind_lift_some. cbn [snd]. rewrite Htb, bind_lift_some.
  destruct (replace_one hs1 hsp1 i l (str "Host") (hostName d) R1 Hl1 eq_refl eq_refl Hho) as [D2 E2].
  match goal with |- defined (bind _ ?F) /\ _ => set (f2 := F) end.
  assert (Hf2 : forall x, (exists hsp', hrepresents (snd x) hsp' /\ (if is_ok (fst x) then hsp' = upd hsp1 i (Some (with_header (str "Host") (trim (hostName d)) l)) else hsp' = hsp1)) ->
     defined (f2 x) /\ ensures (f2 x) post).
  2:{ split; [eapply defined_bind; [exact D2|exact E2|]|eapply ensures_bind; [exact E2|]]; intros x Hx; apply (Hf2 x Hx). }
  intros x (hsp2 & R2 & H2). unfold f2.
  set (m3 := if is_ok (fst x) then _ else _).
  assert (Hlive1 : hlive hsp1 i <> None) by congruence.
  assert (H3 : defined m3 /\ ensures m3 (fun y => exists hsp', hrepresents (snd y) hsp' /\
     if is_ok (fst y) then hsp' = upd hsp1 i (Some (full_headers (hostName d) ds l))
     else hlive hsp' i <> None /\ forall j, j <> i -> hlive hsp' j = hlive hsp1 j)).
  { unfold m3. destruct (is_ok (fst x)) eqn:Eok.
    - subst hsp2. destruct (replace_one (snd x) _ i (with_header (str "Host") (trim (hostName d)) l) (str "Content-Length") ds R2) as [D3 E3].
      + rewrite hlive_upd', Nat.eqb_refl by exact Hlive1. reflexivity.
      + reflexivity.
      + reflexivity.
      + exact Hdok.
      + split; [exact D3|]. eapply ensures_weaken; [exact E3|]. intros y (hsp' & R' & H'). exists hsp'. split; [exact R'|].
        destruct (is_ok (fst y)); [rewrite H', upd_upd, Hdt; reflexivity|]. subst hsp'. split.
        * rewrite hlive_upd', Nat.eqb_refl by exact Hlive1. discriminate.
        * intros j Hj. rewrite hlive_upd' by exact Hlive1. apply Nat.eqb_neq in Hj. rewrite Hj. reflexivity.
    - subst hsp2. split; [apply defined_ret|]. apply ensures_ret. exists hsp1. split; [exact R2|]. rewrite Eok. split; [congruence|reflexivity]. }
  destruct H3 as [D3 E3]. clearbody m3.
  match goal with |- defined (bind _ ?F) /\ _ => set (f3 := F) end.
  assert (Hf3 : forall y, (exists hsp', hrepresents (snd y) hsp' /\
     if is_ok (fst y) then hsp' = upd hsp1 i (Some (full_headers (hostName d) ds l))
     else hlive hsp' i <> None /\ forall j, j <> i -> hlive hsp' j = hlive hsp1 j) ->
     defined (f3 y) /\ ensures (f3 y) post).
  2:{ split; [eapply defined_bind; [exact D3|exact E3|]|eapply ensures_bind; [exact E3|]]; intros y Hy; apply (Hf3 y Hy). }
  intros y (hsp3 & R3 & H3). unfold f3. destruct (is_ok (fst y)).
  - split; [apply defined_ret|]. apply ensures_ret. exists hsp3. split; [exact R3|]. subst hsp3. exists l, ds. rewrite <- Esz. split; [exact Hds|].
    rewrite upd_length. destruct oh.
    + destruct Hl2 as (-> & H4 & ->). split; [lia|]. split; [auto|]. intros j. apply hlive_upd'. congruence.
    + destruct Hl2 as (-> & -> & -> & ->). split; [rewrite app_length; cbn; lia|]. split; [auto|]. intros j. rewrite hlive_upd' by exact Hlive1.
      destruct (Nat.eqb_spec j (length hsp)); [reflexivity|]. rewrite hlive_snoc. apply Nat.eqb_neq in n. rewrite n. reflexivity.
  - destruct H3 as [H3a H3b]. destruct oh.
    + rewrite bind_ret. split; [apply defined_ret|]. apply ensures_ret. exists hsp3. split; [exact R3|]. destruct Hl2 as (-> & H4 & ->). intros j.
      destruct (Nat.eq_dec j i) as [->|K]; [right; split; [reflexivity|exact H3a]|left; apply H3b; exact K].
    + destruct Hl2 as (-> & -> & -> & ->). set (i := length hsp) in *.
      assert (D4 := free_headers_ensures (snd y) hsp3 false i R3 H3a). unfold free_headers in D4. destruct D4 as [D4 E4].
      change (HTTPHeaders_Free (snd y) (Some i)) with (hstep (snd y) (HFree (Some i))) in *.
      destruct (hsim (snd y) hsp3 (HFree (Some i)) R3) as [D5 E5]; [intros m; cbn; destruct (hlive hsp3 i); congruence|]. split.
      * eapply defined_bind; [exact D5|exact E5|]. intros. apply defined_ret.
      * eapply ensures_bind; [exact E5|]. intros z (m & hsp4 & Hs & R4). apply ensures_ret. exists hsp4. split; [exact R4|].
        cbn in Hs. destruct (hlive hsp3 i) eqn:El; [|congruence]. injection Hs as _ <-. intros j. left. rewrite hlive_upd' by congruence.
        destruct (Nat.eqb_spec j i) as [->|K]; [symmetry; apply hlive_out; unfold i; lia|]. rewrite H3b by exact K.
        rewrite hlive_snoc. fold i. apply Nat.eqb_neq in K. rewrite K. reflexivity.
Qed.
