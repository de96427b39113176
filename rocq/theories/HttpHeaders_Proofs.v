(* Proofs about the model of src/httpheaders.c. *)
From Verif Require Import Base Refine Map_Model Map_Spec Map_Proofs Map_Props HttpHeaders_Model HttpHeaders_Spec.
Open Scope N_scope.
#[local] Arguments is_lws : simpl never.
#[local] Arguments lws : simpl never.

Definition hwf (ms : amaps) (x : option nat) (y : option (list (text * text))) : Prop :=
  match x, y with
  | Some m, Some l => mlive ms m = Some {| a_pairs := l; a_filter := None |} /\
                      Forall (fun p => legal_name (fst p) = true /\ trim (snd p) = snd p) l
  | None, None => True
  | _, _ => False
  end.

Definition hrep_with (st : hstate) (sp : header_lists) (ms : amaps) : Prop :=
  mrepresents (hmaps st) ms /\ Forall2 (hwf ms) (hdrs st) sp /\
  forall i j m, gethdr st i = Some m -> gethdr st j = Some m -> i = j.

Lemma name_char_legal n : forallb name_char n = legal_name n.
Proof.
  unfold legal_name. induction n as [|c n IH]; cbn; [reflexivity|]. rewrite IH. f_equal.
  unfold name_char. change (ch ":") with 58. lia.
Qed.

Lemma lws_is c : lws c = is_lws c.
Proof. unfold lws, is_lws. cbn. rewrite orb_false_r, !orb_assoc. reflexivity. Qed.

Lemma skip_trim s : skip_lws s = trim s.
Proof. induction s as [|c s IH]; cbn; [reflexivity|]. rewrite lws_is, IH. reflexivity. Qed.

Lemma trim_trim s : trim (trim s) = trim s.
Proof. induction s as [|c s IH]; cbn; [reflexivity|]. destruct (is_lws c) eqn:E; [exact IH|]. cbn. rewrite E. reflexivity. Qed.

Lemma trim_ok s : cstr_ok s -> cstr_ok (trim s).
Proof. induction 1 as [|c s H Hs IH]; cbn; [constructor|]. destruct (is_lws c); [exact IH|constructor; assumption]. Qed.

(* a trimmed old value followed by ", ..." is trimmed *)
Lemma trim_join old v : trim old = old -> trim (old ++ str ", " ++ v) = old ++ str ", " ++ v.
Proof.
  intros H. destruct old as [|c old]; [reflexivity|]. cbn in *. destruct (is_lws c) eqn:E; [|reflexivity].
  exfalso. assert (L : forall s, (length (trim s) <= length s)%nat).
  { induction s as [|x s IH]; cbn; [lia|]. destruct (is_lws x); cbn; lia. }
  specialize (L old). rewrite H in L. cbn in L. lia.
Qed.

(** strcpy, strcat, strcat *)

Lemma cells_text_filled s rest : cstr_ok s -> cells_text (filled s ++ Some 0 :: rest) = Some s.
Proof.
  induction 1 as [|c s H Hs IH]; cbn; [reflexivity|]. unfold char_ok in H. replace (c =? 0) with false by lia.
  change (map Some s) with (filled s). rewrite IH. reflexivity.
Qed.

Lemma filled_app a b : filled (a ++ b) = filled a ++ filled b.
Proof. apply map_app. Qed.

Lemma join3_eq a sep b : cstr_ok a -> cstr_ok sep -> cstr_ok b -> join3 a sep b = Some (a ++ sep ++ b).
Proof.
  intros Ha Hs Hb. unfold join3, strcpy_at.
  set (n := (length a + length sep + length b + 1)%nat).
  assert (E1 : store_all (fresh n) 0 (a ++ [0]) = Some (filled a ++ [Some 0] ++ fresh (length sep + length b))).
  { rewrite store_all_prefix by (rewrite app_length, fresh_length; cbn; lia).
    rewrite filled_app, <- app_assoc. cbn [filled map]. unfold fresh. rewrite app_length. cbn [length].
    unfold n. replace (length a + length sep + length b + 1)%nat with ((length a + 1) + (length sep + length b))%nat by lia.
    rewrite repeat_app, skipn_app, skipn_all2 by (rewrite repeat_length; lia).
    rewrite repeat_length, Nat.sub_diag. reflexivity. }
  rewrite E1.
  assert (E2 : store_all (filled a ++ [Some 0] ++ fresh (length sep + length b)) (length a) (sep ++ [0])
             = Some (filled a ++ filled (sep ++ [0]) ++ fresh (length b))).
  { rewrite <- (filled_length a).
    replace ([Some 0] ++ fresh (length sep + length b)) with ((Some 0 :: fresh (length sep)) ++ fresh (length b))
      by (cbn; unfold fresh; rewrite repeat_app; reflexivity).
    apply store_all_app_gen. cbn. rewrite app_length, fresh_length. cbn. lia. }
  rewrite E2.
  assert (E3 : store_all (filled a ++ filled (sep ++ [0]) ++ fresh (length b)) (length a + length sep) (b ++ [0])
             = Some (filled (a ++ sep) ++ filled (b ++ [0]) ++ [])).
  { rewrite filled_app at 1. cbn [filled map].
    replace (filled a ++ (filled sep ++ [Some 0]) ++ fresh (length b))
      with (filled (a ++ sep) ++ (Some 0 :: fresh (length b)) ++ [])
      by (rewrite filled_app, !app_nil_r, <- !app_assoc; reflexivity).
    replace (length a + length sep)%nat with (length (filled (a ++ sep))) by (rewrite filled_length, app_length; reflexivity).
    apply store_all_app_gen. cbn. rewrite app_length, fresh_length. cbn. lia. }
  rewrite E3, app_nil_r, <- filled_app, <- app_assoc, app_assoc, app_assoc, filled_app. cbn [filled map].
  rewrite cells_text_filled; [rewrite <- app_assoc; reflexivity|].
  apply Forall_app. split; [apply Forall_app; auto|exact Hb].
Qed.

(** the state *)

Lemma hrep_get st sp ms h l : hrep_with st sp ms -> hlive sp h = Some l ->
  exists m, gethdr st h = Some m /\ mlive ms m = Some {| a_pairs := l; a_filter := None |} /\
    Forall (fun p => legal_name (fst p) = true /\ trim (snd p) = snd p) l.
Proof.
  intros (_ & R & _) L. unfold hlive in L. destruct (nth_error sp h) as [[x|]|] eqn:E; try discriminate.
  injection L as ->. destruct (Forall2_nth_error _ _ _ _ _ R E) as (y & Hy & Hp).
  destruct y as [m|]; [|contradiction]. exists m. unfold gethdr. rewrite Hy. split; [reflexivity|exact Hp].
Qed.

Lemma hrep_len st sp ms : hrep_with st sp ms -> length (hdrs st) = length sp.
Proof. intros (_ & R & _). induction R; cbn; congruence. Qed.

Lemma mlive_lt ms m a : mlive ms m = Some a -> (m < length ms)%nat.
Proof. unfold mlive. intros H. apply nth_error_Some. destruct (nth_error ms m); congruence. Qed.

Lemma mlive_app ms m a x : mlive ms m = Some a -> mlive (ms ++ x) m = Some a.
Proof. intros H. pose proof (mlive_lt _ _ _ H). unfold mlive in *. rewrite nth_error_app1 by assumption. exact H. Qed.

Lemma mlive_upd ms m a m' x : mlive ms m = Some a -> m <> m' -> mlive (upd ms m' x) m = Some a.
Proof. intros H Hn. unfold mlive in *. rewrite upd_other by congruence. exact H. Qed.

Lemma hrep_grow st sp ms ms' mp' : hrep_with st sp ms -> mrepresents mp' ms' ->
  (forall m a, mlive ms m = Some a -> mlive ms' m = Some a) -> hrep_with (with_maps st mp') sp ms'.
Proof.
  intros (R1 & R2 & R3) R' Hm. split; [exact R'|]. split; [|exact R3]. cbn.
  clear - R2 Hm. induction R2 as [|x y l1 l2 H R IH]; constructor; [|exact IH].
  destruct x, y; cbn in *; auto. destruct H. auto.
Qed.

Lemma hrep_push st sp ms ms' mp' m l : hrep_with st sp ms -> mrepresents mp' ms' ->
  (forall m a, mlive ms m = Some a -> mlive ms' m = Some a) ->
  mlive ms m = None -> mlive ms' m = Some {| a_pairs := l; a_filter := None |} ->
  Forall (fun p => legal_name (fst p) = true /\ trim (snd p) = snd p) l ->
  hrep_with {| hmaps := mp'; hdrs := hdrs st ++ [Some m] |} (sp ++ [Some l]) ms'.
Proof.
  intros H R' Hm Hf Hn Hl. pose proof (hrep_grow _ _ _ _ _ H R' Hm) as (G1 & G2 & G3).
  split; [exact G1|]. split.
  - cbn. apply Forall2_app; [exact G2|]. constructor; [split; assumption|constructor].
  - cbn. destruct H as (_ & R2 & R3).
    assert (Hd : forall j, nth_error (hdrs st) j <> Some (Some m)).
    { intros j Hj. destruct (nth_error sp j) as [y|] eqn:Ey.
      - destruct (Forall2_nth_error _ _ _ _ _ R2 Ey) as (x & Hx & Hp). rewrite Hj in Hx. injection Hx as <-.
        destruct y; cbn in Hp; [|contradiction]. destruct Hp. congruence.
      - apply nth_error_None in Ey. assert (Hlt : (j < length (hdrs st))%nat) by (apply nth_error_Some; congruence).
        assert (length (hdrs st) = length sp) by (clear - R2; induction R2; cbn; congruence). lia. }
    assert (G : forall i m0, gethdr {| hmaps := mp'; hdrs := hdrs st ++ [Some m] |} i = Some m0 ->
       (gethdr st i = Some m0 /\ m0 <> m) \/ (i = length (hdrs st) /\ m0 = m)).
    { intros i m0 E. unfold gethdr in *. cbn in E. destruct (Nat.lt_ge_cases i (length (hdrs st))) as [Hi|Hi].
      - rewrite nth_error_app1 in E by exact Hi. left. split; [exact E|]. intros ->.
        specialize (Hd i). destruct (nth_error (hdrs st) i) as [[?|]|]; congruence.
      - rewrite nth_error_app2 in E by exact Hi. destruct (i - length (hdrs st))%nat as [|k] eqn:Ek.
        + cbn in E. right. split; [lia|congruence].
        + cbn in E. destruct k; discriminate. }
    intros i j m0 Ei Ej. destruct (G _ _ Ei) as [[A B]|[A B]], (G _ _ Ej) as [[C D]|[C D]].
    + apply (R3 i j m0); assumption.
    + congruence.
    + congruence.
    + congruence.
Qed.

Lemma hrep_set st sp ms mp' i m l l' : hrep_with st sp ms -> hlive sp i = Some l -> gethdr st i = Some m ->
  mrepresents mp' (upd ms m (Some {| a_pairs := l'; a_filter := None |})) ->
  Forall (fun p => legal_name (fst p) = true /\ trim (snd p) = snd p) l' ->
  hrep_with (with_maps st mp') (upd sp i (Some l')) (upd ms m (Some {| a_pairs := l'; a_filter := None |})).
Proof.
  intros H L G R' Hl. pose proof (hrep_get _ _ _ _ _ H L) as (m0 & G0 & Lm & _).
  rewrite G in G0. injection G0 as <-. destruct H as (R1 & R2 & R3). split; [exact R'|]. split; [|exact R3]. cbn.
  replace (hdrs st) with (upd (hdrs st) i (Some m)).
  2:{ apply nth_error_upd_self. unfold gethdr in G. destruct (nth_error (hdrs st) i) as [[?|]|]; congruence. }
  pose proof (mlive_lt _ _ _ Lm) as Hlt.
  assert (F : Forall2 (fun x y => x = Some m \/ hwf (upd ms m (Some {| a_pairs := l'; a_filter := None |})) x y) (hdrs st) sp).
  { clear - R2. induction R2 as [|x y l1 l2 H R IH]; constructor; [|exact IH].
    destruct x as [m1|]; [|right; destruct y; [contradiction|exact I]].
    destruct y as [l1'|]; [|contradiction]. destruct H as [H1 H2].
    destruct (Nat.eq_dec m1 m) as [->|Hn]; [left; reflexivity|right]. split; [|exact H2]. apply mlive_upd; assumption. }
  assert (Hi : (i < length sp)%nat) by (unfold hlive in L; apply nth_error_Some; destruct (nth_error sp i); congruence).
  clear R1 R'.
  assert (P : forall (hs : list (option nat)) sps k, Forall2 (fun x y => x = Some m \/ hwf (upd ms m (Some {| a_pairs := l'; a_filter := None |})) x y) hs sps ->
     (forall j, nth_error hs j = Some (Some m) -> j = k) ->
     Forall2 (hwf (upd ms m (Some {| a_pairs := l'; a_filter := None |}))) (upd hs k (Some m)) (upd sps k (Some l'))).
  { intros hs sps k F'. revert k. induction F' as [|x y hs sps H F' IH]; intros k Hk; cbn; [constructor|].
    destruct k as [|k].
    - constructor.
      + split; [|exact Hl]. unfold mlive. rewrite upd_same by exact Hlt. reflexivity.
      + clear IH. assert (Hnone : forall j, nth_error hs j <> Some (Some m)) by (intros j Ej; specialize (Hk (S j) Ej); discriminate).
        clear - F' Hnone. induction F' as [|x y hs sps H F' IH]; constructor.
        * destruct H as [->|H]; [exfalso; apply (Hnone 0%nat); reflexivity|exact H].
        * apply IH. intros j. apply (Hnone (S j)).
    - constructor.
      + destruct H as [->|H]; [specialize (Hk 0%nat eq_refl); discriminate|exact H].
      + apply IH. intros j Ej. specialize (Hk (S j) Ej). congruence. }
  apply P; [exact F|]. intros j Ej. apply (R3 j i m); [|exact G]. unfold gethdr. rewrite Ej. reflexivity.
Qed.

Lemma hrep_free st sp ms mp' i m l : hrep_with st sp ms -> hlive sp i = Some l -> gethdr st i = Some m ->
  mrepresents mp' (upd ms m None) ->
  hrep_with {| hmaps := mp'; hdrs := upd (hdrs st) i None |} (upd sp i None) (upd ms m None).
Proof.
  intros (R1 & R2 & R3) L G R'. split; [exact R'|]. split.
  - cbn. 
    assert (P : forall (hs : list (option nat)) sps k, Forall2 (hwf ms) hs sps ->
      (forall j, nth_error hs j = Some (Some m) -> j = k) ->
      Forall2 (hwf (upd ms m None)) (upd hs k None) (upd sps k None)).
    { intros hs sps k F'. revert k. induction F' as [|x y hs sps H F' IH]; intros k Hk; cbn; [constructor|].
      assert (Hx : x <> Some m -> hwf (upd ms m None) x y).
      { intros Hn. destruct x as [m1|], y as [l1|]; cbn in *; auto. destruct H. split; auto. apply mlive_upd; congruence. }
      destruct k as [|k].
      - constructor; [exact I|]. clear IH Hx H.
        assert (Hnone : forall j, nth_error hs j <> Some (Some m)) by (intros j Ej; specialize (Hk (S j) Ej); discriminate).
        clear - F' Hnone. induction F' as [|x y hs sps H F' IH]; constructor.
        + destruct x as [m1|], y as [l1|]; cbn in *; auto. destruct H. split; auto. apply mlive_upd; [assumption|].
          intros ->. apply (Hnone 0%nat). reflexivity.
        + apply IH. intros j. apply (Hnone (S j)).
      - constructor.
        + apply Hx. intros ->. specialize (Hk 0%nat eq_refl). discriminate.
        + apply IH. intros j Ej. specialize (Hk (S j) Ej). congruence. }
    apply P; [exact R2|]. intros j Ej. apply (R3 j i m); [|exact G]. unfold gethdr. rewrite Ej. reflexivity.
  - intros a b m0. unfold gethdr. cbn. intros Ea Eb. apply (R3 a b m0); unfold gethdr.
    + destruct (Nat.eq_dec i a) as [->|Hn]; [|rewrite upd_other in Ea by exact Hn; exact Ea].
      assert (Hi : (a < length (hdrs st))%nat) by (unfold gethdr in G; apply nth_error_Some; destruct (nth_error (hdrs st) a); congruence).
      rewrite upd_same in Ea by exact Hi. discriminate.
    + destruct (Nat.eq_dec i b) as [->|Hn]; [|rewrite upd_other in Eb by exact Hn; exact Eb].
      assert (Hi : (b < length (hdrs st))%nat) by (unfold gethdr in G; apply nth_error_Some; destruct (nth_error (hdrs st) b); congruence).
      rewrite upd_same in Eb by exact Hi. discriminate.
Qed.

Lemma getvalue_eval st sp h a k : mrepresents st sp -> mlive sp h = Some a -> cstr_ok k ->
  Map_GetValueFromKey st (Some h) (MStr k) = ret (MRS (lookup k (a_pairs a)), st)
  \/ forall o, Map_GetValueFromKey st (Some h) (MStr k) o = Some ((MRS (lookup k (a_pairs a)), st), o).
Proof.
  intros R L Ck. right. intros o. apply cstr_okb_ok in Ck.
  destruct (mrep_get _ _ _ _ R L) as (m & Em & W). destruct (mwf_strs _ _ W) as [_ Hv].
  cbn [Map_GetValueFromKey mnull]. rewrite Em, bind_lift_some. cbn [read_marg]. rewrite Ck, bind_lift_some.
  rewrite (mwf_findKey _ _ _ W), bind_lift_some. pose proof (lookup_pos k (a_pairs a)) as Hp.
  destruct (lookup k (a_pairs a)) as [v|], (pos k (map fst (a_pairs a))) as [j|]; try contradiction; [|reflexivity].
  specialize (Hv j v). cbn in Hv. rewrite Hv by (rewrite nth_error_map, Hp; reflexivity). reflexivity.
Qed.

(* a call that surely returns a without allocating *)
Lemma sim1_known {S Sp R A} (abs : S -> Sp -> Prop) (f : M A) a (F : A -> M (R * S)) g o :
  (forall o, f o = Some (a, o)) -> sim1 abs (F a) g o -> sim1 abs (bind f F) g o.
Proof.
  intros Hf (m & Hm & H). exists m. split; [exact Hm|]. intros r sp' E.
  destruct (H r sp' E) as (s' & o' & used & Es & Ha). exists s', o', used. unfold bind. rewrite Hf. auto.
Qed.

Lemma lookup_in k l v : lookup k l = Some v -> In (k, v) l.
Proof.
  induction l as [|[k1 v1] l IH]; cbn; [discriminate|]. destruct (teq k1 k) eqn:E.
  - apply teq_eq in E. intros H. injection H as ->. subst. auto.
  - auto.
Qed.

Lemma hrep_harg st sp ms v vt : hrep_with st sp ms -> hdenote sp v = Some (Some vt) ->
  exists a a', read_harg st v = Some (Some (vt, a)) /\ skipped vt a = Some a' /\ mnull a' = false /\
    mdenote ms a' = Some (Some (trim vt)) /\ cstr_ok vt /\
    (forall h n m, gethdr st h = Some m -> own_header sp h n v = own_value ms m n a').
Proof.
  intros H D. destruct v as [|s|h i]; cbn in D; [discriminate| |].
  - destruct (cstr_okb s) eqn:E; [|discriminate]. injection D as ->. exists (MStr vt), (MStr (skip_lws vt)).
    cbn [read_harg skipped mdenote mnull own_header own_value]. rewrite E, skip_trim. pose proof (proj1 (cstr_okb_ok _) E) as Hc.
    pose proof (proj2 (cstr_okb_ok _) (trim_ok _ Hc)) as ->. repeat split; auto.
  - destruct (hlive sp h) as [l|] eqn:L; [|discriminate]. destruct (nth_error l i) as [p|] eqn:Ep; [|discriminate].
    injection D as <-. pose proof (hrep_get _ _ _ _ _ H L) as (m & G & Lm & Fl).
    assert (Hp : legal_name (fst p) = true /\ trim (snd p) = snd p) by (rewrite Forall_forall in Fl; apply Fl; eapply nth_error_In, Ep).
    destruct Hp as [_ Ht]. exists (MValOf m i), (MValOf m i). cbn [read_harg]. rewrite G.
    assert (Dm : mdenote ms (MValOf m i) = Some (Some (snd p))) by (cbn; rewrite Lm; cbn; rewrite Ep; reflexivity).
    rewrite (mrep_read _ _ _ (proj1 H)), Dm. split; [reflexivity|]. cbn [skipped]. rewrite skip_trim, Ht, Nat.eqb_refl.
    split; [reflexivity|]. split; [reflexivity|]. split; [reflexivity|]. split.
    + destruct (mrep_arg _ _ _ _ (proj1 H) Dm) as [_ Hc]. exact Hc.
    + intros h2 n m2 G2. cbn [own_header own_value]. destruct (Nat.eqb_spec h h2) as [->|Hn].
      * rewrite G in G2. injection G2 as <-. rewrite Nat.eqb_refl, Lm, L. cbn. rewrite Ep. reflexivity.
      * replace (m =? m2)%nat with false; [reflexivity|]. symmetry. apply Nat.eqb_neq. intros <-. apply Hn.
        apply (proj2 (proj2 H) h h2 m); assumption.
Qed.

Lemma legal_snoc l n v : Forall (fun p => legal_name (fst p) = true /\ trim (snd p) = snd p) l ->
  legal_name n = true -> trim v = v ->
  Forall (fun p => legal_name (fst p) = true /\ trim (snd p) = snd p) (l ++ [(n, v)]).
Proof. intros H Hn Hv. apply Forall_app. split; [exact H|]. repeat constructor; assumption. Qed.

Lemma legal_replace l n v : Forall (fun p => legal_name (fst p) = true /\ trim (snd p) = snd p) l -> trim v = v ->
  Forall (fun p => legal_name (fst p) = true /\ trim (snd p) = snd p) (replace_value n v l).
Proof.
  intros H Hv. unfold replace_value. apply Forall_map. eapply Forall_impl; [|exact H].
  intros [k x] [A B]. cbn. destruct (teq k n); split; auto.
Qed.

(* Map_AddOrUpdate as used here *)
Lemma addorupdate_y st sp ms i l m n arg vt : hrep_with st sp ms -> hlive sp i = Some l -> gethdr st i = Some m ->
  cstr_ok n -> legal_name n = true -> mnull arg = false -> mdenote ms arg = Some (Some vt) -> trim vt = vt ->
  (lookup n l <> None -> own_value ms m n arg = false) ->
  yields (Map_AddOrUpdate (hmaps st) (Some m) (MStr n) arg) (fun b x =>
    map_ok (fst x) = b /\
    exists ms', hrep_with (with_maps st (snd x))
      (if b then upd sp i (Some (match lookup n l with None => l ++ [(n, vt)] | Some _ => replace_value n vt l end)) else sp) ms').
Proof.
  intros H L G Cn Hn Na Da Ht Ho. pose proof (hrep_get _ _ _ _ _ H L) as (m0 & G0 & Lm & Fl).
  rewrite G in G0. injection G0 as <-. pose proof (proj1 H) as R.
  change (Map_AddOrUpdate (hmaps st) (Some m) (MStr n) arg) with (mstep (hmaps st) (MAddOrUpdate (Some m) (MStr n) arg)).
  assert (Es : forall b, msp_step ms (MAddOrUpdate (Some m) (MStr n) arg) b =
     match lookup n l with
     | None => if b then Some (MRC MAP_OK, upd ms m (Some {| a_pairs := l ++ [(n, vt)]; a_filter := None |}))
               else Some (MRC MAP_ERROR, ms)
     | Some _ => if b then Some (MRC MAP_OK, upd ms m (Some {| a_pairs := replace_value n vt l; a_filter := None |}))
                 else Some (MRC MAP_ERROR, ms)
     end).
  { intros b. cbn [msp_step mnull]. rewrite Na. cbn [orb]. rewrite Lm. cbn [mdenote].
    pose proof (proj2 (cstr_okb_ok _) Cn) as ->. rewrite Da. cbn [refused a_filter a_pairs].
    destruct (lookup n l) as [old|] eqn:El.
    - rewrite Ho by discriminate. destruct b; reflexivity.
    - unfold minsert, mput. cbn [a_pairs a_filter]. destruct b; [reflexivity|]. destruct l; reflexivity. }
  eapply yields_weaken.
  - apply (yields_sim _ _ _ _ ms _ map_simulate R). intros b. rewrite Es. destruct (lookup n l), b; discriminate.
  - intros b [r mp] (sp' & E & R'). cbn [fst snd] in *. rewrite Es in E.
    destruct (lookup n l) as [old|]; destruct b; injection E as <- <-; (split; [reflexivity|]); eexists.
    + apply (hrep_set st sp ms mp i m l); auto. apply legal_replace; assumption.
    + apply (hrep_grow st sp ms ms); auto.
    + apply (hrep_set st sp ms mp i m l); auto. apply legal_snoc; assumption.
    + apply (hrep_grow st sp ms ms); auto.
Qed.

Lemma hrep_intro st sp ms : hrep_with st sp ms -> hrepresents st sp.
Proof. intros H. exists ms. exact H. Qed.

Ltac hsame H := apply sim1_ret; let r := fresh "r" in let sp' := fresh "sp'" in let Hg := fresh "Hg" in
  intros r sp' Hg; cbv beta in Hg; injection Hg as <- <-; eexists; (split; [reflexivity|eapply hrep_intro; exact H]).

Lemma put_simulate st sp h n v replace o : hrepresents st sp ->
  sim1 hrepresents (bind (headers_ReplaceHeaderNameValuePair st h n v replace)
     (fun x => ret (merge_codes (fst x), snd x))) (fun m => hsp_put sp h n v replace m) o.
Proof.
  intros (ms & H). change (hrep_with st sp ms) in H.
  unfold headers_ReplaceHeaderNameValuePair, hsp_put. destruct h as [i|]; [|hsame H].
  destruct n as [n|]; [|hsame H].
  assert (Ev : v = HNull \/ v <> HNull) by (destruct v; [left|right..]; congruence).
  destruct Ev as [->|Hv]; [hsame H|].
  assert (X : forall g : bool -> option (hret * header_lists),
     g = (fun m => if negb (cstr_okb n) then None
      else if negb (legal_name n) then Some (HRC HTTP_HEADERS_INVALID_ARG, sp)
      else match hlive sp i, hdenote sp v with
           | Some l, Some (Some v') =>
               match lookup n l with
               | None => Some (hset sp i (l ++ [(n, trim v')]) m)
               | Some old =>
                   if replace then
                     if own_header sp i n v then None
                     else Some (hset sp i (replace_value n (trim v') l) m)
                   else Some (hset sp i (replace_value n (old ++ str ", " ++ trim v') l) m)
               end
           | _, _ => None
           end) ->
     sim1 hrepresents (bind (if negb (cstr_okb n) then undef
      else if negb (forallb name_char n) then ret (HRC HTTP_HEADERS_INVALID_ARG, st)
      else
        (m <- lift (gethdr st i) ;;
         e <- Map_GetValueFromKey (hmaps st) (Some m) (MStr n) ;;
         va <- lift (read_harg st v) ;;
         match va with
         | None => undef
         | Some (vt, arg) =>
             arg' <- lift (skipped vt arg) ;;
             match negb replace, fst e with
             | true, MRS (Some old) =>
                 ok <- alloc ;;
                 if negb ok then ret (HRC HTTP_HEADERS_ALLOC_FAILED, st)
                 else
                   nv <- lift (join3 old (str ", ") (skip_lws vt)) ;;
                   x <- Map_AddOrUpdate (hmaps st) (Some m) (MStr n) (MStr nv) ;;
                   ret (HRC (if map_ok (fst x) then HTTP_HEADERS_OK else HTTP_HEADERS_ERROR), with_maps st (snd x))
             | _, _ =>
                 x <- Map_AddOrUpdate (hmaps st) (Some m) (MStr n) arg' ;;
                 ret (HRC (if map_ok (fst x) then HTTP_HEADERS_OK else HTTP_HEADERS_ALLOC_FAILED), with_maps st (snd x))
             end
         end)%m) (fun x => ret (merge_codes (fst x), snd x))) g o).
  2:{ destruct v as [|s|h2 i2]; [contradiction| |]; apply X; reflexivity. }
  intros g ->. destruct (cstr_okb n) eqn:Ecn; cbn [negb]; [|apply sim1_none; reflexivity].
  pose proof (proj1 (cstr_okb_ok _) Ecn) as Cn.
  rewrite name_char_legal. destruct (legal_name n) eqn:En; cbn [negb]; [|hsame H].
  destruct (hlive sp i) as [l|] eqn:L; [|apply sim1_none; reflexivity].
  destruct (hdenote sp v) as [[vt|]|] eqn:D; [|apply sim1_none; reflexivity|apply sim1_none; reflexivity].
  pose proof (hrep_get _ _ _ _ _ H L) as (m & G & Lm & Fl).
  destruct (hrep_harg _ _ _ _ _ H D) as (a & a' & Er & Esk & Na & Da & Cv & Own).
  assert (Eg : forall o, Map_GetValueFromKey (hmaps st) (Some m) (MStr n) o = Some ((MRS (lookup n l), hmaps st), o)).
  { intros o0. destruct (getvalue_eval (hmaps st) ms m _ n (proj1 H) Lm Cn) as [E|E]; rewrite E; reflexivity. }
  rewrite G, bind_lift_some. apply sim1_assoc. eapply sim1_known; [exact Eg|]. cbv beta.
  rewrite Er, bind_lift_some, Esk, bind_lift_some. cbn [fst].
  assert (Put : forall arg vt0 code l', mnull arg = false -> mdenote ms arg = Some (Some vt0) -> trim vt0 = vt0 ->
     (lookup n l <> None -> own_value ms m n arg = false) ->
     l' = (match lookup n l with None => l ++ [(n, vt0)] | Some _ => replace_value n vt0 l end) ->
     merge_codes (HRC code) = HRC HTTP_HEADERS_ERROR ->
     yields (bind (bind (Map_AddOrUpdate (hmaps st) (Some m) (MStr n) arg)
        (fun x => ret (HRC (if map_ok (fst x) then HTTP_HEADERS_OK else code), with_maps st (snd x))))
        (fun x => ret (merge_codes (fst x), snd x)))
       (fun b x => forall r sp', Some (hset sp i l' b) = Some (r, sp') -> fst x = r /\ hrepresents (snd x) sp')).
  { intros arg vt0 code l' Hna Hda Ht0 Ho -> Hcode.
    eapply yields_bind.
    - eapply yields_bind; [apply (addorupdate_y st sp ms i l m n arg vt0); assumption|].
      intros b x (Hb & ms' & R'). apply yields_ret. instantiate (1 := fun b y =>
        y = (HRC (if b then HTTP_HEADERS_OK else code), snd y) /\
        hrepresents (snd y) (if b then upd sp i (Some (match lookup n l with None => l ++ [(n, vt0)] | Some _ => replace_value n vt0 l end)) else sp)).
      rewrite andb_true_r. cbn [fst snd]. rewrite Hb. split; [reflexivity|]. eapply hrep_intro, R'.
    - intros b y [-> R']. apply yields_ret. rewrite andb_true_r. cbn [fst snd]. intros r sp' Hg. unfold hset in Hg.
      destruct b; injection Hg as <- <-; (split; [|exact R']); [reflexivity|exact Hcode]. }
  destruct (lookup n l) as [old|] eqn:El.
  - destruct replace; cbn [negb].
    + destruct (own_header sp i n v) eqn:Eo; [apply sim1_none; reflexivity|].
      apply sim1_yields. apply (Put a' (trim vt) HTTP_HEADERS_ALLOC_FAILED); try reflexivity; auto using trim_trim.
      intros _. rewrite <- (Own i n m G). exact Eo.
    + assert (Hold : cstr_ok old /\ trim old = old).
      { pose proof (lookup_in _ _ _ El) as Hin. split.
        - destruct (mrep_get _ _ _ _ (proj1 H) Lm) as (mm & _ & W). destruct W as (_ & _ & _ & _ & _ & W). cbn in W.
          rewrite Forall_forall in W. apply (W _ Hin).
        - rewrite Forall_forall in Fl. apply (Fl _ Hin). }
      destruct Hold as [Co To].
      apply sim1_assoc. apply sim1_yields. apply yields_balloc. intros [|]; cbn [negb].
      2:{ apply yields_ret. cbn [andb fst snd merge_codes]. intros r sp' Hg. unfold hset in Hg. injection Hg as <- <-.
          split; [reflexivity|eapply hrep_intro, H]. }
      rewrite skip_trim, join3_eq; [|exact Co|apply cstr_okb_ok; reflexivity|apply trim_ok, Cv]. rewrite bind_lift_some.
      cbn [andb]. apply (Put (MStr (old ++ str ", " ++ trim vt)) (old ++ str ", " ++ trim vt)); try reflexivity.
      * cbn [mdenote]. assert (Cj : cstr_ok (old ++ str ", " ++ trim vt)).
        { apply Forall_app. split; [exact Co|]. apply Forall_app. split; [apply cstr_okb_ok; reflexivity|apply trim_ok, Cv]. }
        apply cstr_okb_ok in Cj. rewrite Cj. reflexivity.
      * apply trim_join, To.
  - assert (Em : match negb replace, MRS None with
             | true, MRS (Some old) =>
                 (ok <- alloc ;;
                 if negb ok then ret (HRC HTTP_HEADERS_ALLOC_FAILED, st)
                 else
                   nv <- lift (join3 old (str ", ") (skip_lws vt)) ;;
                   x <- Map_AddOrUpdate (hmaps st) (Some m) (MStr n) (MStr nv) ;;
                   ret (HRC (if map_ok (fst x) then HTTP_HEADERS_OK else HTTP_HEADERS_ERROR), with_maps st (snd x)))%m
             | _, _ =>
                 (x <- Map_AddOrUpdate (hmaps st) (Some m) (MStr n) a' ;;
                 ret (HRC (if map_ok (fst x) then HTTP_HEADERS_OK else HTTP_HEADERS_ALLOC_FAILED), with_maps st (snd x)))%m
             end = (x <- Map_AddOrUpdate (hmaps st) (Some m) (MStr n) a' ;;
                 ret (HRC (if map_ok (fst x) then HTTP_HEADERS_OK else HTTP_HEADERS_ALLOC_FAILED), with_maps st (snd x)))%m)
      by (destruct replace; reflexivity).
    rewrite Em. apply sim1_yields. apply (Put a' (trim vt) HTTP_HEADERS_ALLOC_FAILED); try reflexivity; auto using trim_trim.
    congruence.
Qed.

Lemma headers_simulate : simulates hstep_merged hsp_step hrepresents.
Proof.
  intros st sp op o HR. change (sim1 hrepresents (hstep_merged st op) (fun m => hsp_step sp op m) o).
  destruct op as [|h|h n v|h n v|h n|h out|h i out|h]; unfold hstep_merged; cbn [hstep hsp_step].
  3,4: apply put_simulate; exact HR.
  all: destruct HR as (ms & H); change (hrep_with st sp ms) in H.
  - (* alloc *)
    unfold HTTPHeaders_Alloc, Map_Create. apply sim1_assoc, sim1_yields, yields_balloc. intros [|]; cbn [negb].
    2:{ apply yields_ret. cbn. intros r sp' Hg. injection Hg as <- <-. split; [reflexivity|eapply hrep_intro, H]. }
    intros o0. destruct (alloc_spec o0) as (b & o1 & used & E & Ho & Hf). unfold bind. rewrite E.
    cbn [ret]. destruct b; cbn [fst snd hpush merge_codes].
    + exists (HRH (Some (length (hdrs st))), {| hmaps := hmaps st ++ [Some {| keys := None; values := None; mcount := 0; mapFilterCallback := None |}]; hdrs := hdrs st ++ [Some (length (hmaps st))] |}), o1, used, true.
      split; [reflexivity|]. split; [exact Ho|]. split; [discriminate|]. cbn. intros r sp' Hg. injection Hg as <- <-.
      rewrite (hrep_len _ _ _ H). split; [reflexivity|].
      pose proof (mrep_len _ _ (proj1 H)) as Hlm.
      eapply hrep_intro. apply (hrep_push st sp ms (ms ++ [Some {| a_pairs := []; a_filter := None |}])); auto.
      * apply Forall2_app; [exact (proj1 H)|]. constructor; [|constructor]. repeat split; cbn; auto; constructor.
      * intros m a. apply mlive_app.
      * unfold mlive. rewrite Hlm. replace (nth_error ms (length ms)) with (@None (option amap)); [reflexivity|].
        symmetry. apply nth_error_None. lia.
      * unfold mlive. rewrite Hlm, nth_error_app2, Nat.sub_diag by lia. reflexivity.
    + exists (HRH None, with_maps st (hmaps st)), o1, used, false.
      split; [reflexivity|]. split; [exact Ho|]. split; [exact Hf|]. cbn. intros r sp' Hg. injection Hg as <- <-.
      split; [reflexivity|]. eapply hrep_intro. apply (hrep_grow st sp ms ms); auto. apply H.
  - (* free *)
    destruct h as [i|]; [|hsame H]. cbn [HTTPHeaders_Free].
    destruct (hlive sp i) as [l|] eqn:L; [|apply sim1_none; reflexivity].
    pose proof (hrep_get _ _ _ _ _ H L) as (m & G & Lm & Fl). rewrite G, bind_lift_some.
    change (Map_Destroy (hmaps st) (Some m)) with (mstep (hmaps st) (MDestroy (Some m))).
    apply sim1_assoc, sim1_yields. eapply yields_bind.
    { apply (yields_sim _ _ _ _ ms _ map_simulate (proj1 H)). intros b. cbn [msp_step]. rewrite Lm. discriminate. }
    intros b x (sp' & E & R'). cbn [msp_step] in E. rewrite Lm in E. injection E as E1 <-.
    apply yields_ret. intros r sp'' Hg. injection Hg as <- <-. split; [reflexivity|].
    eapply hrep_intro. cbn [fst snd]. eapply hrep_free; eassumption.
  - (* find *)
    destruct h as [i|]; [|hsame H]. destruct n as [n|]; [|hsame H]. cbn [HTTPHeaders_FindHeaderValue].
    destruct (cstr_okb n) eqn:Ecn; [|apply sim1_none; reflexivity].
    destruct (hlive sp i) as [l|] eqn:L; [|apply sim1_none; reflexivity].
    pose proof (hrep_get _ _ _ _ _ H L) as (m & G & Lm & Fl). rewrite G, bind_lift_some.
    apply sim1_assoc. eapply sim1_known.
    { intros o0. destruct (getvalue_eval (hmaps st) ms m _ n (proj1 H) Lm (proj1 (cstr_okb_ok _) Ecn)) as [E|E];
        rewrite E; reflexivity. }
    hsame H.
  - (* count *)
    destruct h as [i|]; [|hsame H]. cbn [HTTPHeaders_GetHeaderCount]. destruct out; cbn [negb]; [|hsame H].
    destruct (hlive sp i) as [l|] eqn:L; [|apply sim1_none; reflexivity].
    pose proof (hrep_get _ _ _ _ _ H L) as (m & G & Lm & Fl). rewrite G, bind_lift_some.
    apply sim1_assoc. eapply sim1_known; [intros o0; apply (internals_eval _ _ _ _ _ (proj1 H) Lm)|].
    cbn [fst snd a_pairs]. rewrite map_length. hsame H.
  - (* get *)
    destruct h as [h|]; [|hsame H]. cbn [HTTPHeaders_GetHeader]. destruct out; cbn [negb]; [|hsame H].
    destruct (hlive sp h) as [l|] eqn:L; [|apply sim1_none; reflexivity].
    pose proof (hrep_get _ _ _ _ _ H L) as (m & G & Lm & Fl). rewrite G, bind_lift_some.
    apply sim1_assoc. eapply sim1_known; [intros o0; apply (internals_eval _ _ _ _ _ (proj1 H) Lm)|].
    cbn [fst snd a_pairs]. rewrite map_length. destruct (nth_error l i) as [[n v]|] eqn:Ei.
    + assert (Hi : (i < length l)%nat) by (apply nth_error_Some; congruence).
      replace (length l <=? i)%nat with false by lia.
      assert (Hc : cstr_ok n /\ cstr_ok v).
      { destruct (mrep_get _ _ _ _ (proj1 H) Lm) as (mm & _ & W). destruct W as (_ & _ & _ & _ & _ & W). cbn in W.
        rewrite Forall_forall in W. apply (W (n, v)). eapply nth_error_In, Ei. }
      apply sim1_assoc, sim1_yields, yields_balloc. intros [|]; cbn [negb].
      * rewrite nth_error_map, Ei. cbn [option_map fst]. rewrite bind_lift_some, nth_error_map, Ei. cbn [option_map snd].
        rewrite bind_lift_some, join3_eq; [|apply Hc|apply cstr_okb_ok; reflexivity|apply Hc].
        rewrite bind_lift_some. apply yields_ret. cbn [andb fst snd]. intros r sp' Hg. injection Hg as <- <-.
        split; [reflexivity|eapply hrep_intro, H].
      * apply yields_ret. cbn [andb fst snd]. intros r sp' Hg. injection Hg as <- <-.
        split; [reflexivity|eapply hrep_intro, H].
    + apply nth_error_None in Ei. replace (length l <=? i)%nat with true by lia. hsame H.
  - (* clone *)
    destruct h as [i|]; [|hsame H]. cbn [HTTPHeaders_Clone].
    destruct (hlive sp i) as [l|] eqn:L; [|apply sim1_none; reflexivity].
    pose proof (hrep_get _ _ _ _ _ H L) as (m & G & Lm & Fl).
    apply sim1_assoc, sim1_yields, yields_balloc. intros [|]; cbn [negb].
    2:{ apply yields_ret. cbn. intros r sp' Hg. injection Hg as <- <-. split; [reflexivity|eapply hrep_intro, H]. }
    rewrite G, bind_lift_some.
    change (Map_Clone (hmaps st) (Some m)) with (mstep (hmaps st) (MClone (Some m))).
    assert (Y : yields (bind (mstep (hmaps st) (MClone (Some m))) (fun x => ret (match fst x with
                      | MRH (Some c) => hpush st (snd x) c
                      | _ => (HRH None, with_maps st (snd x))
                      end)))
        (fun b y => if b then fst y = HRH (Some (length sp)) /\ hrepresents (snd y) (sp ++ [Some l])
                    else fst y = HRH None /\ hrepresents (snd y) sp)).
    { eapply yields_bind.
      { apply (yields_sim _ _ _ _ ms _ map_simulate (proj1 H)). intros b. cbn [msp_step]. rewrite Lm. discriminate. }
      intros b x (sp' & E & R'). cbn [msp_step] in E. rewrite Lm in E. cbn [a_pairs a_filter] in E.
      apply yields_ret. rewrite andb_true_r. destruct b; injection E as E1 <-; rewrite <- E1.
      - cbn [hpush fst snd]. rewrite (hrep_len _ _ _ H). split; [reflexivity|].
        eapply hrep_intro. eapply (hrep_push st sp ms _ _ _ l H R').
        + intros m0 a. apply mlive_app.
        + unfold mlive. replace (nth_error ms (length ms)) with (@None (option amap)); [reflexivity|].
          symmetry. apply nth_error_None. lia.
        + unfold mlive. rewrite nth_error_app2, Nat.sub_diag by lia. destruct l; reflexivity.
        + exact Fl.
      - cbn [fst snd]. split; [reflexivity|]. eapply hrep_intro. eapply (hrep_grow st sp ms ms); eauto. }
    eapply yields_bind; [exact Y|]. intros b [r0 s0] Hy. apply yields_ret. rewrite andb_true_r. cbn [andb fst snd].
    intros r sp' Hg. destruct b; injection Hg as <- <-; destruct Hy as [E1 E2]; cbn in E1, E2; subst r0; split; auto.
Qed.
