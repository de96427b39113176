(* Theorems about src/map.c: C26-C31, C69. *)
From Verif Require Import Base Refine Json_Spec Strings_Model Strings_Spec Strings_Proofs Strings_Props
  Map_Model Map_Spec Map_Proofs.
Open Scope N_scope.

(** * C26: a history of Map calls behaves like the same history on ordered finite maps *)

Theorem maps_refine_finite_maps : forall (ops : list mop) (o : oracle),
  exists ms, length ms = length ops /\ (In false ms -> In false o) /\
    forall rs sp, srun msp_step [] ops ms = Some (rs, sp) ->
    exists st o', run mstep [] ops o = Some ((rs, st), o') /\ mrepresents st sp.
Proof. intros ops o. apply (refinement mstep msp_step mrepresents map_simulate). constructor. Qed.

Theorem maps_refine_finite_maps_no_failure : forall (ops : list mop) (o : oracle) rs sp,
  ~ In false o ->
  srun msp_step [] ops (repeat true (length ops)) = Some (rs, sp) ->
  exists st o', run mstep [] ops o = Some ((rs, st), o') /\ mrepresents st sp.
Proof.
  intros ops o rs sp Ho H. destruct (maps_refine_finite_maps ops o) as (ms & Hl & Hf & Hr).
  apply Hr. rewrite (no_failure_ms ms o Hf Ho), Hl. exact H.
Qed.

(* The specification's maps are finite maps with the usual laws. *)
Lemma teq_spec a b : teq a b = true <-> a = b.
Proof. unfold teq. destruct (list_eq_dec N.eq_dec a b); split; congruence. Qed.

Lemma lookup_app k l1 l2 : lookup k (l1 ++ l2) = match lookup k l1 with Some v => Some v | None => lookup k l2 end.
Proof. induction l1 as [|[k' v] l IH]; cbn; [reflexivity|]. destruct (teq k' k); auto. Qed.

Theorem spec_insert_lookup : forall l k v k', lookup k l = None ->
  lookup k' (l ++ [(k, v)]) = if teq k k' then Some v else lookup k' l.
Proof.
  intros l k v k' Hk. rewrite lookup_app. cbn. destruct (teq k k') eqn:E.
  - apply teq_spec in E. subst. rewrite Hk. reflexivity.
  - destruct (lookup k' l); reflexivity.
Qed.

Theorem spec_update_lookup : forall l k v k', lookup k l <> None ->
  lookup k' (replace_value k v l) = if teq k k' then Some v else lookup k' l.
Proof.
  intros l k v k'. unfold replace_value. induction l as [|[k1 v1] l IH]; cbn; [congruence|]. intros H.
  destruct (teq k1 k) eqn:E1; cbn.
  - apply teq_spec in E1. subst k1. destruct (teq k k') eqn:E2; [reflexivity|].
    clear IH H. induction l as [|[k1 v2] l IH]; cbn; [reflexivity|].
    destruct (teq k1 k) eqn:E1; cbn.
    + apply teq_spec in E1. subst k1. rewrite E2. exact IH.
    + rewrite IH. reflexivity.
  - specialize (IH H). rewrite IH. destruct (teq k1 k') eqn:E2; [|reflexivity].
    apply teq_spec in E2. subst k1. destruct (teq k k') eqn:E3; [|reflexivity].
    apply teq_spec in E3. subst. rewrite (proj2 (teq_spec k' k') eq_refl) in E1. discriminate.
Qed.

Theorem spec_delete_lookup : forall l k k',
  lookup k' (remove k l) = if teq k k' then None else lookup k' l.
Proof.
  intros l k k'. unfold remove. induction l as [|[k1 v1] l IH]; cbn; [destruct (teq k k'); reflexivity|].
  destruct (teq k1 k) eqn:E1; cbn.
  - apply teq_spec in E1. subst k1. rewrite IH. destruct (teq k k'); reflexivity.
  - rewrite IH. destruct (teq k1 k') eqn:E2; [|reflexivity].
    apply teq_spec in E2. subst k1. destruct (teq k k') eqn:E3; [|reflexivity].
    apply teq_spec in E3. subst. rewrite (proj2 (teq_spec k' k') eq_refl) in E1. discriminate.
Qed.

(* The map a call may change. *)
Definition mtarget (op : mop) : option nat :=
  match op with
  | MDestroy h | MAdd h _ _ | MAddOrUpdate h _ _ | MDelete h _ => h
  | _ => None
  end.

Lemma bind_inv {A B} (f : M A) (g : A -> M B) o r : bind f g o = Some r -> exists a o1, f o = Some (a, o1) /\ g a o1 = Some r.
Proof. unfold bind. destruct (f o) as [[a o1]|]; [|discriminate]. eauto. Qed.
Ltac binv H := let a := fresh "x" in let o := fresh "o" in let E := fresh "E" in
  apply bind_inv in H; destruct H as (a & o & E & H); cbv beta in H.
Ltac linv H := apply bind_inv in H; destruct H as (? & ? & ? & H); cbv beta in H.

Lemma lift_inv {A} (x : option A) o a o' : lift x o = Some (a, o') -> x = Some a /\ o' = o.
Proof. unfold lift. destruct x; [|discriminate]. intros H. injection H as <- <-. auto. Qed.

Lemma mstep_cases st op o r st' o' : mstep st op o = Some ((r, st'), o') ->
  st' = st
  \/ (exists m, r = MRH (Some (length st)) /\ st' = st ++ [Some m])
  \/ (exists h m, mtarget op = Some h /\ st' = upd st h m).
Proof.
  destruct op as [f|h|h|h k v|h k v|h k|h k out|h v out|h k|h out|h]; cbn [mstep mtarget]; intros H.
  - unfold Map_Create in H. binv H. destruct x; injection H as <- <- <-; eauto.
  - destruct h as [h|]; cbn in H; [|injection H as <- <- <-; auto]. binv H. binv H. injection H as <- <- <-. eauto 8.
  - destruct h as [h|]; cbn [Map_Clone] in H; [|injection H as <- <- <-; auto].
    binv H. binv H. destruct x0; [|injection H as <- <- <-; auto].
    destruct (mcount x =? 0)%nat; [injection H as <- <- <-; eauto|].
    binv H. destruct x0; [|injection H as <- <- <-; auto].
    binv H. destruct x0; injection H as <- <- <-; eauto.
  - destruct h as [h|]; cbn [Map_Add] in H; [|injection H as <- <- <-; auto].
    destruct (mnull k || mnull v); [injection H as <- <- <-; auto|].
    binv H. binv H. binv H. destruct x0 as [kt|]; [|discriminate]. destruct x1 as [vt|]; [|discriminate].
    binv H. destruct x0; [injection H as <- <- <-; auto|].
    destruct (rejects x kt vt); [injection H as <- <- <-; auto|].
    binv H. injection H as <- <- <-. right. right. unfold setmap. eauto.
  - destruct h as [h|]; cbn [Map_AddOrUpdate] in H; [|injection H as <- <- <-; auto].
    destruct (mnull k || mnull v); [injection H as <- <- <-; auto|].
    binv H. binv H. binv H. destruct x0 as [kt|]; [|discriminate]. destruct x1 as [vt|]; [|discriminate].
    destruct (rejects x kt vt); [injection H as <- <- <-; auto|].
    binv H. destruct x0 as [j|].
    + binv H. binv H. destruct x1; [|injection H as <- <- <-; auto].
      destruct (is_value_at v h j); [discriminate|]. binv H. injection H as <- <- <-. right. right. unfold setmap. eauto.
    + binv H. injection H as <- <- <-. right. right. unfold setmap. eauto.
  - destruct h as [h|]; cbn [Map_Delete] in H; [|injection H as <- <- <-; auto].
    destruct (mnull k); [injection H as <- <- <-; auto|].
    binv H. binv H. destruct x0 as [kt|]; [|discriminate].
    binv H. destruct x0 as [j|]; [|injection H as <- <- <-; auto].
    binv H. binv H. binv H. binv H. binv H. injection H as <- <- <-. right. right. unfold setmap. eauto.
  - destruct h as [h|]; cbn [Map_ContainsKey] in H; [|injection H as <- <- <-; auto].
    destruct (mnull k || negb out); [injection H as <- <- <-; auto|].
    binv H. binv H. destruct x0 as [kt|]; [|discriminate]. binv H. injection H as <- <- <-; auto.
  - destruct h as [h|]; cbn [Map_ContainsValue] in H; [|injection H as <- <- <-; auto].
    destruct (mnull v || negb out); [injection H as <- <- <-; auto|].
    binv H. binv H. destruct x0 as [kt|]; [|discriminate]. binv H. injection H as <- <- <-; auto.
  - destruct h as [h|]; cbn [Map_GetValueFromKey] in H; [|injection H as <- <- <-; auto].
    destruct (mnull k); [injection H as <- <- <-; auto|].
    binv H. binv H. destruct x0 as [kt|]; [|discriminate]. binv H.
    destruct x0; [binv H|]; injection H as <- <- <-; auto.
  - destruct h as [h|]; cbn [Map_GetInternals] in H; [|injection H as <- <- <-; auto].
    destruct (negb out); [injection H as <- <- <-; auto|].
    binv H. binv H. binv H. injection H as <- <- <-; auto.
  - destruct h as [h|]; cbn [Map_ToJSON] in H; [|injection H as <- <- <-; auto].
    binv H. binv H. destruct (fst x0); [binv H|]; injection H as <- <- <-; auto.
Qed.

Theorem maps_other_handles_untouched : forall st op o r st' o' h,
  mstep st op o = Some ((r, st'), o') ->
  mtarget op <> Some h -> (h < length st)%nat -> nth_error st' h = nth_error st h.
Proof.
  intros st op o r st' o' h H Ht Hh. destruct (mstep_cases _ _ _ _ _ _ H) as [->|[(b & _ & ->)|(i & b & E & ->)]].
  - reflexivity.
  - apply nth_error_app1, Hh.
  - apply upd_other. intros ->. apply Ht, E.
Qed.

(* A history: add, update in place, refuse a duplicate, delete, read back. *)
Example maps_history :
  srun msp_step []
    [MCreate None; MAdd (Some 0%nat) (MStr (str "a")) (MStr (str "1"));
     MAdd (Some 0%nat) (MStr (str "b")) (MValOf 0 0);
     MAdd (Some 0%nat) (MStr (str "a")) (MStr (str "2"));
     MAddOrUpdate (Some 0%nat) (MStr (str "a")) (MStr (str "3")); MClone (Some 0%nat);
     MDelete (Some 0%nat) (MKeyOf 0 0); MGetInternals (Some 0%nat) true; MGetInternals (Some 1%nat) true;
     MGetValue (Some 1%nat) (MStr (str "a")); MContainsValue (Some 1%nat) (MStr (str "1")) true;
     MToJSON (Some 1%nat); MDestroy (Some 0%nat)] (repeat true 13) =
  Some ([MRH (Some 0%nat); MRC MAP_OK; MRC MAP_OK; MRC MAP_KEYEXISTS; MRC MAP_OK; MRH (Some 1%nat); MRC MAP_OK;
         MRI [str "b"] [str "1"]; MRI [str "a"; str "b"] [str "3"; str "1"]; MRS (Some (str "3")); MRB true;
         MRS (Some (str "{""a"":""3"",""b"":""1""}")); MRU],
        [None; Some {| a_pairs := [(str "a", str "3"); (str "b", str "1")]; a_filter := None |}]).
Proof. reflexivity. Qed.

(** * Every reachable state, failed allocations included *)

Definition mreachable (st : maps) : Prop := exists ops o rs o', run mstep [] ops o = Some ((rs, st), o').

(* What a call that returned did: what the specification says, or (Map_Add and
   Map_AddOrUpdate out of memory) MAP_ERROR with nothing changed but, in an empty
   map, the filter. *)
Definition mdid (sp : amaps) (op : mop) (r : mret) (sp' : amaps) : Prop :=
  (exists m, msp_step sp op m = Some (r, sp'))
  \/ (r = MRC MAP_ERROR /\ sp' = sp)
  \/ (r = MRC MAP_ERROR /\ exists h a, mtarget op = Some h /\ mlive sp h = Some a /\ a_pairs a = [] /\
      sp' = upd sp h (Some {| a_pairs := []; a_filter := None |})).

Lemma insert_inv st sp h m a k v o x o' :
  mrepresents st sp -> mlive sp h = Some a -> mwf m a -> ~ In k (map fst (a_pairs a)) -> cstr_ok k -> cstr_ok v ->
  insertNewKeyValue m k v o = Some (x, o') ->
  exists sp', mrepresents (setmap st h (snd x)) sp' /\
   ((fst x = true /\ minsert sp h a k v true = Some (MRC MAP_OK, sp')) \/
    (fst x = false /\ sp' = sp) \/
    (fst x = false /\ a_pairs a = [] /\ sp' = upd sp h (Some {| a_pairs := []; a_filter := None |}))).
Proof.
  intros R L W Hn Ck Cv H. destruct (yields_use _ _ _ _ _ (y_insert m a k v W Hn Ck Cv) H) as (b & _ & E & Hb).
  destruct b.
  - eexists. split; [apply mrep_set; [exact R|exact Hb]|]. left. split; [exact E|reflexivity].
  - destruct Hb as (f & Wx & [->|[E0 ->]]).
    + exists sp. split; [apply (mrep_same st sp h _ a R L); destruct a; exact Wx|]. auto.
    + exists (upd sp h (Some {| a_pairs := []; a_filter := None |})). rewrite E0 in Wx.
      split; [apply mrep_set; [exact R|exact Wx]|]. auto.
Qed.

Lemma rejects_refused m a k v : mwf m a -> rejects m k v = refused a k v.
Proof. intros (_ & Hf & _). unfold rejects, refused. rewrite Hf. reflexivity. Qed.

(* the argument is the very string that an update of key k would reallocate *)
Lemma own_is_value st sp h a kt vt v0 v j : mrepresents st sp -> mlive sp h = Some a ->
  nth_error (a_pairs a) j = Some (kt, v0) -> forall m, mwf m a -> mdenote sp v = Some (Some vt) ->
  is_value_at v h j = own_value sp h kt v.
Proof.
  intros R L Hp m W Dv. pose proof W as (_ & _ & _ & _ & Hd & _).
  destruct v as [|s|h' i|h' i]; try reflexivity. cbn [is_value_at own_value].
  destruct (Nat.eqb_spec h' h) as [->|]; [|reflexivity]. cbn [andb]. rewrite L.
  cbn [mdenote] in Dv. rewrite L in Dv. destruct (nth_error (a_pairs a) i) as [p|] eqn:Ei; [|discriminate].
  destruct (Nat.eqb_spec i j) as [->|Hij].
  - rewrite Hp in Ei. injection Ei as <-. symmetry. apply teq_refl.
  - symmetry. apply teq_neq. intros E. apply Hij.
    rewrite NoDup_nth_error in Hd. apply Hd.
    + rewrite map_length. apply nth_error_Some. congruence.
    + rewrite !nth_error_map, Ei, Hp. cbn. congruence.
Qed.

Lemma internals_eval st sp h a o : mrepresents st sp -> mlive sp h = Some a ->
  Map_GetInternals st (Some h) true o = Some ((MRI (map fst (a_pairs a)) (map snd (a_pairs a)), st), o).
Proof.
  intros R L. destruct (mrep_get _ _ _ _ R L) as (m & Em & W). destruct (mwf_strs _ _ W) as [Hk Hv].
  pose proof W as (Hc & _). cbn [Map_GetInternals negb]. rewrite Em, bind_lift_some, Hc.
  rewrite <- (map_length fst) at 1. rewrite (read_strings_ok _ _ _ Hk), bind_lift_some.
  rewrite <- (map_length snd) at 1. rewrite (read_strings_ok _ _ _ Hv), bind_lift_some. reflexivity.
Qed.

Lemma arg_read st sp k : mrepresents st sp -> read_marg st k = mdenote sp k.
Proof. apply mrep_read. Qed.

Lemma mstep_did st sp op o r st' o' : mrepresents st sp -> mstep st op o = Some ((r, st'), o') ->
  exists sp', mrepresents st' sp' /\ mdid sp op r sp'.
Proof.
  intros R H. destruct (simulates_use _ _ _ map_simulate _ _ _ _ _ _ _ R H) as (m & _ & Hm).
  destruct (msp_step sp op m) as [[r0 sp0]|] eqn:E.
  { destruct (Hm r0 sp0 eq_refl) as [-> Ha]. exists sp0. split; [exact Ha|]. left. exists m. exact E. }
  clear Hm. destruct op as [f|h|h|h k v|h k v|h k|h k out|h v out|h k|h out|h]; cbn [mstep msp_step] in *;
    try discriminate E.
  - (* destroy *) destruct h as [h|]; [|discriminate]. destruct (mlive sp h) eqn:L; [discriminate|].
    cbn [Map_Destroy] in H. rewrite (mrep_dead _ _ _ R L) in H. discriminate H.
  - (* clone *) destruct h as [h|]; [|discriminate]. destruct (mlive sp h) eqn:L; [discriminate|].
    cbn [Map_Clone] in H. rewrite (mrep_dead _ _ _ R L) in H. discriminate H.
  - (* add *) destruct h as [h|]; [|discriminate]. cbn [Map_Add] in H.
    destruct (mnull k || mnull v) eqn:En; [discriminate|].
    destruct (mlive sp h) as [a|] eqn:L; [|rewrite (mrep_dead _ _ _ R L) in H; discriminate H].
    destruct (mrep_get _ _ _ _ R L) as (mm & Em & W). rewrite Em in H. rewrite !(arg_read st sp) in H by exact R.
    rewrite bind_lift_some in H.
    destruct (mdenote sp k) as [[kt|]|] eqn:Dk; [| |discriminate H];
      (destruct (mdenote sp v) as [[vt|]|] eqn:Dv; [| |discriminate H]); try discriminate H.
    rewrite !bind_lift_some, (mwf_findKey _ _ kt W), bind_lift_some in H.
    destruct (mrep_arg _ _ _ _ R Dk) as [_ Ck]. destruct (mrep_arg _ _ _ _ R Dv) as [_ Cv].
    pose proof (lookup_pos kt (a_pairs a)) as Hp.
    destruct (lookup kt (a_pairs a)) eqn:El; [discriminate|].
    destruct (pos kt (map fst (a_pairs a))) eqn:Ep; [contradiction|]. apply pos_none in Ep.
    rewrite (rejects_refused _ _ kt vt W) in H.
    destruct (refused a kt vt) eqn:Er; [discriminate|].
    binv H. injection H as <- <- <-.
    destruct (insert_inv st sp h mm a kt vt o x o0 R L W Ep Ck Cv E0) as (sp' & R' & [[Ex Hs]|[[Ex Hs]|(Ex & Hl & Hs)]]);
      exists sp'; (split; [exact R'|]); rewrite Ex.
    + left. exists true. cbn [msp_step]. rewrite En, L, Dk, Dv, El, Er. exact Hs.
    + right. left. auto.
    + right. right. split; [reflexivity|]. exists h, a. auto.
  - (* add or update *) destruct h as [h|]; [|discriminate]. cbn [Map_AddOrUpdate] in H.
    destruct (mnull k || mnull v) eqn:En; [discriminate|].
    destruct (mlive sp h) as [a|] eqn:L; [|rewrite (mrep_dead _ _ _ R L) in H; discriminate H].
    destruct (mrep_get _ _ _ _ R L) as (mm & Em & W). rewrite Em in H. rewrite !(arg_read st sp) in H by exact R.
    rewrite bind_lift_some in H.
    destruct (mdenote sp k) as [[kt|]|] eqn:Dk; [| |discriminate H];
      (destruct (mdenote sp v) as [[vt|]|] eqn:Dv; [| |discriminate H]); try discriminate H.
    rewrite !bind_lift_some, (rejects_refused _ _ kt vt W) in H.
    destruct (mrep_arg _ _ _ _ R Dk) as [_ Ck]. destruct (mrep_arg _ _ _ _ R Dv) as [_ Cv].
    destruct (refused a kt vt) eqn:Er; [discriminate|].
    rewrite (mwf_findKey _ _ kt W), bind_lift_some in H.
    pose proof (lookup_pos kt (a_pairs a)) as Hp.
    destruct (lookup kt (a_pairs a)) as [v0|] eqn:El.
    + destruct (own_value sp h kt v) eqn:Eo; [|destruct m; discriminate].
      destruct (pos kt (map fst (a_pairs a))) as [j|] eqn:Ep; [|contradiction].
      rewrite (own_is_value st sp h a kt vt v0 v j R L Hp mm W Dv) in H.
      binv H. binv H. destruct x0; [rewrite Eo in H; discriminate H|]. injection H as <- <- <-.
      exists sp. split; [exact R|]. right. left. auto.
    + destruct (pos kt (map fst (a_pairs a))) eqn:Ep; [contradiction|]. apply pos_none in Ep.
      binv H. injection H as <- <- <-.
      destruct (insert_inv st sp h mm a kt vt o x o0 R L W Ep Ck Cv E0) as (sp' & R' & [[Ex Hs]|[[Ex Hs]|(Ex & Hl & Hs)]]);
        exists sp'; (split; [exact R'|]); rewrite Ex.
      * left. exists true. cbn [msp_step]. rewrite En, L, Dk, Dv, El, Er. exact Hs.
      * right. left. auto.
      * right. right. split; [reflexivity|]. exists h, a. auto.
  - (* delete *) destruct h as [h|]; [|discriminate]. cbn [Map_Delete] in H.
    destruct (mnull k) eqn:En; [discriminate|].
    destruct (mlive sp h) as [a|] eqn:L; [|rewrite (mrep_dead _ _ _ R L) in H; discriminate H].
    destruct (mrep_get _ _ _ _ R L) as (mm & Em & W). rewrite Em, !(arg_read st sp), bind_lift_some in H by exact R.
    destruct (mdenote sp k) as [[kt|]|] eqn:Dk; [| |]; try discriminate H.
    destruct (lookup kt (a_pairs a)); discriminate E.
  - destruct h as [h|]; [|discriminate]. cbn [Map_ContainsKey] in H.
    destruct (mnull k || negb out) eqn:En; [discriminate|].
    destruct (mlive sp h) as [a|] eqn:L; [|rewrite (mrep_dead _ _ _ R L) in H; discriminate H].
    destruct (mrep_get _ _ _ _ R L) as (mm & Em & W). rewrite Em, !(arg_read st sp), bind_lift_some in H by exact R.
    destruct (mdenote sp k) as [[kt|]|] eqn:Dk; [| |]; try discriminate H. discriminate E.
  - destruct h as [h|]; [|discriminate]. cbn [Map_ContainsValue] in H.
    destruct (mnull v || negb out) eqn:En; [discriminate|].
    destruct (mlive sp h) as [a|] eqn:L; [|rewrite (mrep_dead _ _ _ R L) in H; discriminate H].
    destruct (mrep_get _ _ _ _ R L) as (mm & Em & W). rewrite Em, !(arg_read st sp), bind_lift_some in H by exact R.
    destruct (mdenote sp v) as [[kt|]|] eqn:Dk; [| |]; try discriminate H. discriminate E.
  - destruct h as [h|]; [|discriminate]. cbn [Map_GetValueFromKey] in H.
    destruct (mnull k) eqn:En; [discriminate|].
    destruct (mlive sp h) as [a|] eqn:L; [|rewrite (mrep_dead _ _ _ R L) in H; discriminate H].
    destruct (mrep_get _ _ _ _ R L) as (mm & Em & W). rewrite Em, !(arg_read st sp), bind_lift_some in H by exact R.
    destruct (mdenote sp k) as [[kt|]|] eqn:Dk; [| |]; try discriminate H. discriminate E.
  - destruct h as [h|]; [|discriminate]. cbn [Map_GetInternals] in H. destruct (negb out); [discriminate|].
    destruct (mlive sp h) as [a|] eqn:L; [discriminate|rewrite (mrep_dead _ _ _ R L) in H; discriminate H].
  - destruct h as [h|]; [|discriminate]. cbn [Map_ToJSON] in H.
    destruct (mlive sp h) as [a|] eqn:L; [discriminate|rewrite (mrep_dead _ _ _ R L) in H; discriminate H].
Qed.

Lemma run_did : forall ops st sp o rs st' o', mrepresents st sp -> run mstep st ops o = Some ((rs, st'), o') ->
  exists sp', mrepresents st' sp'.
Proof.
  induction ops as [|op t IH]; intros st sp o rs st' o' R H; cbn in H.
  - injection H as <- <- <-. eauto.
  - binv H. binv H. destruct x as [r1 st1], x0 as [rs1 st2]. injection H as <- <- <-.
    destruct (mstep_did _ _ _ _ _ _ _ R E) as (sp1 & R1 & _). eapply IH; eauto.
Qed.

Lemma reachable_represents st : mreachable st -> exists sp, mrepresents st sp.
Proof. intros (ops & o & rs & o' & H). eapply run_did; [constructor|exact H]. Qed.

Lemma pos_nodup l s : forall i, NoDup l -> nth_error l i = Some s -> pos s l = Some i.
Proof.
  induction l as [|x l IH]; intros [|i] Hd H; cbn in *; try discriminate.
  - injection H as ->. rewrite teq_refl. reflexivity.
  - inversion Hd as [|? ? Hn Hd']; subst. replace (teq x s) with false by (symmetry; apply teq_neq; intros ->; apply Hn; eapply nth_error_In, H).
    rewrite (IH i Hd' H). reflexivity.
Qed.

(** * C27: keys are unique, and the arrays handed out have one value per key *)

(* Whatever happened before, including any failed allocation: what Map_GetInternals
   hands out is as many keys as values, no key twice, and looking a key up gives the
   value at its position. *)
Theorem maps_keys_unique : forall st h o ks vs st' o', mreachable st ->
  Map_GetInternals st (Some h) true o = Some ((MRI ks vs, st'), o') ->
  length ks = length vs /\ NoDup ks /\
  forall i k v, nth_error ks i = Some k -> nth_error vs i = Some v ->
  Map_GetValueFromKey st (Some h) (MStr k) o = Some ((MRS (Some v), st), o).
Proof.
  intros st h o ks vs st' o' Hr H. destruct (reachable_represents st Hr) as (sp & R).
  cbn [Map_GetInternals negb] in H.
  destruct (mlive sp h) as [a|] eqn:L; [|rewrite (mrep_dead _ _ _ R L) in H; discriminate H].
  destruct (simulates_use _ _ _ map_simulate st (MGetInternals (Some h) true) o _ _ _ _ R H) as (m & _ & Hm).
  cbn [msp_step negb] in Hm. rewrite L in Hm. destruct (Hm _ _ eq_refl) as [E _]. injection E as <- <-.
  destruct (mrep_get _ _ _ _ R L) as (mm & Em & W). pose proof W as (Hc & Hf & Hk & Hv & Hd & Ho).
  split; [rewrite !map_length; reflexivity|]. split; [exact Hd|].
  intros i k v Ek Ev. rewrite nth_error_map in Ek, Ev. destruct (nth_error (a_pairs a) i) as [p|] eqn:Ep; [|discriminate].
  cbn in Ek, Ev. injection Ek as <-. injection Ev as <-.
  assert (Ck : cstr_ok (fst p)). { rewrite Forall_forall in Ho. apply Ho. eapply nth_error_In, Ep. }
  cbn [Map_GetValueFromKey mnull read_marg]. rewrite (proj2 (cstr_okb_ok _) Ck), Em, !bind_lift_some.
  rewrite (mwf_findKey _ _ _ W), bind_lift_some.
  rewrite (pos_nodup _ _ i Hd) by (rewrite nth_error_map, Ep; reflexivity).
  destruct (mwf_strs _ _ W) as [_ Hvs]. pose proof (Hvs i (snd p)) as Hx; cbn [Nat.add] in Hx; rewrite Hx by (rewrite nth_error_map, Ep; reflexivity). reflexivity.
Qed.

(** * C28: a call that does not succeed changes no map *)

Definition failed (r : mret) : Prop :=
  r = MRH None \/ exists c, r = MRC c /\ c <> MAP_OK.

(* The pairs of every map, as Map_GetInternals shows them, are the same after a call
   that failed -- also when it failed half way through for lack of memory. *)
Theorem maps_failure_changes_nothing : forall st op o r st' o', mreachable st ->
  mstep st op o = Some ((r, st'), o') -> failed r ->
  length st' = length st /\
  forall h o1, option_map (fun x => fst (fst x)) (Map_GetInternals st' h true o1) =
               option_map (fun x => fst (fst x)) (Map_GetInternals st h true o1).
Proof.
  intros st op o r st' o' Hr H Hf. destruct (reachable_represents st Hr) as (sp & R).
  destruct (mstep_did _ _ _ _ _ _ _ R H) as (sp' & R' & D).
  assert (Hc : length sp' = length sp /\
    forall h, option_map a_pairs (mlive sp' h) = option_map a_pairs (mlive sp h)).
  { destruct D as [(m & E)|[(E & ->)|(E & h & a & Et & L & Ep & ->)]].
    - assert (sp' = sp); [|subst; auto].
      destruct op as [f|h|h|h k v|h k v|h k|h k out|h v out|h k|h out|h]; cbn [msp_step] in E; unfold minsert in E;
        crunch E; injection E as <- <-; try reflexivity;
        destruct Hf as [Hf|(c & Hf & Hne)]; try discriminate Hf; injection Hf as <-; congruence.
    - auto.
    - split; [apply upd_length|]. intros i. unfold mlive in *. destruct (Nat.eq_dec i h) as [->|Hne].
      + destruct (nth_error sp h) as [[a'|]|] eqn:En; try discriminate. injection L as ->.
        rewrite upd_same by (apply nth_error_Some; congruence). cbn. rewrite Ep. reflexivity.
      + rewrite upd_other by congruence. reflexivity. }
  destruct Hc as [Hl Hc]. split; [rewrite (mrep_len _ _ R), (mrep_len _ _ R'), Hl; reflexivity|].
  intros [h|] o1; [|reflexivity]. specialize (Hc h).
  destruct (mlive sp h) as [a|] eqn:L, (mlive sp' h) as [a'|] eqn:L'; try discriminate Hc.
  - injection Hc as Hc. rewrite (internals_eval _ _ _ _ _ R L), (internals_eval _ _ _ _ _ R' L'), Hc. reflexivity.
  - cbn [Map_GetInternals negb]. rewrite (mrep_dead _ _ _ R L), (mrep_dead _ _ _ R' L'). reflexivity.
Qed.

(* The out-of-memory paths are reachable: the third allocation of Map_Add fails. *)
Example maps_failed_add :
  option_map (fun x => (fst (fst x)))
    (run mstep [] [MCreate None; MAdd (Some 0%nat) (MStr (str "a")) (MStr (str "1"));
                   MAdd (Some 0%nat) (MStr (str "b")) (MStr (str "2")); MGetInternals (Some 0%nat) true]
     [true; true; true; true; true; true; true; true; false]) =
  Some [MRH (Some 0%nat); MRC MAP_OK; MRC MAP_ERROR; MRI [str "a"] [str "1"]].
Proof. reflexivity. Qed.

(** * C29: the filter *)

(* Refuted: a map created with a filter accepts a pair the filter rejects, once it has
   been emptied by Map_Delete -- for every filter that accepts one pair and rejects
   another; *)
Theorem maps_filter_lost_by_delete_refuted : forall (f : filter_fn) k0 v0 k v,
  cstr_ok k0 -> cstr_ok v0 -> cstr_ok k -> cstr_ok v -> f k0 v0 = false -> f k v = true ->
  exists st o', run mstep [] [MCreate (Some f); MAdd (Some 0%nat) (MStr k0) (MStr v0);
                              MDelete (Some 0%nat) (MStr k0); MAdd (Some 0%nat) (MStr k) (MStr v);
                              MGetValue (Some 0%nat) (MStr k)] [] =
    Some (([MRH (Some 0%nat); MRC MAP_OK; MRC MAP_OK; MRC MAP_OK; MRS (Some v)], st), o').
Proof.
  intros f k0 v0 k v C1 C2 C3 C4 Ha Hr.
  apply cstr_okb_ok in C1, C2, C3, C4.
  edestruct (maps_refine_finite_maps_no_failure
    [MCreate (Some f); MAdd (Some 0%nat) (MStr k0) (MStr v0); MDelete (Some 0%nat) (MStr k0);
     MAdd (Some 0%nat) (MStr k) (MStr v); MGetValue (Some 0%nat) (MStr k)] [])
    as (st & o' & E & _); [intros []| |exists st, o'; exact E].
  unfold repeat. repeat (progress (cbn; unfold refused; rewrite ?C1, ?C2, ?C3, ?C4, ?Ha, ?teq_refl)). reflexivity.
Qed.

(* and so does the clone of an empty map with a filter. *)
Theorem maps_filter_lost_by_clone_refuted : forall (f : filter_fn) k v,
  cstr_ok k -> cstr_ok v -> f k v = true ->
  exists st o', run mstep [] [MCreate (Some f); MAdd (Some 0%nat) (MStr k) (MStr v); MClone (Some 0%nat);
                              MAdd (Some 1%nat) (MStr k) (MStr v)] [] =
    Some (([MRH (Some 0%nat); MRC MAP_FILTER_REJECT; MRH (Some 1%nat); MRC MAP_OK], st), o').
Proof.
  intros f k v C3 C4 Hr. apply cstr_okb_ok in C3, C4.
  edestruct (maps_refine_finite_maps_no_failure
    [MCreate (Some f); MAdd (Some 0%nat) (MStr k) (MStr v); MClone (Some 0%nat);
     MAdd (Some 1%nat) (MStr k) (MStr v)] [])
    as (st & o' & E & _); [intros []| |exists st, o'; exact E].
  repeat (progress (cbn; unfold refused; rewrite ?C3, ?C4, ?Hr, ?teq_refl)). reflexivity.
Qed.

(* What is left: the filter is kept by every call that leaves the map with at least
   one pair, ... *)
Theorem maps_filter_kept_partial : forall st op o r st' o' h m f m', mreachable st ->
  mstep st op o = Some ((r, st'), o') -> getmap st h = Some m -> mapFilterCallback m = Some f ->
  getmap st' h = Some m' -> mapFilterCallback m' = Some f \/ mcount m' = 0%nat.
Proof.
  intros st op o r st' o' h m f m' Hr H Em Ef Em'. destruct (reachable_represents st Hr) as (sp & R).
  destruct (mstep_did _ _ _ _ _ _ _ R H) as (sp' & R' & D).
  destruct (mlive sp h) as [a|] eqn:L; [|rewrite (mrep_dead _ _ _ R L) in Em; discriminate].
  destruct (mlive sp' h) as [a'|] eqn:L'; [|rewrite (mrep_dead _ _ _ R' L') in Em'; discriminate].
  destruct (mrep_get _ _ _ _ R L) as (m1 & E1 & W). rewrite Em in E1. injection E1 as <-.
  destruct (mrep_get _ _ _ _ R' L') as (m2 & E2 & W'). rewrite Em' in E2. injection E2 as <-.
  destruct W as (_ & Hf & _). destruct W' as (Hc' & Hf' & _). rewrite Hf', Hc'. rewrite Ef in Hf. clear Em Em' Hr H R R'.
  enough (a_filter a' = a_filter a \/ a_pairs a' = []) as [E|E].
  { left. congruence. } { right. rewrite E. reflexivity. }
  assert (Hs : sp' = sp -> a_filter a' = a_filter a) by (intros ->; congruence).
  assert (Hpush : forall x, sp' = sp ++ [x] -> a_filter a' = a_filter a).
  { intros x ->. unfold mlive in L, L'. destruct (nth_error sp h) as [[a1|]|] eqn:En; try discriminate.
    rewrite nth_error_app1, En in L' by (apply nth_error_Some; congruence). congruence. }
  assert (Hu : forall i x, sp' = upd sp i x -> (i = h -> x = Some a' -> a_filter a' = a_filter a \/ a_pairs a' = []) ->
               a_filter a' = a_filter a \/ a_pairs a' = []).
  { intros i x -> Hi. unfold mlive in L, L'. destruct (nth_error sp h) as [[a1|]|] eqn:En; try discriminate.
    destruct (Nat.eq_dec i h) as [->|Hne].
    - rewrite upd_same in L' by (apply nth_error_Some; congruence). destruct x as [x|]; [|discriminate].
      apply Hi; congruence.
    - rewrite upd_other, En in L' by exact Hne. left. congruence. }
  destruct D as [(mm & E)|[(E & E')|(E & i & b & Et & Lb & Ep & E')]]; [|left; auto|].
  - destruct op as [f1|i|i|i k v|i k v|i k|i k out|i v out|i k|i out|i]; cbn [msp_step] in E; unfold minsert, mput in E;
      crunch E; injection E as E1 E2; subst r; eauto;
      (eapply Hu; [symmetry; exact E2|]; intros -> Hx; try discriminate Hx; injection Hx as Hx;
       repeat match goal with H : mlive _ _ = Some _ |- _ => rewrite L in H; injection H as <- end;
       try (subst a'; left; reflexivity)).
    destruct (remove _ (a_pairs a)); subst a'; auto.
  - eapply Hu; [exact E'|]. intros -> Hx. injection Hx as <-. right. reflexivity.
Qed.

(* ... and a map whose filter is in force holds only pairs that the filter accepts. *)
Definition filtered (a : amap) : Prop :=
  match a_filter a with Some f => Forall (fun p => f (fst p) (snd p) = false) (a_pairs a) | None => True end.
Definition all_filtered (sp : amaps) : Prop := Forall (fun x => match x with Some a => filtered a | None => True end) sp.

Lemma all_filtered_live sp h a : all_filtered sp -> mlive sp h = Some a -> filtered a.
Proof.
  intros F L. unfold mlive in L. destruct (nth_error sp h) as [[x|]|] eqn:E; try discriminate. injection L as ->.
  unfold all_filtered in F. rewrite Forall_forall in F. exact (F _ (nth_error_In _ _ E)).
Qed.
Lemma all_filtered_upd sp h x : all_filtered sp -> match x with Some a => filtered a | None => True end ->
  all_filtered (upd sp h x).
Proof.
  intros F Hx. revert h. induction F as [|y l Hy F IH]; intros [|h]; cbn; constructor; auto. apply IH.
Qed.
Lemma all_filtered_push sp x : all_filtered sp -> filtered x -> all_filtered (sp ++ [Some x]).
Proof. intros F H. apply Forall_app. split; [exact F|]. repeat constructor. exact H. Qed.

Lemma did_filtered sp op r sp' : all_filtered sp -> mdid sp op r sp' -> all_filtered sp'.
Proof.
  intros F D. destruct D as [(m & E)|[(_ & ->)|(_ & h & a & _ & L & _ & ->)]]; [|exact F|].
  - destruct op as [f1|i|i|i k v|i k v|i k|i k out|i v out|i k|i out|i]; cbn [msp_step] in E; unfold minsert, mput in E;
      crunch E; injection E as E1 E2; subst r sp'; try exact F;
      repeat match goal with H : mlive _ _ = Some ?a |- _ => apply (all_filtered_live _ _ _ F) in H end;
      try (apply all_filtered_push; [exact F|]);
      try (apply all_filtered_upd; [exact F|]); unfold filtered, refused in *; cbn [a_filter a_pairs] in *; auto.
    + destruct f1; [constructor|exact I].
    + match goal with H : a_pairs _ = _ :: _ |- _ => rewrite <- H end. assumption.
    + destruct (a_filter a); [|exact I]. apply Forall_app. split; [assumption|]. repeat constructor. assumption.
    + destruct (a_filter a); [|exact I]. rewrite Forall_forall in *. intros q Hq.
      apply in_map_iff in Hq. destruct Hq as (q' & <- & Hq).
      match goal with H : forall x, In x _ -> _ |- _ => specialize (H _ Hq) end.
      destruct (teq (fst q') t) eqn:Et; [|assumption]. apply teq_spec in Et. cbn. rewrite Et. assumption.
    + destruct (a_filter a); [|exact I]. apply Forall_app. split; [assumption|]. repeat constructor. assumption.
    + destruct (a_filter a); [|exact I]. rewrite Forall_forall in *. intros q Hq.
      match goal with H : remove _ _ = _ |- _ => rewrite <- H in Hq end. apply filter_In in Hq. destruct Hq as [Hq _]. auto.
  - apply all_filtered_upd; [exact F|]. exact I.
Qed.

Lemma run_filtered : forall ops st sp o rs st' o', mrepresents st sp -> all_filtered sp ->
  run mstep st ops o = Some ((rs, st'), o') -> exists sp', mrepresents st' sp' /\ all_filtered sp'.
Proof.
  induction ops as [|op t IH]; intros st sp o rs st' o' R F H; cbn in H.
  - injection H as <- <- <-. eauto.
  - binv H. binv H. destruct x as [r1 st1], x0 as [rs1 st2]. injection H as <- <- <-.
    destruct (mstep_did _ _ _ _ _ _ _ R E) as (sp1 & R1 & D). eapply IH; [exact R1|eapply did_filtered; eauto|exact E0].
Qed.

Theorem maps_filter_respected_partial : forall st h m f o ks vs st' o', mreachable st ->
  getmap st h = Some m -> mapFilterCallback m = Some f ->
  Map_GetInternals st (Some h) true o = Some ((MRI ks vs, st'), o') ->
  Forall (fun p => f (fst p) (snd p) = false) (combine ks vs).
Proof.
  intros st h m f o ks vs st' o' (ops & o0 & rs & o0' & Hr) Em Ef H.
  destruct (run_filtered ops [] [] o0 rs st o0' (Forall2_nil _) (Forall_nil _) Hr) as (sp & R & F).
  destruct (mlive sp h) as [a|] eqn:L; [|rewrite (mrep_dead _ _ _ R L) in Em; discriminate].
  rewrite (internals_eval _ _ _ _ _ R L) in H. injection H as <- <- <- <-.
  destruct (mrep_get _ _ _ _ R L) as (m1 & E1 & W). rewrite Em in E1. injection E1 as <-.
  pose proof (all_filtered_live _ _ _ F L) as Ha. destruct W as (_ & Hf & _). rewrite Ef in Hf.
  unfold filtered in Ha. rewrite <- Hf in Ha. clear - Ha.
  induction (a_pairs a) as [|[k v] l IH]; cbn; [constructor|]. inversion Ha; subst. constructor; auto.
Qed.

(** * C30: Map_Clone *)

(* untouched by any later history that does not name it as its target *)
Lemma run_untouched : forall ops st o rs st' o' h, run mstep st ops o = Some ((rs, st'), o') ->
  Forall (fun op => mtarget op <> Some h) ops -> (h < length st)%nat ->
  nth_error st' h = nth_error st h /\ (length st <= length st')%nat.
Proof.
  induction ops as [|op t IH]; intros st o rs st' o' h H F Hh; cbn in H.
  - injection H as <- <- <-. auto.
  - binv H. binv H. destruct x as [r1 st1], x0 as [rs1 st2]. injection H as <- <- <-. inversion F; subst.
    assert (Hl : (length st <= length st1)%nat).
    { destruct (mstep_cases _ _ _ _ _ _ E) as [->|[(b & _ & ->)|(i & b & _ & ->)]];
        rewrite ?app_length, ?upd_length; lia. }
    cbn [fst snd] in *. destruct (IH st1 o0 rs1 st2 _ h E0) as [E1 El]; [assumption|lia|].
    split; [|lia]. rewrite E1. eapply maps_other_handles_untouched; eauto.
Qed.

Definition shown (st : maps) (h : nat) : option mret :=
  option_map (fun x => fst (fst x)) (Map_GetInternals st (Some h) true []).

Lemma shown_same st st' h : nth_error st' h = nth_error st h -> shown st' h = shown st h.
Proof.
  intros E. unfold shown. cbn [Map_GetInternals negb]. unfold getmap. rewrite E.
  destruct (nth_error st h) as [[m|]|]; try reflexivity. unfold bind, lift.
  destruct (read_strings (keys m) 0 (mcount m)); [|reflexivity].
  destruct (read_strings (values m) 0 (mcount m)); reflexivity.
Qed.

(* The clone is a new handle that shows the same pairs in the same order; whatever is
   done afterwards to the original leaves the clone as it was, and the other way round. *)
Theorem maps_clone_equal_independent : forall st h o c st1 o1, mreachable st ->
  mstep st (MClone (Some h)) o = Some ((MRH (Some c), st1), o1) ->
  c <> h /\ shown st1 c = shown st h /\ shown st1 h = shown st h /\
  forall ops o2 rs st2 o3, run mstep st1 ops o2 = Some ((rs, st2), o3) ->
  (Forall (fun op => mtarget op <> Some c) ops -> shown st2 c = shown st h) /\
  (Forall (fun op => mtarget op <> Some h) ops -> shown st2 h = shown st h).
Proof.
  intros st h o c st1 o1 Hr H. destruct (reachable_represents st Hr) as (sp & R).
  destruct (mlive sp h) as [a|] eqn:L.
  2:{ cbn [mstep Map_Clone] in H. rewrite (mrep_dead _ _ _ R L) in H. discriminate H. }
  assert (Hh : (h < length st)%nat).
  { rewrite (mrep_len _ _ R). unfold mlive in L. apply nth_error_Some. destruct (nth_error sp h); congruence. }
  destruct (simulates_use _ _ _ map_simulate _ _ _ _ _ _ _ R H) as (m & _ & Hm). cbn [msp_step] in Hm. rewrite L in Hm.
  destruct m; destruct (Hm _ _ eq_refl) as [E R1]; [|discriminate E]. injection E as <-.
  assert (Ec : shown st1 (length sp) = shown st h).
  { unfold shown. rewrite (internals_eval _ _ _ _ [] R L).
    erewrite (internals_eval _ _ _ _ [] R1); [|unfold mlive; rewrite nth_error_app2, Nat.sub_diag by lia; reflexivity].
    reflexivity. }
  assert (Eh : shown st1 h = shown st h).
  { apply shown_same. eapply maps_other_handles_untouched; [exact H|discriminate|exact Hh]. }
  pose proof (mrep_len _ _ R) as Hl. pose proof (mrep_len _ _ R1) as Hl1. rewrite app_length in Hl1. cbn in Hl1.
  split; [lia|]. split; [exact Ec|]. split; [exact Eh|].
  intros ops o2 rs st2 o3 H2. split; intros F.
  - rewrite <- Ec. apply shown_same. eapply run_untouched; [exact H2|exact F|lia].
  - rewrite <- Eh. apply shown_same. eapply run_untouched; [exact H2|exact F|lia].
Qed.

(* The clone of a map that has pairs also has its filter. *)
Theorem maps_clone_filter : forall st h o c st1 o1 m, getmap st h = Some m -> mcount m <> 0%nat ->
  mstep st (MClone (Some h)) o = Some ((MRH (Some c), st1), o1) ->
  exists m', getmap st1 c = Some m' /\ mapFilterCallback m' = mapFilterCallback m.
Proof.
  intros st h o c st1 o1 m Em Hc H. cbn [mstep Map_Clone] in H. rewrite Em, bind_lift_some in H.
  binv H. destruct x; [|discriminate]. replace (mcount m =? 0)%nat with false in H by lia.
  binv H. destruct x; [|discriminate]. binv H. destruct x; [|discriminate]. injection H as <- <- <-.
  eexists. split; [unfold getmap; rewrite nth_error_app2, Nat.sub_diag by lia; reflexivity|]. reflexivity.
Qed.

(** * C31: Map_ToJSON *)

Lemma members_read : forall l fuel rest, (length l <= fuel)%nat -> l <> [] ->
  Forall (fun p => cstr_ok (fst p) /\ cstr_ok (snd p)) l -> ascii_pairs l = true ->
  json_members fuel (json_members_text true l ++ str "}" ++ rest) = Some (l, rest).
Proof.
  induction l as [|[k v] l IH]; intros fuel rest Hf Hn Hc Ha; [congruence|].
  destruct fuel as [|fuel]; [cbn in Hf; lia|].
  inversion Hc as [|? ? [Ck Cv] Hc']; subst. cbn [fst snd] in *.
  cbn in Ha. apply andb_true_iff in Ha. destruct Ha as [Ha Ha']. apply andb_true_iff in Ha. destruct Ha as [Ak Av].
  cbn [json_members_text app]. rewrite <- !app_assoc. cbn [json_members].
  rewrite json_literal_reads_back by assumption. cbn [str app]. change (ch ":" =? ch ":") with true. cbv iota.
  rewrite json_literal_reads_back by assumption.
  destruct l as [|[k2 v2] l].
  - cbn [json_members_text app str]. change (ch "}" =? ch "}") with true. reflexivity.
  - set (t := (k2, v2) :: l) in *.
    assert (Et : json_members_text false t = ch "," :: json_members_text true t) by reflexivity.
    rewrite Et. cbn [app]. change (ch "," =? ch "}") with false. change (ch "," =? ch ",") with true. cbv iota.
    change (ch "}" :: rest) with (str "}" ++ rest). rewrite IH; [reflexivity|cbn in Hf; cbn; lia|discriminate|assumption|assumption].
Qed.

Lemma members_first_quote (p : list N * list N) (l : list (list N * list N)) : exists t, json_members_text true (p :: l) = ch """" :: t.
Proof. destruct p as [k v]. cbn. eexists. reflexivity. Qed.

Lemma members_length : forall l b, (length l <= length (json_members_text b l))%nat.
Proof.
  induction l as [|[k v] l IH]; intros b; cbn [json_members_text length]; [lia|].
  rewrite !app_length. specialize (IH false). cbn [str length]. lia.
Qed.

Theorem json_pairs_read_back : forall l rest,
  Forall (fun p => cstr_ok (fst p) /\ cstr_ok (snd p)) l -> ascii_pairs l = true ->
  json_object (json_pairs l ++ rest) = Some (l, rest).
Proof.
  intros l rest Hc Ha. unfold json_pairs. rewrite <- !app_assoc. cbn [str app json_object].
  change (ch "{" =? ch "{") with true. cbv iota. destruct l as [|p l].
  - cbn [json_members_text app]. change (ch "}" =? ch "}") with true. reflexivity.
  - destruct (members_first_quote p l) as (t & Et).
    pose proof (members_read (p :: l) (length (json_members_text true (p :: l) ++ ch "}" :: rest)) rest) as Hr.
    rewrite Et in Hr |- *. cbn [app str] in *. change (ch """" =? ch "}") with false. cbv iota.
    apply Hr; [|discriminate|assumption|assumption].
    change (ch """" :: t ++ ch "}" :: rest) with ((ch """" :: t) ++ ch "}" :: rest).
    rewrite <- Et, app_length. pose proof (members_length (p :: l) true) as Hx. unfold text in Hx. lia.
Qed.

(* The text is a JSON object whose members are exactly the pairs of the map, in order;
   NULL when a key or value is not ASCII, and otherwise only when memory ran out. *)
Theorem maps_tojson : forall st h o r st' o' ks vs, mreachable st ->
  mstep st (MToJSON (Some h)) o = Some ((r, st'), o') -> shown st h = Some (MRI ks vs) ->
  st' = st /\
  (r = MRS None \/ exists t, r = MRS (Some t) /\ json_object t = Some (combine ks vs, [])) /\
  (r = MRS None -> In false o \/ exists s, In s (ks ++ vs) /\ ascii_text s = false) /\
  ((exists s, In s (ks ++ vs) /\ ascii_text s = false) -> r = MRS None).
Proof.
  intros st h o r st' o' ks vs Hr H Hs. destruct (reachable_represents st Hr) as (sp & R).
  assert (Est : st' = st).
  { destruct (mstep_cases _ _ _ _ _ _ H) as [E|[(b & E & _)|(i & b & E & _)]]; [exact E| |discriminate E].
    subst r. cbn [mstep Map_ToJSON] in H. binv H. binv H. destruct (fst x0); [binv H|]; discriminate H. }
  split; [exact Est|]. clear Est.
  destruct (mlive sp h) as [a|] eqn:L.
  2:{ cbn [mstep Map_ToJSON] in H. rewrite (mrep_dead _ _ _ R L) in H. discriminate H. }
  unfold shown in Hs. rewrite (internals_eval _ _ _ _ [] R L) in Hs. injection Hs as <- <-.
  destruct (mrep_get _ _ _ _ R L) as (mm & Em & W). destruct W as (_ & _ & _ & _ & _ & Ho).
  destruct (simulates_use _ _ _ map_simulate _ _ _ _ _ _ _ R H) as (m & Hf & Hm). cbn [msp_step] in Hm. rewrite L in Hm.
  destruct (Hm _ _ eq_refl) as [<- _]. clear Hm H R L Em.
  assert (Ec : combine (map fst (a_pairs a)) (map snd (a_pairs a)) = a_pairs a).
  { clear. induction (a_pairs a) as [|[k v] l IH]; cbn; congruence. }
  rewrite Ec.
  assert (Hna : ascii_pairs (a_pairs a) = false <->
     exists s, In s (map fst (a_pairs a) ++ map snd (a_pairs a)) /\ ascii_text s = false).
  { clear. unfold ascii_pairs. induction (a_pairs a) as [|[k v] l IH]; cbn [forallb map app fst snd].
    - split; [discriminate|]. intros (s & [] & _).
    - split.
      + intros H. apply andb_false_iff in H. destruct H as [H|H].
        * apply andb_false_iff in H. destruct H as [H|H]; [exists k; cbn; auto|].
          exists v. split; [|exact H]. right. apply in_or_app. right. left. reflexivity.
        * apply IH in H. destruct H as (s & Hi & Hs). exists s. split; [|exact Hs]. right.
          apply in_app_or in Hi. apply in_or_app. destruct Hi; [auto|right; right; auto].
      + intros (s & Hi & Hs). apply andb_false_iff. destruct Hi as [<-|Hi].
        * left. apply andb_false_iff. auto.
        * apply in_app_or in Hi. destruct Hi as [Hi|[<-|Hi]].
          -- right. apply IH. exists s. split; [apply in_or_app; auto|exact Hs].
          -- left. apply andb_false_iff. auto.
          -- right. apply IH. exists s. split; [apply in_or_app; auto|exact Hs]. }
  destruct (ascii_pairs (a_pairs a)) eqn:Ea; cbn [andb].
  - split; [|split].
    + destruct m; [right|left; reflexivity]. eexists. split; [reflexivity|].
      pose proof (json_pairs_read_back (a_pairs a) [] Ho Ea) as J. rewrite app_nil_r in J. exact J.
    + destruct m; [discriminate|auto].
    + intros Hx. apply Hna in Hx. discriminate.
  - split; [left; reflexivity|]. split; [intros _; right; apply Hna; reflexivity|reflexivity].
Qed.

(* Nothing is left behind: of all the strings made on the way at most the returned
   one still exists. *)
Theorem maps_tojson_no_leak : forall st h o m x o', mreachable st -> getmap st h = Some m ->
  Map_ToJSON_strings m o = Some (x, o') ->
  forall i b, nth_error (snd x) i = Some (Some b) -> fst x = Some i.
Proof.
  intros st h o m x o' Hr Em H i b Hi. destruct (reachable_represents st Hr) as (sp & R).
  destruct (mlive sp h) as [a|] eqn:L; [|rewrite (mrep_dead _ _ _ R L) in Em; discriminate].
  destruct (mrep_get _ _ _ _ R L) as (m1 & E1 & W). rewrite Em in E1. injection E1 as <-.
  destruct (mwf_strs _ _ W) as [Hks Hvs]. pose proof W as (Hc & _ & _ & _ & _ & Ho).
  destruct (yields_use _ _ _ _ _ (y_tojson m (a_pairs a) Hks Hvs Ho Hc) H) as (mm & _ & n & Q). revert Q. cbv beta.
  assert (Hn : forall ss k, represents ss (repeat None n) -> nth_error ss k = Some (Some b) -> False).
  { intros ss k Rs Hk. revert k Hk. remember (repeat None n) as q eqn:Eq. revert n Eq.
    induction Rs as [|x0 y0 ss q Hxy Rs IH]; intros n Eq [|k] Hk; cbn in Hk; try discriminate.
    - injection Hk as ->. destruct n; [discriminate|]. injection Eq as -> _. exact Hxy.
    - destruct n; [discriminate|]. injection Eq as _ Eq. eapply IH; eauto. }
  destruct (mm && ascii_pairs (a_pairs a)); intros [E Rx].
  - destruct (snd x) as [|s0 ss] eqn:Es; [destruct i; discriminate Hi|]. inversion Rx as [|? ? ? ? ? Rt]; subst.
    rewrite E. destruct i as [|i]; [reflexivity|]. cbn in Hi. destruct (Hn _ _ Rt Hi).
  - destruct (Hn _ _ Rx Hi).
Qed.

Example maps_tojson_demo :
  json_object (json_pairs [(str "a""b", str "1\"); (str "c", [])]) = Some ([(str "a""b", str "1\"); (str "c", [])], []).
Proof. reflexivity. Qed.

(** * C69: updating a key with the value string the map handed out for it *)

(* Refuted: v = Map_GetValueFromKey(m, k) followed by Map_AddOrUpdate(m, k, v) is
   undefined (realloc of the string, then memcpy from the old address), whatever the
   key and value, whenever the realloc succeeds. *)
Theorem maps_update_own_value_refuted : forall k v, cstr_ok k -> cstr_ok v ->
  exists st o', run mstep [] [MCreate None; MAdd (Some 0%nat) (MStr k) (MStr v); MGetValue (Some 0%nat) (MStr k)] [] =
    Some (([MRH (Some 0%nat); MRC MAP_OK; MRS (Some v)], st), o') /\
    mstep st (MAddOrUpdate (Some 0%nat) (MStr k) (MValOf 0 0)) [] = None.
Proof.
  intros k v Ck Cv.
  edestruct (maps_refine_finite_maps_no_failure
    [MCreate None; MAdd (Some 0%nat) (MStr k) (MStr v); MGetValue (Some 0%nat) (MStr k)] [])
    as (st & o' & E & R); [intros []| |].
  { pose proof (proj2 (cstr_okb_ok _) Ck) as C1. pose proof (proj2 (cstr_okb_ok _) Cv) as C2.
    repeat (progress (cbn; unfold refused; rewrite ?C1, ?C2, ?teq_refl)). reflexivity. }
  exists st, o'. split; [exact E|].
  set (sp := [Some {| a_pairs := [(k, v)]; a_filter := None |}]) in *.
  destruct (mrep_get st sp 0 _ R eq_refl) as (m & Em & W).
  cbn [mstep Map_AddOrUpdate mnull orb]. rewrite Em, bind_lift_some, !(arg_read st sp) by exact R.
  cbn [mdenote]. rewrite (proj2 (cstr_okb_ok _) Ck). cbn [mlive sp nth_error a_pairs fst snd].
  rewrite !bind_lift_some, (rejects_refused _ _ k v W). cbn [refused a_filter].
  rewrite (mwf_findKey _ _ k W), bind_lift_some. cbn [a_pairs map fst pos]. rewrite teq_refl.
  destruct (mwf_strs _ _ W) as [_ Hvs]. pose proof (Hvs 0%nat v eq_refl) as Hx. cbn [Nat.add] in Hx.
  rewrite Hx, bind_lift_some. reflexivity.
Qed.
