(* Theorems about src/constmap.c: C35. *)
From Verif Require Import Base Refine Map_Model Map_Spec Map_Proofs Map_Props Refcount_Model ConstMap_Model.
Open Scope N_scope.

Definition cmreachable (a : atomics) (st : cmstate) : Prop :=
  exists ops o rs o', run (cmstep a) {| mps := []; cms := [] |} ops o = Some ((rs, st), o').

(* Every CONSTMAP holds a map of its own. *)
Definition cm_inv (st : cmstate) : Prop :=
  (exists sp, mrepresents (mps st) sp) /\
  (forall i c, getcm st i = Some c -> (cm_map c < length (mps st))%nat) /\
  (forall i j ci cj, getcm st i = Some ci -> getcm st j = Some cj -> i <> j -> cm_map ci <> cm_map cj).

(* the CONSTMAP slot i keeps its map, and that map is untouched *)
Definition cm_kept (st st' : cmstate) (i : nat) : Prop :=
  forall c', getcm st' i = Some c' -> (i < length (cms st))%nat ->
  exists c, getcm st i = Some c /\ cm_map c' = cm_map c /\
            nth_error (mps st') (cm_map c) = nth_error (mps st) (cm_map c).

Lemma getcm_with st l i : getcm (with_cms st l) i = match nth_error l i with Some (Some c) => Some c | _ => None end.
Proof. reflexivity. Qed.

Lemma getcm_upd st i x j : getcm (with_cms st (upd (cms st) i x)) j =
  if (i =? j)%nat then (if (i <? length (cms st))%nat then x else None) else getcm st j.
Proof.
  unfold getcm. cbn [with_cms cms]. destruct (Nat.eqb_spec i j) as [->|Hne].
  - destruct (Nat.ltb_spec j (length (cms st))) as [Hl|Hl].
    + rewrite upd_same by exact Hl. destruct x; reflexivity.
    + assert (E : nth_error (upd (cms st) j x) j = None) by (apply nth_error_None; rewrite upd_length; exact Hl).
      rewrite E. reflexivity.
  - rewrite upd_other by exact Hne. reflexivity.
Qed.

Lemma getcm_lt st i c : getcm st i = Some c -> (i < length (cms st))%nat.
Proof. unfold getcm. intros H. apply nth_error_Some. destruct (nth_error (cms st) i); congruence. Qed.

(* a step that only changes the counter of one CONSTMAP *)
Lemma recount_inv st i c n : cm_inv st -> getcm st i = Some c ->
  let st' := with_cms st (upd (cms st) i (Some {| cm_map := cm_map c; cm_count := n |})) in
  cm_inv st' /\ forall j, cm_kept st st' j.
Proof.
  intros (Hr & Hl & Hd) Hi st'. pose proof (getcm_lt _ _ _ Hi) as Hlt.
  assert (G : forall j c', getcm st' j = Some c' -> exists c0, getcm st j = Some c0 /\ cm_map c' = cm_map c0).
  { intros j c' H. unfold st' in H. rewrite getcm_upd in H. destruct (Nat.eqb_spec i j) as [->|Hne].
    - replace (j <? length (cms st))%nat with true in H by lia. injection H as <-. eauto.
    - eauto. }
  split; [|intros j c' H _; destruct (G j c' H) as (c0 & H0 & E); exists c0; auto].
  split; [exact Hr|]. split.
  - intros j c' H. destruct (G j c' H) as (c0 & H0 & ->). exact (Hl _ _ H0).
  - intros j k cj ck Hj Hk Hne. destruct (G j cj Hj) as (c1 & H1 & ->). destruct (G k ck Hk) as (c2 & H2 & ->).
    exact (Hd _ _ _ _ H1 H2 Hne).
Qed.

(* a step of the maps that leaves the held ones alone *)
Lemma maps_inv st op o r mp' o' : cm_inv st -> mstep (mps st) op o = Some ((r, mp'), o') ->
  (forall i c, getcm st i = Some c -> mtarget op <> Some (cm_map c)) ->
  let st' := {| mps := mp'; cms := cms st |} in
  cm_inv st' /\ (forall j, cm_kept st st' j) /\ (length (mps st) <= length mp')%nat.
Proof.
  intros (Hr & Hl & Hd) H Ht st'. destruct Hr as (sp & R).
  destruct (mstep_did _ _ _ _ _ _ _ R H) as (sp' & R' & _).
  assert (Hlen : (length (mps st) <= length mp')%nat).
  { destruct (mstep_cases _ _ _ _ _ _ H) as [->|[(b & _ & ->)|(i & b & _ & ->)]]; rewrite ?app_length, ?upd_length; lia. }
  split; [|split; [|exact Hlen]].
  - split; [exists sp'; exact R'|]. split.
    + intros i c Hi. cbn. specialize (Hl i c Hi). lia.
    + exact Hd.
  - intros j c' Hj _. exists c'. split; [exact Hj|]. split; [reflexivity|].
    eapply maps_other_handles_untouched; [exact H|exact (Ht j c' Hj)|exact (Hl j c' Hj)].
Qed.

Lemma held_false st h : held st h = false -> forall i c, getcm st i = Some c -> cm_map c <> h.
Proof.
  unfold held, getcm. intros H i c Hi E. destruct (nth_error (cms st) i) as [[x|]|] eqn:En; try discriminate. injection Hi as ->.
  assert (existsb (fun x => match x with Some c => (cm_map c =? h)%nat | None => false end) (cms st) = true); [|congruence].
  apply existsb_exists. exists (Some c). split; [eapply nth_error_In, En|]. lia.
Qed.

Lemma kept_refl st j : cm_kept st st j.
Proof. intros c H _. eauto. Qed.

Lemma cmstep_inv a st op o r st' o' : cm_inv st -> cmstep a st op o = Some ((r, st'), o') ->
  cm_inv st' /\ (forall j, cm_kept st st' j) /\ (length (cms st) <= length (cms st'))%nat.
Proof.
  intros Hi H. destruct op as [h|h|h|h|h k|h v|h k|h out|op]; cbn [cmstep] in H.
  - (* create *)
    unfold ConstMap_Create in H. binv H. destruct x; cbn [negb] in H.
    2:{ injection H as <- <- <-. auto using kept_refl. }
    binv H. destruct x as [rm mp]. change (Map_Clone (mps st) h) with (mstep (mps st) (MClone h)) in E0.
    destruct (maps_inv st _ _ _ _ _ Hi E0) as (Hi1 & Hk1 & Hl1); [intros i c _; discriminate|].
    cbn [fst snd] in H. destruct (mstep_cases _ _ _ _ _ _ E0) as [Ec|[(b & Er & Emp)|(i & b & Et & _)]]; [| |discriminate Et].
    + destruct rm as [[m|]|c|b|s|ks vs|]; injection H as <- <- <-; auto.
      exfalso. subst mp. cbn [mstep] in E0. destruct h as [h|]; cbn [Map_Clone] in E0; [|discriminate].
      binv E0. binv E0. destruct x0; [|discriminate]. destruct (mcount x =? 0)%nat.
      { injection E0 as _ E0 _. apply (f_equal (@length _)) in E0. rewrite app_length in E0. cbn in E0. lia. }
      binv E0. destruct x0; [|discriminate]. binv E0. destruct x0; [|discriminate].
      injection E0 as _ E0 _. apply (f_equal (@length _)) in E0. rewrite app_length in E0. cbn in E0. lia.
    + subst rm. injection H as <- <- <-.
      assert (G : forall j c', getcm {| mps := mp; cms := cms st ++ [Some {| cm_map := length (mps st); cm_count := 1 |}] |} j = Some c' ->
        (getcm st j = Some c' /\ (j < length (cms st))%nat) \/ (j = length (cms st) /\ cm_map c' = length (mps st))).
      { intros j c' Hj. unfold getcm in Hj |- *. cbn [cms] in Hj. destruct (Nat.lt_ge_cases j (length (cms st))) as [Hlt|Hge].
        - rewrite nth_error_app1 in Hj by exact Hlt. auto.
        - rewrite nth_error_app2 in Hj by exact Hge. destruct (j - length (cms st))%nat as [|d] eqn:Ed.
          + cbn in Hj. injection Hj as <-. right. split; [lia|reflexivity].
          + cbn in Hj. destruct d; discriminate. }
      destruct Hi as (_ & Hl & Hd). destruct Hi1 as (Hr1 & _ & _).
      split; [|split].
      * split; [exact Hr1|]. split.
        -- intros j c' Hj. cbn. destruct (G j c' Hj) as [[Hj' _]|[_ ->]]; [specialize (Hl _ _ Hj'); lia|].
           rewrite Emp, app_length. cbn. lia.
        -- intros j k cj ck Hj Hk Hne. destruct (G j cj Hj) as [[Hj' _]|[Ej Emj]], (G k ck Hk) as [[Hk' _]|[Ek Emk]].
           ++ exact (Hd _ _ _ _ Hj' Hk' Hne).
           ++ specialize (Hl _ _ Hj'). lia.
           ++ specialize (Hl _ _ Hk'). lia.
           ++ lia.
      * intros j c' Hj Hlt. destruct (G j c' Hj) as [[Hj' _]|[Ej _]]; [|lia].
        exists c'. split; [exact Hj'|]. split; [reflexivity|]. cbn [mps]. rewrite Emp. apply nth_error_app1, (Hl _ _ Hj').
      * cbn [cms]. rewrite app_length. lia.
  - (* destroy *)
    destruct h as [i|]; cbn [ConstMap_Destroy] in H; [|injection H as <- <- <-; auto using kept_refl].
    binv H. apply lift_inv in E. destruct E as [Ec ->]. destruct (dec_hits_zero a (cm_count x)).
    2:{ injection H as <- <- <-. destruct (recount_inv st i x (dec_ref (cm_count x)) Hi Ec). split; [assumption|]. split; [assumption|].
        cbn. rewrite upd_length. lia. }
    binv H. injection H as <- <- <-. destruct x0 as [rm mp].
    change (Map_Destroy (mps st) (Some (cm_map x))) with (mstep (mps st) (MDestroy (Some (cm_map x)))) in E.
    pose proof Hi as (Hr & Hl & Hd). destruct Hr as (sp & R).
    destruct (mstep_did _ _ _ _ _ _ _ R E) as (sp' & R' & _).
    assert (Hlen : (length (mps st) <= length mp)%nat).
    { destruct (mstep_cases _ _ _ _ _ _ E) as [->|[(b & _ & ->)|(q & b & _ & ->)]]; rewrite ?app_length, ?upd_length; lia. }
    assert (G : forall j c', getcm {| mps := mp; cms := upd (cms st) i None |} j = Some c' -> getcm st j = Some c' /\ j <> i).
    { intros j c' Hj. unfold getcm in Hj |- *. cbn [cms] in Hj. destruct (Nat.eq_dec i j) as [->|Hne].
      - rewrite upd_same in Hj by (eapply getcm_lt, Ec). discriminate.
      - rewrite upd_other in Hj by exact Hne. auto. }
    cbn [snd]. split; [|split].
    + split; [exists sp'; exact R'|]. split.
      * intros j c' Hj. destruct (G j c' Hj) as [Hj' _]. cbn. specialize (Hl _ _ Hj'). lia.
      * intros j k cj ck Hj Hk Hne. destruct (G j cj Hj) as [Hj' _]. destruct (G k ck Hk) as [Hk' _]. exact (Hd _ _ _ _ Hj' Hk' Hne).
    + intros j c' Hj Hlt. destruct (G j c' Hj) as [Hj' Hne]. exists c'. split; [exact Hj'|]. split; [reflexivity|].
      eapply maps_other_handles_untouched; [exact E| |exact (Hl _ _ Hj')].
      cbn [mtarget]. intros Heq. injection Heq as Heq. exact (Hd _ _ _ _ Ec Hj' (not_eq_sym Hne) Heq).
    + cbn. rewrite upd_length. lia.
  - (* clone *)
    destruct h as [i|]; cbn [ConstMap_Clone] in H; [|injection H as <- <- <-; auto using kept_refl].
    binv H. apply lift_inv in E. destruct E as [Ec ->]. injection H as <- <- <-.
    destruct (recount_inv st i x (inc_ref (cm_count x)) Hi Ec). split; [assumption|]. split; [assumption|].
    cbn. rewrite upd_length. lia.
  - (* clone writeable *)
    destruct h as [i|]; cbn [ConstMap_CloneWriteable] in H; [|injection H as <- <- <-; auto using kept_refl].
    binv H. binv H. injection H as <- <- <-. destruct x0 as [rm mp].
    change (Map_Clone (mps st) (Some (cm_map x))) with (mstep (mps st) (MClone (Some (cm_map x)))) in E0.
    destruct (maps_inv st _ _ _ _ _ Hi E0) as (Hi1 & Hk1 & Hl1); [intros j c _; discriminate|]. auto.
  - destruct h as [i|]; cbn [ConstMap_ContainsKey] in H; [|injection H as <- <- <-; auto using kept_refl].
    destruct (mnull k); [injection H as <- <- <-; auto using kept_refl|].
    binv H. binv H. injection H as <- <- <-. auto using kept_refl.
  - destruct h as [i|]; cbn [ConstMap_ContainsValue] in H; [|injection H as <- <- <-; auto using kept_refl].
    destruct (mnull v); [injection H as <- <- <-; auto using kept_refl|].
    binv H. binv H. injection H as <- <- <-. auto using kept_refl.
  - destruct h as [i|]; cbn [ConstMap_GetValue] in H; [|injection H as <- <- <-; auto using kept_refl].
    destruct (mnull k); [injection H as <- <- <-; auto using kept_refl|].
    binv H. binv H. injection H as <- <- <-. auto using kept_refl.
  - destruct h as [i|]; cbn [ConstMap_GetInternals] in H; [|injection H as <- <- <-; auto using kept_refl].
    binv H. binv H. injection H as <- <- <-. auto using kept_refl.
  - (* map call *)
    assert (Et : map_changed op = mtarget op) by (destruct op; reflexivity).
    rewrite Et in H. destruct (mtarget op) as [h|] eqn:Em.
    + destruct (held st h) eqn:Eh; [discriminate|]. binv H. injection H as <- <- <-. destruct x as [rm mp].
      destruct (maps_inv st _ _ _ _ _ Hi E) as (Hi1 & Hk1 & Hl1); [|auto].
      intros i c Hc. rewrite Em. intros Heq. injection Heq as Heq. exact (held_false _ _ Eh i c Hc (eq_sym Heq)).
    + binv H. injection H as <- <- <-. destruct x as [rm mp].
      destruct (maps_inv st _ _ _ _ _ Hi E) as (Hi1 & Hk1 & Hl1); [|auto]. intros i c Hc. rewrite Em. discriminate.
Qed.

Lemma cmrun_inv a : forall ops st o rs st' o', cm_inv st -> run (cmstep a) st ops o = Some ((rs, st'), o') ->
  cm_inv st' /\ (forall j, cm_kept st st' j) /\ (length (cms st) <= length (cms st'))%nat.
Proof.
  induction ops as [|op t IH]; intros st o rs st' o' Hi H; cbn in H.
  - injection H as <- <- <-. auto using kept_refl.
  - binv H. binv H. destruct x as [r1 st1], x0 as [rs1 st2]. injection H as <- <- <-. cbn [fst snd] in *.
    destruct (cmstep_inv _ _ _ _ _ _ _ Hi E) as (Hi1 & Hk1 & Hl1).
    destruct (IH _ _ _ _ _ Hi1 E0) as (Hi2 & Hk2 & Hl2). split; [exact Hi2|]. split; [|lia].
    intros j c' Hj Hlt. destruct (Hk2 j c' Hj ltac:(lia)) as (c1 & G1 & M1 & N1).
    destruct (Hk1 j c1 G1 Hlt) as (c0 & G0 & M0 & N0). exists c0. split; [exact G0|]. split; [congruence|].
    rewrite <- M0, N1, M0. exact N0.
Qed.

Lemma cmreachable_inv a st : cmreachable a st -> cm_inv st.
Proof.
  intros (ops & o & rs & o' & H). refine (proj1 (cmrun_inv a ops _ _ _ _ _ _ H)).
  split; [exists []; constructor|]. split; intros i; unfold getcm; cbn; destruct i; discriminate.
Qed.

(* Two maps that show the same arrays answer alike. *)
Lemma same_pairs st sp h a st' sp' h' a' : mrepresents st sp -> mlive sp h = Some a ->
  mrepresents st' sp' -> mlive sp' h' = Some a' -> shown st' h' = shown st h -> a_pairs a' = a_pairs a.
Proof.
  intros R L R' L' H. unfold shown in H. rewrite (internals_eval _ _ _ _ [] R L), (internals_eval _ _ _ _ [] R' L') in H.
  injection H as H1 H2. assert (E : forall l : list (text * text), combine (map fst l) (map snd l) = l).
  { induction l as [|[k v] l IH]; cbn; congruence. }
  rewrite <- (E (a_pairs a')), <- (E (a_pairs a)), H1, H2. reflexivity.
Qed.

Definition result {A S} (x : option ((A * S) * oracle)) : option A := option_map (fun y => fst (fst y)) x.

Lemma reads_alike st sp h a k : mrepresents st sp -> mlive sp h = Some a -> cstr_ok k ->
  result (Map_ContainsKey st (Some h) (MStr k) true []) =
    Some (MRB (match lookup k (a_pairs a) with Some _ => true | None => false end)) /\
  result (Map_ContainsValue st (Some h) (MStr k) true []) = Some (MRB (has_value k (a_pairs a))) /\
  result (Map_GetValueFromKey st (Some h) (MStr k) []) = Some (MRS (lookup k (a_pairs a))) /\
  result (Map_GetInternals st (Some h) true []) = Some (MRI (map fst (a_pairs a)) (map snd (a_pairs a))).
Proof.
  intros R L Ck. apply cstr_okb_ok in Ck.
  assert (U : forall op r, (forall m, msp_step sp op m = Some (r, sp)) -> result (mstep st op []) = Some r).
  { intros op r Hs. destruct (map_simulate st sp op [] R) as (m & _ & Hm).
    destruct (Hm r sp (Hs m)) as (s' & o' & used & E & _). unfold result. rewrite E. reflexivity. }
  split; [|split; [|split]].
  - apply (U (MContainsKey (Some h) (MStr k) true)). intros m. cbn. rewrite L, Ck. reflexivity.
  - apply (U (MContainsValue (Some h) (MStr k) true)). intros m. cbn. rewrite L, Ck. reflexivity.
  - apply (U (MGetValue (Some h) (MStr k))). intros m. cbn. rewrite L, Ck. reflexivity.
  - apply (U (MGetInternals (Some h) true)). intros m. cbn. rewrite L. reflexivity.
Qed.

(** * C35: a CONSTMAP is a frozen snapshot of its source *)

Lemma shown_live st sp h m : mrepresents st sp -> getmap st h = Some m -> exists a, mlive sp h = Some a.
Proof.
  intros R E. destruct (mlive sp h) as [a|] eqn:L; [eauto|]. rewrite (mrep_dead _ _ _ R L) in E. discriminate.
Qed.

(* Whatever happens between the creation of the CONSTMAP and the query (calls on the
   source, on other maps and CONSTMAPs, clones and destroys of this one), as long as
   the handle has not been destroyed for the last time, each query is answered as the
   source map answered it at creation. *)
Theorem constmap_snapshot : forall a st h o c st1 o1 ops o2 rs st2 o3, cmreachable a st ->
  cmstep a st (CMCreate (Some h)) o = Some ((CMH (Some c), st1), o1) ->
  run (cmstep a) st1 ops o2 = Some ((rs, st2), o3) -> getcm st2 c <> None ->
  (forall k, cstr_ok k ->
     result (ConstMap_ContainsKey st2 (Some c) (MStr k) []) =
       match result (Map_ContainsKey (mps st) (Some h) (MStr k) true []) with Some (MRB b) => Some (CMB b) | _ => None end /\
     result (ConstMap_ContainsValue st2 (Some c) (MStr k) []) =
       match result (Map_ContainsValue (mps st) (Some h) (MStr k) true []) with Some (MRB b) => Some (CMB b) | _ => None end /\
     result (ConstMap_GetValue st2 (Some c) (MStr k) []) =
       match result (Map_GetValueFromKey (mps st) (Some h) (MStr k) []) with Some (MRS s) => Some (CMS s) | _ => None end) /\
  result (ConstMap_GetInternals st2 (Some c) true []) =
    match result (Map_GetInternals (mps st) (Some h) true []) with Some (MRI ks vs) => Some (CMI ks vs) | _ => None end.
Proof.
  intros a st h o c st1 o1 ops o2 rs st2 o3 Hr Hc Hrun Hg. pose proof (cmreachable_inv a st Hr) as Hi.
  destruct (cmstep_inv _ _ _ _ _ _ _ Hi Hc) as (Hi1 & _ & _).
  destruct (cmrun_inv a ops _ _ _ _ _ Hi1 Hrun) as (Hi2 & Hk2 & _).
  cbn [cmstep] in Hc. unfold ConstMap_Create in Hc. binv Hc. destruct x; [|discriminate]. cbn [negb] in Hc. binv Hc.
  destruct x as [rm mp]. cbn [fst snd] in Hc. destruct rm as [[m|]|e|b|s|ks vs|]; try discriminate Hc.
  injection Hc as <- <- <-.
  destruct Hi as ((sp & R) & _ & _).
  assert (Hm : shown mp m = shown (mps st) h /\ exists aa, mlive sp h = Some aa).
  { change (Map_Clone (mps st) (Some h)) with (mstep (mps st) (MClone (Some h))) in E0.
    destruct (mlive sp h) as [aa|] eqn:L.
    2:{ cbn [mstep Map_Clone] in E0. rewrite (mrep_dead _ _ _ R L) in E0. discriminate E0. }
    split; [|eauto].
    destruct (simulates_use _ _ _ map_simulate _ _ _ _ _ _ _ R E0) as (mm & _ & Hmm). cbn [msp_step] in Hmm. rewrite L in Hmm.
    destruct mm; destruct (Hmm _ _ eq_refl) as [Eq R1]; [|discriminate Eq]. injection Eq as <-.
    unfold shown. rewrite (internals_eval _ _ _ _ [] R L).
    erewrite (internals_eval _ _ _ _ [] R1); [|unfold mlive; rewrite nth_error_app2, Nat.sub_diag by lia; reflexivity].
    reflexivity. }
  destruct Hm as (Hsh & aa & L).
  set (st1 := {| mps := mp; cms := cms st ++ [Some {| cm_map := m; cm_count := 1 |}] |}) in *.
  destruct (getcm st2 (length (cms st))) as [c2|] eqn:G2; [|congruence].
  destruct (Hk2 _ _ G2) as (c1 & G1 & M1 & N1); [unfold st1; cbn; rewrite app_length; cbn; lia|].
  assert (Ec1 : c1 = {| cm_map := m; cm_count := 1 |}).
  { unfold getcm, st1 in G1. cbn [cms] in G1. rewrite nth_error_app2, Nat.sub_diag in G1 by lia. cbn in G1. congruence. }
  subst c1. cbn [cm_map] in *. clear G1.
  assert (Hsh2 : shown (mps st2) m = shown (mps st) h) by (rewrite <- Hsh; apply shown_same; exact N1).
  destruct Hi2 as ((sp2 & R2) & _ & _).
  destruct (mlive sp2 m) as [a2|] eqn:L2.
  2:{ exfalso. unfold shown in Hsh2. rewrite (internals_eval _ _ _ _ [] R L) in Hsh2.
      cbn [Map_GetInternals negb] in Hsh2. rewrite (mrep_dead _ _ _ R2 L2) in Hsh2. discriminate Hsh2. }
  pose proof (same_pairs _ _ _ _ _ _ _ _ R L R2 L2 Hsh2) as Ep.
  assert (Hap : forall {A B} (f : M (mret * maps)) (g : mret -> A) (q : B) r, result (f []) = Some r ->
     result ((x <- f ;; ret (g (fst x), q))%m []) = Some (g r)).
  { intros A B f g q r H. unfold result, bind in *. destruct (f []) as [[[r0 s0] o0']|]; [|discriminate].
    cbn in H. injection H as ->. reflexivity. }
  split.
  - intros k Ck. destruct (reads_alike _ _ _ _ k R L Ck) as (E1 & E2 & E3 & _).
    destruct (reads_alike _ _ _ _ k R2 L2 Ck) as (F1 & F2 & F3 & _). rewrite E1, E2, E3. rewrite Ep in F1, F2, F3.
    cbn [ConstMap_ContainsKey ConstMap_ContainsValue ConstMap_GetValue mnull]. rewrite G2, !bind_lift_some, M1.
    split; [|split].
    + rewrite (Hap _ _ _ (fun r => CMB match r with MRB b => b | _ => false end) st2 _ F1). reflexivity.
    + rewrite (Hap _ _ _ (fun r => CMB match r with MRB b => b | _ => false end) st2 _ F2). reflexivity.
    + rewrite (Hap _ _ _ (fun r => CMS match r with MRS b => b | _ => None end) st2 _ F3). reflexivity.
  - destruct (reads_alike _ _ _ _ [] R L (Forall_nil _)) as (_ & _ & _ & E4).
    destruct (reads_alike _ _ _ _ [] R2 L2 (Forall_nil _)) as (_ & _ & _ & F4). rewrite E4. rewrite Ep in F4.
    cbn [ConstMap_GetInternals]. rewrite G2, bind_lift_some, M1.
    rewrite (Hap _ _ _ (fun r => match r with MRI ks vs => CMI ks vs | MRC e => CMC (ConstMap_ErrorConvert e) | _ => CMC CONSTMAP_ERROR end) st2 _ F4).
    reflexivity.
Qed.

(* ConstMap_CloneWriteable gives a new map with the same pairs; whatever is done to it
   later leaves the CONSTMAP's answers alone (by constmap_snapshot) and, until it is
   changed itself, it shows the same pairs. *)
Theorem constmap_clonewriteable : forall a st c o m st1 o1, cmreachable a st ->
  cmstep a st (CMCloneWriteable (Some c)) o = Some ((CMM (Some m), st1), o1) ->
  held st1 m = false /\
  result (ConstMap_GetInternals st (Some c) true []) =
    match shown (mps st1) m with Some (MRI ks vs) => Some (CMI ks vs) | _ => None end.
Proof.
  intros a st c o m st1 o1 Hr H. pose proof (cmreachable_inv a st Hr) as ((sp & R) & Hl & _).
  cbn [cmstep ConstMap_CloneWriteable] in H. binv H. apply lift_inv in E. destruct E as [Gc ->]. binv H.
  destruct x0 as [rm mp]. cbn [fst snd] in H. injection H as Em <- <-.
  destruct rm as [h|e|b|s|ks vs|]; try discriminate Em. subst h.
  assert (L : exists aa, mlive sp (cm_map x) = Some aa).
  { destruct (mlive sp (cm_map x)) eqn:L; [eauto|]. cbn [Map_Clone] in E. rewrite (mrep_dead _ _ _ R L) in E. discriminate E. }
  destruct L as (aa & L).
  change (Map_Clone (mps st) (Some (cm_map x))) with (mstep (mps st) (MClone (Some (cm_map x)))) in E.
  destruct (simulates_use _ _ _ map_simulate _ _ _ _ _ _ _ R E) as (mm & _ & Hmm). cbn [msp_step] in Hmm. rewrite L in Hmm.
  destruct mm; destruct (Hmm _ _ eq_refl) as [Eq R1]; [|discriminate Eq]. injection Eq as <-.
  split.
  - destruct (held {| mps := mp; cms := cms st |} (length sp)) eqn:Eh; [|reflexivity]. exfalso.
    unfold held in Eh. apply existsb_exists in Eh. destruct Eh as (y & Hy & Hyy). destruct y as [cy|]; [|discriminate].
    apply In_nth_error in Hy. destruct Hy as (j & Hj). cbn [cms] in Hj.
    assert (Hg : getcm st j = Some cy) by (unfold getcm; rewrite Hj; reflexivity).
    specialize (Hl _ _ Hg). rewrite (mrep_len _ _ R) in Hl. lia.
  - cbn [mps]. unfold shown. erewrite (internals_eval _ _ _ _ [] R1); [|unfold mlive; rewrite nth_error_app2, Nat.sub_diag by lia; reflexivity].
    cbn [ConstMap_GetInternals]. rewrite Gc, bind_lift_some. unfold result, bind.
    rewrite (internals_eval _ _ _ _ [] R L). reflexivity.
Qed.

(* A history that meets the hypotheses: freeze, then change and destroy the source. *)
Example constmap_history :
  result (run (cmstep Sync) {| mps := []; cms := [] |}
    [CMMap (MCreate None); CMMap (MAdd (Some 0%nat) (MStr (str "a")) (MStr (str "1"))); CMCreate (Some 0%nat);
     CMMap (MAddOrUpdate (Some 0%nat) (MStr (str "a")) (MStr (str "2"))); CMMap (MDestroy (Some 0%nat));
     CMClone (Some 0%nat); CMDestroy (Some 0%nat); CMGetValue (Some 0%nat) (MStr (str "a"));
     CMCloneWriteable (Some 0%nat); CMMap (MDelete (Some 2%nat) (MStr (str "a")));
     CMGetInternals (Some 0%nat) true; CMDestroy (Some 0%nat)] []) =
  Some [CMR (MRH (Some 0%nat)); CMR (MRC MAP_OK); CMH (Some 0%nat); CMR (MRC MAP_OK); CMR MRU; CMH (Some 0%nat); CMU;
        CMS (Some (str "1")); CMM (Some 2%nat); CMR (MRC MAP_OK); CMI [str "a"] [str "1"]; CMU].
Proof. reflexivity. Qed.

(* A query without a CONSTMAP or without a key or value finds nothing. *)
Theorem constmap_null_arguments : forall st h a o, h = None \/ a = MNull ->
  ConstMap_ContainsKey st h a o = Some ((CMB false, st), o) /\
  ConstMap_ContainsValue st h a o = Some ((CMB false, st), o) /\
  ConstMap_GetValue st h a o = Some ((CMS None, st), o).
Proof. intros st h a o [-> | ->]; [|destruct h]; repeat split. Qed.
