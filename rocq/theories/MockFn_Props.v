(* Proofs for generated mocks: umock_c_internal.h on top of the mocking library. *)
From Coq Require Import Permutation.
From Verif Require Import Base Strings_Model Strings_Props UMockName_Model UMockTypes_Model UMockTypes_Props UMock_Model UMock_Spec UMock_Props MockFn_Model MockFn_Spec MockText_Props.
Local Open Scope Z_scope.

(* ---- comparing call data ---- *)
Definition arg_of (w : wanted) : arg := {| value := w_value w; is_ignored := negb (w_checked w); out_arg_buffer := w_fills w; validate_arg_buffer := w_points_to w |}.
Definition tri (z : Z) : Prop := z = 1 \/ z = 0 \/ z = -1.
Lemma buffer_differs_at v x b : (forall bs, b = Some bs -> room v x (length bs)) ->
  exists d, buffer_differs v x b = Some d /\ (d = false -> forall bs, b = Some bs -> points_to v x bs) /\ (d = true -> exists bs, b = Some bs /\ ~ points_to v x bs).
Proof.
  intros R. destruct b as [bs|]; cbn [buffer_differs]; [|exists false; split; [reflexivity|]; split; discriminate].
  destruct (R bs eq_refl) as (m & E & L). unfold memcmp_differs. rewrite E. destruct (Nat.leb_spec (length bs) (length m)); [|lia].
  destruct (list_eq_dec N.eq_dec (firstn (length bs) m) bs) as [Q|Q]; eexists; (split; [reflexivity|]); split; try discriminate; intros _.
  - intros b' H'. injection H' as <-. exists (skipn (length bs) m). rewrite <- Q at 1. now rewrite firstn_skipn.
  - exists bs. split; [reflexivity|]. intros (rest & P). rewrite E in P. injection P as ->. apply Q. rewrite firstn_app, Nat.sub_diag, firstn_O, app_nil_r. apply firstn_all.
Qed.
Lemma args_equal_at v f : forall ws vals i res, length ws = length vals -> tri res ->
  (forall k w x b, nth_error ws k = Some w -> nth_error vals k = Some x -> w_points_to w = Some b -> room v x (length b)) ->
  exists z, args_equal v f i res (map arg_of ws) (map (new_arg false) vals) = Some z /\ tri z /\
   (z = 1 -> res = 1 /\ forall k w x, nth_error ws k = Some w -> nth_error vals k = Some x -> agrees v f (i + k) w x) /\
   (z = 0 -> res = 0 \/ exists k w x, nth_error ws k = Some w /\ nth_error vals k = Some x /\ differs v f (i + k) w x) /\
   (z = -1 -> res = -1 \/ exists k w x, nth_error ws k = Some w /\ nth_error vals k = Some x /\ unclear v f (i + k) w x).
Proof.
  induction ws as [|w ws IH]; intros vals i res L T R; destruct vals as [|x vals]; try discriminate L; cbn [map args_equal].
  - exists res. split; [reflexivity|]. split; [exact T|]. split; [|auto]. intros H. split; [exact H|]. intros k ? ? Hk. destruct k; discriminate Hk.
  - assert (A : exists z, arg_equal v f i res (arg_of w) (new_arg false x) = Some z /\ tri z /\ (z = 1 -> res = 1 /\ agrees v f i w x) /\ (z = 0 -> res = 0 \/ differs v f i w x) /\ (z = -1 -> res = -1 \/ unclear v f i w x)).
    { unfold arg_equal. cbn [arg_of new_arg value is_ignored validate_arg_buffer out_arg_buffer].
      destruct (Z.eqb_spec res 0) as [->|NZ].
      - cbn [buffer_differs]. exists 0. split; [reflexivity|]. split; [unfold tri; auto|]. split; [discriminate|]. split; [auto|discriminate].
      - destruct (buffer_differs_at v x (w_points_to w)) as (d & -> & D1 & D2); [intros bs E; exact (R 0%nat w x bs eq_refl eq_refl E)|].
        destruct d; cbn [buffer_differs].
        + destruct (D2 eq_refl) as (bs & E & NP). exists 0. split; [reflexivity|]. split; [unfold tri; auto|]. split; [discriminate|]. split; [intros _; right; left; eauto|discriminate].
        + specialize (D1 eq_refl). rewrite andb_true_r, negb_involutive. destruct (Z.eqb_spec res 1) as [->|N1]; cbn [andb].
          * destruct (w_checked w) eqn:C.
            -- destruct (Z.eqb_spec (type_equal v f i (w_value w) x) 1) as [E|E]; [|destruct (Z.eqb_spec (type_equal v f i (w_value w) x) 0) as [E0|E0] ]; eexists; (split; [reflexivity|]); unfold tri; (split; [auto|]);
                 (split; [try discriminate|split; try discriminate]).
               ++ intros _. split; [reflexivity|]. split; auto.
               ++ intros _. right. right. auto.
               ++ intros _. right. unfold unclear. auto.
            -- exists 1. split; [reflexivity|]. split; [unfold tri; auto|]. split; [intros _; split; [reflexivity|]; split; [exact D1|congruence]|]. split; discriminate.
          * exists res. split; [reflexivity|]. split; [exact T|]. split; [congruence|]. auto. }
    destruct A as (z & -> & TZ & A1 & A0 & AM). destruct (IH vals (S i) z) as (y & -> & TY & B1 & B0 & BM).
    + cbn in L. lia.
    + exact TZ.
    + intros k w' x' b Hw Hx. exact (R (S k) w' x' b Hw Hx).
    + exists y. split; [reflexivity|]. split; [exact TY|]. split; [|split].
      * intros H. destruct (B1 H) as (Hz & B). destruct (A1 Hz) as (Hr & A). split; [exact Hr|]. intros [|k] w' x' Hw Hx.
        -- cbn in Hw, Hx. injection Hw as <-. injection Hx as <-. now rewrite Nat.add_0_r.
        -- rewrite <- Nat.add_succ_comm. exact (B k w' x' Hw Hx).
      * intros H. destruct (B0 H) as [Hz|(k & w' & x' & Hw & Hx & D)].
        -- destruct (A0 Hz) as [Hr|D]; [auto|]. right. exists 0%nat, w, x. rewrite Nat.add_0_r. auto.
        -- right. exists (S k), w', x'. rewrite <- Nat.add_succ_comm. auto.
      * intros H. destruct (BM H) as [Hz|(k & w' & x' & Hw & Hx & D)].
        -- destruct (AM Hz) as [Hr|D]; [auto|]. right. exists 0%nat, w, x. rewrite Nat.add_0_r. auto.
        -- right. exists (S k), w', x'. rewrite <- Nat.add_succ_comm. auto.
Qed.

(* ---- the state of the mocks and the test ---- *)
Definition is_some {A} (x : option A) : bool := match x with Some _ => true | None => false end.
Definition data_of (e : expectation) : call_data :=
  {| of_mock := e_mock e; c_args := map arg_of (e_args e); return_value := e_return e; return_value_set := is_some (e_return e); fail_return_value := e_fail e; fail_return_value_set := is_some (e_fail e) |}.
Definition actual_data (f : nat) (vals : list nat) (g1 g2 : bool) : call_data :=
  {| of_mock := f; c_args := map (new_arg false) vals; return_value := None; return_value_set := g1; fail_return_value := None; fail_return_value_set := g2 |}.
Definition mk (F : nat -> mock) (f h : nat) : call := {| function_name := m_name (F f); umockcall_data := h; data_free := f; data_stringify := f; data_are_equal := f |}.
Definition exp_ok (F : nat -> mock) (e : expectation) : Prop := length (e_args e) = arity (F (e_mock e)) /\ Forall (fun w => forall b, w_points_to w = Some b -> bytes_ok b) (e_args e).
Definition is_exp (F : nat -> mock) (ds : list (option call_data)) (cs : list call) (h : nat) (e : expectation) : Prop :=
  nth_error cs h = Some (mk F (e_mock e) h) /\ data_at ds h = Some (data_of e) /\ exp_ok F e.
Definition is_extra (F : nat -> mock) (ds : list (option call_data)) (cs : list call) (h : nat) (x : extra_call) : Prop :=
  let '(f, vals, g1, g2) := x in nth_error cs h = Some (mk F f h) /\ data_at ds h = Some (actual_data f vals g1 g2).
Record shown (F : nat -> mock) (s : mocks) (T : mtest) (t : test) : Prop := {
  sm_test : shows_test (um s) t;
  sm_on : ready t = on T;
  sm_types : types_on t = on T;
  sm_len : length (datas s) = length (made t);
  sm_made : forall h c, nth_error (made t) h = Some c -> exists f, c = mk F f h;
  sm_done : Forall2 (is_exp F (datas s) (made t)) (met t) (done T);
  sm_due : Forall2 (is_exp F (datas s) (made t)) (pending t) (due T);
  sm_extra : Forall2 (is_extra F (datas s) (made t)) (unexpected t) (extra T);
  sm_hook : forall f, mock_hook s f = hook T f;
  sm_default : forall f, default_result s f = fallback T f;
  sm_live : forall h c, data_at (datas s) h = Some c -> In h (live t) /\ Forall arg_ok (c_args c) }.

Lemma world_ok_of v ds : outside_ok v -> (forall h c, data_at ds h = Some c -> Forall arg_ok (c_args c)) -> world_ok (world_of v ds).
Proof.
  intros V K f d a H. cbn [world_of str_of] in H. destruct (data_at ds d) as [c|] eqn:D; [|discriminate H].
  destruct (args_text_spec v c [] V (K _ _ D)) as (r & o' & used & E & U & [ (b & ts & -> & A & S)|(-> & _)]); rewrite E in H; [|discriminate H]. rewrite S in H. injection H as <-.
  destruct (stringify_args_at v (of_mock c) (c_args c) V (K _ _ D) 0 []) as (rs & o1 & u1 & E1 & U1 & X & Y). symmetry in U1. apply app_eq_nil in U1. destruct U1 as [-> ->].
  destruct X as [X|(_ & [] )]. rewrite A in X. destruct (Y ts X) as (Z & _). apply join_ok; [unfold char_ok; lia|exact Z].
Qed.
Lemma call_at F s T t v op : shown F s T t -> outside_ok v -> allowed t op ->
  exists r u t', ustep (world_of v (datas s)) (um s) op [] = Some ((r, u), []) /\ says (world_of v (datas s)) t op r t' false /\ shows_test u t'.
Proof.
  intros S V A. destruct (ustep_at (world_of v (datas s)) (um s) t op [] (sm_test _ _ _ _ S)) as (r & u & o' & used & t' & m & E & U & Y & X & S').
  - apply world_ok_of; [exact V|]. intros h c D. exact (proj2 (sm_live _ _ _ _ S h c D)).
  - exact A.
  - symmetry in U. apply app_eq_nil in U. destruct U as [-> ->]. destruct m; [destruct (X eq_refl)|]. eauto 10.
Qed.
(* what is freed by a step *)
Lemma freed_length u t : shows_test u t -> length (u_freed u) = length (gone t).
Proof. intros S. pose proof (f_equal (@length _) (st_freed _ _ S)) as L. now rewrite !map_length in L. Qed.
Lemma no_frees F b ds u t u' t' : shows_test u t -> shows_test u' t' -> gone t' = gone t -> free_datas F b ds (skipn (length (u_freed u)) (u_freed u')) = Some ([], ds).
Proof. intros S S' G. rewrite (freed_length _ _ S), <- G, <- (freed_length _ _ S'), skipn_all. reflexivity. Qed.
Lemma data_at_upd ds h c h' : (h < length ds)%nat -> data_at (upd ds h c) h' = if Nat.eq_dec h' h then c else data_at ds h'.
Proof.
  intros L. unfold data_at. destruct (Nat.eq_dec h' h) as [->|N]; [rewrite upd_same by exact L; destruct c; reflexivity|]. rewrite upd_other by congruence. reflexivity.
Qed.
Lemma data_at_bound ds h c : data_at ds h = Some c -> (h < length ds)%nat.
Proof. unfold data_at. rewrite <- nth_error_Some. destruct (nth_error ds h); congruence. Qed.
Lemma free_datas_at F b X : forall ds (l : list (nat * nat)) cs, map snd l = X -> NoDup X -> Forall2 (fun h c => data_at ds h = Some c) X cs ->
  exists ds', free_datas F b ds l = Some (concat (map (free_data F b) cs), ds') /\ length ds' = length ds /\ (forall h, ~ In h X -> data_at ds' h = data_at ds h) /\ (forall h, In h X -> data_at ds' h = None).
Proof.
  induction X as [|h X IH]; intros ds l cs E ND H; destruct l as [|[f d] l]; try discriminate E; inversion H as [|? c ? cs' D H']; subst.
  - exists ds. split; [reflexivity|]. split; [reflexivity|]. split; [auto|intros ? [] ].
  - cbn in E. injection E as -> E. inversion ND as [|? ? NI ND']. subst. cbn [free_datas]. rewrite D. pose proof (data_at_bound _ _ _ D) as B.
    destruct (IH (upd ds h None) l cs' eq_refl ND') as (ds' & -> & L & K1 & K2).
    { clear - H' NI B. revert cs' H'. generalize dependent (map snd l). intros X. induction X as [|y X IX]; intros NI cs' H'; inversion H' as [|? c ? cs2 D H2]; subst; constructor.
      - rewrite data_at_upd by exact B. destruct (Nat.eq_dec y h) as [->|]; [exfalso; apply NI; left; reflexivity|exact D].
      - apply IX; [|exact H2]. intros I. apply NI. right. exact I. }
    exists ds'. split; [reflexivity|]. split; [rewrite L; apply upd_length|]. split.
    + intros y NY. rewrite K1 by (intros I; apply NY; right; exact I). rewrite data_at_upd by exact B. destruct (Nat.eq_dec y h) as [->|]; [exfalso; apply NY; left; reflexivity|reflexivity].
    + intros y [<-|I]; [|auto]. destruct (in_dec Nat.eq_dec h (map snd l)) as [I|I]; [auto|]. rewrite K1 by exact I. rewrite data_at_upd by exact B. destruct (Nat.eq_dec h h); [reflexivity|congruence].
Qed.
Lemma some_frees F u t u' t' X : shows_test u t -> shows_test u' t' -> gone t' = gone t ++ X -> (forall h c, nth_error (made t') h = Some c -> exists f, c = mk F f h) ->
  map snd (skipn (length (u_freed u)) (u_freed u')) = X /\ NoDup X.
Proof.
  intros S S' G M. pose proof (st_freed _ _ S') as Q. rewrite G, map_app in Q. rewrite (freed_length _ _ S).
  assert (Y : map Some (skipn (length (gone t)) (u_freed u')) = map (fun h => option_map same_data (nth_error (made t') h)) X).
  { rewrite <- skipn_map, Q. rewrite skipn_app, map_length, Nat.sub_diag, skipn_O, skipn_all2 by (rewrite map_length; lia). reflexivity. }
  split.
  - revert Y. generalize (skipn (length (gone t)) (u_freed u')). clear - M. induction X as [|h X IH]; intros [|[f d] l] Y; try discriminate Y; [reflexivity|]. cbn in Y. injection Y as Y1 Y2. cbn [map snd]. rewrite (IH l Y2). f_equal.
    revert Y1. destruct (nth_error (made t') h) as [c|] eqn:E; [|discriminate]. destruct (M h c E) as (g & ->). unfold same_data. cbn. congruence.
  - pose proof (live_nodup _ _ S') as ND. rewrite G, <- app_assoc in ND. apply NoDup_app_elim in ND. destruct ND as (_ & ND & _). apply NoDup_app_elim in ND. tauto.
Qed.

(* ---- steps ---- *)
Lemma types_ready u t : shows_test u t -> initialized (u_types u) = types_on t.
Proof. intros S. destruct (st_types _ _ S) as (tab & H & ->). exact (sh_init _ _ H). Qed.
Lemma data_at_app ds c h d : data_at ds h = Some d -> data_at (ds ++ [c]) h = Some d.
Proof. intros H. pose proof (data_at_bound _ _ _ H) as B. unfold data_at in *. rewrite nth_error_app1 by exact B. exact H. Qed.
Lemma data_at_new ds c : data_at (ds ++ [Some c]) (length ds) = Some c.
Proof. unfold data_at. rewrite nth_error_app2, Nat.sub_diag by lia. reflexivity. Qed.
Lemma Forall2_imp {A B} (P Q : A -> B -> Prop) l L : (forall a b, In a l -> P a b -> Q a b) -> Forall2 P l L -> Forall2 Q l L.
Proof. intros H F. induction F as [|a b l L p F IH]; constructor; [apply H; [left; reflexivity|exact p]|]. apply IH. intros x y I. apply H. right. exact I. Qed.
Definition mocks_ok (F : nat -> mock) : Prop := forall f, cstr_ok (m_name (F f)).

Lemma inv_create w t n d f st e r t' : says w t (UCreate (Some n) (Some d) (Some f) (Some st) (Some e)) r t' false ->
  r = UHandle (Some (length (made t))) /\ t' = add_made t {| function_name := n; umockcall_data := d; data_free := f; data_stringify := st; data_are_equal := e |}.
Proof. intros Y. inversion Y; subst; [auto|]. intuition discriminate. Qed.
Lemma inv_expect w t h r t' : says w t (UExpect (Some h)) r t' false -> ready t = true -> r = UInt 0 /\ t' = expect t h.
Proof. intros Y R. inversion Y; subst; [auto|]. intuition congruence. Qed.
Lemma inv_data w t h r t' : says w t (UData (Some h)) r t' false -> t' = t /\ exists c, nth_error (made t) h = Some c /\ r = UHandle (Some (umockcall_data c)).
Proof. intros Y. inversion Y; subst; eauto. Qed.
Lemma inv_data_null w t r t' : says w t (UData None) r t' false -> t' = t /\ r = UHandle None.
Proof. intros Y. inversion Y; subst; auto. Qed.
Lemma inv_last w t r t' : says w t ULast r t' false -> t' = t /\ r = UHandle (if ready t then last (map Some (met t ++ pending t)) None else None).
Proof. intros Y. inversion Y; subst; match goal with H : ready _ = _ |- _ => rewrite H end; auto. Qed.
Lemma inv_destroy w t h r t' : says w t (UDestroy (Some h)) r t' false -> r = UNone /\ t' = destroyed t h.
Proof. intros Y. inversion Y; subst; auto. Qed.
Lemma inv_init w t r t' : says w t UInit r t' false -> types_on t = ready t -> if ready t then t' = t /\ exists z, z <> 0 /\ r = UInt z else t' = started t true true /\ r = UInt 0.
Proof. intros Y E. inversion Y; subst; match goal with |- if ready ?x then _ else _ => destruct (ready x) eqn:R end; try congruence; eauto. intuition congruence. Qed.
Lemma inv_deinit w t r t' : says w t UDeinit r t' false -> r = UNone /\ t' = if ready t then no_calls t false false else t.
Proof. intros Y. inversion Y; subst; match goal with H : ready _ = _ |- _ => rewrite H end; auto. Qed.
Lemma inv_reset w t r t' : says w t UReset r t' false -> r = UNone /\ t' = if ready t then no_calls t true (types_on t) else t.
Proof. intros Y. inversion Y; subst; match goal with H : ready _ = _ |- _ => rewrite H end; auto. Qed.
Lemma inv_expected w t r t' : says w t UExpected r t' false -> t' = t /\ r = UText (if ready t then texts w t (pending t) else None).
Proof. intros Y. inversion Y; subst; match goal with H : ready _ = _ |- _ => rewrite H end; auto. Qed.
Lemma inv_actuals w t r t' : says w t UActuals r t' false -> t' = t /\ r = UText (if ready t then texts w t (unexpected t) else None).
Proof. intros Y. inversion Y; subst; match goal with H : ready _ = _ |- _ => rewrite H end; auto. Qed.
Lemma inv_actual w t h r t' : says w t (UActual (Some h) true) r t' false -> ready t = true ->
  (exists e p a b, pending t = e :: p /\ nth_error (made t) e = Some a /\ nth_error (made t) h = Some b /\ same w a b = 1 /\ r = UMatch 0 (Some (Some e)) /\ t' = meet t e p h) \/
  ((forall e p a b, pending t = e :: p -> nth_error (made t) e = Some a -> nth_error (made t) h = Some b -> same w a b = 0) /\ r = UMatch 0 (Some None) /\ t' = surprise t h) \/
  (exists e p a b z, pending t = e :: p /\ nth_error (made t) e = Some a /\ nth_error (made t) h = Some b /\ same w a b <> 1 /\ same w a b <> 0 /\ z <> 0 /\ r = UMatch z (Some None) /\ t' = t).
Proof.
  intros Y R. inversion Y; subst.
  - left. eauto 15.
  - right. left. split; [|auto]. intros. congruence.
  - right. left. split; [|auto]. intros. congruence.
  - right. right. eauto 15.
  - intuition discriminate || congruence.
Qed.
Lemma create_at F s T t v f c : mocks_ok F -> shown F s T t -> mine t = [] -> outside_ok v -> Forall arg_ok (c_args c) ->
  exists s1 t1, create F v (set_datas s (datas s ++ [Some c])) f (Some (length (datas s))) [] = Some ((Some (length (datas s)), [], s1), []) /\
   shown F s1 T t1 /\ mine t1 = [length (datas s)] /\ datas s1 = datas s ++ [Some c] /\ nth_error (made t1) (length (datas s)) = Some (mk F f (length (datas s))).
Proof.
  intros FN S M V K. set (s0 := set_datas s (datas s ++ [Some c])). unfold create, bind at 1, call_um, bind at 1.
  assert (K0 : forall h d, data_at (datas s0) h = Some d -> Forall arg_ok (c_args d)).
  { intros h d D. cbn [s0 set_datas datas] in D. destruct (Nat.lt_ge_cases h (length (datas s))) as [L|L].
    - apply (sm_live _ _ _ _ S h). unfold data_at in *. rewrite nth_error_app1 in D by exact L. exact D.
    - unfold data_at in D. rewrite nth_error_app2 in D by exact L. destruct (h - length (datas s))%nat as [|k]; [cbn in D; now injection D as <-|]. destruct k; discriminate D. }
  destruct (ustep_at (world_of v (datas s0)) (um s) t (UCreate (Some (m_name (F f))) (Some (length (datas s))) (Some f) (Some f) (Some f)) [] (sm_test _ _ _ _ S)) as (r & u & o' & used & t' & m & E & U & Y & X & S').
  { apply world_ok_of; assumption. }
  { exact (FN f). }
  symmetry in U. apply app_eq_nil in U. destruct U as [-> ->]. destruct m; [destruct (X eq_refl)|]. change (um s0) with (um s). rewrite E. clear X.
  destruct (inv_create _ _ _ _ _ _ _ _ _ Y) as (-> & ->).
  pose proof (sm_len _ _ _ _ S) as Len.
  assert (C : {| function_name := m_name (F f); umockcall_data := length (datas s); data_free := f; data_stringify := f; data_are_equal := f |} = mk F f (length (datas s))) by reflexivity. rewrite C in *. clear C.
  unfold bind at 1. rewrite (no_frees F _ (datas s0) _ _ _ _ (sm_test _ _ _ _ S) S') by reflexivity. cbn [lift]. unfold lift, ret.
  eexists _, (add_made t (mk F f (length (datas s)))). rewrite <- Len. split; [reflexivity|]. split; [|split; [cbn [add_made mine]; rewrite M, Len; reflexivity|split; [reflexivity|]; cbn [add_made made]; rewrite nth_error_app2 by lia; replace (length (datas s) - length (made t))%nat with 0%nat by lia; reflexivity] ].
  pose proof S as [SA SB SC SD SE SF SG SH SI SJ SK].
  constructor; cbn [set_datas set_um um datas mock_hook default_result add_made ready types_on made met pending unexpected]; auto.
  - unfold s0. cbn [set_datas datas]. rewrite !app_length. cbn [length]. lia.
  - intros h c0 H. destruct (Nat.lt_ge_cases h (length (made t))) as [L|L]; [rewrite nth_error_app1 in H by exact L; auto|]. rewrite nth_error_app2 in H by exact L.
    destruct (h - length (made t))%nat as [|k] eqn:Q; [|destruct k; discriminate H]. cbn in H. injection H as <-. exists f. rewrite Len. f_equal. lia.
  - eapply Forall2_imp; [|exact SF]. intros h e _ (A & B & Z). split; [rewrite nth_error_app1 by (eapply nth_some; exact A); exact A|]. split; [apply data_at_app; exact B|exact Z].
  - eapply Forall2_imp; [|exact SG]. intros h e _ (A & B & Z). split; [rewrite nth_error_app1 by (eapply nth_some; exact A); exact A|]. split; [apply data_at_app; exact B|exact Z].
  - eapply Forall2_imp; [|exact SH]. intros h [ [ [g vals] g1] g2] _ (A & B). split; [rewrite nth_error_app1 by (eapply nth_some; exact A); exact A|apply data_at_app; exact B].
  - intros h d D. split; [|eapply K0; exact D]. cbn [s0 set_datas datas] in D. unfold live. cbn [add_made mine met pending unexpected]. destruct (Nat.lt_ge_cases h (length (datas s))) as [L|L].
    + unfold data_at in D. rewrite nth_error_app1 in D by exact L. pose proof (proj1 (SK h d D)) as I. unfold live in I. rewrite !in_app_iff in *. tauto.
    + assert (h = length (datas s)). { unfold data_at in D. rewrite nth_error_app2 in D by exact L. destruct (h - length (datas s))%nat as [|k] eqn:Q; [lia|]. destruct k; discriminate D. }
      subst h. rewrite Len, !in_app_iff. left. right. left. reflexivity.
Qed.
Lemma quiet_at F s T t v op : shown F s T t -> outside_ok v -> allowed t op -> (forall r t', says (world_of v (datas s)) t op r t' false -> t' = t) ->
  exists r s1, call_um F v s op [] = Some ((r, [], s1), []) /\ says (world_of v (datas s)) t op r t false /\ shown F s1 T t /\ datas s1 = datas s.
Proof.
  intros S V A Q. destruct (call_at F s T t v op S V A) as (r & u & t' & E & Y & S'). pose proof (Q _ _ Y) as Q2. subst t'. unfold call_um, bind at 1. rewrite E.
  unfold bind at 1. rewrite (no_frees F _ (datas s) _ _ _ _ (sm_test _ _ _ _ S) S') by reflexivity. unfold lift, ret.
  eexists _, _. split; [reflexivity|]. split; [exact Y|]. split; [|reflexivity]. pose proof S as [SA SB SC SD SE SF SG SH SI SJ SK]. constructor; auto.
Qed.
Lemma drop_one h : drop h [h] = [].
Proof. unfold drop. cbn. destruct (Nat.eq_dec h h); congruence. Qed.
Lemma expect_at F s T t v f strict vals : mocks_ok F -> shown F s T t -> mine t = [] -> outside_ok v -> on T = true -> length vals = arity (F f) ->
  exists s1 T1 t1, mstep F v s (MExpect f strict vals) [] = Some ((ANone, [], s1), []) /\ msays F v T (MExpect f strict vals) ANone [] T1 /\ shown F s1 T1 t1 /\ mine t1 = [].
Proof.
  intros FN S M V On L. cbn [mstep]. unfold expected_mock. unfold bind at 1, bind at 1. cbn [alloc negb].
  set (e := {| e_mock := f; e_args := map (fun x => {| w_value := x; w_checked := strict; w_points_to := None; w_fills := None |}) vals; e_return := None; e_fail := None |}).
  assert (D : {| of_mock := f; c_args := map (new_arg (negb strict)) vals; return_value := None; return_value_set := false; fail_return_value := None; fail_return_value_set := false |} = data_of e).
  { unfold data_of, e. cbn. rewrite map_map. reflexivity. }
  rewrite D. set (h := length (datas s)).
  destruct (create_at F s T t v f (data_of e) FN S M V) as (s1 & t1 & E & S1 & M1 & D1 & N1).
  { unfold data_of, e. cbn. apply Forall_map, Forall_map, Forall_forall. intros x _ b H. discriminate H. }
  fold h in E, M1, D1, N1. unfold bind at 1. rewrite E.
  destruct (call_at F s1 T t1 v (UExpect (Some h)) S1 V) as (r & u & t2 & E2 & Y & S2); [cbn; rewrite M1; left; reflexivity|].
  unfold bind at 1, call_um, bind at 1. rewrite E2. destruct (inv_expect _ _ _ _ _ Y) as (-> & ->); [rewrite (sm_on _ _ _ _ S1); exact On|].
  unfold bind at 1. rewrite (no_frees F _ (datas s1) _ _ _ _ (sm_test _ _ _ _ S1) S2) by reflexivity. unfold lift, ret.
  eexists _, _, (expect t1 h). split; [reflexivity|]. split; [apply m_expect; exact On|]. cbn [expect mine]. rewrite M1, drop_one. split; [|reflexivity]. fold e.
  pose proof S1 as [SA SB SC SD SE SF SG SH SI SJ SK]. constructor; cbn [set_datas set_um um datas mock_hook default_result expect ready types_on made met pending unexpected with_lists on done due extra hook fallback]; auto.
  - now rewrite SB.
  - now rewrite SC.
  - apply Forall2_app; [exact SG|]. constructor; [|constructor]. split; [exact N1|]. split; [rewrite D1; apply data_at_new|]. split; [cbn; rewrite map_length; exact L|].
    cbn. apply Forall_map, Forall_forall. intros x _ b H. discriminate H.
  - intros h' c H. destruct (SK h' c H) as (I & K). split; [|exact K]. unfold live in *. cbn [expect mine met pending unexpected]. rewrite M1 in *. rewrite drop_one. rewrite !in_app_iff in *. cbn in I |- *. tauto.
Qed.

(* ---- the mock itself ---- *)
Lemma first_pending_at ms ps : first_pending (map (fun h => (h, true)) ms ++ map (fun h => (h, false)) ps) = match ps with [] => None | e :: _ => Some e end.
Proof. induction ms as [|m ms IH]; cbn; [|exact IH]. destruct ps; reflexivity. Qed.
Lemma compared F s T t v f vals g1 g2 h e p E rest :
  shown F s T t -> on T = true -> mine t = [h] -> data_at (datas s) h = Some (actual_data f vals g1 g2) -> nth_error (made t) h = Some (mk F f h) ->
  pending t = e :: p -> due T = E :: rest -> length vals = arity (F f) -> (e_mock E = f -> well_pointed v E vals) ->
  comparable v s f h = Some tt /\ nth_error (made t) e = Some (mk F (e_mock E) e) /\ data_at (datas s) e = Some (data_of E) /\
  let z := same (world_of v (datas s)) (mk F (e_mock E) e) (mk F f h) in
  (z = 1 -> e_mock E = f /\ all_agree v E vals) /\ (z = 0 -> e_mock E = f -> some_arg (differs v f) E vals) /\ (z <> 1 -> z <> 0 -> e_mock E = f /\ some_arg (unclear v f) E vals).
Proof.
  intros S On M D N P DU L W. pose proof (sm_due _ _ _ _ S) as Q. rewrite P, DU in Q. inversion Q as [|? ? ? ? (A & B & Z) Q']. subst.
  pose proof (st_recorder _ _ (sm_test _ _ _ _ S)) as R. rewrite (sm_on _ _ _ _ S), On in R. destruct R as (x & y & R).
  assert (Neq : e <> h).
  { intros ->. pose proof (live_nodup _ _ (sm_test _ _ _ _ S)) as ND. apply NoDup_app_elim in ND. destruct ND as (_ & ND & _). unfold live in ND. rewrite M, P in ND. inversion ND as [|? ? NI _]. apply NI. cbn. rewrite in_app_iff. right. left. reflexivity. }
  assert (DE : deref (um s) e = Some (mk F (e_mock E) e)).
  { apply (st_deref _ _ (sm_test _ _ _ _ S)). split; [|exact A]. unfold live. rewrite P, !in_app_iff. right. right. left. left. reflexivity. }
  unfold comparable. rewrite R. cbn [expected_calls]. rewrite first_pending_at, P, DE. cbn [mk data_are_equal umockcall_data].
  unfold same. cbn [mk data_are_equal umockcall_data function_name world_of eq_of].
  destruct (Nat.eqb_spec (e_mock E) f) as [<-|NE].
  - destruct (Nat.eq_dec (e_mock E) (e_mock E)) as [_|X]; [|congruence]. destruct (list_eq_dec N.eq_dec (m_name (F (e_mock E))) (m_name (F (e_mock E)))) as [_|X]; [|congruence].
    unfold mock_call_data_are_equal. destruct (Nat.eqb_spec e h) as [X|_]; [congruence|]. rewrite B, D. cbn [data_of actual_data c_args].
    destruct (args_equal_at v (e_mock E) (e_args E) vals 0 1) as (z & -> & TZ & Z1 & Z0 & ZM).
    + rewrite L. apply Z.
    + left. reflexivity.
    + intros k w xx b Hw Hx Hb. exact (W eq_refl k w xx b Hw Hx (or_introl Hb)).
    + split; [reflexivity|]. split; [exact A|]. split; [reflexivity|]. cbv zeta. destruct TZ as [-> | [-> | ->] ]; cbn [Z.eqb orb].
      * split; [|split; [discriminate|intros X; destruct (X eq_refl)] ]. intros _. split; [reflexivity|]. destruct (Z1 eq_refl) as (_ & G). intros i w xx Hw Hx. exact (G i w xx Hw Hx).
      * split; [discriminate|]. split; [|intros _ X; destruct (X eq_refl)]. intros _ _. destruct (Z0 eq_refl) as [X|X]; [discriminate X|]. exact X.
      * split; [discriminate|]. split; [discriminate|]. intros _ _. split; [reflexivity|]. destruct (ZM eq_refl) as [X|X]; [discriminate X|]. exact X.
  - split; [reflexivity|]. split; [exact A|]. split; [exact B|]. cbv zeta. destruct (Nat.eq_dec (e_mock E) f) as [X|_]; [congruence|]. split; [discriminate|]. split; [congruence|]. intros _ X. congruence.
Qed.
Lemma comparable_none F s T t v f h : shown F s T t -> on T = true -> pending t = [] -> comparable v s f h = Some tt.
Proof.
  intros S On P. pose proof (st_recorder _ _ (sm_test _ _ _ _ S)) as R. rewrite (sm_on _ _ _ _ S), On in R. destruct R as (x & y & R).
  unfold comparable. rewrite R. cbn [expected_calls]. rewrite first_pending_at, P. reflexivity.
Qed.
Lemma free_args_at f vals : forall i b, free_args f i (map (new_arg b) vals) = give_back f i vals.
Proof. induction vals as [|x vals IH]; intros i b; cbn; [reflexivity|]. now rewrite IH. Qed.
Lemma free_actual F f vals g1 g2 : free_data F true (actual_data f vals g1 g2) = forget_call F f vals g1 g2.
Proof.
  unfold free_data, forget_call, actual_data. cbn [of_mock c_args return_value return_value_set fail_return_value fail_return_value_set]. rewrite free_args_at. destruct (gives (F f)), g1, g2; reflexivity.
Qed.
Lemma free_args_exp f ws : forall i, free_args f i (map arg_of ws) = give_back f i (map w_value ws).
Proof. induction ws as [|w ws IH]; intros i; cbn; [reflexivity|]. now rewrite IH. Qed.
Lemma free_exp F e : free_data F true (data_of e) = forget F e.
Proof.
  unfold free_data, forget, data_of. cbn [of_mock c_args return_value return_value_set fail_return_value fail_return_value_set]. rewrite free_args_exp. destruct (gives (F (e_mock e))), (e_return e), (e_fail e); reflexivity.
Qed.
Lemma copy_out_at v ws : forall vals, (forall i w x b, nth_error ws i = Some w -> nth_error vals i = Some x -> w_fills w = Some b -> room v x (length b)) -> copy_out v (map arg_of ws) vals = Some (fill_in ws vals).
Proof.
  induction ws as [|w ws IH]; intros [|x vals] H; try reflexivity. cbn [map copy_out fill_in]. rewrite IH by (intros i w' x' b Hw Hx; exact (H (S i) w' x' b Hw Hx)).
  cbn [arg_of out_arg_buffer]. destruct (w_fills w) as [b|] eqn:B; [|reflexivity]. destruct (H 0%nat w x b eq_refl eq_refl B) as (m & -> & L). destruct (Nat.leb_spec (length b) (length m)); [reflexivity|lia].
Qed.
(* a call of the library that destroys the one call the test owns *)
Lemma drop_at F s T t v op h c : shown F s T t -> on T = true -> outside_ok v -> allowed t op -> mine t = [h] -> data_at (datas s) h = Some c ->
  forall r u t', ustep (world_of v (datas s)) (um s) op [] = Some ((r, u), []) -> shows_test u t' -> made t' = made t -> gone t' = gone t ++ [h] -> types_on t' = types_on t ->
  exists s1, call_um F v s op [] = Some ((r, free_data F true c, s1), []) /\ um s1 = u /\ mock_hook s1 = mock_hook s /\ default_result s1 = default_result s /\ length (datas s1) = length (datas s) /\
   (forall h', h' <> h -> data_at (datas s1) h' = data_at (datas s) h') /\ data_at (datas s1) h = None.
Proof.
  intros S On V A M D r u t' E S' MA G TY. unfold call_um, bind at 1. rewrite E. unfold bind at 1.
  destruct (some_frees F _ _ _ _ [h] (sm_test _ _ _ _ S) S' G) as (X & ND); [rewrite MA; exact (sm_made _ _ _ _ S)|].
  destruct (free_datas_at F (initialized (u_types u)) [h] (datas s) _ [c] X ND) as (ds & -> & L & K1 & K2); [constructor; [exact D|constructor]|].
  rewrite (types_ready _ _ S'), TY, (sm_types _ _ _ _ S), On. unfold lift, ret. cbn [map concat]. rewrite app_nil_r.
  eexists. split; [reflexivity|]. cbn [set_datas set_um um datas mock_hook default_result]. repeat split; auto.
  - intros h' N. apply K1. intros [I|[] ]. congruence.
  - apply K2. left. reflexivity.
Qed.
Lemma exp_kept F ds ds' cs h l L : (forall h', h' <> h -> data_at ds' h' = data_at ds h') -> ~ In h l -> Forall2 (is_exp F ds cs) l L -> Forall2 (is_exp F ds' cs) l L.
Proof. intros K N H. eapply Forall2_imp; [|exact H]. intros a e I (A & B & Z). split; [exact A|]. split; [|exact Z]. rewrite K; [exact B|]. intros ->. auto. Qed.
Lemma extra_kept F ds ds' cs h l L : (forall h', h' <> h -> data_at ds' h' = data_at ds h') -> ~ In h l -> Forall2 (is_extra F ds cs) l L -> Forall2 (is_extra F ds' cs) l L.
Proof. intros K N H. eapply Forall2_imp; [|exact H]. intros a [ [ [f vals] g1] g2] I (A & B). split; [exact A|]. rewrite K; [exact B|]. intros ->. auto. Qed.
Lemma hook_at F s T t f vals h : shown F s T t -> hook_or_default F s f vals h = otherwise F T f vals h.
Proof. intros S. unfold hook_or_default, otherwise. rewrite (sm_hook _ _ _ _ S), (sm_default _ _ _ _ S). destruct (hook T f), (gives (F f)); reflexivity. Qed.
Lemma Forall2_head {A B} (R : A -> B -> Prop) a l L : Forall2 R (a :: l) L -> exists b L', L = b :: L' /\ R a b /\ Forall2 R l L'.
Proof. intros H. inversion H; subst. eauto. Qed.
Lemma call_step F s T t v f vals g1 g2 hk : mocks_ok F -> shown F s T t -> mine t = [] -> outside_ok v -> on T = true -> length vals = arity (F f) ->
  (forall e rest, due T = e :: rest -> e_mock e = f -> well_pointed v e vals) ->
  exists a ev s1 T1 t1, mstep F v s (MCall f vals g1 g2 hk) [] = Some ((a, ev, s1), []) /\ msays F v T (MCall f vals g1 g2 hk) a ev T1 /\ shown F s1 T1 t1 /\ mine t1 = [].
Proof.
  intros FN S M V On L W. cbn [mstep]. unfold actual_mock. unfold bind at 1, bind at 1. cbn [alloc negb andb].
  fold (actual_data f vals g1 g2). set (h := length (datas s)).
  destruct (create_at F s T t v f (actual_data f vals g1 g2) FN S M V) as (s1 & t1 & E & S1 & M1 & D1 & N1).
  { cbn. apply Forall_map, Forall_forall. intros x _ b H. discriminate H. }
  fold h in E, M1, D1, N1. unfold bind at 1. rewrite E. clear E.
  assert (DH : data_at (datas s1) h = Some (actual_data f vals g1 g2)) by (rewrite D1; apply data_at_new). clear D1.
  assert (OWN : allowed t1 (UActual (Some h) true)) by (cbn; rewrite M1; left; reflexivity).
  assert (ND : ~ In h (met t1) /\ ~ In h (pending t1) /\ ~ In h (unexpected t1)).
  { pose proof (live_nodup _ _ (sm_test _ _ _ _ S1)) as ND. apply NoDup_app_elim in ND. destruct ND as (_ & ND & _). unfold live in ND. rewrite M1 in ND. inversion ND as [|? ? NI _]. cbn in NI. rewrite !in_app_iff in NI. tauto. }
  destruct ND as (ND1 & ND2 & ND3).
  destruct (call_at F s1 T t1 v _ S1 V OWN) as (r & u & t2 & E2 & Y & S2). pose proof Y as Y0. apply inv_actual in Y0; [|rewrite (sm_on _ _ _ _ S1); exact On].
  pose proof S1 as [SA SB SC SD SE SF SG SH SI SJ SK].
  assert (CMP : comparable v s1 f h = Some tt).
  { destruct (pending t1) as [|e p] eqn:P; [eapply comparable_none; eassumption|]. destruct (Forall2_head _ _ _ _ SG) as (EE & rest & Q & _).
    eapply (compared F s1 T t1 v f vals g1 g2 h e p EE rest); eauto. }
  unfold bind at 1. rewrite CMP. unfold lift at 1.
  destruct Y0 as [ (e & p & ca & cb & P & NA & NB & SM & -> & ->)|[ (SM & -> & ->)|(e & p & ca & cb & z & P & NA & NB & SM1 & SM0 & NZ & -> & ->)] ].
  - (* met *)
    rewrite P in SG. destruct (Forall2_head _ _ _ _ SG) as (EE & rest & Q & IE & SG').
    destruct (compared F s1 T t1 v f vals g1 g2 h e p EE rest) as (_ & NE & DE & C1 & _); eauto. rewrite NE in NA. injection NA as <-. rewrite N1 in NB. injection NB as <-. destruct (C1 SM) as (EF & AG).
    unfold bind at 1. destruct (drop_at F s1 T t1 v _ h _ S1 On V OWN M1 DH _ _ _ E2 S2 eq_refl eq_refl eq_refl) as (s2 & -> & U2 & H2 & DR2 & L2 & K & KH). rewrite free_actual.
    assert (Nh : e <> h) by (intros ->; apply ND2; rewrite P; left; reflexivity).
    assert (SH2 : shown F s2 (with_lists T true (done T ++ [EE]) rest (extra T)) (meet t1 e p h)).
    { constructor; cbn [meet ready types_on made met pending unexpected with_lists on done due extra hook fallback].
      - rewrite U2. exact S2.
      - congruence.
      - congruence.
      - rewrite L2. exact SD.
      - exact SE.
      - apply Forall2_app; [eapply exp_kept; eassumption|]. constructor; [|constructor]. destruct IE as (IA & IB & IC). split; [exact IA|]. split; [rewrite K by congruence; exact IB|exact IC].
      - eapply exp_kept; [exact K| |exact SG']. intros I. apply ND2. rewrite P. right. exact I.
      - eapply extra_kept; eassumption.
      - rewrite H2. exact SI.
      - rewrite DR2. exact SJ.
      - intros h' c H. destruct (Nat.eq_dec h' h) as [->|X]; [congruence|]. rewrite K in H by exact X. destruct (SK h' c H) as (I & KK). split; [|exact KK].
        unfold live in *. cbn [meet mine met pending unexpected]. rewrite M1, P in I. rewrite M1, drop_one. rewrite !in_app_iff in *. cbn in *. intuition congruence. }
    cbn [Z.eqb negb]. unfold bind at 1. unfold ret at 1. unfold bind at 1. unfold lift at 1.
    destruct (quiet_at F s2 _ _ v (UData (Some e)) SH2 V) as (r & s3 & E3 & Y3 & S3 & DS3).
    { cbn. unfold live. cbn [meet mine met pending unexpected]. rewrite !in_app_iff. right. left. right. left. reflexivity. }
    { intros r t' H. apply inv_data in H. tauto. }
    unfold bind at 1. rewrite E3. apply inv_data in Y3. destruct Y3 as (_ & c & NC & ->). cbn [meet made] in NC. rewrite NE in NC. injection NC as <-. cbn [mk umockcall_data].
    unfold bind at 1. rewrite DS3, K by exact Nh. rewrite DE. unfold lift at 1. cbn [data_of return_value_set return_value c_args].
    rewrite (hook_at F s3 _ _ f vals hk S3).
    unfold bind at 1. subst f.
    assert (MR : exists re ev, met_result F T EE vals hk = (re, ev) /\
      (if gives (F (e_mock EE)) then if is_some (e_return EE) then bind (lift (e_return EE)) (fun v0 => ret (Some v0, [])) else ret (otherwise F (with_lists T true (done T ++ [EE]) rest (extra T)) (e_mock EE) vals hk) else ret (None, [])) (@nil bool) = Some ((re, ev), [])).
    { unfold met_result. destruct (gives (F (e_mock EE))) eqn:G; [|eauto]. destruct (e_return EE) as [x|]; cbn [is_some]; [eexists _, _; split; reflexivity|]. change (otherwise F (with_lists T true (done T ++ [EE]) rest (extra T)) (e_mock EE) vals hk) with (otherwise F T (e_mock EE) vals hk).
      destruct (otherwise F T (e_mock EE) vals hk) as (re, ev). eauto. }
    destruct MR as (re & ev & MR & ->). unfold bind at 1. rewrite copy_out_at.
    2:{ intros i w x b Hw Hx Hb. exact (W EE rest Q eq_refl i w x b Hw Hx (or_intror Hb)). }
    unfold lift, ret. cbn [app]. eexists _, _, s3, _, _. split; [reflexivity|]. split; [eapply m_call_met; eauto|]. split; [exact S3|]. cbn [meet mine]. rewrite M1. apply drop_one.
  - (* nobody expected it *)
    unfold bind at 1, call_um, bind at 1. rewrite E2. unfold bind at 1. rewrite (no_frees F _ (datas s1) _ _ _ _ SA S2) by reflexivity. unfold lift at 1, ret at 1. cbn [Z.eqb negb]. unfold bind at 1. unfold ret at 1. unfold bind at 1. unfold lift at 1.
    set (s2 := set_datas _ _).
    assert (SH2 : shown F s2 (with_lists T true (done T) (due T) (extra T ++ [(f, vals, g1, g2)])) (surprise t1 h)).
    { unfold s2. constructor; cbn [set_datas set_um um datas mock_hook default_result surprise ready types_on made met pending unexpected with_lists on done due extra hook fallback]; auto; try congruence.
      - apply Forall2_app; [exact SH|]. constructor; [|constructor]. split; assumption.
      - intros h' c H. destruct (SK h' c H) as (I & KK). split; [|exact KK]. unfold live in *. cbn [surprise mine met pending unexpected]. rewrite M1 in *. rewrite drop_one. rewrite !in_app_iff in *. cbn in *. tauto. }
    rewrite (hook_at F s2 _ _ f vals hk SH2). change (otherwise F (with_lists T true (done T) (due T) (extra T ++ [(f, vals, g1, g2)])) f vals hk) with (otherwise F T f vals hk).
    destruct (otherwise F T f vals hk) as [re ev] eqn:O. unfold ret. cbn [app]. eexists _, _, s2, _, _. split; [reflexivity|]. split; [|split; [exact SH2|cbn [surprise mine]; rewrite M1; apply drop_one] ].
    eapply m_call_extra; eauto. intros EE rest Q EF. destruct (pending t1) as [|e p] eqn:P; [rewrite Q in SG; inversion SG|].
    destruct (compared F s1 T t1 v f vals g1 g2 h e p EE rest) as (_ & NE & DE & _ & C0 & _); eauto.
  - (* the comparison failed *)
    rewrite P in SG. destruct (Forall2_head _ _ _ _ SG) as (EE & rest & Q & IE & SG').
    destruct (compared F s1 T t1 v f vals g1 g2 h e p EE rest) as (_ & NE & DE & _ & _ & CU); eauto. rewrite NE in NA. injection NA as <-. rewrite N1 in NB. injection NB as <-. destruct (CU SM1 SM0) as (EF & UC).
    unfold bind at 1, call_um at 1, bind at 1. rewrite E2. unfold bind at 1. rewrite (no_frees F _ (datas s1) _ _ _ _ SA S2) by reflexivity. unfold lift at 1, ret at 1.
    destruct (Z.eqb_spec z 0) as [X|_]; [congruence|]. cbn [negb].
    set (s2 := set_datas _ _). assert (SH2 : shown F s2 T t1) by (unfold s2; constructor; cbn [set_datas set_um um datas mock_hook default_result]; auto; rewrite P; exact SG).
    destruct (call_at F s2 T t1 v (UDestroy (Some h)) SH2 V) as (r & u3 & t3 & E3 & Y3 & S3); [cbn; rewrite M1; left; reflexivity|]. apply inv_destroy in Y3. destruct Y3 as (-> & ->).
    destruct (drop_at F s2 T t1 v (UDestroy (Some h)) h (actual_data f vals g1 g2) SH2 On V) with (r := UNone) (u := u3) (t' := destroyed t1 h) as (s3 & E4 & U3 & H3 & DR3 & L3 & K & KH); auto.
    unfold bind at 1. unfold bind at 1. rewrite E4. unfold ret at 1. rewrite free_actual. unfold bind at 1. unfold lift at 1.
    assert (SH3 : shown F s3 T (destroyed t1 h)).
    { constructor; cbn [destroyed ready types_on made met pending unexpected]; auto.
      - rewrite U3. exact S3.
      - rewrite L3. exact SD.
      - eapply exp_kept; eassumption.
      - rewrite P. eapply exp_kept; [exact K| |exact SG]. rewrite <- P. exact ND2.
      - eapply extra_kept; eassumption.
      - rewrite H3. exact SI.
      - rewrite DR3. exact SJ.
      - intros h' c H. destruct (Nat.eq_dec h' h) as [->|X]; [congruence|]. rewrite K in H by exact X. destruct (SK h' c H) as (I & KK). split; [|exact KK].
        unfold live in *. cbn [destroyed mine met pending unexpected]. rewrite M1 in *. rewrite drop_one. rewrite !in_app_iff in *. cbn in *. intuition congruence. }
    rewrite (hook_at F s3 _ _ f vals hk SH3). destruct (otherwise F T f vals hk) as [re ev] eqn:O. unfold ret. cbn [app]. rewrite <- app_assoc. eexists _, _, s3, T, _. split; [reflexivity|]. split; [|split; [exact SH3|cbn [destroyed mine]; rewrite M1; apply drop_one] ].
    eapply m_call_unclear; eauto.
Qed.

(* ---- modifiers ---- *)
Lemma map_last_app g l e : map_last g (l ++ [e]) = l ++ [g e].
Proof. induction l as [|x l IH]; [reflexivity|]. cbn [app map_last]. rewrite IH. destruct l; reflexivity. Qed.
Lemma last_some {A} (l : list A) a : last (map Some (l ++ [a])) None = Some a.
Proof. rewrite map_app. cbn [map]. apply last_last. Qed.
Lemma exp_arg_ok F e : exp_ok F e -> Forall arg_ok (c_args (data_of e)).
Proof. intros (_ & H). cbn. apply Forall_map. eapply Forall_impl; [|exact H]. intros w K b E. exact (K b E). Qed.
Definition reshaped (F : nat -> mock) (g : call_data -> call_data) (G : expectation -> expectation) (e : expectation) : Prop := g (data_of e) = data_of (G e) /\ e_mock (G e) = e_mock e /\ exp_ok F (G e).
Lemma last_exp F s T t : shown F s T t ->
  match last (map Some (met t ++ pending t)) None with
  | None => none_expected T = true
  | Some h => exists e, none_expected T = false /\ last_expectation T = Some e /\ In h (live t) /\ is_exp F (datas s) (made t) h e /\
      forall g G, reshaped F g G e -> shown F (set_datas s (upd (datas s) h (Some (g (data_of e))))) (change_last T G) t
  end.
Proof.
  intros S. pose proof (live_nodup _ _ (sm_test _ _ _ _ S)) as ND. apply NoDup_app_elim in ND. destruct ND as (_ & ND & _). unfold live in ND.
  apply NoDup_app_elim in ND. destruct ND as (_ & ND & _). apply NoDup_app_elim in ND. destruct ND as (ND1 & ND & X1). apply NoDup_app_elim in ND. destruct ND as (ND2 & _ & X2).
  pose proof S as [SA SB SC SD SE SF SG SH SI SJ SK].
  assert (NEW : forall g G e h, is_exp F (datas s) (made t) h e -> reshaped F g G e ->
     let ds := upd (datas s) h (Some (g (data_of e))) in
     length ds = length (made t) /\ (forall h', h' <> h -> data_at ds h' = data_at (datas s) h') /\ is_exp F ds (made t) h (G e) /\ (forall h' c, data_at ds h' = Some c -> In h' (live t) /\ Forall arg_ok (c_args c))).
  { intros g G e h (IA & IB & IC) (R1 & R2 & R3) ds. pose proof (data_at_bound _ _ _ IB) as B. unfold ds. split; [rewrite upd_length; exact SD|]. split; [|split].
    - intros h' Nh. rewrite data_at_upd by exact B. destruct (Nat.eq_dec h' h); [congruence|reflexivity].
    - split; [rewrite R2; exact IA|]. split; [|exact R3]. rewrite data_at_upd by exact B. destruct (Nat.eq_dec h h); [now rewrite R1|congruence].
    - intros h' c. rewrite data_at_upd by exact B. destruct (Nat.eq_dec h' h) as [->|]; [|apply SK]. intros H. injection H as <-. split; [exact (proj1 (SK _ _ IB))|]. rewrite R1. eapply exp_arg_ok, R3. }
  destruct (pending t) as [|p0 p1] eqn:P; [rewrite app_nil_r; destruct (met t) as [|m0 m1] eqn:ME|].
  - inversion SG as [|]. inversion SF as [|]. cbn. unfold none_expected. replace (done T) with (@nil expectation). replace (due T) with (@nil expectation). reflexivity.
  - destruct (@exists_last _ (m0 :: m1)) as (ms & h & Q); [discriminate|]. rewrite Q in *. rewrite last_some. apply Forall2_app_inv_l in SF. destruct SF as (D0 & D1 & F0 & F1 & DT).
    inversion F1 as [|? e ? ? IE F2]. subst. inversion F2. subst. assert (DU : due T = []) by (inversion SG; reflexivity). exists e.
    unfold none_expected, last_expectation. rewrite DU, app_nil_r, DT, last_some. split; [destruct D0; reflexivity|]. split; [reflexivity|].
    assert (NI : ~ In h ms) by (apply NoDup_remove_2 in ND1; rewrite app_nil_r in ND1; exact ND1).
    split; [unfold live; rewrite ME, !in_app_iff; right; left; right; left; reflexivity|]. split; [exact IE|]. intros g G R. destruct (NEW g G e h IE R) as (A1 & A2 & A3 & A4).
    unfold change_last. rewrite DU, DT, map_last_app. constructor; cbn [set_datas um datas mock_hook default_result with_lists on done due extra hook fallback]; auto.
    + rewrite ME. apply Forall2_app; [eapply exp_kept; [exact A2|exact NI|exact F0]|]. constructor; [exact A3|constructor].
    + rewrite P. constructor.
    + eapply extra_kept; [exact A2| |exact SH]. intros I. eapply X1; [|apply in_or_app; right; exact I]. apply in_or_app. right. left. reflexivity.
  - destruct (@exists_last _ (p0 :: p1)) as (ps & h & Q); [discriminate|]. rewrite Q in *. rewrite app_assoc, last_some. apply Forall2_app_inv_l in SG. destruct SG as (D0 & D1 & F0 & F1 & DT).
    inversion F1 as [|? e ? ? IE F2]. subst. inversion F2. subst. exists e.
    unfold none_expected, last_expectation. rewrite DT, app_assoc, last_some. split; [destruct (done T ++ D0); reflexivity|]. split; [reflexivity|].
    assert (NI : ~ In h ps) by (apply NoDup_remove_2 in ND2; rewrite app_nil_r in ND2; exact ND2).
    split; [unfold live; rewrite P, !in_app_iff; right; right; left; right; left; reflexivity|]. split; [exact IE|]. intros g G R. destruct (NEW g G e h IE R) as (A1 & A2 & A3 & A4).
    unfold change_last. rewrite DT. destruct (D0 ++ [e]) as [|? ?] eqn:DD; [destruct D0; discriminate DD|]. rewrite <- DD, map_last_app. constructor; cbn [set_datas um datas mock_hook default_result with_lists on done due extra hook fallback]; auto.
    + eapply exp_kept; [exact A2| |exact SF]. intros I. eapply X1; [exact I|]. apply in_or_app. left. apply in_or_app. right. left. reflexivity.
    + rewrite P. apply Forall2_app; [eapply exp_kept; [exact A2|exact NI|exact F0]|]. constructor; [exact A3|constructor].
    + eapply extra_kept; [exact A2| |exact SH]. intros I. eapply X2; [|exact I]. apply in_or_app. right. left. reflexivity.
Qed.
Lemma last_data_at F s T t v : shown F s T t -> outside_ok v -> exists s1, last_data F v s [] = Some ((last (map Some (met t ++ pending t)) None, s1), []) /\ shown F s1 T t.
Proof.
  intros S V. unfold last_data, bind at 1. destruct (quiet_at F s T t v ULast S V Logic.I) as (r & s1 & -> & Y & S1 & D1); [intros r t' H; apply inv_last in H; tauto|].
  apply inv_last in Y. destruct Y as (_ & ->).
  assert (L : (if ready t then last (map Some (met t ++ pending t)) None else None) = last (map Some (met t ++ pending t)) None).
  { pose proof (st_recorder _ _ (sm_test _ _ _ _ S)) as R. destruct (ready t); [reflexivity|]. destruct R as (-> & -> & _). reflexivity. }
  rewrite L. clear L. pose proof (last_exp F s1 T t S1) as LE. destruct (last (map Some (met t ++ pending t)) None) as [h|].
  - destruct LE as (e & _ & _ & I & (IA & _) & _). destruct (quiet_at F s1 T t v (UData (Some h)) S1 V) as (r & s2 & E & Y & S2 & D2); [exact I|intros r t' H; apply inv_data in H; tauto|].
    apply inv_data in Y. destruct Y as (_ & c & NC & ->). rewrite IA in NC. injection NC as <-. unfold bind at 1. rewrite E. exists s2. split; [reflexivity|exact S2].
  - destruct (quiet_at F s1 T t v (UData None) S1 V) as (r & s2 & E & Y & S2 & D2); [exact Logic.I|intros r t' H; apply inv_data_null in H; tauto|].
    apply inv_data_null in Y. destruct Y as (_ & ->). unfold bind at 1. rewrite E. exists s2. split; [reflexivity|exact S2].
Qed.
Lemma at_place_at e i ga gw : (forall w, arg_of (gw w) = ga (arg_of w)) -> at_arg (data_of e) i ga = data_of (change_args e (at_place i gw)).
Proof.
  intros H. unfold at_arg. cbn [data_of c_args].
  assert (X : match nth_error (map arg_of (e_args e)) i with Some a => upd (map arg_of (e_args e)) i (ga a) | None => map arg_of (e_args e) end = map arg_of (at_place i gw (e_args e))).
  { revert i. induction (e_args e) as [|w ws IH]; intros [|i]; try reflexivity; cbn [map nth_error upd at_place].
    - now rewrite H.
    - rewrite <- IH. destruct (nth_error (map arg_of ws) i); reflexivity. }
  unfold data_of, change_args. cbn [e_mock e_args e_return e_fail]. rewrite <- X. destruct (nth_error (map arg_of (e_args e)) i); reflexivity.
Qed.
Lemma at_place_twice i g1 g2 ws : at_place i g2 (at_place i g1 ws) = at_place i (fun w => g2 (g1 w)) ws.
Proof. revert i. induction ws as [|w ws IH]; intros [|i]; try reflexivity. cbn [at_place]. now rewrite IH. Qed.
Lemma at_place_ok i g (K : wanted -> Prop) ws : (forall w, K w -> K (g w)) -> Forall K ws -> Forall K (at_place i g ws).
Proof. intros H. revert i. induction ws as [|w ws IH]; intros i; [destruct i; auto|]. intros F. inversion F; subst. destruct i; cbn [at_place]; constructor; auto. Qed.
Lemma at_place_length i g ws : length (at_place i g ws) = length ws.
Proof. revert i. induction ws as [|w ws IH]; intros [|i]; cbn; auto. Qed.
Lemma place_ok F e i g : (forall w, (forall b, w_points_to w = Some b -> bytes_ok b) -> forall b, w_points_to (g w) = Some b -> bytes_ok b) -> exp_ok F e -> exp_ok F (change_args e (at_place i g)).
Proof. intros H (A & B). split; cbn [change_args e_args e_mock]; [rewrite at_place_length; exact A|]. apply at_place_ok; [exact H|exact B]. Qed.
Lemma all_ok F e g : (forall w, w_points_to (g w) = w_points_to w) -> exp_ok F e -> exp_ok F (change_args e (map g)).
Proof. intros H (A & B). split; cbn [change_args e_args e_mock]; [rewrite map_length; exact A|]. apply Forall_map. eapply Forall_impl; [|exact B]. intros w K b E. rewrite H in E. exact (K b E). Qed.
Lemma all_at e b : with_args (data_of e) (map (mark b) (c_args (data_of e))) = data_of (change_args e (map (checked (negb b)))).
Proof.
  unfold with_args, data_of, change_args. cbn [of_mock c_args return_value return_value_set fail_return_value fail_return_value_set e_mock e_args e_return e_fail]. rewrite !map_map. f_equal. apply map_ext. intros w. unfold mark, arg_of, checked. cbn. now rewrite negb_involutive.
Qed.
Lemma in_range_at F f i : ((i <? 1)%nat || (arity (F f) <? i)%nat) = negb (in_range F f i).
Proof. unfold in_range. rewrite negb_andb, !Nat.leb_antisym, !negb_involutive. reflexivity. Qed.
Lemma same_last T : change_last T (fun e => e) = T.
Proof.
  assert (X : forall l, map_last (fun e => e) l = l) by (intros l; induction l as [|a l IH]; [reflexivity|]; cbn; rewrite IH; destruct l; reflexivity).
  unfold change_last, with_lists. rewrite !X. destruct T as [a b c d e f]; cbn. destruct c; reflexivity.
Qed.
Lemma modify_step F s T t v f m : shown F s T t -> mine t = [] -> outside_ok v -> mallowed F v T (MModify f m) ->
  exists a ev s1 T1 t1, mstep F v s (MModify f m) [] = Some ((a, ev, s1), []) /\ msays F v T (MModify f m) a ev T1 /\ shown F s1 T1 t1 /\ mine t1 = [].
Proof.
  intros S M V (AV & MO & AL). cbn [mstep].
  destruct (last_data_at F s T t v S V) as (s1 & E & S1). pose proof (last_exp F s1 T t S1) as LE.
  set (p := last (map Some (met t ++ pending t)) None) in *. clearbody p.
  assert (DONE : forall x s2 ev, modify F v s f m [] = Some ((ev, s2), []) -> x = match complaint F f m (none_expected T) with Some _ => T | None => change_last T (effect m) end ->
     ev = match complaint F f m (none_expected T) with Some c => [Errors c] | None => [] end -> shown F s2 x t ->
     exists a ev s1 T1 t1, (y <- modify F v s f m ;; let '(e, s) := y in ret (ANone, e, s))%m [] = Some ((a, ev, s1), []) /\ msays F v T (MModify f m) a ev T1 /\ shown F s1 T1 t1 /\ mine t1 = []).
  { intros x s2 ev Q -> -> SS. unfold bind at 1. rewrite Q. exists ANone, (match complaint F f m (none_expected T) with Some c => [Errors c] | None => [] end), s2.
    exists (match complaint F f m (none_expected T) with Some _ => T | None => change_last T (effect m) end), t. split; [reflexivity|]. split; [|split; [exact SS|exact M] ].
    destruct (complaint F f m (none_expected T)) eqn:C; [apply m_complain; exact C|apply m_modify; exact C]. }
  assert (CH : forall h e g, p = Some h -> last_expectation T = Some e -> is_exp F (datas s1) (made t) h e -> change s1 f h g [] = Some (set_datas s1 (upd (datas s1) h (Some (g (data_of e)))), [])).
  { intros h e g _ L (_ & B & _). rewrite L in AL. unfold change, bind at 1. rewrite B. unfold lift. cbn [data_of of_mock]. rewrite AL, Nat.eqb_refl. reflexivity. }
  destruct p as [h|].
  - destruct LE as (e & NE & L & I & IE & K). pose proof IE as (_ & _ & OK). rewrite NE in DONE.
    assert (P1 : forall w b w', w_points_to w' = w_points_to w -> (forall b, w_points_to w = Some b -> bytes_ok b) -> w_points_to w' = Some b -> bytes_ok b) by (intros w b w' Q H R; rewrite Q in R; auto).
    destruct m as [| |i|i|i|i|x|x|i [ [|b0 b]|]|i [ [|b0 b]|]| |]; cbn [complaint] in DONE.
    + apply DONE with (x := change_last T (effect IgnoreAllArguments)) (s2 := set_datas s1 (upd (datas s1) h (Some (with_args (data_of e) (map (mark true) (c_args (data_of e))))))) (ev := []); auto.
      * cbn [modify]. unfold bind at 1. rewrite E. unfold bind at 1. rewrite (CH h e _ eq_refl L IE). reflexivity.
      * apply (K (fun c => with_args c (map (mark true) (c_args c)))). split; [apply (all_at e true)|]. split; [reflexivity|]. apply all_ok; [reflexivity|exact OK].
    + apply DONE with (x := change_last T (effect ValidateAllArguments)) (s2 := set_datas s1 (upd (datas s1) h (Some (with_args (data_of e) (map (mark false) (c_args (data_of e))))))) (ev := []); auto.
      * cbn [modify]. unfold bind at 1. rewrite E. unfold bind at 1. rewrite (CH h e _ eq_refl L IE). reflexivity.
      * apply (K (fun c => with_args c (map (mark false) (c_args c)))). split; [apply (all_at e false)|]. split; [reflexivity|]. apply all_ok; [reflexivity|exact OK].
    + destruct (in_range F f i) eqn:IR; cbn [negb] in DONE.
      * apply DONE with (x := change_last T (effect (IgnoreArgument i))) (s2 := set_datas s1 (upd (datas s1) h (Some (at_arg (data_of e) (i - 1) (mark true))))) (ev := []); auto.
        -- cbn [modify]. unfold bind at 1. rewrite E, in_range_at, IR. cbn [negb]. unfold bind at 1. rewrite (CH h e _ eq_refl L IE). reflexivity.
        -- apply (K (fun c => at_arg c (i - 1) (mark true))). split; [apply at_place_at; reflexivity|]. split; [reflexivity|]. apply place_ok; [|exact OK]. intros w H b. apply P1 with (w := w); auto.
      * apply DONE with (x := T) (s2 := s1) (ev := [Errors ArgIndexOutOfRange]); auto. cbn [modify]. unfold bind at 1. rewrite E, in_range_at, IR. reflexivity.
    + destruct (in_range F f i) eqn:IR; cbn [negb] in DONE.
      * apply DONE with (x := change_last T (effect (ValidateArgument i))) (s2 := set_datas s1 (upd (datas s1) h (Some (at_arg (data_of e) (i - 1) (mark false))))) (ev := []); auto.
        -- cbn [modify]. unfold bind at 1. rewrite E, in_range_at, IR. cbn [negb]. unfold bind at 1. rewrite (CH h e _ eq_refl L IE). reflexivity.
        -- apply (K (fun c => at_arg c (i - 1) (mark false))). split; [apply at_place_at; reflexivity|]. split; [reflexivity|]. apply place_ok; [|exact OK]. intros w H b. apply P1 with (w := w); auto.
      * apply DONE with (x := T) (s2 := s1) (ev := [Errors ArgIndexOutOfRange]); auto. cbn [modify]. unfold bind at 1. rewrite E, in_range_at, IR. reflexivity.
    + apply DONE with (x := change_last T (effect (IgnoreArgument_ i))) (s2 := set_datas s1 (upd (datas s1) h (Some (at_arg (data_of e) i (mark true))))) (ev := []); auto.
      * cbn [modify]. unfold bind at 1. rewrite E. unfold bind at 1. rewrite (CH h e _ eq_refl L IE). reflexivity.
      * apply (K (fun c => at_arg c i (mark true))). split; [apply at_place_at; reflexivity|]. split; [reflexivity|]. apply place_ok; [|exact OK]. intros w H b. apply P1 with (w := w); auto.
    + apply DONE with (x := change_last T (effect (ValidateArgument_ i))) (s2 := set_datas s1 (upd (datas s1) h (Some (at_arg (data_of e) i (mark false))))) (ev := []); auto.
      * cbn [modify]. unfold bind at 1. rewrite E. unfold bind at 1. rewrite (CH h e _ eq_refl L IE). reflexivity.
      * apply (K (fun c => at_arg c i (mark false))). split; [apply at_place_at; reflexivity|]. split; [reflexivity|]. apply place_ok; [|exact OK]. intros w H b. apply P1 with (w := w); auto.
    + eapply DONE with (x := change_last T (effect (SetReturn x))) (ev := []); auto.
      * cbn [modify]. unfold bind at 1. rewrite E. unfold bind at 1. rewrite (CH h e _ eq_refl L IE). reflexivity.
      * apply (K (fun c => {| of_mock := of_mock c; c_args := c_args c; return_value := Some x; return_value_set := true; fail_return_value := fail_return_value c; fail_return_value_set := fail_return_value_set c |})). split; [reflexivity|]. split; [reflexivity|exact OK].
    + eapply DONE with (x := change_last T (effect (SetFailReturn x))) (ev := []); auto.
      * cbn [modify]. unfold bind at 1. rewrite E. unfold bind at 1. rewrite (CH h e _ eq_refl L IE). reflexivity.
      * apply (K (fun c => {| of_mock := of_mock c; c_args := c_args c; return_value := return_value c; return_value_set := return_value_set c; fail_return_value := Some x; fail_return_value_set := true |})). split; [reflexivity|]. split; [reflexivity|exact OK].
    + destruct (in_range F f i) eqn:IR; cbn [negb] in DONE; eapply DONE with (x := T) (s2 := s); auto; cbn [modify]; rewrite in_range_at, IR; reflexivity.
    + destruct (in_range F f i) eqn:IR; cbn [negb] in DONE; [|eapply DONE with (x := T) (s2 := s); auto; cbn [modify]; rewrite in_range_at, IR; reflexivity].
      eapply DONE with (x := change_last T (effect (CopyOutArgumentBuffer i (Some (b0 :: b))))) (ev := []); auto.
      * cbn [modify]. rewrite in_range_at, IR. cbn [negb]. unfold bind at 1. rewrite E. unfold bind at 1. cbn [alloc negb]. unfold bind at 1. rewrite (CH h e _ eq_refl L IE). reflexivity.
      * apply (K (fun c => at_arg (at_arg c (i - 1) (set_out (Some (b0 :: b)))) (i - 1) (mark true))). split.
        -- rewrite (at_place_at e (i - 1) _ (fun w => {| w_value := w_value w; w_checked := w_checked w; w_points_to := w_points_to w; w_fills := Some (b0 :: b) |})) by reflexivity. rewrite (at_place_at _ (i - 1) _ (checked false)) by reflexivity.
           unfold change_args. cbn [e_args e_mock e_return e_fail]. rewrite at_place_twice. reflexivity.
        -- split; [reflexivity|]. apply place_ok; [|exact OK]. intros w H b'. apply P1 with (w := w); auto.
    + destruct (in_range F f i) eqn:IR; cbn [negb] in DONE; eapply DONE with (x := T) (s2 := s); auto; cbn [modify]; rewrite in_range_at, IR; reflexivity.
    + destruct (in_range F f i) eqn:IR; cbn [negb] in DONE; eapply DONE with (x := T) (s2 := s); auto; cbn [modify]; rewrite in_range_at, IR; reflexivity.
    + destruct (in_range F f i) eqn:IR; cbn [negb] in DONE; [|eapply DONE with (x := T) (s2 := s); auto; cbn [modify]; rewrite in_range_at, IR; reflexivity].
      eapply DONE with (x := change_last T (effect (ValidateArgumentBuffer i (Some (b0 :: b))))) (ev := []); auto.
      * cbn [modify]. rewrite in_range_at, IR. cbn [negb]. unfold bind at 1. rewrite E. unfold bind at 1. cbn [alloc negb]. unfold bind at 1. rewrite (CH h e _ eq_refl L IE). reflexivity.
      * apply (K (fun c => at_arg (at_arg c (i - 1) (set_validate (Some (b0 :: b)))) (i - 1) (mark true))). split.
        -- rewrite (at_place_at e (i - 1) _ (fun w => {| w_value := w_value w; w_checked := w_checked w; w_points_to := Some (b0 :: b); w_fills := w_fills w |})) by reflexivity. rewrite (at_place_at _ (i - 1) _ (checked false)) by reflexivity.
           unfold change_args. cbn [e_args e_mock e_return e_fail]. rewrite at_place_twice. reflexivity.
        -- split; [reflexivity|]. apply place_ok; [|exact OK]. intros w _ b' Q. injection Q as <-. exact MO.
    + destruct (in_range F f i) eqn:IR; cbn [negb] in DONE; eapply DONE with (x := T) (s2 := s); auto; cbn [modify]; rewrite in_range_at, IR; reflexivity.
    + eapply DONE with (x := change_last T (effect CopyOutArgument)) (s2 := s) (ev := []); auto. change (effect CopyOutArgument) with (fun e : expectation => e). rewrite same_last. exact S.
    + eapply DONE with (x := change_last T (effect IgnoreAllCalls)) (s2 := s) (ev := []); auto. change (effect IgnoreAllCalls) with (fun e : expectation => e). rewrite same_last. exact S.
  - rewrite LE in DONE. assert (NN : last_expectation T = None). { revert LE. unfold none_expected, last_expectation. destruct (done T ++ due T); [reflexivity|discriminate]. } rewrite NN in AL.
    destruct m as [| |i|i|i|i|x|x|i [ [|b0 b]|]|i [ [|b0 b]|]| |]; cbn [complaint] in DONE; try congruence;
      try (apply DONE with (x := T) (s2 := s1) (ev := [Errors Error]); auto; cbn [modify]; unfold bind at 1; rewrite E; reflexivity);
      try (destruct (in_range F f i) eqn:IR; cbn [negb] in DONE; [|eapply DONE with (x := T) (s2 := s); auto; cbn [modify]; rewrite in_range_at, IR; reflexivity];
           (eapply DONE with (x := T) (s2 := s); auto; cbn [modify]; rewrite in_range_at, IR; reflexivity) || (eapply DONE with (x := T) (s2 := s1); auto; cbn [modify]; rewrite in_range_at, IR; cbn [negb]; unfold bind at 1; rewrite E; reflexivity)).
    + eapply DONE with (x := change_last T (effect CopyOutArgument)) (s2 := s) (ev := []); auto. change (effect CopyOutArgument) with (fun e : expectation => e). rewrite same_last. exact S.
    + eapply DONE with (x := change_last T (effect IgnoreAllCalls)) (s2 := s) (ev := []); auto. change (effect IgnoreAllCalls) with (fun e : expectation => e). rewrite same_last. exact S.
Qed.

(* ---- the rest ---- *)
Definition extra_data (x : extra_call) : call_data := let '(f, vals, g1, g2) := x in actual_data f vals g1 g2.
Lemma Forall2_flip_map {A B C} (P : A -> B -> Prop) (Q : A -> C -> Prop) (g : B -> C) l L : (forall a b, P a b -> Q a (g b)) -> Forall2 P l L -> Forall2 Q l (map g L).
Proof. intros H F. induction F; cbn; constructor; auto. Qed.
Lemma cleared F s T t v op u y : shown F s T t -> mine t = [] -> ustep (world_of v (datas s)) (um s) op [] = Some ((UNone, u), []) -> shows_test u (no_calls t y y) ->
  exists s1, call_um F v s op [] = Some ((UNone, concat (map (free_data F y) (map data_of (done T ++ due T) ++ map extra_data (extra T))), s1), []) /\ shown F s1 (with_lists T y [] [] []) (no_calls t y y).
Proof.
  intros S M E S'. unfold call_um, bind at 1. rewrite E. unfold bind at 1.
  destruct (some_frees F _ _ _ _ (met t ++ pending t ++ unexpected t) (sm_test _ _ _ _ S) S' eq_refl (sm_made _ _ _ _ S)) as (X & ND).
  pose proof S as [SA SB SC SD SE SF SG SH SI SJ SK].
  destruct (free_datas_at F (initialized (u_types u)) _ (datas s) _ (map data_of (done T ++ due T) ++ map extra_data (extra T)) X ND) as (ds & -> & L & K1 & K2).
  { rewrite app_assoc. apply Forall2_app.
    - eapply Forall2_flip_map; [|apply Forall2_app; eassumption]. intros h e (_ & B & _). exact B.
    - eapply Forall2_flip_map; [|exact SH]. intros h [ [ [f vals] g1] g2] (_ & B). exact B. }
  rewrite (types_ready _ _ S'). unfold lift, ret. eexists. split; [reflexivity|].
  constructor; cbn [set_datas set_um um datas mock_hook default_result no_calls ready types_on made met pending unexpected with_lists on done due extra hook fallback]; auto.
  - now rewrite L.
  - intros h c H. exfalso. destruct (in_dec Nat.eq_dec h (met t ++ pending t ++ unexpected t)) as [I|I]; [rewrite (K2 h I) in H; discriminate H|]. rewrite (K1 h I) in H. apply SK in H. destruct H as (H & _). apply I. unfold live in H. rewrite M in H. exact H.
Qed.
Lemma words_at F ds cs v h e : outside_ok v -> is_exp F ds cs h e -> text_of (world_of v ds) (mk F (e_mock e) h) = expectation_words F v e.
Proof.
  intros V (_ & B & C). unfold text_of, expectation_words, call_words. cbn [mk data_stringify umockcall_data function_name world_of str_of]. rewrite B.
  destruct (args_text_spec v (data_of e) [] V (exp_arg_ok F e C)) as (r & o' & used & E & U & Q). symmetry in U. apply app_eq_nil in U. destruct U as [-> ->].
  rewrite E. replace (map told (c_args (data_of e))) with (map (fun w => (w_value w, w_points_to w)) (e_args e)) in Q by (cbn [data_of c_args]; rewrite map_map; reflexivity). cbn [data_of of_mock] in Q.
  destruct Q as [ (b & ts & -> & -> & ->)|(-> & [ -> | [] ])]; reflexivity.
Qed.
Lemma extra_words_at F ds cs v h x : outside_ok v -> is_extra F ds cs h x -> exists f, nth_error cs h = Some (mk F f h) /\ text_of (world_of v ds) (mk F f h) = extra_words F v x.
Proof.
  intros V. destruct x as [ [ [f vals] g1] g2]. intros (A & B). exists f. split; [exact A|]. unfold text_of, extra_words, call_words. cbn [mk data_stringify umockcall_data function_name world_of str_of]. rewrite B.
  destruct (args_text_spec v (actual_data f vals g1 g2) [] V) as (r & o' & used & E & U & Q). { cbn. apply Forall_map, Forall_forall. intros x _ b H. discriminate H. }
  symmetry in U. apply app_eq_nil in U. destruct U as [-> ->].
  rewrite E. replace (map told (c_args (actual_data f vals g1 g2))) with (map (fun a => (a, @None (list N))) vals) in Q by (cbn [actual_data c_args]; rewrite map_map; reflexivity). cbn [actual_data of_mock] in Q.
  destruct Q as [ (b & ts & -> & -> & ->)|(-> & [ -> | [] ])]; reflexivity.
Qed.
Lemma texts_at {X} (w : world) (t : test) (say : X -> option (list N)) l L : Forall2 (fun h x => exists c, nth_error (made t) h = Some c /\ text_of w c = say x) l L -> texts w t l = all_words (map say L).
Proof.
  intros H. unfold texts. induction H as [|h x l L (c & N & E) H IH]; [reflexivity|]. cbn [map texts_of all_words]. rewrite N, E, IH. destruct (say x); [|reflexivity]. destruct (all_words (map say L)); reflexivity.
Qed.
Lemma mstep_at F s T t v op : mocks_ok F -> shown F s T t -> mine t = [] -> outside_ok v -> mallowed F v T op ->
  exists a ev s1 T1 t1, mstep F v s op [] = Some ((a, ev, s1), []) /\ msays F v T op a ev T1 /\ shown F s1 T1 t1 /\ mine t1 = [].
Proof.
  intros FN S M V A. pose proof S as [SA SB SC SD SE SF SG SH SI SJ SK]. destruct op as [| | | | |f strict vals|f m|f vals g1 g2 hk|f b|f x].
  - cbn [mstep]. destruct (call_at F s T t v UInit S V Logic.I) as (r & u & t' & E & Y & S'). apply inv_init in Y; [|congruence]. rewrite SB in Y. destruct (on T) eqn:On.
    + destruct Y as (-> & z & NZ & ->). unfold call_um. unfold bind at 1, bind at 1. rewrite E. unfold bind at 1. rewrite (no_frees F _ (datas s) _ _ _ _ SA S') by reflexivity. unfold lift, ret.
      eexists _, _, _, T, t. split; [reflexivity|]. split; [apply m_init_again; assumption|]. split; [|exact M]. constructor; cbn [set_datas set_um um datas mock_hook default_result]; auto; congruence.
    + destruct Y as (-> & ->). unfold call_um. unfold bind at 1, bind at 1. rewrite E. unfold bind at 1. rewrite (no_frees F _ (datas s) _ _ _ _ SA S') by reflexivity. unfold lift, ret.
      eexists _, _, _, _, (started t true true). split; [reflexivity|]. split; [apply m_init; assumption|]. split; [|exact M].
      constructor; cbn [set_datas set_um um datas mock_hook default_result started ready types_on made met pending unexpected with_lists on done due extra hook fallback]; auto.
  - cbn [mstep]. destruct (call_at F s T t v UDeinit S V Logic.I) as (r & u & t' & E & Y & S'). apply inv_deinit in Y. rewrite SB in Y. destruct Y as (-> & ->). destruct (on T) eqn:On.
    + destruct (cleared F s T t v UDeinit u false S M E S') as (s1 & E1 & S1). unfold bind at 1. rewrite E1. unfold ret.
      eexists _, _, s1, _, _. split; [reflexivity|]. split; [|split; [exact S1|exact M] ].
      replace (concat _) with (@nil mevent); [apply m_deinit; exact On|]. clear. generalize (map data_of (done T ++ due T) ++ map extra_data (extra T)). intros l. induction l as [|c l IH]; [reflexivity|]. cbn. exact IH.
    + unfold call_um. unfold bind at 1, bind at 1. rewrite E. unfold bind at 1. rewrite (no_frees F _ (datas s) _ _ _ _ SA S') by reflexivity. unfold lift, ret.
      eexists _, _, _, T, t. split; [reflexivity|]. split; [apply m_deinit_not; assumption|]. split; [|exact M]. constructor; cbn [set_datas set_um um datas mock_hook default_result]; auto; congruence.
  - cbn [mstep]. destruct (call_at F s T t v UReset S V Logic.I) as (r & u & t' & E & Y & S'). apply inv_reset in Y. rewrite SB, SC in Y. destruct Y as (-> & ->). destruct (on T) eqn:On.
    + destruct (cleared F s T t v UReset u true S M E S') as (s1 & E1 & S1). unfold bind at 1. rewrite E1. unfold ret.
      eexists _, _, s1, _, _. split; [reflexivity|]. split; [|split; [exact S1|exact M] ].
      rewrite map_app, concat_app, !map_map. rewrite (map_ext _ (forget F) (free_exp F)). rewrite (map_ext (fun x => free_data F true (extra_data x)) (forget_extra F)) by (intros [ [ [f vals] g1] g2]; apply free_actual). apply m_reset. exact On.
    + unfold call_um. unfold bind at 1, bind at 1. rewrite E. unfold bind at 1. rewrite (no_frees F _ (datas s) _ _ _ _ SA S') by reflexivity. unfold lift, ret.
      eexists _, _, _, T, t. split; [reflexivity|]. split; [apply m_reset_not; assumption|]. split; [|exact M]. constructor; cbn [set_datas set_um um datas mock_hook default_result]; auto; congruence.
  - cbn [mstep]. destruct (quiet_at F s T t v UExpected S V Logic.I) as (r & s1 & E & Y & S1 & D1); [intros r t' H; apply inv_expected in H; tauto|]. apply inv_expected in Y. destruct Y as (_ & ->).
    unfold bind at 1. rewrite E. unfold ret. eexists _, _, s1, T, t. split; [reflexivity|]. split; [|split; assumption]. rewrite SB.
    rewrite (texts_at (world_of v (datas s)) t (expectation_words F v) (pending t) (due T)); [apply m_expected|]. eapply Forall2_imp; [|exact SG]. intros h e _ IE. exists (mk F (e_mock e) h). split; [exact (proj1 IE)|]. eapply words_at; eassumption.
  - cbn [mstep]. destruct (quiet_at F s T t v UActuals S V Logic.I) as (r & s1 & E & Y & S1 & D1); [intros r t' H; apply inv_actuals in H; tauto|]. apply inv_actuals in Y. destruct Y as (_ & ->).
    unfold bind at 1. rewrite E. unfold ret. eexists _, _, s1, T, t. split; [reflexivity|]. split; [|split; assumption]. rewrite SB.
    rewrite (texts_at (world_of v (datas s)) t (extra_words F v) (unexpected t) (extra T)); [apply m_actuals|]. eapply Forall2_imp; [|exact SH]. intros h e _ IE. destruct (extra_words_at _ _ _ _ _ _ V IE) as (f & Q1 & Q2). eauto.
  - destruct A as (On & L). destruct (expect_at F s T t v f strict vals FN S M V On L) as (s1 & T1 & t1 & E & Y & S1 & M1). eauto 10.
  - eapply modify_step; eassumption.
  - destruct A as (On & L & W). eapply call_step; eassumption.
  - eexists _, _, _, _, t. split; [reflexivity|]. split; [apply m_hook|]. split; [|exact M]. constructor; cbn [um datas mock_hook default_result on done due extra hook fallback]; auto.
    intros g. destruct (Nat.eqb_spec g f), (Nat.eq_dec g f); congruence || auto.
  - eexists _, _, _, _, t. split; [reflexivity|]. split; [apply m_return|]. split; [|exact M]. constructor; cbn [um datas mock_hook default_result on done due extra hook fallback]; auto.
    intros g. destruct (Nat.eqb_spec g f), (Nat.eq_dec g f); congruence || auto.
Qed.

(* call data in memory *)
Definition held (s : mocks) : nat := length (filter (fun d => match d with Some _ => true | None => false end) (datas s)).
Lemma held_positions (ds : list (option call_data)) : length (filter (fun d : option call_data => match d with Some _ => true | None => false end) ds) = length (filter (fun h => is_some (data_at ds h)) (seq 0 (length ds))).
Proof.
  induction ds as [|x ds IH] using rev_ind; [reflexivity|]. rewrite filter_app, !app_length. cbn [length]. rewrite Nat.add_1_r, seq_S, filter_app, app_length, IH. f_equal.
  - f_equal. apply filter_ext_in. intros h I. apply in_seq in I. unfold data_at. rewrite nth_error_app1 by lia. reflexivity.
  - cbn [filter Nat.add]. unfold data_at. rewrite nth_error_app2, Nat.sub_diag by lia. cbn. destruct x; reflexivity.
Qed.
Lemma held_at F s T t : shown F s T t -> mine t = [] -> held s = (length (done T) + length (due T) + length (extra T))%nat.
Proof.
  intros S M. pose proof S as [SA SB SC SD SE SF SG SH SI SJ SK]. unfold held. rewrite held_positions.
  pose proof (live_nodup _ _ SA) as ND. apply NoDup_app_elim in ND. destruct ND as (_ & ND & _).
  assert (P : Permutation (filter (fun h => is_some (data_at (datas s) h)) (seq 0 (length (datas s)))) (live t)).
  { apply NoDup_Permutation; [apply NoDup_filter, seq_NoDup|exact ND|]. intros h. rewrite filter_In, in_seq. split.
    - intros (_ & H). destruct (data_at (datas s) h) as [c|] eqn:D; [|discriminate H]. exact (proj1 (SK h c D)).
    - intros I. assert (X : exists c, data_at (datas s) h = Some c).
      { unfold live in I. rewrite M in I. cbn in I. rewrite !in_app_iff in I.
        assert (Y : forall (P : nat -> expectation -> Prop) l L, Forall2 P l L -> In h l -> exists e, P h e) by (intros P l L H; induction H as [|a b l L q H IH]; [intros []|intros [<-|J]; eauto]).
        assert (Z : forall (P : nat -> extra_call -> Prop) l L, Forall2 P l L -> In h l -> exists e, P h e) by (intros P l L H; induction H as [|a b l L q H IH]; [intros []|intros [<-|J]; eauto]).
        destruct I as [I|[I|I] ].
        - destruct (Y _ _ _ SF I) as (e & _ & B & _). eauto.
        - destruct (Y _ _ _ SG I) as (e & _ & B & _). eauto.
        - destruct (Z _ _ _ SH I) as ([ [ [f vals] g1] g2] & _ & B). eauto. }
      destruct X as (c & X). split; [pose proof (data_at_bound _ _ _ X); lia|]. rewrite X. reflexivity. }
  apply Permutation_length in P. rewrite P. unfold live. rewrite M. cbn [app]. rewrite !app_length.
  assert (Y : forall A (P : nat -> A -> Prop) l L, Forall2 P l L -> length l = length L) by (intros A PP l L H; induction H; cbn; congruence).
  rewrite (Y _ _ _ _ SF), (Y _ _ _ _ SG), (Y _ _ _ _ SH). lia.
Qed.
Lemma mocks_shown F : shown F mocks_start mtest_start test_start.
Proof.
  constructor; [exact start_shown|reflexivity|reflexivity|reflexivity| |constructor|constructor|constructor|reflexivity|reflexivity|]; intros h c H; destruct h; discriminate H.
Qed.
(* A test with memory and without careless steps: every mock, expectation and modifier does what a reader of the test
   expects, and the call data in memory are those of the calls the library still knows. *)
Theorem mocks_follow_test_partial F p : mocks_ok F -> mcareful F mtest_start p ->
  exists tr s T, mplay F mocks_start p [] = Some ((tr, s), []) /\ mexplained F mtest_start tr T /\ held s = (length (done T) + length (due T) + length (extra T))%nat.
Proof.
  intros FN. enough (X : forall p s T t, shown F s T t -> mine t = [] -> mcareful F T p -> exists tr s' T', mplay F s p [] = Some ((tr, s'), []) /\ mexplained F T tr T' /\ held s' = (length (done T') + length (due T') + length (extra T'))%nat).
  { apply X with (t := test_start); [apply mocks_shown|reflexivity]. }
  clear p. induction p as [|v op next IH]; intros s T t S M C.
  - exists [], s, T. split; [reflexivity|]. split; [constructor|]. eapply held_at; eassumption.
  - cbn [mcareful] in C. destruct C as (V & A & C). destruct (mstep_at F s T t v op FN S M V A) as (a & ev & s1 & T1 & t1 & E & Y & S1 & M1).
    destruct (IH a ev s1 T1 t1 S1 M1 (C _ _ _ Y)) as (tr & s2 & T2 & E2 & X2 & H2). cbn [mplay]. unfold bind at 1. rewrite E. unfold bind at 1. rewrite E2. unfold ret. cbn [fst snd].
    exists ((v, op, a, ev) :: tr), s2, T2. split; [reflexivity|]. split; [econstructor; eassumption|exact H2].
Qed.
