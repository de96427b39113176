(* C94: closing inside callbacks.  C96: descriptors.  C97: the buffer of a send. *)
From Verif Require Import Base SocketIo_Model SocketIo_Spec SocketIo_Props SocketIoRe_Model SocketIoRe_Spec SocketIoRe_Props.
Open Scope Z_scope.

(* ---------------- C94 ---------------- *)
Definition nothing_to_send (s : st) (x : rio) : Prop := rest_items s x = [] \/ existsb sending_frame (stack s) = false.
Definition K (s : st) : Prop :=
  J s /\
  match inst s with
  | None => True
  | Some x => state (core x) = CLOSED /\ sock (core x) = -1 /\ nothing_to_send s x /\ match at_ s with Sending _ => False | _ => True end
  end.
Lemma events_app a b : events_of (a ++ b) = events_of a ++ events_of b.
Proof. unfold events_of. rewrite map_app, concat_app. reflexivity. Qed.

Lemma K_step logging s l s' : K s -> is_open_call l = false -> (match l with LCall o _ => permitted (existsb is_destroy (out s)) (stack s) o = true | _ => True end) ->
  re_step logging s l = Ok s' -> K s' /\ exists l2, out s' = out s ++ l2 /\ existsb moves_bytes (events_of l2) = false.
Proof.
  intros [Hj Hk] Ho Hp E. destruct (J_step logging s l Hj Hp) as [C|(s0 & E0 & Hj')]; [congruence|]. assert (s0 = s') by congruence. subst s0. clear E0.
  cut ((match inst s' with None => True | Some x => state (core x) = CLOSED /\ sock (core x) = -1 /\ nothing_to_send s' x /\ match at_ s' with Sending _ => False | _ => True end end) /\ exists l2, out s' = out s ++ l2 /\ existsb moves_bytes (events_of l2) = false).
  { intros [A B]. split; [split; assumption|exact B]. }
  unfold J in Hj. unfold re_step in E. destruct l as [o a| |a|a]; destruct (at_ s) eqn:Ea; try discriminate.
  - cbn [inst enter] in E. destruct (inst s) as [x|] eqn:Ei; [|discriminate]. destruct Hk as (K1 & K2 & K3 & _).
    assert (F : forall n r, finish (enter s o) n r = Ok s' -> (match inst s' with None => True | Some x => state (core x) = CLOSED /\ sock (core x) = -1 /\ nothing_to_send s' x /\ match at_ s' with Sending _ => False | _ => True end end) /\ exists l2, out s' = out s ++ l2 /\ existsb moves_bytes (events_of l2) = false).
    { intros n r E1. injection E1 as <-. cbn. rewrite Ei. split; [auto|]. eexists. rewrite <- app_assoc. split; reflexivity. }
    destruct o as [oo oc ob bc oe ec|cb ctx|b cb ctx| |].
    + discriminate.
    + unfold re_close in E. rewrite K1 in E. eapply F. exact E.
    + unfold re_send in E. rewrite K1 in E. destruct (length b =? 0)%nat; eapply F; exact E.
    + unfold re_dowork in E. rewrite K1 in E. eapply F. exact E.
    + destruct Hj as [(H1 & H2 & _) _]. unfold re_destroy in E. set (s1 := see _ _) in E. destruct (free_entries_all (items x) s1 H1) as (s2 & E2 & A & B & C & D); [intros i Hi; apply H2 in Hi; exact Hi|].
      rewrite E2 in E. cbn in E. injection E as <-. cbn. split; [exact I|]. rewrite C. unfold s1. cbn. rewrite K2. cbn. eexists. rewrite <- !app_assoc. split; reflexivity.
  - destruct (stack s) as [|f rest] eqn:Es; [discriminate|]. destruct (inst s) as [x|] eqn:Ei.
    + destruct Hk as (K1 & K2 & K3 & _). destruct Hj as [(H1 & H2 & H3 & H4 & H5 & _) _]. unfold nothing_to_send, rest_items in K3. rewrite Es in K3, H4, H5. cbn [ordered] in H5. destruct H5 as [H5 _].
      assert (K3' : work_completion f = false -> (if existsb work_completion rest then tl (items x) else items x) = [] \/ existsb sending_frame rest = false).
      { intros Hf. cbn in K3. rewrite Hf in K3. cbn in K3. destruct K3 as [K3|K3]; [left; exact K3|right]. apply orb_false_iff in K3. apply K3. }
      destruct f as [n|n|n|n|n i|n|n]; cbn [resume] in E.
      * injection E as <-. cbn. rewrite Ei. split; [|eexists; split; reflexivity]. unfold nothing_to_send, rest_items. cbn. rewrite Es. cbn [tl]. auto.
      * injection E as <-. cbn. rewrite Ei. split; [|eexists; split; reflexivity]. unfold nothing_to_send, rest_items. cbn. rewrite Es. cbn [tl]. auto.
      * unfold after_sent in E. cbn in E. rewrite Ei in E. unfold finish in E. destruct logging; injection E as <-; cbn; rewrite Ei.
        -- split; [|eexists; rewrite <- app_assoc; split; reflexivity]. unfold nothing_to_send, rest_items. cbn. rewrite Es. cbn [tl]. auto.
        -- split; [|eexists; split; reflexivity]. unfold nothing_to_send, rest_items. cbn. rewrite Es. cbn [tl]. auto.
      * injection E as <-. cbn. rewrite Ei. split; [|eexists; split; reflexivity]. unfold nothing_to_send, rest_items. cbn. rewrite Es. cbn [tl]. auto.
      * unfold after_work_sent in E. cbn in E. specialize (H5 eq_refl). cbn in K3. destruct K3 as [K3|K3]; [|discriminate].
        specialize (H4 n i (or_introl eq_refl)). destruct (items x) as [|k it] eqn:Eit; [discriminate|]. injection H4 as ->. cbn in K3. subst it.
        destruct (entries s i); [|discriminate]. rewrite Ei, Eit in E. cbn [existsb] in E. rewrite Nat.eqb_refl in E. cbn [orb] in E. rewrite remove_first_head in E. unfold loop_head in E. cbn in E. injection E as <-.
        cbn. split; [|exists []; rewrite app_nil_r; split; reflexivity]. repeat (split; [assumption|]). split; [|exact I]. left. unfold rest_items. cbn. rewrite Es. cbn. rewrite H5. reflexivity.
      * unfold loop_head in E. cbn in E. rewrite Ei in E. injection E as <-. cbn. rewrite Ei. specialize (H5 eq_refl). cbn in K3. rewrite H5 in K3. destruct K3 as [K3|K3]; [|discriminate]. rewrite K3.
        split; [|exists []; rewrite app_nil_r; split; reflexivity]. repeat (split; [assumption|]). split; [|exact I]. left. unfold rest_items. cbn. rewrite Es. cbn. rewrite H5. exact K3.
      * cbn in E. rewrite Ei in E. injection E as <-. cbn. rewrite Ei. split; [|exists []; rewrite app_nil_r; split; reflexivity]. repeat (split; [assumption|]). split; [|exact I].
        unfold nothing_to_send, rest_items. cbn. rewrite Es. cbn [tl]. apply K3'. reflexivity.
    + destruct Hj as (_ & Hs & _). cbn in Hs. apply andb_true_iff in Hs. destruct Hs as [Hf _].
      destruct f; try discriminate; injection E as <-; cbn; rewrite Ei; (split; [exact I|eexists; split; reflexivity]).
  - destruct (inst s); [destruct Hk as (_ & _ & _ & []) |destruct Hj as (_ & _ & C & _); congruence].
  - unfold re_receiving in E. destruct (inst s) as [x|] eqn:Ei; [|discriminate]. destruct Hk as (K1 & K2 & K3 & _). rewrite K2 in E. cbn in E. injection E as <-. cbn. rewrite Ei. split; [auto|].
    eexists. rewrite <- app_assoc. split; reflexivity.
Qed.

(* A close called from anywhere closes: an io that is not closed is, when the close complete
   callback is made, closed and without its descriptor, which has been given back to the system. *)
Theorem reentrant_close_closes : forall logging s y onclose ctx a, at_ s = User -> inst s = Some y -> state (core y) <> CLOSED -> state (core y) <> CLOSING ->
  exists s' l2, re_step logging s (LCall (RClose onclose ctx) a) = Ok s' /\ io_state_of s' = Some CLOSED /\ (exists z, inst s' = Some z /\ sock (core z) = -1) /\
    out s' = out s ++ l2 /\ In (ECloseFd (sock (core y))) (events_of l2) /\ existsb moves_bytes (events_of l2) = false /\
    match onclose with Some cb => In (ECloseComplete cb ctx) (events_of l2) /\ stack s' = InClose (calls s) :: stack s | None => In (Returned (calls s) (Some 0)) l2 /\ stack s' = stack s end.
Proof.
  intros logging s y onclose ctx a Ha Hi H1 H2. unfold re_step. rewrite Ha. cbn [inst enter]. rewrite Hi. unfold re_close.
  destruct (state (core y)) eqn:Es; try contradiction; destruct onclose as [cb|]; cbn; eexists; eexists;
    (split; [reflexivity|split; [reflexivity|split; [eexists; split; reflexivity|split; [cbn; rewrite <- ?app_assoc; reflexivity|cbn; auto 10] ] ] ]).
Qed.

(* A closed io stays closed until the next open, and moves no bytes, whatever is called from
   whatever callback; provided, when it was closed within a callback of a dowork that is in its
   sending loop, that no more messages were waiting. *)
Theorem closed_stays_closed_partial : forall logging x s y l s', re_reach logging x s -> inst s = Some y -> state (core y) = CLOSED -> sock (core y) = -1 -> at_ s = User ->
  (rest_items s y = [] \/ existsb sending_frame (stack s) = false) ->
  law_abiding logging s l -> existsb is_open_call l = false -> re_run logging s l = Ok s' ->
  (io_state_of s' = Some CLOSED \/ io_state_of s' = None) /\ exists l2, out s' = out s ++ l2 /\ existsb moves_bytes (events_of l2) = false.
Proof.
  intros logging x s y l s' R Hi Hc Hs Ha Hn Hl Ho E. apply J_reach in R. assert (Hk : K s) by (split; [exact R|]; rewrite Hi, Ha; auto). clear R Hi Hc Hs Ha Hn.
  revert s Hk Hl E. induction l as [|a l IH]; intros s Hk Hl E.
  - injection E as <-. split; [|exists []; rewrite app_nil_r; split; reflexivity]. destruct Hk as [_ Hk]. unfold io_state_of. destruct (inst s); [left; f_equal; apply Hk|auto].
  - cbn in Ho. apply orb_false_iff in Ho. destruct Ho as [Ho1 Ho2]. cbn in Hl, E. destruct Hl as [Hp Hl]. destruct (re_step logging s a) as [s1| |] eqn:E1; try discriminate. cbn in E.
    destruct (K_step logging s a s1 Hk Ho1 Hp E1) as (Hk1 & l2 & O1 & M1). destruct (IH Ho2 s1 Hk1 Hl E) as (S2 & l3 & O2 & M2). split; [exact S2|]. exists (l2 ++ l3). rewrite O2, O1, app_assoc. split; [reflexivity|].
    rewrite events_app, existsb_app, M1, M2. reflexivity.
Qed.

(* Otherwise the claim is false: closed in a completion callback while a message is waiting, the
   io drops it, and is in the error state when control is back: it can not be opened. *)
Theorem close_in_completion_refuted : forall logging x s n i j rest y a b r, re_reach logging x s -> at_ s = User -> stack s = InWorkSent n i :: rest ->
  inst s = Some y -> state (core y) = OPEN -> items y = [i; j] -> on_error (core y) = None ->
  exists s' s'', re_run logging s [LCall (RClose None None) a] = Ok s' /\ io_state_of s' = Some CLOSED /\ In (Returned (calls s) (Some 0)) (out s') /\
    re_run logging s' [LReturn; LSend b; LRecv r] = Ok s'' /\ at_ s'' = User /\ stack s'' = rest /\ io_state_of s'' = Some ERROR /\ entries s'' j = None /\
    forall oo oc ob bc oe ec o, exists s3, re_step logging s'' (LCall (ROpen oo oc ob bc oe ec) o) = Ok s3 /\ In (Returned (calls s'') (Some 233)) (out s3).
Proof.
  intros logging x s n i j rest y a b r R Ha Hs Hi Ho Hit He. apply J_reach in R. unfold J in R. rewrite Hi in R. destruct R as [(H1 & H2 & _) _]. destruct y as [cy ity]. cbn in Ho, Hit, He, H1, H2. subst ity.
  destruct s as [si se sf sc ss sa so]. cbn in Ha, Hs, Hi, H2. subst si sa ss. inversion H1 as [|? ? Hnij Hn']; subst.
  assert (Hei : se i <> None) by (apply H2; left; reflexivity). assert (Hej : se j <> None) by (apply H2; right; left; reflexivity). assert (Hne : j <> i) by (intros ->; apply Hnij; left; reflexivity).
  destruct (se i) as [pi|] eqn:Ei; [|congruence]. destruct (se j) as [pj|] eqn:Ej; [|congruence].
  cbn [re_run re_step at_]. unfold re_close. cbn [inst enter core]. rewrite Ho. cbn [callback resume finish bind_res re_run].
  eexists. eexists. split; [reflexivity|]. split; [reflexivity|]. split; [cbn; rewrite !in_app_iff; cbn; auto|]. split.
  - cbn. unfold after_work_sent. cbn. rewrite Ei, Nat.eqb_refl. cbn. unfold loop_head. cbn. unfold re_sending. cbn. apply Nat.eqb_neq in Hne. rewrite Hne, Ej. unfold fd_takes. cbn [Z.eqb Pos.eqb].
    assert (Hz : match Z.of_nat (p_size pj) with Z.neg q => (1 =? q)%positive | _ => false end = false) by (destruct (p_size pj); reflexivity). rewrite Hz. cbn. unfold raise. cbn. rewrite He. cbn. reflexivity.
  - cbn. repeat (split; [reflexivity|]). split; [rewrite Nat.eqb_refl; reflexivity|].
    intros oo oc ob bc oe ec o. eexists. split; [reflexivity|]. cbn. rewrite !in_app_iff. cbn. auto.
Qed.

(* ---------------- C96 ---------------- *)
#[local] Arguments events_of : simpl never.
Lemma ev_did e l : events_of (Did e :: l) = e :: events_of l.
Proof. reflexivity. Qed.
Lemma ev_nil : events_of [] = [].
Proof. reflexivity. Qed.
Lemma ev_read n l : events_of (Read n :: l) = events_of l.
Proof. reflexivity. Qed.
Definition holding (s : st) : option Z := match inst s with Some x => if sock (core x) =? -1 then None else Some (sock (core x)) | None => None end.
Lemma tidy_app a : forall s b, tidy s a -> tidy (owner s a) b -> tidy s (a ++ b).
Proof. induction a as [|e a IH]; intros s b H1 H2; [exact H2|]. destruct H1 as (A & B & C). split; [exact A|]. split; [exact B|]. apply IH; assumption. Qed.
Definition D (x0 : sio) (s : st) : Prop := tidy (owned_at_birth x0) (events_of (out s)) /\ owner (owned_at_birth x0) (events_of (out s)) = holding s /\ (forall x, inst s = Some x -> -1 <= sock (core x)).
(* a state differing from s in what D does not see *)
Definition same_d (s s' : st) : Prop := holding s' = holding s /\ events_of (out s') = events_of (out s) /\ (forall x, inst s' = Some x -> -1 <= sock (core x)).
Lemma D_same x0 s s' : D x0 s -> same_d s s' -> D x0 s'.
Proof. intros (A & B & _) (E1 & E2 & E3). unfold D. rewrite E1, E2. auto. Qed.
(* events that keep the descriptor: uses of it, or of the invalid one *)
Definition keeps (own : option Z) (e : event) : Prop := match e with ESocket _ | ECloseFd _ => False | _ => forall fd, uses e = Some fd -> fd <> -1 -> own = Some fd end.
Lemma D_keeps x0 s s' e : D x0 s -> keeps (holding s) e -> holding s' = holding s -> events_of (out s') = events_of (out s) ++ [e] -> (forall x, inst s' = Some x -> -1 <= sock (core x)) -> D x0 s'.
Proof.
  intros (A & B & _) Hk E1 E2 E3. unfold D. rewrite E1, E2. split; [|split; [|exact E3]].
  - apply tidy_app; [exact A|]. rewrite B. cbn. destruct e; cbn in Hk; try contradiction; auto.
  - rewrite owner_app, B. destruct e; cbn in Hk; try contradiction; reflexivity.
Qed.
Lemma D_finish x0 s n r s' : D x0 s -> finish s n r = Ok s' -> D x0 s'.
Proof. intros H E. injection E as <-. apply (D_same _ _ _ H). split; [reflexivity|]. split; [cbn; rewrite events_app; cbn; apply app_nil_r|]. apply H. Qed.
Lemma D_goto x0 s p : D x0 s -> D x0 (goto s p).
Proof. intros H. exact H. Qed.
Lemma D_loop x0 s n s' : D x0 s -> loop_head s n = Ok s' -> D x0 s'.
Proof. unfold loop_head. destruct (inst s); [|discriminate]. intros H E. injection E as <-. exact H. Qed.
Lemma D_push x0 s e f : D x0 s -> uses e = None -> (forall r, e <> ESocket r) -> D x0 (push_frame (see s [Did e]) f).
Proof.
  intros H Hu Hs. eapply D_keeps with (e := e); [exact H| |reflexivity|cbn; rewrite events_app; reflexivity|apply H]. destruct e; cbn; try discriminate; auto. intros. congruence.
Qed.
Lemma D_inst x0 s x y : D x0 s -> inst s = Some x -> sock (core y) = sock (core x) -> D x0 (set_inst s (Some y)).
Proof. intros H E1 E2. apply (D_same _ _ _ H). split; [unfold holding; cbn; rewrite E1, E2; reflexivity|]. split; [reflexivity|]. intros z Ez. injection Ez as <-. rewrite E2. apply H. exact E1. Qed.
Lemma D_raise x0 s x f next s' : D x0 s -> (forall s2, next s = Ok s2 -> D x0 s2) -> raise s x f next = Ok s' -> D x0 s'.
Proof. unfold raise. intros H Hn E. destruct (on_error (core x)); [|apply Hn; exact E]. injection E as <-. apply D_push; [exact H|reflexivity|discriminate]. Qed.
Lemma D_resume x0 logging f s s' : D x0 s -> resume logging f s = Ok s' -> D x0 s'.
Proof.
  intros H E. destruct f as [n|n|n|n|n i|n|n]; cbn [resume] in E; try (eapply D_finish; eassumption).
  - unfold after_sent in E. destruct (inst s) eqn:Ei; [|discriminate]. destruct logging; [|eapply D_finish; eassumption].
    eapply D_finish; [|exact E]. apply (D_same _ _ _ H). split; [reflexivity|]. split; [cbn; rewrite events_app; cbn; apply app_nil_r|apply H].
  - unfold after_work_sent in E. destruct (entries s i); [|discriminate]. destruct (inst s) as [x|] eqn:Ei; [|discriminate]. destruct (existsb _ _).
    + eapply D_loop; [|exact E]. eapply (D_inst x0 (set_entry s i None)); [exact H|exact Ei|reflexivity].
    + eapply D_raise; [| |exact E].
      * eapply (D_inst x0 (set_entry s i None)); [exact H|exact Ei|reflexivity].
      * intros s2 E2. eapply D_loop; [|exact E2]. eapply (D_inst x0 (set_entry s i None)); [exact H|exact Ei|reflexivity].
  - eapply D_loop; eassumption.
  - destruct (inst s); [|discriminate]. injection E as <-. exact H.
Qed.
Lemma D_callback x0 logging cb ev f s s' : D x0 s -> (forall c, uses (ev c) = None /\ forall r, ev c <> ESocket r) -> callback logging cb ev f s = Ok s' -> D x0 s'.
Proof. intros H He E. unfold callback in E. destruct cb as [c|]; [|eapply D_resume; eassumption]. injection E as <-. apply D_push; [exact H|apply He|apply He]. Qed.
Lemma free_entries_keep l : forall s s', free_entries l s = Ok s' -> inst s' = inst s /\ out s' = out s.
Proof. induction l as [|i l IH]; intros s s' E; cbn in E; [injection E as <-; auto|]. destruct (entries s i); [|discriminate]. apply IH in E. exact E. Qed.
Lemma D_use x0 s x e : D x0 s -> inst s = Some x -> keeps (Some (sock (core x))) e -> D x0 (see s [Did e]).
Proof.
  intros H Ei He. eapply D_keeps with (e := e); [exact H| |reflexivity|cbn; rewrite events_app; reflexivity|apply H].
  assert (Hh : holding s = if sock (core x) =? -1 then None else Some (sock (core x))) by (unfold holding; rewrite Ei; reflexivity).
  destruct e; cbn in *; try contradiction; intros fd1 E1 N; specialize (He fd1 E1 N); injection He as He; rewrite Hh; destruct (Z.eqb_spec (sock (core x)) (-1)); congruence.
Qed.
Lemma holding_of s x : inst s = Some x -> holding s = if sock (core x) =? -1 then None else Some (sock (core x)).
Proof. unfold holding. intros ->. reflexivity. Qed.

Lemma D_step x0 logging s l s' : D x0 s -> re_step logging s l = Ok s' -> D x0 s'.
Proof.
  intros H E. unfold re_step in E. destruct l as [o a| |a|a]; destruct (at_ s) eqn:Ea; try discriminate.
  - cbn [inst enter] in E. destruct (inst s) as [x|] eqn:Ei; [|discriminate].
    assert (H0 : D x0 (enter s o)). { apply (D_same _ _ _ H). split; [reflexivity|]. split; [cbn; rewrite events_app; cbn; apply app_nil_r|apply H]. }
    set (s0 := enter s o) in *. assert (Ei0 : inst s0 = Some x) by exact Ei. clearbody s0. set (n := calls s) in *.
    destruct o as [oo oc ob bc oe ec|cb ctx|b cb ctx| |].
    + unfold re_open in E. destruct (state (core x)); try (eapply D_finish; eassumption). destruct (Z.eqb_spec (sock (core x)) (-1)) as [Hs|Hs]; cbn [negb] in E.
      2: { eapply D_callback; [| |exact E]; [|intros c; split; [reflexivity|discriminate]]. eapply D_inst; [exact H0|exact Ei0|reflexivity]. }
      set (fd := Z.max (-1) (nth 0 (a_sys a) 0)) in *.
      destruct H0 as (A & B & C). rewrite (holding_of _ _ Ei0), Hs in B. cbn in B.
      assert (F : forall s1 r l, -1 <= fd -> events_of (out s1) = events_of (out s0) ++ (ESocket fd :: l) -> (fd = -1 -> l = []) -> Forall (keeps (Some fd)) l ->
        finish (see (set_inst s1 (Some {| core := set_sock (core x) (-1); items := items x |})) (if fd =? -1 then [] else [Did (ECloseFd fd)])) n (Some r) = Ok s' -> D x0 s').
      { intros s1 r l Hm E1 Hl Hk E2. eapply D_finish; [|exact E2]. unfold D. cbn. rewrite events_app, E1. unfold holding. cbn.
        assert (K : forall l f, Forall (keeps (Some f)) l -> tidy (Some f) l /\ owner (Some f) l = Some f).
        { clear. induction l as [|e l IH]; intros f Hl; [split; reflexivity|]. inversion Hl as [|? ? He Hl']; subst. destruct (IH f Hl') as [T O].
          assert (Hn : next_owner (Some f) e = Some f) by (destruct e; cbn in He; try contradiction; reflexivity). split.
          - cbn. rewrite Hn. destruct e; cbn in He; try contradiction; auto.
          - cbn. rewrite Hn. exact O. }
        destruct (Z.eqb_spec fd (-1)) as [Hf|Hf].
        - rewrite (Hl Hf), Hf. cbn. rewrite app_nil_r. split; [|split].
          + apply tidy_app; [exact A|]. rewrite B. cbn. repeat split; discriminate.
          + rewrite owner_app, B. reflexivity.
          + intros z Ez. injection Ez as <-. cbn. lia.
        - destruct (K l fd Hk) as [T O]. assert (Hlt : (fd <? 0) = false) by lia. cbn. rewrite <- app_assoc. split; [|split].
          + apply tidy_app; [exact A|]. rewrite B. cbn. split; [discriminate|]. split; [reflexivity|]. rewrite Hlt. apply tidy_app; [exact T|]. rewrite O. cbn. repeat split; try discriminate. intros f Ef _. exact Ef.
          + rewrite owner_app, B. cbn [app]. change (owner None (ESocket fd :: l ++ events_of [Did (ECloseFd fd)])) with (owner (if fd <? 0 then None else Some fd) (l ++ [ECloseFd fd])). rewrite Hlt, owner_app, O. reflexivity.
          + intros z Ez. injection Ez as <-. cbn. lia. }
      destruct (Z.ltb_spec fd 0) as [Hf|Hf].
      { assert (Hfd : fd = -1) by lia. apply (F (see s0 [Did (ESocket fd)]) 261 []); auto; [lia|cbn; rewrite events_app; reflexivity|]. rewrite Hfd. rewrite Hfd in E. exact E. }
      assert (Hm : -1 <= fd) by lia.
      destruct (nth 1 (a_sys a) 0 =? 0); cbn [negb] in E; [|eapply F; [exact Hm| | | |exact E]; [cbn; rewrite !events_app, <- !app_assoc; reflexivity|lia|repeat constructor; cbn; try (intros ? Q; discriminate); intros ? Q _; exact Q] ].
      destruct (nth 2 (a_sys a) 0 =? 0); cbn [negb] in E; [|eapply F; [exact Hm| | | |exact E]; [cbn; rewrite !events_app, <- !app_assoc; reflexivity|lia|repeat constructor; cbn; try (intros ? Q; discriminate); intros ? Q _; exact Q] ].
      destruct (nth 3 (a_sys a) 0 =? -1); cbn [negb] in E; [eapply F; [exact Hm| | | |exact E]; [cbn; rewrite !events_app, <- !app_assoc; reflexivity|lia|repeat constructor; cbn; try (intros ? Q; discriminate); intros ? Q _; exact Q] |].
      destruct (nth 4 (a_sys a) 0 =? -1); cbn [negb] in E; [eapply F; [exact Hm| | | |exact E]; [cbn; rewrite !events_app, <- !app_assoc; reflexivity|lia|repeat constructor; cbn; try (intros ? Q; discriminate); intros ? Q _; exact Q] |].
      eapply D_callback; [| |exact E]; [|intros c; split; [reflexivity|discriminate]]. unfold D, holding. cbn. rewrite !events_app, <- !app_assoc. rewrite !ev_did, !ev_nil. cbn [app].
      assert (Hlt : (fd <? 0) = false) by lia. assert (Hne : (fd =? -1) = false) by lia. rewrite Hne. split; [|split].
      * apply tidy_app; [exact A|]. rewrite B. cbn. rewrite Hlt. repeat split; try discriminate; intros f Ef _; exact Ef.
      * rewrite owner_app, B. cbn. rewrite Hlt. reflexivity.
      * intros z Ez. injection Ez as <-. cbn. lia.
    + unfold re_close in E. assert (G : callback logging cb (fun c => ECloseComplete c ctx) (InClose n) (set_inst (see s0 [Did (EShutdown (sock (core x))); Did (ECloseFd (sock (core x)))]) (Some {| core := set_state (set_sock (core x) (-1)) CLOSED; items := items x |})) = Ok s' -> D x0 s').
      { intros E1. eapply D_callback; [| |exact E1]; [|intros c; split; [reflexivity|discriminate]]. destruct H0 as (A & B & C). rewrite (holding_of _ _ Ei0) in B. unfold D, holding. cbn. rewrite events_app, !ev_did, ev_nil. cbn. split; [|split].
        - apply tidy_app; [exact A|]. rewrite B. cbn. repeat split; intros f Ef Hn; injection Ef as <-; destruct (Z.eqb_spec (sock (core x)) (-1)); congruence.
        - rewrite owner_app, B. reflexivity.
        - intros z Ez. injection Ez as <-. cbn. lia. }
      destruct (state (core x)); try (apply G; exact E); eapply D_finish; eassumption.
    + unfold re_send in E. destruct (length b =? 0)%nat; [eapply D_finish; eassumption|]. destruct (state (core x)); try (eapply D_finish; eassumption).
      assert (G : forall s1 b2 r, D x0 s1 -> inst s1 = Some x -> finish (see (add_entry s1 x b2 cb ctx) [Read n]) n r = Ok s' -> D x0 s').
      { intros s1 b2 r Hd E1 E2. eapply D_finish; [|exact E2]. apply (D_same _ _ _ Hd). split; [unfold holding; cbn; rewrite E1; reflexivity|]. split; [cbn; rewrite events_app; cbn; apply app_nil_r|]. intros z Ez. injection Ez as <-. cbn. apply Hd. exact E1. }
      destruct (items x); [|destruct (a_memory a); [eapply G; [exact H0|exact Ei0|exact E]|eapply D_finish; eassumption] ].
      set (e := ESend _ _ _) in E. assert (H1 : D x0 (see s0 [Read n; Did e])).
      { eapply D_same; [apply (D_use x0 s0 x e H0 Ei0)|]; [cbn; intros f Q _; exact Q|]. split; [reflexivity|]. split; [cbn; rewrite !events_app; reflexivity|]. apply H0. }
      destruct (negb _).
      * destruct (_ =? -1); [eapply D_raise; [exact H1| |exact E]; intros s2 E2; eapply D_finish; [exact H1|exact E2]|]. destruct (a_memory a); [eapply G; [exact H1|exact Ei0|exact E]|eapply D_finish; [exact H1|exact E]].
      * eapply D_callback; [exact H1| |exact E]. intros c; split; [reflexivity|discriminate].
    + unfold re_dowork in E. destruct (state (core x)); try (eapply D_finish; eassumption). eapply D_loop; eassumption.
    + unfold re_destroy in E. set (s1 := see _ _) in E. destruct (free_entries (items x) s1) as [s2| |] eqn:E2; try discriminate. cbn [bind_res] in E. apply free_entries_keep in E2. destruct E2 as [E2 E3].
      eapply D_finish; [|exact E]. destruct H0 as (A & B & C). rewrite (holding_of _ _ Ei0) in B. unfold D, holding. cbn. rewrite E3. unfold s1. cbn. rewrite events_app. destruct (Z.eqb_spec (sock (core x)) (-1)) as [Hs|Hs]; cbn; rewrite ?app_nil_r.
      * split; [exact A|]. split; [exact B|discriminate].
      * split; [|split; [|discriminate]].
        -- apply tidy_app; [exact A|]. rewrite B. cbn. repeat split. intros f Q _. exact Q.
        -- rewrite owner_app, B. reflexivity.
  - destruct (stack s) as [|f rest]; [discriminate|]. eapply (D_resume x0 logging f (pop_frame s)); [exact H|exact E].
  - unfold re_sending in E. destruct (inst s) as [x|] eqn:Ei; [|discriminate]. destruct (items x) as [|i rest]; [discriminate|]. destruct (entries s i) as [p|]; [|discriminate].
    set (e := ESend _ _ _) in E. assert (H1 : D x0 (see s [Did e])) by (apply (D_use x0 s x e H Ei); cbn; intros f Q _; exact Q).
    destruct (negb _).
    + destruct (_ =? -1).
      * assert (H2 : D x0 (set_inst (set_entry (see s [Did e]) i None) (Some {| core := set_state (core x) ERROR; items := rest |}))) by (eapply (D_inst x0 (set_entry (see s [Did e]) i None)); [exact H1|exact Ei|reflexivity]).
        eapply D_raise; [exact H2| |exact E]. intros s2 E2. eapply D_loop; [exact H2|exact E2].
      * eapply D_loop; [|exact E]. exact H1.
    + eapply D_callback; [exact H1| |exact E]. intros c; split; [reflexivity|discriminate].
  - unfold re_receiving in E. destruct (inst s) as [x|] eqn:Ei; [|discriminate]. set (r := if sock (core x) =? -1 then None else a) in *.
    set (e := ERecv _ _) in E. assert (H1 : D x0 (see s [Did e])) by (apply (D_use x0 s x e H Ei); cbn; intros f Q _; exact Q).
    destruct r; [|eapply D_finish; eassumption]. eapply D_callback; [exact H1| |exact E]. intros c; split; [reflexivity|discriminate].
Qed.
Lemma run_inv (P : st -> Prop) logging : (forall s l s', P s -> re_step logging s l = Ok s' -> P s') -> forall l s s', P s -> re_run logging s l = Ok s' -> P s'.
Proof.
  intros Hs. induction l as [|a l IH]; intros s s' H E; [injection E as <-; exact H|]. cbn in E. destruct (re_step logging s a) as [s1| |] eqn:E1; try discriminate. eapply IH; [|exact E]. eapply Hs; eassumption.
Qed.

(* C96: whatever is called from whatever callback, each kernel call is on the descriptor the io
   owns at that time (or on the invalid one), it never owns two, and owns none once destroyed. *)
Theorem reentrant_descriptors : forall logging x s, re_any logging x s -> tidy (owned_at_birth x) (events_of (out s)) /\ (inst s = None -> owner (owned_at_birth x) (events_of (out s)) = None).
Proof.
  intros logging x s ([Hc Hs] & l & E). assert (H : D x s).
  { eapply (run_inv (D x)); [intros; eapply D_step; eassumption| |exact E]. split; [exact I|]. split; [reflexivity|]. intros y Ey. injection Ey as <-. exact Hs. }
  destruct H as (A & B & _). split; [exact A|]. intros Hi. rewrite B. unfold holding. rewrite Hi. reflexivity.
Qed.

(* ---------------- C97 ---------------- *)
(* With a logger, the buffer is read again after the completion callback. *)
Theorem buffer_read_late_refuted : forall s n rest y, at_ s = User -> stack s = InSent n :: rest -> inst s = Some y ->
  exists s', re_step true s LReturn = Ok s' /\ out s' = out s ++ [Read n; Returned n (Some 0)].
Proof.
  intros s n rest y Ha Hs Hi. unfold re_step. rewrite Ha, Hs. cbn. unfold after_sent. cbn. rewrite Hi. eexists. split; [reflexivity|]. cbn. rewrite <- app_assoc. reflexivity.
Qed.

Definition no_read (l : list seen) : bool := forallb (fun e => match e with Read _ => false | _ => true end) l.
Lemma early_more a b : buffer_read_early a -> no_read b = true -> buffer_read_early (a ++ b).
Proof.
  revert a. induction b as [|e b IH] using rev_ind; intros a H Hb; [rewrite app_nil_r; exact H|]. unfold no_read in Hb. rewrite forallb_app in Hb. apply andb_true_iff in Hb. destruct Hb as [Hb He]. cbn in He.
  rewrite app_assoc. specialize (IH a H Hb). intros l1 n l2 E. destruct (rev l2) as [|z r] eqn:Er; apply (f_equal (@rev _)) in Er; rewrite rev_involutive in Er; cbn in Er; subst l2.
  - apply app_inj_tail in E. destruct E as [_ ->]. discriminate.
  - change (Read n :: rev r ++ [z]) with ((Read n :: rev r) ++ [z]) in E. rewrite app_assoc in E. apply app_inj_tail in E. destruct E as [E _]. eapply IH. exact E.
Qed.
Definition grew (s0 s : st) : Prop := exists l, out s = out s0 ++ l /\ no_read l = true.
Lemma grew_refl s : grew s s.
Proof. exists []. rewrite app_nil_r. auto. Qed.
Lemma grew_see s0 s l : grew s0 s -> no_read l = true -> grew s0 (see s l).
Proof. intros (l1 & E & N) H. exists (l1 ++ l). cbn. rewrite E, app_assoc. split; [reflexivity|]. unfold no_read in *. rewrite forallb_app, N, H. reflexivity. Qed.
Lemma grew_out s0 s s' : grew s0 s -> out s' = out s -> grew s0 s'.
Proof. intros (l & E & N) Eo. exists l. rewrite Eo. auto. Qed.
Lemma grew_inst s0 s y : grew s0 s -> grew s0 (set_inst s y).
Proof. intros G. exact G. Qed.
Ltac grow H0 := repeat first [exact H0|apply grew_inst|apply grew_see; [|first [reflexivity|destruct (_ =? -1); reflexivity] ] ].
Lemma grew_finish s0 s n r s' : grew s0 s -> finish s n r = Ok s' -> grew s0 s'.
Proof. intros G E. injection E as <-. apply (grew_out s0 (see s [Returned n r])); [apply grew_see; auto|reflexivity]. Qed.
Lemma grew_loop s0 s n s' : grew s0 s -> loop_head s n = Ok s' -> grew s0 s'.
Proof. unfold loop_head. destruct (inst s); [|discriminate]. intros G E. injection E as <-. exact G. Qed.
Lemma grew_raise s0 s x f next s' : grew s0 s -> (forall s2, next s = Ok s2 -> grew s0 s2) -> raise s x f next = Ok s' -> grew s0 s'.
Proof. unfold raise. intros G Hn E. destruct (on_error (core x)); [|apply Hn; exact E]. injection E as <-. apply (grew_out s0 (see s [Did (EIoError n (on_error_ctx (core x)))])); [apply grew_see; auto|reflexivity]. Qed.
Lemma grew_resume s0 f s s' : grew s0 s -> resume false f s = Ok s' -> grew s0 s'.
Proof.
  intros G E. destruct f as [n|n|n|n|n i|n|n]; cbn [resume] in E; try (eapply grew_finish; eassumption).
  - unfold after_sent in E. destruct (inst s); [|discriminate]. eapply grew_finish; eassumption.
  - unfold after_work_sent in E. destruct (entries s i); [|discriminate]. destruct (inst s) as [x|]; [|discriminate]. destruct (existsb _ _).
    + eapply grew_loop; [|exact E]. eapply grew_out; [exact G|reflexivity].
    + eapply grew_raise; [| |exact E]; [|intros s2 E2; eapply grew_loop; [|exact E2]]; (eapply grew_out; [exact G|reflexivity]).
  - eapply grew_loop; eassumption.
  - destruct (inst s); [|discriminate]. injection E as <-. exact G.
Qed.
Lemma grew_callback s0 cb ev f s s' : grew s0 s -> callback false cb ev f s = Ok s' -> grew s0 s'.
Proof. intros G E. unfold callback in E. destruct cb as [c|]; [|eapply grew_resume; eassumption]. injection E as <-. apply (grew_out s0 (see s [Did (ev c)])); [apply grew_see; auto|reflexivity]. Qed.

Lemma snoc_read l o n : buffer_read_early l -> (exists l0 l', l = l0 ++ Called n o :: l' /\ existsb is_callback l' = false) -> buffer_read_early (l ++ [Read n]).
Proof.
  intros H (l0 & l' & E0 & Hc) l1 k l2 E. destruct (rev l2) as [|z r] eqn:Er; apply (f_equal (@rev _)) in Er; rewrite rev_involutive in Er; cbn in Er; subst l2.
  - apply app_inj_tail in E. destruct E as [<- Ek]. injection Ek as ->. exists l0, o, l'. auto.
  - change (Read k :: rev r ++ [z]) with ((Read k :: rev r) ++ [z]) in E. rewrite app_assoc in E. apply app_inj_tail in E. destruct E as [E _]. eapply H. exact E.
Qed.
Lemma early_step s l s' : buffer_read_early (out s) -> re_step false s l = Ok s' -> buffer_read_early (out s').
Proof.
  intros H E. assert (G : grew s s' -> buffer_read_early (out s')) by (intros (l2 & -> & N); apply early_more; assumption).
  unfold re_step in E. destruct l as [o a| |a|a]; destruct (at_ s) eqn:Ea; try discriminate.
  - cbn [inst enter] in E. destruct (inst s) as [x|] eqn:Ei; [|discriminate].
    assert (H0 : grew s (enter s o)) by (apply (grew_out s (see s [Called (calls s) o])); [apply grew_see; [apply grew_refl|reflexivity]|reflexivity]).
    destruct o as [oo oc ob bc oe ec|cb ctx|b cb ctx| |].
    + apply G. unfold re_open in E. destruct (state (core x)); try (eapply grew_finish; eassumption). destruct (sock (core x) =? -1); cbn [negb] in E.
      2: { eapply grew_callback; [|exact E]. eapply grew_out; [exact H0|reflexivity]. }
      destruct (_ <? 0); [eapply grew_finish; [|exact E]; grow H0|].
      Ltac gf H0 E := eapply grew_finish; [|exact E]; grow H0.
      destruct (nth 1 _ _ =? 0); cbn [negb] in E; [|gf H0 E]. destruct (nth 2 _ _ =? 0); cbn [negb] in E; [|gf H0 E]. destruct (nth 3 _ _ =? -1); [gf H0 E|]. destruct (nth 4 _ _ =? -1); [gf H0 E|].
      eapply grew_callback; [|exact E]. grow H0.
    + apply G. unfold re_close in E. assert (Q : callback false cb (fun c => ECloseComplete c ctx) (InClose (calls s)) (set_inst (see (enter s (RClose cb ctx)) [Did (EShutdown (sock (core x))); Did (ECloseFd (sock (core x)))]) (Some {| core := set_state (set_sock (core x) (-1)) CLOSED; items := items x |})) = Ok s' -> grew s s').
      { intros E1. eapply grew_callback; [|exact E1]. eapply grew_out; [|reflexivity]. apply grew_see; [exact H0|reflexivity]. }
      destruct (state (core x)); try (apply Q; exact E); eapply grew_finish; eassumption.
    + unfold re_send in E. destruct (length b =? 0)%nat; [apply G; eapply grew_finish; eassumption|]. destruct (state (core x)); try (apply G; eapply grew_finish; eassumption).
      set (n := calls s) in *. set (o := RSend b cb ctx) in *.
      assert (G2 : forall s2 l, grew s2 s' -> out s2 = out s ++ Called n o :: l -> buffer_read_early (out s ++ Called n o :: l) -> buffer_read_early (out s')).
      { intros s2 l (l2 & -> & N) -> Hb. apply early_more; assumption. }
      assert (H1 : buffer_read_early (out s ++ [Called n o])) by (apply early_more; [exact H|reflexivity]).
      assert (H2 : buffer_read_early (out s ++ [Called n o; Read n])).
      { change [Called n o; Read n] with ([Called n o] ++ [Read n]). rewrite app_assoc. apply (snoc_read _ o); [exact H1|]. exists (out s), []. auto. }
      assert (H3 : forall e, buffer_read_early (out s ++ [Called n o; Read n; Did e])).
      { intros e. change [Called n o; Read n; Did e] with ([Called n o; Read n] ++ [Did e]). rewrite app_assoc. apply early_more; [exact H2|reflexivity]. }
      destruct (items x).
      * destruct (negb _).
        -- destruct (_ =? -1).
           ++ eapply (G2 (see (enter s o) _)); [eapply grew_raise; [| |exact E]; [apply grew_refl|intros s2 E2; eapply grew_finish; [apply grew_refl|exact E2]]|cbn; rewrite <- app_assoc; reflexivity|apply H3].
           ++ destruct (a_memory a).
              ** eapply (G2 (see (add_entry (see (enter s o) _) x _ cb ctx) [Read n])); [eapply grew_finish; [apply grew_refl|exact E]|cbn; rewrite <- !app_assoc; reflexivity|].
                 cbn [app]. match goal with |- buffer_read_early (_ ++ [?a; ?b; ?c; ?d]) => change [a; b; c; d] with ([a; b; c] ++ [d]) end. rewrite app_assoc. apply (snoc_read _ o); [apply H3|]. eexists. eexists [_; _]. split; [reflexivity|reflexivity].
              ** eapply (G2 (see (enter s o) _)); [eapply grew_finish; [apply grew_refl|exact E]|cbn; rewrite <- app_assoc; reflexivity|apply H3].
        -- eapply (G2 (see (enter s o) _)); [eapply grew_callback; [apply grew_refl|exact E]|cbn; rewrite <- app_assoc; reflexivity|apply H3].
      * destruct (a_memory a); [|apply G; eapply grew_finish; eassumption].
        eapply (G2 (see (add_entry (enter s o) x _ cb ctx) [Read n])); [eapply grew_finish; [apply grew_refl|exact E]|cbn; rewrite <- app_assoc; reflexivity|exact H2].
    + apply G. unfold re_dowork in E. destruct (state (core x)); try (eapply grew_finish; eassumption). eapply grew_loop; eassumption.
    + apply G. unfold re_destroy in E. set (s1 := see _ _) in E. destruct (free_entries (items x) s1) as [s2| |] eqn:E2; try discriminate. cbn [bind_res] in E. apply free_entries_keep in E2. destruct E2 as [_ E3].
      eapply grew_finish; [|exact E]. apply (grew_out s s1); [|exact E3]. apply grew_see; [exact H0|]. destruct (_ =? -1); reflexivity.
  - apply G. destruct (stack s) as [|f rest]; [discriminate|]. apply (grew_resume s f (pop_frame s)); [exact (grew_refl s)|exact E].
  - apply G. unfold re_sending in E. destruct (inst s) as [x|] eqn:Ei; [|discriminate]. destruct (items x) as [|i rest]; [discriminate|]. destruct (entries s i) as [p|]; [|discriminate].
    set (s1 := see s _) in E. assert (G1 : grew s s1) by (apply grew_see; [apply grew_refl|reflexivity]). destruct (negb _).
    + destruct (_ =? -1).
      * eapply grew_raise; [| |exact E]; [|intros s2 E2; eapply grew_loop; [|exact E2]]; (eapply grew_out; [exact G1|reflexivity]).
      * eapply grew_loop; [|exact E]. exact G1.
    + eapply grew_callback; [exact G1|exact E].
  - apply G. unfold re_receiving in E. destruct (inst s) as [x|] eqn:Ei; [|discriminate]. set (r := if sock (core x) =? -1 then None else a) in *.
    set (s1 := see s _) in E. assert (G1 : grew s s1) by (apply grew_see; [apply grew_refl|reflexivity]).
    destruct r; [eapply grew_callback|eapply grew_finish]; eassumption.
Qed.
(* Without a logger each read of the buffer comes before any callback. *)
Theorem buffer_read_early_partial : forall x s, re_any false x s -> buffer_read_early (out s).
Proof.
  intros x s (_ & l & E). eapply (run_inv (fun s => buffer_read_early (out s))); [intros; eapply early_step; eassumption| |exact E]. intros [|? ?] n l2 C; discriminate.
Qed.
