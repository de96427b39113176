(* C57, C59, C60 and the callbacks and descriptors of the socket io. *)
From Verif Require Import Base SocketIo_Model SocketIo_Spec SocketIo_Paths SocketIo_Fates.
Open Scope Z_scope.

(* ---------------- the modes ---------------- *)
Definition moded (past : list scall) (w : world) : Prop :=
  match io w with
  | None => mode_of past = MDestroyed
  | Some x => match state x with CLOSED => mode_of past = MClosed | OPEN => mode_of past = MOpen | ERROR => mode_of past = MFailed | _ => False end
  end.
Lemma mode_snoc h c : mode_of (h ++ [c]) = next_mode (mode_of h) c.
Proof. unfold mode_of. rewrite fold_left_app. reflexivity. Qed.
Lemma call_no_failure cb f : (forall c, is_failure (f c) = false) -> existsb is_failure (call cb f) = false.
Proof. intros H. destruct cb; [cbn; rewrite H|]; reflexivity. Qed.
Lemma loops_state d x x' l : loops d x x' l -> state x' = if existsb is_failure l then ERROR else state x.
Proof.
  induction 1 as [x E|x|d x x' l p rest E Hm HL IH|d x x' l p rest E HL IH|d x x' l p rest r E Hr HL IH]; try reflexivity.
  - cbn [existsb is_failure]. replace (Z.of_nat (p_size p) =? -1) with false by lia. cbn [orb]. rewrite existsb_app, call_no_failure by reflexivity. exact IH.
  - cbn. cbn in IH. destruct (existsb is_failure l); exact IH.
  - cbn [existsb is_failure]. replace (Z.of_nat r =? -1) with false by lia. exact IH.
Qed.
Lemma received_no_failure x bs : existsb is_failure (concat (map (received x) bs) ++ [ERecv (sock x) None]) = false.
Proof. rewrite existsb_app. cbn. rewrite orb_false_r. induction bs as [|b bs IH]; [reflexivity|]. cbn [map concat]. rewrite existsb_app, IH, orb_false_r. unfold received. destruct (on_bytes x); reflexivity. Qed.

Lemma did_mode x o r iw l past w : did x o r iw l -> io w = iw -> (match state x with CLOSED => mode_of past = MClosed | OPEN => mode_of past = MOpen | ERROR => mode_of past = MFailed | _ => False end) ->
  moded (past ++ [{| s_op := o; s_ret := r; s_events := l |}]) w /\ machine (mode_of past) {| s_op := o; s_ret := r; s_events := l |}.
Proof.
  intros D Hw Hm. unfold moded. rewrite Hw. rewrite mode_snoc. unfold machine. cbn [s_op s_ret s_events].
  assert (Hr0 : forall z (A B : mode), z <> 0 -> match Some z with Some 0 => A | _ => B end = B) by (intros [| |] A B Hz; congruence).
  inversion D; subst; cbn [next_mode s_op s_ret s_events].
  - rewrite (Hr0 _ _ _ H0). split; [exact Hm|]. split; [congruence|]. split; [reflexivity|]. destruct r0; [congruence|reflexivity|reflexivity].
  - rewrite H in Hm. cbn. split; [reflexivity|]. split; [auto|]. split; [congruence|]. destruct a; reflexivity.
  - rewrite (Hr0 _ _ _ H1). cbn [state set_sock]. split; [exact Hm|]. rewrite H in Hm. split; [auto|]. split; [congruence|]. destruct r0; [congruence|reflexivity|reflexivity].
  - rewrite (Hr0 _ _ _ H1). cbn [state set_sock]. split; [exact Hm|]. rewrite H in Hm. split; [auto|]. split; [congruence|].
    destruct H3 as [(v & -> & _)|[(v & -> & _)|[->|(v & ->)] ] ]; destruct r0; congruence || reflexivity.
  - rewrite H in Hm. cbn. split; [reflexivity|]. split; [auto|]. split; [congruence|]. destruct a; reflexivity.
  - destruct H as [H|H]; rewrite H in Hm |- *; [|destruct Hm]. split; [reflexivity|]. rewrite Hm. reflexivity.
  - cbn. split; [reflexivity|]. destruct (state x); try congruence; try contradiction; rewrite Hm; (split; [reflexivity|]); eexists; destruct a; reflexivity.
  - split; [exact Hm|]. split; [congruence|auto].
  - cbn [state push set_queue]. split; [exact Hm|]. rewrite H in Hm. split; [auto|congruence].
  - split; [exact Hm|]. rewrite H in Hm. split; [auto|congruence].
  - split; [exact Hm|]. rewrite H in Hm. split; [auto|congruence].
  - split; [exact Hm|]. rewrite H in Hm. split; [auto|congruence].
  - cbn [state push set_queue]. split; [exact Hm|]. rewrite H in Hm. split; [auto|congruence].
  - split; [exact Hm|]. rewrite H in Hm. split; [auto|congruence].
  - cbn. split; [exact Hm|auto].
  - rewrite (loops_state _ _ _ _ H0). rewrite H in Hm |- *. split; [destruct (existsb is_failure l); [reflexivity|exact Hm]|]. congruence.
  - rewrite (loops_state _ _ _ _ H0). rewrite H in Hm |- *. rewrite existsb_app, received_no_failure, orb_false_r. split; [destruct (existsb is_failure l0); [reflexivity|exact Hm]|]. congruence.
  - split; [reflexivity|]. destruct (state x); congruence || destruct Hm.
Qed.

Lemma idle_mode m o r : idle o = true -> next_mode m {| s_op := o; s_ret := r; s_events := [] |} = m.
Proof. destruct o as [[] | [] | [] | [] | [] | []]; cbn; congruence || reflexivity. Qed.
Lemma idle_machine m o r : idle o = true -> r <> Some 0 -> machine m {| s_op := o; s_ret := r; s_events := [] |}.
Proof. destruct o as [[] | [] | [] buf size | [] | [] | []]; cbn; intros Hi Hr; try discriminate; repeat split; congruence. Qed.

Lemma moded_step past w o z r w' z' : moded past w -> step w o z = Some ((r, w'), z') -> moded (past ++ [record w o r w']) w' /\ machine (mode_of past) (record w o r w').
Proof.
  intros Hm E. apply step_path in E. destruct E as [Hc [(Hi & -> & Hr)|[_ (x & l & Hx & Hl & D & _)]]]; unfold record.
  - rewrite skipn_all. split; [|apply idle_machine; assumption]. unfold moded in *. rewrite mode_snoc, (idle_mode _ _ _ Hi). exact Hm.
  - rewrite Hl, skipn_after. unfold moded in Hm. rewrite Hx in Hm. eapply did_mode; eauto.
Qed.
Lemma create_facts c o x o' : socketio_create (Some c) o = Some (Some x, o') ->
  state x = CLOSED /\ queue x = [] /\ on_bytes x = None /\ on_bytes_ctx x = None /\ on_error x = None /\ on_error_ctx x = None /\
  (given c = if sock x =? -1 then None else Some (sock x)) /\ hostname x = c_hostname c /\ port x = c_port c.
Proof.
  unfold socketio_create. unfold bind. destruct (alloc_spec o) as (k1 & o1 & u1 & E1 & _). rewrite E1. destruct k1; cbn [negb]; [|discriminate].
  destruct (alloc_spec o1) as (k2 & o2 & u2 & E2 & _). rewrite E2. destruct k2; cbn [negb]; [|discriminate]. unfold given. destruct (c_hostname c) as [h|].
  - destruct (alloc_spec o2) as (k3 & o3 & u3 & E3 & _). rewrite E3. destruct k3; cbn; [|discriminate]. intros E; injection E as <- <-. repeat split.
  - unfold lift. destruct (c_accepted c) as [fd|]; [|discriminate]. cbn. destruct (fd =? -1) eqn:Ef; [discriminate|]. intros E; injection E as <- <-. cbn. rewrite Ef. repeat split.
Qed.
Lemma moded_start x a b c : state x = CLOSED -> moded [] (newborn x a b c).
Proof. intros H. unfold moded. cbn. rewrite H. reflexivity. Qed.

(* C60: in every history, each call does what its mode allows. *)
Theorem socket_state_machine_partial : forall c h w a k b, runs c h w -> h = a ++ k :: b -> machine (mode_of a) k.
Proof.
  intros c h w a k b (o & x & o1 & sys & sends & recvs & ops & o2 & Ec & Eh) E. apply create_facts in Ec. destruct Ec as (Es & _).
  destruct (history_split _ _ _ _ _ _ _ _ Eh E) as (p1 & p2 & w1 & z1 & H1 & H2).
  pose proof (history_inv moded (fun past w o z r w' z' H E => proj1 (moded_step past w o z r w' z' H E)) _ [] _ _ _ _ _ (moded_start x sys sends recvs Es) H1) as M. cbn in M.
  destruct (history_one _ _ _ _ _ _ _ H2) as (p3 & w2 & z2 & H3 & H4 & _). pose proof (moded_step _ _ _ _ _ _ _ M H3) as [_ Hk]. unfold record in Hk. rewrite <- H4 in Hk. destruct k; exact Hk.
Qed.

(* The io can be used until it is destroyed: no call on it is undefined. *)
Theorem socket_calls_defined : forall c h w o z, runs c h w -> cut w = false -> mode_of h <> MDestroyed ->
  (forall hd buf n cb ctx, o = OSend hd (Some buf) n cb ctx -> (n <= length buf)%nat) -> exists x, step w o z = Some x.
Proof.
  intros c h w o z (o0 & x & o1 & sys & sends & recvs & ops & o2 & Ec & Eh) Hc Hm Hb. apply create_facts in Ec. destruct Ec as (Es & _).
  pose proof (history_inv moded (fun past w o z r w' z' H E => proj1 (moded_step past w o z r w' z' H E)) _ [] _ _ _ _ _ (moded_start x sys sends recvs Es) Eh) as M. cbn in M.
  unfold moded in M. destruct (io w) as [y|] eqn:Ey; [|congruence]. clear M. unfold step. rewrite Hc. destruct o as [[] a b d e f g|[] a b|[] [buf|] n cb ctx|[]|hh|[]]; unfold bind, lift; rewrite ?Ey; try (eexists; reflexivity).
  - destruct (socketio_open w y a b d e f g); eexists; reflexivity.
  - destruct (socketio_close w y a b); eexists; reflexivity.
  - destruct (n =? 0)%nat; [eexists; reflexivity|]. specialize (Hb _ _ _ _ _ eq_refl). apply Nat.leb_le in Hb. rewrite Hb.
    assert (Hs : exists v, socketio_send w y (firstn n buf) cb ctx z = Some v).
    { unfold socketio_send. destruct (state y); try (eexists; reflexivity).
      assert (Ha : forall b zz, exists v, add_pending_io y b cb ctx zz = Some v).
      { intros b zz. unfold add_pending_io, bind. destruct (alloc_spec zz) as (k1 & zz1 & u1 & E1 & _). rewrite E1. destruct k1; cbn [negb]; [|eexists; reflexivity].
        destruct (alloc_spec zz1) as (k2 & zz2 & u2 & E2 & _). rewrite E2. destruct k2; cbn [negb]; [|eexists; reflexivity]. destruct (alloc_spec zz2) as (k3 & zz3 & u3 & E3 & _). rewrite E3. destruct k3; eexists; reflexivity. }
      destruct (queue y); unfold bind.
      - cbv zeta. destruct (negb _); [|eexists; reflexivity]. destruct (_ =? -1); [eexists; reflexivity|]. match goal with |- context [add_pending_io y ?b cb ctx z] => destruct (Ha b z) as [[v zv] ->] end. destruct (fst v); eexists; reflexivity.
      - destruct (Ha (firstn n buf) z) as [[v zv] ->]. destruct (fst v); eexists; reflexivity. }
    destruct Hs as [[v zv] ->]. eexists. reflexivity.
Qed.

Lemma history_nil ops w z w' z' : history w ops z = Some (([], w'), z') -> w = w'.
Proof.
  destruct ops as [|o ops]; cbn [history]; [intros E; injection E; auto|]. unfold bind. destruct (step w o z) as [[[r w1] z1]|]; [|discriminate]. cbn [fst snd]. destruct (history w1 ops z1) as [[[h1 w2] z2]|]; discriminate.
Qed.
(* ---------------- C58, C59: after a dowork nothing waits ---------------- *)
Theorem dowork_settles : forall c h k w, runs c (h ++ [k]) w -> s_op k = ODowork true -> mode_of h = MOpen -> cut w = false ->
  exists js, explains (attempts (h ++ [k])) (observed (h ++ [k])) js /\ none_waiting js.
Proof.
  intros c h k w (o & x & o1 & sys & sends & recvs & ops & o2 & Ec & Eh) Hk Hm Hc. apply create_facts in Ec. destruct Ec as (Es & Eq & _).
  destruct (history_split _ _ _ _ _ _ _ _ Eh eq_refl) as (p1 & p2 & w1 & z1 & H1 & H2).
  pose proof (history_inv moded (fun past w o z r w' z' H E => proj1 (moded_step past w o z r w' z' H E)) _ [] _ _ _ _ _ (moded_start x sys sends recvs Es) H1) as M. cbn in M.
  destruct (history_inv accounted accounted_step ops [] _ _ _ _ _ (accounted_fresh (newborn x sys sends recvs) (fun y H => ltac:(injection H as <-; exact Eq))) Eh) as (q & fin & wait & Hq & I).
  destruct (history_one _ _ _ _ _ _ _ H2) as (p3 & w2 & z2 & H3 & H4 & H5). assert (w2 = w) by (eapply history_nil; exact H5). subst w2.
  apply step_path in H3. rewrite Hk in H3. destruct H3 as [_ [(Hi & _)|[_ (y & l & Hy & Hl & D & Hend)]]]; [discriminate|].
  assert (Hst : state y = OPEN) by (unfold moded in M; rewrite Hy, Hm in M; destruct (state y); congruence || destruct M).
  assert (q = []). { destruct (io w) as [v|]; [|inversion D]. rewrite <- (Hq _ eq_refl). apply Hend; auto. }
  subst q. exists (fin ++ wait). split; [exact (explains_of _ _ _ _ _ I)|]. destruct I as [_ I2 _ [F _ _ _ _ _]]. inversion I2. rewrite app_nil_r. intros j Hj. apply F, Hj.
Qed.

(* C59 (partial): what is queued when the io is closed is sent on a later connection (see
   close_discards_refuted); but if the last dowork before came to its end, what happens from then
   on, on any later connection, is accounted for by what is sent from then on. *)
Theorem close_discards_partial : forall c h k b w, runs c (h ++ k :: b) w -> s_op k = ODowork true -> mode_of h = MOpen -> b <> [] ->
  exists js, explains (attempts b) (observed b) js.
Proof.
  intros c h k b w (o & x & o1 & sys & sends & recvs & ops & o2 & Ec & Eh) Hk Hm Hb. apply create_facts in Ec. destruct Ec as (Es & Eq & _).
  destruct (history_split _ _ _ _ _ _ _ _ Eh eq_refl) as (p1 & p2 & w1 & z1 & H1 & H2).
  pose proof (history_inv moded (fun past w o z r w' z' H E => proj1 (moded_step past w o z r w' z' H E)) _ [] _ _ _ _ _ (moded_start x sys sends recvs Es) H1) as M. cbn in M.
  destruct (history_one _ _ _ _ _ _ _ H2) as (p3 & w2 & z2 & H3 & H4 & H5).
  apply step_path in H3. rewrite Hk in H3. destruct H3 as [_ [(Hi & _)|[_ (y & l & Hy & Hl & D & Hend)]]]; [discriminate|].
  assert (Hst : state y = OPEN) by (unfold moded in M; rewrite Hy, Hm in M; destruct (state y); congruence || destruct M).
  assert (Hcut : cut w2 = false). { destruct b as [|k2 b]; [congruence|]. destruct (history_one _ _ _ _ _ _ _ H5) as (p4 & w3 & z3 & H6 & _). apply step_path in H6. apply H6. }
  destruct (history_inv accounted accounted_step p3 [] w2 _ _ _ _ (accounted_fresh w2 (fun y0 H => Hend y0 Hst H Hcut)) H5) as (q & fin & wait & _ & I).
  eexists. exact (explains_of _ _ _ _ _ I).
Qed.

(* ---------------- C57 (partial) ---------------- *)
Definition pending_bytes (q : list pending) : list N := concat (map p_bytes q).
Definition sized (q : list pending) : Prop := Forall (fun p => p_size p = length (p_bytes p)) q.
Definition streamed (past : list scall) (w : world) : Prop :=
  Forall smooth past -> exists q, (forall x, io w = Some x -> queue x = q) /\ sized q /\ handed (observed past) ++ pending_bytes q = accepted_bytes past.

Lemma loops_full d x x' l : loops d x x' l -> sized (queue x) -> (forall fd b r, In (ESend fd b r) l -> r = Z.of_nat (length b)) ->
  sized (queue x') /\ pending_bytes (queue x) = handed l ++ pending_bytes (queue x').
Proof.
  induction 1 as [x E|x|d x x' l p rest E Hm HL IH|d x x' l p rest E HL IH|d x x' l p rest r E Hr HL IH]; intros S F; auto; rewrite E in S; inversion S as [|? ? S1 S2]; subst.
  - destruct (IH S2) as [I1 I2]; [intros fd b r Hin; apply (F fd b r); right; apply in_or_app; right; exact Hin|]. split; [exact I1|]. cbn [queue set_queue] in I2. rewrite E. cbn [pending_bytes map concat]. unfold pending_bytes in *. cbn [map concat]. rewrite I2.
    change (ESend ?a ?b ?c :: ?t) with ([ESend a b c] ++ t). rewrite !handed_app, handed_one. cbn [taken]. rewrite call_handed by reflexivity. rewrite Nat2Z.id, S1, !firstn_all, <- app_assoc. reflexivity.
  - specialize (F _ _ _ (or_introl eq_refl)). lia.
  - specialize (F _ _ _ (or_introl eq_refl)). rewrite firstn_length, S1 in F. rewrite S1 in Hr. lia.
Qed.
Lemma accepted_snoc h c : accepted_bytes (h ++ [c]) = accepted_bytes h ++ match s_ret c with Some 0 => concat (map m_bytes (message_of (s_op c))) | _ => [] end.
Proof.
  unfold accepted_bytes. rewrite attempts_snoc, map_app, concat_app. f_equal. rewrite map_map. cbn.
  destruct (s_ret c) as [[| |]|]; [reflexivity| | |]; (induction (message_of (s_op c)) as [|m l IH]; [reflexivity|exact IH]).
Qed.
Lemma pending_snoc q p : pending_bytes (q ++ [p]) = pending_bytes q ++ p_bytes p.
Proof. unfold pending_bytes. rewrite map_app, concat_app. cbn. rewrite app_nil_r. reflexivity. Qed.

Lemma streamed_step past w o z r w' z' : streamed past w -> step w o z = Some ((r, w'), z') -> streamed (past ++ [record w o r w']) w'.
Proof.
  intros HS E F. apply Forall_app in F. destruct F as [F1 F2]. inversion F2 as [|? ? Hsm _]; subst. destruct (HS F1) as (q & Hq & Sz & He). clear HS F2.
  apply step_path in E. destruct E as [Hc [(Hi & -> & Hr)|[_ (x & l & Hx & Hl & D & _)]]].
  { exists q. split; [exact Hq|]. split; [exact Sz|]. rewrite observed_snoc, accepted_snoc. cbn. rewrite (idle_message _ Hi), skipn_all, app_nil_r. cbn. destruct r as [[| |]|]; rewrite app_nil_r; exact He. }
  specialize (Hq _ Hx). subst q. unfold record in *. rewrite Hl, skipn_after in *. rewrite observed_snoc, accepted_snoc, handed_app. cbn [s_op s_ret s_events]. remember (io w') as iw eqn:Eiw. clear Eiw Hx Hl.
  assert (Quiet : forall l2 y (A : list N), queue y = queue x -> handed l2 = [] -> A = [] -> exists q, (forall x0, Some y = Some x0 -> queue x0 = q) /\ sized q /\ (handed (observed past) ++ handed l2) ++ pending_bytes q = accepted_bytes past ++ A).
  { intros l2 y A Ey H1 ->. exists (queue x). split; [intros; congruence|]. split; [exact Sz|]. rewrite H1, !app_nil_r. exact He. }
  assert (R0 : forall z (A : list N), z <> 0 -> match Some z with Some 0 => A | _ => [] end = []) by (intros [| |] A Hz; congruence).
  inversion D; subst; clear D; cbn [message_of map concat].
  - apply Quiet; auto.
  - apply Quiet; auto. apply call_handed; reflexivity.
  - apply Quiet; auto.
  - apply Quiet; auto. destruct H3 as [(v & -> & _)|[(v & -> & _)|[->|(v & ->)] ] ]; reflexivity.
  - apply Quiet; auto. destruct a; reflexivity.
  - apply Quiet; auto.
  - apply Quiet; auto. destruct a; reflexivity.
  - apply Quiet; auto.
  - eexists. split; [intros y Hy; injection Hy as <-; reflexivity|]. cbn [push queue set_queue]. split.
    + apply Forall_app. split; [exact Sz|]. constructor; [reflexivity|constructor].
    + rewrite pending_snoc. cbn [p_bytes handed map concat]. rewrite !app_nil_r, app_assoc, He. reflexivity.
  - apply Quiet; auto.
  - assert (Hlen : length (firstn (S n) buf) = S n) by (rewrite firstn_length; lia).
    exists (queue x). split; [congruence|]. split; [exact Sz|]. rewrite H0 in *. cbn [pending_bytes map concat] in *. rewrite app_nil_r in He |- *. rewrite He. f_equal.
    change (ESend ?a ?b ?c :: ?t) with ([ESend a b c] ++ t). rewrite handed_app, handed_one, call_handed by reflexivity. cbn [taken]. rewrite Nat2Z.id, firstn_all2 by lia. cbn [m_bytes]. rewrite !app_nil_r. reflexivity.
  - apply Quiet; auto. destruct (error_quiet x). assumption.
  - exists ([{| p_bytes := skipn k (firstn (S n) buf); p_size := length (skipn k (firstn (S n) buf)); p_callback := cb; p_context := ctx |}]). split; [intros y Hy; injection Hy as <-; cbn [push queue set_queue]; rewrite H0; reflexivity|]. split.
    + constructor; [reflexivity|constructor].
    + rewrite H0 in He. cbn [pending_bytes map concat] in He. rewrite app_nil_r in He. rewrite He, handed_one. cbn [pending_bytes map concat p_bytes taken m_bytes]. rewrite Nat2Z.id, app_nil_r, app_nil_r, <- app_assoc, firstn_skipn. reflexivity.
  - unfold smooth in Hsm. cbn [s_op s_ret s_events] in Hsm. destruct Hsm as [C|C]; [congruence|]. apply Quiet; auto.
  - apply Quiet; auto.
  - destruct (loops_full _ _ _ _ H0 Sz Hsm) as [Sz' Hp]. exists (queue x'). split; [congruence|]. split; [exact Sz'|]. rewrite app_nil_r, <- app_assoc, <- Hp. exact He.
  - assert (F : forall fd b r, In (ESend fd b r) l0 -> r = Z.of_nat (length b)) by (intros fd b r Hin; eapply Hsm; apply in_or_app; left; exact Hin).
    destruct (loops_full _ _ _ _ H0 Sz F) as [Sz' Hp]. exists (queue x'). split; [congruence|]. split; [exact Sz'|]. rewrite handed_app. destruct (received_quiet x' bs) as [-> _]. rewrite !app_nil_r, <- app_assoc, <- Hp. exact He.
  - exists (queue x). split; [discriminate|]. split; [exact Sz|]. replace (handed (if sock x =? -1 then [] else [ECloseFd (sock x)])) with (@nil N) by (destruct (sock x =? -1); reflexivity). rewrite !app_nil_r. exact He.
Qed.

(* While the kernel takes everything socketio_dowork offers it, and no send was refused after the
   kernel took a part of it, the stream is preserved: a prefix of the accepted bytes at any time,
   and all of them once a dowork has come to its end. *)
Theorem stream_preserved_partial : forall c h w, runs c h w -> Forall smooth h ->
  stream_preserved h /\ forall a k, h = a ++ [k] -> s_op k = ODowork true -> mode_of a = MOpen -> cut w = false -> handed (observed h) = accepted_bytes h.
Proof.
  intros c h w (o & x & o1 & sys & sends & recvs & ops & o2 & Ec & Eh) F. apply create_facts in Ec. destruct Ec as (Es & Eq & _).
  destruct (history_inv streamed streamed_step ops [] (newborn x sys sends recvs) _ _ _ _ ltac:(intros _; exists []; split; [intros y Hy; injection Hy as <-; exact Eq|split; [constructor|reflexivity]]) Eh F) as (q & Hq & _ & He). cbn [app] in He.
  split; [exists (pending_bytes q); symmetry; exact He|]. intros a k E Hk Hm Hc.
  destruct (history_split _ _ _ _ _ _ _ _ Eh E) as (p1 & p2 & w1 & z1 & H1 & H2).
  pose proof (history_inv moded (fun past w o z r w' z' H E => proj1 (moded_step past w o z r w' z' H E)) _ [] _ _ _ _ _ (moded_start x sys sends recvs Es) H1) as M. cbn in M.
  destruct (history_one _ _ _ _ _ _ _ H2) as (p3 & w2 & z2 & H3 & H4 & H5). assert (w2 = w) by (eapply history_nil; exact H5). subst w2.
  apply step_path in H3. rewrite Hk in H3. destruct H3 as [_ [(Hi & _)|[_ (y & l & Hy & Hl & D & Hend)]]]; [discriminate|].
  assert (Hst : state y = OPEN) by (unfold moded in M; rewrite Hy, Hm in M; destruct (state y); congruence || destruct M).
  assert (q = []). { destruct (io w) as [v|]; [|inversion D]. rewrite <- (Hq _ eq_refl). apply Hend; auto. }
  subst q. cbn in He. rewrite app_nil_r in He. exact He.
Qed.

(* ---------------- callbacks ---------------- *)
Lemma reports_app r a b : reports r a -> reports r b -> reports r (a ++ b).
Proof. unfold reports. intros H1 H2. rewrite filter_app, map_app, concat_app, <- H1, <- H2. reflexivity. Qed.
Definition plain (e : event) : bool := match e with ERecv _ (Some _) | EBytesReceived _ _ _ | EIoError _ _ => false | ESend _ _ r => negb (r =? -1) | _ => true end.
Lemma reports_plain r l : forallb plain l = true -> reports r l.
Proof.
  unfold reports. induction l as [|e l IH]; intros H; [reflexivity|]. cbn [forallb] in H. apply andb_prop in H. destruct H as [H1 H2]. specialize (IH H2).
  assert (Hr : is_report e = false) by (destruct e; cbn in *; congruence). cbn [filter]. rewrite Hr. cbn [negb map concat].
  assert (Hx : react r e = [e]) by (destruct e as [| | | | | |fd b z|fd [b|]| | | | |]; cbn in *; try congruence; try reflexivity; destruct z as [|p|[p|p|]]; cbn in *; congruence || reflexivity).
  rewrite Hx. cbn. f_equal. exact IH.
Qed.
Lemma reports_error r x fd b : on_error x = r_error r -> on_error_ctx x = r_error_ctx r -> reports r (ESend fd b (-1) :: indicate_error x).
Proof. intros H1 H2. unfold reports, indicate_error. rewrite H1, H2. cbn. destruct (r_error r); reflexivity. Qed.
Lemma reports_received r x b : on_bytes x = r_bytes r -> on_bytes_ctx x = r_bytes_ctx r -> reports r (received x b).
Proof. intros H1 H2. unfold reports, received. rewrite H1, H2. cbn. destruct (r_bytes r); reflexivity. Qed.
Definition wired (x : sio) (r : registered) : Prop := on_bytes x = r_bytes r /\ on_bytes_ctx x = r_bytes_ctx r /\ on_error x = r_error r /\ on_error_ctx x = r_error_ctx r.
Lemma plain_call cb f : (forall c, plain (f c) = true) -> forallb plain (call cb f) = true.
Proof. intros H. destruct cb; [cbn; rewrite H|]; reflexivity. Qed.
Lemma loops_reports d x x' l : loops d x x' l -> forall r, wired x r -> wired x' r /\ reports r l.
Proof.
  induction 1 as [x E|x|d x x' l p rest E Hm HL IH|d x x' l p rest E HL IH|d x x' l p rest k E Hr HL IH]; intros r W; try (split; [exact W|reflexivity]); destruct (IH r W) as [W' R]; (split; [exact W'|]).
  - change (ESend ?a ?b ?c :: ?t) with ([ESend a b c] ++ t). apply reports_app; [apply reports_plain; cbn [forallb plain]; replace (Z.of_nat (p_size p) =? -1) with false by lia; reflexivity|]. apply reports_app; [apply reports_plain, plain_call; reflexivity|exact R].
  - change (ESend ?a ?b ?c :: ?t ++ ?u) with ((ESend a b c :: t) ++ u). apply reports_app; [apply reports_error; apply W|exact R].
  - change (ESend ?a ?b ?c :: ?t) with ([ESend a b c] ++ t). apply reports_app; [apply reports_plain; cbn [forallb plain]; replace (Z.of_nat k =? -1) with false by lia; reflexivity|exact R].
Qed.
Definition wired_world (past : list scall) (w : world) : Prop := forall x, io w = Some x -> wired x (registered_by past).
Lemma registered_snoc h c : registered_by (h ++ [c]) = next_registered (registered_by h) c.
Proof. unfold registered_by. rewrite fold_left_app. reflexivity. Qed.
Lemma wired_step past w o z r w' z' : wired_world past w -> step w o z = Some ((r, w'), z') -> wired_world (past ++ [record w o r w']) w' /\ reports (registered_by past) (s_events (record w o r w')).
Proof.
  intros Hm E. apply step_path in E. destruct E as [Hc [(Hi & -> & Hr)|[_ (x & l & Hx & Hl & D & _)]]]; unfold record; cbn [s_events].
  - rewrite skipn_all. split; [|reflexivity]. intros x Hx. rewrite registered_snoc. replace (next_registered (registered_by past) _) with (registered_by past); [exact (Hm _ Hx)|]. destruct o as [[] | [] | [] | [] | [] | []]; cbn in *; congruence || reflexivity.
  - rewrite Hl, skipn_after. specialize (Hm _ Hx). unfold wired_world. rewrite registered_snoc. set (g := registered_by past) in *. clearbody g. remember (io w') as iw eqn:Eiw. clear Eiw Hx Hl.
    assert (R0 : forall z (A B : registered), z <> 0 -> match Some z with Some 0 => A | _ => B end = B) by (intros [| |] A B Hz; congruence).
    inversion D; subst; clear D; cbn [next_registered s_op s_ret]; (split; [intros y Hy; try discriminate; injection Hy as <-|]).
    + rewrite (R0 _ _ _ H0). exact Hm.
    + reflexivity.
    + repeat split.
    + apply reports_plain, plain_call. reflexivity.
    + rewrite (R0 _ _ _ H1). exact Hm.
    + apply reports_plain. reflexivity.
    + rewrite (R0 _ _ _ H1). exact Hm.
    + apply reports_plain. destruct H3 as [(v & -> & _)|[(v & -> & _)|[->|(v & ->)] ] ]; reflexivity.
    + repeat split.
    + apply reports_plain. rewrite forallb_app. rewrite plain_call by reflexivity. reflexivity.
    + exact Hm.
    + reflexivity.
    + exact Hm.
    + apply reports_plain. rewrite forallb_app. rewrite plain_call by reflexivity. reflexivity.
    + exact Hm.
    + reflexivity.
    + exact Hm.
    + reflexivity.
    + exact Hm.
    + reflexivity.
    + exact Hm.
    + apply reports_plain. cbn [forallb plain]. rewrite plain_call by reflexivity. replace (Z.of_nat (S n) =? -1) with false by lia. reflexivity.
    + exact Hm.
    + apply reports_error; apply Hm.
    + exact Hm.
    + apply reports_plain. cbn [forallb plain]. replace (Z.of_nat k =? -1) with false by lia. reflexivity.
    + exact Hm.
    + apply reports_plain. cbn [forallb plain]. replace (Z.of_nat k =? -1) with false by lia. reflexivity.
    + exact Hm.
    + reflexivity.
    + exact (proj1 (loops_reports _ _ _ _ H0 g Hm)).
    + exact (proj2 (loops_reports _ _ _ _ H0 g Hm)).
    + exact (proj1 (loops_reports _ _ _ _ H0 g Hm)).
    + destruct (loops_reports _ _ _ _ H0 g Hm) as [W R]. apply reports_app; [exact R|]. apply reports_app; [|apply reports_plain; reflexivity].
      induction bs as [|b bs IH]; [reflexivity|]. cbn [map concat]. apply reports_app; [apply reports_received; apply W|exact IH].
    + destruct (sock x =? -1); apply reports_plain; reflexivity.
Qed.
(* C75: in every call, each received byte goes at once, alone and in order to the bytes callback
   of the last successful open, each failed send to its error callback, and nothing else does. *)
Theorem socket_reports : forall c h w a k b, runs c h w -> h = a ++ k :: b -> reports (registered_by a) (s_events k).
Proof.
  intros c h w a k b (o & x & o1 & sys & sends & recvs & ops & o2 & Ec & Eh) E. apply create_facts in Ec. destruct Ec as (_ & _ & C1 & C2 & C3 & C4 & _).
  destruct (history_split _ _ _ _ _ _ _ _ Eh E) as (p1 & p2 & w1 & z1 & H1 & H2).
  pose proof (history_inv wired_world (fun past w o z r w' z' H E => proj1 (wired_step past w o z r w' z' H E)) _ [] (newborn x sys sends recvs) _ _ _ _ ltac:(intros y Hy; injection Hy as <-; repeat split; assumption) H1) as M. cbn [app] in M.
  destruct (history_one _ _ _ _ _ _ _ H2) as (p3 & w2 & z2 & H3 & H4 & _). pose proof (wired_step _ _ _ _ _ _ _ M H3) as [_ Hk]. unfold record in Hk. cbn in Hk. rewrite <- H4 in Hk. exact Hk.
Qed.

(* ---------------- descriptors ---------------- *)
Lemma owner_app s a b : owner s (a ++ b) = owner (owner s a) b.
Proof. unfold owner. apply fold_left_app. Qed.
Lemma disciplined_app a : forall s b, disciplined s a -> disciplined (owner s a) b -> disciplined s (a ++ b).
Proof. induction a as [|e a IH]; intros s b H1 H2; [exact H2|]. destruct H1 as (A & B & C). cbn [app disciplined]. split; [exact A|]. split; [exact B|]. apply IH; assumption. Qed.
Definition fd_of (x : sio) : option Z := if sock x =? -1 then None else Some (sock x).
(* events that touch only the descriptor fd and neither get nor give up one *)
Definition calm (fd : Z) (e : event) : Prop := next_owner (Some fd) e = Some fd /\ (forall f, uses e = Some f -> f = fd) /\ (match e with ESocket _ => False | _ => True end).
Lemma calm_all fd l : Forall (calm fd) l -> disciplined (Some fd) l /\ owner (Some fd) l = Some fd.
Proof.
  induction 1 as [|e l (A & B & C) _ [IH1 IH2]]; [split; [exact I|reflexivity]|]. cbn [disciplined owner fold_left]. rewrite A. split; [|exact IH2]. split; [intros f Hf; rewrite (B f Hf); reflexivity|]. split; [destruct e; try exact I; destruct C|exact IH1].
Qed.
Lemma calm_call fd cb f : (forall c, calm fd (f c)) -> Forall (calm fd) (call cb f).
Proof. intros H. destruct cb; constructor; auto. Qed.
Lemma calm_send fd b r : calm fd (ESend fd b r).
Proof. split; [reflexivity|]. split; [intros f H; injection H as <-; reflexivity|exact I]. Qed.
Lemma calm_recv fd r : calm fd (ERecv fd r).
Proof. split; [reflexivity|]. split; [intros f H; injection H as <-; reflexivity|exact I]. Qed.
Lemma calm_error fd x : Forall (calm fd) (indicate_error x).
Proof. apply calm_call. intros c. split; [reflexivity|]. split; [discriminate|exact I]. Qed.
Lemma loops_calm d x x' l : loops d x x' l -> sock x' = sock x /\ Forall (calm (sock x)) l.
Proof.
  induction 1 as [x E|x|d x x' l p rest E Hm HL IH|d x x' l p rest E HL IH|d x x' l p rest k E Hr HL IH]; try (split; [reflexivity|constructor]); destruct IH as [I1 I2]; (split; [exact I1|]); (constructor; [apply calm_send|]); [|apply Forall_app; split; [apply calm_error|exact I2]|exact I2].
  apply Forall_app. split; [|exact I2]. apply calm_call. intros c. split; [reflexivity|]. split; [discriminate|exact I].
Qed.
Definition owning (start : option Z) (past : list scall) (w : world) : Prop :=
  disciplined start (observed past) /\
  match io w with
  | Some x => owner start (observed past) = fd_of x /\ (state x = CLOSED \/ sock x <> -1)
  | None => owner start (observed past) = None
  end.
Lemma fd_some x : sock x <> -1 -> fd_of x = Some (sock x).
Proof. unfold fd_of. destruct (Z.eqb_spec (sock x) (-1)); congruence. Qed.
Lemma fd_none x : sock x = -1 -> fd_of x = None.
Proof. unfold fd_of. intros ->. reflexivity. Qed.
Lemma owning_step start past w o z r w' z' : owning start past w -> step w o z = Some ((r, w'), z') -> owning start (past ++ [record w o r w']) w'.
Proof.
  intros [Hd Ho] E. unfold owning. rewrite observed_snoc, owner_app. cbn [record s_events]. apply step_path in E. destruct E as [Hc [(Hi & -> & Hr)|[_ (x & l & Hx & Hl & D & _)]]].
  { rewrite skipn_all, app_nil_r. split; [exact Hd|exact Ho]. }
  rewrite Hl, skipn_after. rewrite Hx in Ho. destruct Ho as [Ho Hst].
  enough (G : disciplined (fd_of x) l /\ match io w' with Some y => owner (fd_of x) l = fd_of y /\ (state y = CLOSED \/ sock y <> -1) | None => owner (fd_of x) l = None end).
  { destruct G as [G1 G2]. rewrite Ho. split; [apply disciplined_app; [exact Hd|rewrite Ho; exact G1]|exact G2]. }
  clear Hl Hd Ho Hx. remember (io w') as iw eqn:Eiw. clear Eiw.
  assert (Calm : forall y, sock x <> -1 -> sock y = sock x -> Forall (calm (sock x)) l -> disciplined (fd_of x) l /\ owner (fd_of x) l = fd_of y /\ (state y = CLOSED \/ sock y <> -1)).
  { intros y H1 H2 H3. rewrite (fd_some x H1), (fd_some y) by congruence. rewrite H2. destruct (calm_all _ _ H3). split; [assumption|]. split; [assumption|right; congruence]. }
  assert (Op : state x = OPEN -> sock x <> -1) by (intros H; destruct Hst as [C|C]; [congruence|exact C]).
  assert (Quiet : disciplined (fd_of x) [] /\ owner (fd_of x) [] = fd_of x) by (split; [exact I|reflexivity]).
  inversion D; subst; clear D.
  - split; [exact I|]. split; [reflexivity|exact Hst].
  - apply (Calm (set_state (set_callbacks x c d e f) OPEN)); auto. apply calm_call. intros q. split; [reflexivity|]. split; [discriminate|exact I].
  - rewrite (fd_none x H0). split; [cbn; repeat split; discriminate|]. split; [reflexivity|]. left. exact H.
  - rewrite (fd_none x H0). unfold fd_of. cbn [sock set_sock state]. change (-1 =? -1) with true. cbn iota.
    assert (Hf : (fd <? 0) = false) by lia.
    destruct H3 as [(v & -> & _)|[(v & -> & _)|[->|(v & ->)] ] ]; cbn; rewrite ?Hf; cbn; rewrite ?Hf; repeat split; try discriminate; auto; congruence.
  - rewrite (fd_none x H0). assert (Hf : (fd <? 0) = false) by lia.
    assert (Ht : owner None ([ESocket fd; EGetaddrinfo (hostname x) (port x) 0; EConnect fd 0; EFcntl fd v1; EFcntl fd v2] ++ call a (fun q => EOpenComplete q b true)) = Some fd) by (rewrite owner_app; cbn; rewrite Hf; destruct a; reflexivity).
    split; [apply disciplined_app; [cbn; rewrite Hf; repeat split; try discriminate; congruence|destruct a; cbn; rewrite ?Hf; repeat split; discriminate]|]. rewrite Ht. cbn [state set_state sock set_callbacks set_sock]. split; [|right; lia]. symmetry. apply (fd_some (set_state (set_callbacks (set_sock x fd) c d e f) OPEN)). cbn. lia.
  - split; [exact I|]. split; [reflexivity|exact Hst].
  - assert (Hs : sock x <> -1) by (destruct Hst as [C|C]; [congruence|exact C]). rewrite (fd_some x Hs). split; [destruct a; cbn; repeat split; try discriminate; congruence|]. split; [destruct a; reflexivity|left; reflexivity].
  - split; [exact I|]. split; [reflexivity|exact Hst].
  - apply (Calm (push x (firstn (S n) buf) cb ctx)); auto.
  - split; [exact I|]. split; [reflexivity|exact Hst].
  - apply (Calm x); auto. constructor; [apply calm_send|]. apply calm_call. intros q. split; [reflexivity|]. split; [discriminate|exact I].
  - apply (Calm x); auto. constructor; [apply calm_send|apply calm_error].
  - apply (Calm (push x (skipn k (firstn (S n) buf)) cb ctx)); auto. constructor; [apply calm_send|constructor].
  - apply (Calm x); auto. constructor; [apply calm_send|constructor].
  - split; [exact I|]. split; [reflexivity|exact Hst].
  - destruct (loops_calm _ _ _ _ H0) as [S F]. apply (Calm x'); auto.
  - destruct (loops_calm _ _ _ _ H0) as [S F]. apply (Calm x'); auto. apply Forall_app. split; [exact F|]. rewrite <- S. apply Forall_app. split; [|constructor; [apply calm_recv|constructor]].
    clear. induction bs as [|b bs IH]; [constructor|]. cbn [map concat]. apply Forall_app. split; [|exact IH]. constructor; [apply calm_recv|]. apply calm_call. intros q. split; [reflexivity|]. split; [discriminate|exact I].
  - unfold fd_of. destruct (Z.eqb_spec (sock x) (-1)); [split; [exact I|reflexivity]|]. cbn. repeat split. congruence.
Qed.
(* C74: in every history the io makes kernel calls only on the descriptor it owns, gets a new one
   only when it has none, and owns none when it is closed (unless it never was opened) or destroyed. *)
Theorem socket_descriptors : forall c h w, runs c h w ->
  disciplined (given c) (observed h) /\
  (mode_of h = MDestroyed -> owner (given c) (observed h) = None) /\
  (mode_of h = MOpen -> owner (given c) (observed h) <> None) /\
  (forall a k b x y, h = a ++ k :: b -> s_op k = OClose true x y -> mode_of a <> MClosed -> owner (given c) (observed (a ++ [k])) = None).
Proof.
  intros c h w (o & x & o1 & sys & sends & recvs & ops & o2 & Ec & Eh). apply create_facts in Ec. destruct Ec as (Es & _ & _ & _ & _ & _ & Hg & _).
  assert (S0 : owning (given c) [] (newborn x sys sends recvs)) by (split; [exact I|]; cbn; split; [exact Hg|left; exact Es]).
  pose proof (history_inv (owning (given c)) (owning_step (given c)) _ [] _ _ _ _ _ S0 Eh) as [O1 O2]. cbn [app] in O1, O2.
  pose proof (history_inv moded (fun past w o z r w' z' H E => proj1 (moded_step past w o z r w' z' H E)) _ [] _ _ _ _ _ (moded_start x sys sends recvs Es) Eh) as M. cbn [app] in M. unfold moded in M.
  split; [exact O1|]. split; [|split].
  - intros Hm. destruct (io w) as [y|]; [|exact O2]. rewrite Hm in M. destruct (state y); congruence || contradiction.
  - intros Hm. destruct (io w) as [y|]; [|congruence]. rewrite Hm in M. destruct O2 as [-> [C|C]]; [rewrite C in M; congruence|]. rewrite (fd_some y C). discriminate.
  - intros a k b p q E Hk Hn. destruct (history_split _ _ _ _ _ _ _ _ Eh E) as (p1 & p2 & w1 & z1 & H1 & H2).
    pose proof (history_inv moded (fun past w o z r w' z' H E => proj1 (moded_step past w o z r w' z' H E)) _ [] _ _ _ _ _ (moded_start x sys sends recvs Es) H1) as M1. cbn [app] in M1. unfold moded in M1.
    destruct (history_one _ _ _ _ _ _ _ H2) as (p3 & w2 & z2 & H3 & H4 & _). rewrite Hk in H3. apply step_path in H3. destruct H3 as [_ [(Hi & _)|[_ (y & l & Hy & Hl & D & _)]]]; [discriminate|].
    rewrite Hl, skipn_after in H4. rewrite Hy in M1. rewrite observed_snoc, owner_app, H4. inversion D; subst; [match goal with H : _ \/ _ |- _ => destruct H as [C|C] end; rewrite C in M1; [congruence|contradiction]|]. rewrite owner_app. destruct p; reflexivity.
Qed.
