(* From the pieces of code between two calls out to whole executions: if every such piece keeps
   the invariant I and the preorder R, every execution does. *)
From Verif Require Import Base WolfIo_Model WolfIo_Spec WolfIo_Logic.
Open Scope Z_scope.

Section Frame.
Context (E : engine) (I : world E -> Prop) (R : world E -> world E -> Prop).
Notation "w +: e" := (add_log E w e) (at level 50, left associativity).
Definition T (w w' : world E) : Prop := I w -> I w' /\ R w w'.

(* what is known while wolfSSL runs *)
Context (Zk : world E -> Prop).
(* the pieces that do not belong to open *)
Record pieces_ok : Prop := {
  p_refl : forall w, R w w;
  p_trans : forall a b c, R a b -> R b c -> R a c;
  p_answer : forall w l q a, T w (set_answers E w l +: LAnswer q a);
  p_error : forall w cb, on_error E w = Some cb -> T w (w +: LAsk (QError cb (on_error_ctx E w)));
  p_failed : forall w cb, on_open E w = Some cb -> T w (w +: LAsk (QOpenComplete cb (on_open_ctx E w) false));
  p_dowork : forall w, T w (w +: LAsk QDowork);
  p_recv : forall w size r, T w (set_rbytes E w (skipn size (rbytes E w)) +: LTold (IGot r (firstn size (rbytes E w))));
  p_send : forall w s b, T w (set_ssl E w s +: LWant (WSend b) +: LAsk (QSend b (on_sent E w) (on_sent_ctx E w)));
  p_sent : forall w r, T w (w +: LTold (ISent r));
  p_state_error : forall w, Zk w \/ state E w <> NOT_OPEN -> T w (set_state E w ERROR);
  p_unread : forall w b, Zk w -> on_bytes E w = None -> b <> [] -> T w (w +: LRead b);
  z_keep : forall w w', Zk w -> I w' -> R w w' -> Zk w';
  z_dowork : forall w, I w -> state E w <> NOT_OPEN -> Zk (w +: LCall (ODowork true));
  z_event : forall w, I w -> I (set_state E (w +: LEvent (UOpened true)) IN_HANDSHAKE) -> Zk (set_state E (w +: LEvent (UOpened true)) IN_HANDSHAKE);
  z_write : forall w b os osc, I w -> state E w = OPEN -> Zk (set_send_callback E (w +: LCall (OSend true b os osc)) os osc +: LBegin (WWrite b));
  p_done : forall w s cb, state E w = IN_HANDSHAKE -> on_open E w = Some cb -> T w (set_state E (set_ssl E w s +: LWant WHandshakeDone) OPEN +: LAsk (QOpenComplete cb (on_open_ctx E w) true));
  p_done_silent : forall w s, state E w = IN_HANDSHAKE -> on_open E w = None -> T w (set_state E (set_ssl E w s +: LWant WHandshakeDone) OPEN);
  p_done_other : forall w s, T w (set_ssl E w s +: LWant WHandshakeDone);
  p_told_done : forall w, T w (w +: LTold IDone);
  p_want_recv : forall w s size, T w (set_ssl E w s +: LWant (WRecv size));
  p_want_return : forall w s r b, T w (set_ssl E w s +: LWant (WReturn r b));
  p_connect : forall w, T w (w +: LBegin WConnect);
  p_read : forall w n, T w (w +: LBegin (WRead n));
  p_read_none : forall w, T w (w +: LRead []);
  p_bytes : forall w cb b, on_bytes E w = Some cb -> b <> [] -> T w (w +: LRead b +: LAsk (QBytes cb (on_bytes_ctx E w) b));
  p_not_opened : forall w, T w (set_state E (w +: LEvent (UOpened false)) ERROR);
  p_uclosed : forall w, T w (w +: LEvent UClosed);
  p_uerror : forall w, T w (w +: LEvent UError);
  p_ubytes : forall w l b, T w (set_rbytes E (set_allocs E (w +: LEvent (UBytes b)) l) (rbytes E w ++ b));
  p_lost : forall w l b, T w (set_state E (set_allocs E (w +: LEvent (UBytes b)) l +: LLost b) ERROR);
  p_state_handshake : forall w, T w (set_state E (w +: LEvent (UOpened true)) IN_HANDSHAKE);
  p_close_complete : forall w cb, T w (w +: LAsk (QCloseComplete cb (on_close_ctx E w)));
  p_ret : forall w o r, (match o with OOpen true _ _ _ _ _ _ => False | _ => True end) -> T w (w +: LReturn o r);
  p_call : forall w o, T w (w +: LCall o);
  p_close : forall w oc occ, state E w <> NOT_OPEN -> T w (set_close_callback E (set_state E (w +: LCall (OClose true oc occ)) CLOSING) oc occ +: LAsk QClose);
  p_write : forall w b os osc, state E w = OPEN -> T w (set_send_callback E (w +: LCall (OSend true b os osc)) os osc +: LBegin (WWrite b));
  p_refused : forall w oo ooc ob obc oe oec, T w (w +: LCall (OOpen true oo ooc ob obc oe oec) +: LReturn (OOpen true oo ooc ob obc oe oec) 390)
}.
Context (P : pieces_ok).
Definition kept {A} (m : C E A) : Prop := forall w, I w -> wp E I m (fun _ w' => I w' /\ R w w') w.
Definition keptz {A} (m : C E A) : Prop := forall w, I w -> Zk w -> wp E I m (fun _ w' => I w' /\ R w w') w.
Lemma kept_bind {A B} (m : C E A) (f : A -> C E B) : kept m -> (forall a, kept (f a)) -> kept (bind E m f).
Proof.
  intros H1 H2 w Hw. apply wp_bind. eapply wp_imp; [apply H1; exact Hw|]. intros a w' [H H']. eapply wp_imp; [apply H2; exact H|].
  intros b w'' [H3 H4]. split; [exact H3|]. eapply (p_trans P); eassumption.
Qed.
Lemma kept_done {A} (a : A) : kept (done E a).
Proof. intros w H. split; [exact H|apply (p_refl P)]. Qed.
Lemma kept_change f : (forall w, T w (f w)) -> kept (change E f).
Proof. intros H w Hw. apply wp_change. apply H. exact Hw. Qed.
(* first a piece, then a call out *)
Lemma wp_then_env env w w1 q (Q : Z -> world E -> Prop) : env_ok E I R env -> I w -> T w (w1 +: LAsk q) -> (forall r w', I w' -> R w w' -> Q r w') -> wp E I (env q) Q w1.
Proof.
  intros He Hw Ht Hq. destruct (Ht Hw) as [H1 H2]. eapply wp_env; [exact He|exact H1|]. intros r w' H3 H4. apply Hq; [exact H3|]. eapply (p_trans P); eassumption.
Qed.
Lemma wp_then {A} (m : C E A) w w1 (Q : A -> world E -> Prop) : keptz m -> I w -> Zk w -> T w w1 -> (forall a w', I w' -> R w w' -> Q a w') -> wp E I m Q w1.
Proof.
  intros Hm Hw Hz Ht Hq. destruct (Ht Hw) as [H1 H2]. eapply wp_imp; [apply Hm; [exact H1|eapply (z_keep P); eassumption]|]. intros r w' [H3 H4]. apply Hq; [exact H3|]. eapply (p_trans P); eassumption.
Qed.

Section Env.
Context (env : ask -> C E Z) (He : env_ok E I R env) (loops : nat).
Ltac fin := wps; split; [assumption|first [assumption|apply (p_refl P)] ].

Lemma k_error : kept (indicate_error E env).
Proof.
  intros w Hw. unfold indicate_error. wps. destruct (on_error E w) as [cb|] eqn:Ee; [|fin]. apply wp_bind.
  eapply wp_then_env; [exact He|exact Hw|apply (p_error P); exact Ee|]. intros r w' H1 H2. fin.
Qed.
Lemma k_failed : kept (indicate_open_complete E env false).
Proof.
  intros w Hw. unfold indicate_open_complete. wps. destruct (on_open E w) as [cb|] eqn:Ee; [|fin]. apply wp_bind.
  eapply wp_then_env; [exact He|exact Hw|apply (p_failed P); exact Ee|]. intros r w' H1 H2. fin.
Qed.
Lemma k_dowork : kept (env QDowork).
Proof. intros w Hw. eapply wp_then_env; [exact He|exact Hw|apply (p_dowork P)|]. auto. Qed.
Lemma k_await : forall n, kept (await_bytes E env n).
Proof.
  induction n as [|n IH]; intros w Hw; cbn [await_bytes]; wps; destruct (rbytes E w); try solve [fin]; [wps; exact Hw|].
  wps. eapply wp_imp; [apply k_dowork; exact Hw|]. intros r w1 [H1 H2]. wps. destruct (state E w1); try (eapply wp_imp; [apply IH; exact H1|]; intros a w2 [H3 H4]; split; [exact H3|]; eapply (p_trans P); eassumption).
  fin.
Qed.
Lemma k_running : forall n i, keptz (running E env loops n i).
Proof.
  induction n as [|n IH]; intros i w Hw Hz; cbn [running]; [wps; exact Hw|]. unfold ssl_step. wps. set (s1 := fst (e_step E (ssl E w) i)).
  destruct (snd (e_step E (ssl E w) i)) as [size|b| |r b].
  - (* receive *)
    destruct (p_want_recv P w s1 size Hw) as [H1 H2]. set (w1 := _ +: _) in *. clearbody w1. unfold on_io_recv. wps. eapply wp_imp; [apply k_await; exact H1|]. intros [] w2 [H3 H4]. cbv zeta. wps. cbn [state set_rbytes].
    assert (Hr2 : R w w2) by (eapply (p_trans P); eassumption).
    assert (K : forall r, wp E I (bind E (emit E (LTold (IGot r (firstn size (rbytes E w2))))) (fun _ => running E env loops n (IGot r (firstn size (rbytes E w2))))) (fun _ w' => I w' /\ R w w') (set_rbytes E w2 (skipn size (rbytes E w2)))).
    { intro r. wps. eapply wp_then; [apply IH|exact H3|eapply (z_keep P); eassumption|apply (p_recv P)|]. intros a w' H5 H6. split; [exact H5|]. eapply (p_trans P); [eapply (p_trans P); [exact H2|exact H4]|exact H6]. }
    destruct (firstn size (rbytes E w2)) as [|x l]; [destruct (state E w2)|]; wps; cbn [fst snd]; apply K.
  - unfold on_io_send. wps. cbn [on_sent on_sent_ctx set_ssl add_log]. eapply (wp_then_env env w); [exact He|exact Hw|apply (p_send P)|]. intros r w1 H1 H2.
    assert (K : forall r w', I w' -> R w w' -> wp E I (bind E (emit E (LTold (ISent r))) (fun _ => running E env loops n (ISent r))) (fun _ w'' => I w'' /\ R w w'') w').
    { intros z w' H5 H6. wps. eapply wp_then; [apply IH|exact H5|eapply (z_keep P); eassumption|apply (p_sent P)|]. intros a w2 H7 H8. split; [exact H7|]. eapply (p_trans P); eassumption. }
    destruct (negb (r =? 0)); [|wps; apply K; assumption]. wps. destruct (p_state_error P w1 (or_introl (z_keep P w w1 Hz H1 H2)) H1) as [H3 H4]. eapply wp_imp; [apply k_error; exact H3|]. intros [] w2 [H5 H6]. wps. apply K; [exact H5|].
    eapply (p_trans P); [exact H2|]. eapply (p_trans P); eassumption.
  - unfold on_handshake_done. wps. cbn [state set_ssl add_log].
    assert (K : forall w', I w' -> R w w' -> wp E I (bind E (emit E (LTold IDone)) (fun _ => running E env loops n IDone)) (fun _ w'' => I w'' /\ R w w'') w').
    { intros w' H5 H6. wps. eapply wp_then; [apply IH|exact H5|eapply (z_keep P); eassumption|apply (p_told_done P)|]. intros a w2 H7 H8. split; [exact H7|]. eapply (p_trans P); eassumption. }
    destruct (state E w) eqn:Es; try (wps; destruct (p_done_other P w s1 Hw) as [H1 H2]; apply K; assumption).
    unfold indicate_open_complete. wps. cbn [on_open on_open_ctx set_state set_ssl add_log]. destruct (on_open E w) as [cb|] eqn:Eo.
    + wps. eapply (wp_then_env env w); [exact He|exact Hw|apply (p_done P); assumption|]. intros r w1 H1 H2. wps. apply K; assumption.
    + wps. destruct (p_done_silent P w s1 Es Eo Hw) as [H1 H2]. apply K; assumption.
  - wps. apply (p_want_return P). exact Hw.
Qed.
Lemma k_connect : keptz (wolfSSL_connect E env loops).
Proof. intros w Hw Hz. unfold wolfSSL_connect, wolf. wps. eapply wp_then; [apply k_running|exact Hw|exact Hz|apply (p_connect P)|]. intros x w' H1 H2. wps. auto. Qed.
Lemma k_decode : forall n, keptz (decode_ssl_received_bytes E env loops n).
Proof.
  induction n as [|n IH]; intros w Hw Hz; cbn [decode_ssl_received_bytes]; [wps; exact Hw|]. unfold wolfSSL_read, wolf. wps. destruct (p_read P w 64 Hw) as [H1 H2]. eapply wp_imp; [apply k_running; [exact H1|eapply (z_keep P); eassumption]|]. intros x w1 [H3 H4]. wps. cbn [fst snd].
  assert (Hr : R w w1) by (eapply (p_trans P); eassumption). assert (Hz1 : Zk w1) by (eapply (z_keep P); eassumption).
  destruct (firstn 64 (snd x)) as [|b0 bs] eqn:Eb; [wps; destruct (p_read_none P w1 H3) as [H5 H6]; split; [exact H5|eapply (p_trans P); eassumption]|].
  wps. cbn [on_bytes on_bytes_ctx add_log]. destruct (on_bytes E w1) as [cb|] eqn:Eo.
  - wps. eapply (wp_then_env env w1); [exact He|exact H3|apply (p_bytes P); [exact Eo|discriminate]|]. intros r w2 H5 H6. wps. eapply wp_imp; [apply IH; [exact H5|eapply (z_keep P); eassumption]|]. intros [] w3 [H7 H8]. split; [exact H7|]. eapply (p_trans P); [exact Hr|]. eapply (p_trans P); eassumption.
  - wps. destruct (p_unread P w1 (b0 :: bs) Hz1 Eo ltac:(discriminate) H3) as [H5 H6]. eapply wp_imp; [apply IH; [exact H5|eapply (z_keep P); eassumption]|]. intros [] w3 [H7 H8]. split; [exact H7|]. eapply (p_trans P); [exact Hr|]. eapply (p_trans P); eassumption.
Qed.
Lemma k_handle e : kept (handle E env loops e).
Proof.
  intros w Hw. unfold handle. wps. destruct e as [ok| | |b].
  - unfold on_underlying_io_open_complete. destruct ok; cbn [negb].
    + wps. destruct (p_state_handshake P w Hw) as [H1 H2]. eapply wp_imp; [apply k_connect; [exact H1|apply (z_event P); assumption]|]. intros r w1 [H3 H4]. assert (Hr : R w w1) by (eapply (p_trans P); eassumption).
      destruct (negb (r =? 1)); [|fin]. eapply wp_imp; [apply k_failed; exact H3|]. intros [] w2 [H5 H6]. split; [exact H5|]. eapply (p_trans P); eassumption.
    + wps. destruct (p_not_opened P w Hw) as [H1 H2]. eapply wp_imp; [apply k_failed; exact H1|]. intros [] w2 [H5 H6]. split; [exact H5|]. eapply (p_trans P); eassumption.
  - destruct (p_uclosed P w Hw) as [H1 H2]. set (w1 := w +: _) in *. clearbody w1. unfold on_underlying_io_close_complete. wps. destruct (state E w1); try solve [fin]. destruct (on_close E w1) as [cb|]; [|fin]. wps.
    eapply wp_then_env; [exact He|exact H1|apply (p_close_complete P)|]. intros r w2 H3 H4. wps. split; [exact H3|]. eapply (p_trans P); eassumption.
  - destruct (p_uerror P w Hw) as [H1 H2]. set (w1 := w +: _) in *. clearbody w1. unfold on_underlying_io_error. wps.
    assert (K : state E w1 <> NOT_OPEN -> forall m : C E unit, kept m -> wp E I (bind E (change E (fun w => set_state E w ERROR)) (fun _ => m)) (fun _ w' => I w' /\ R w w') w1).
    { intros Hs m Hm. wps. destruct (p_state_error P w1 (or_intror Hs) H1) as [H3 H4]. eapply wp_imp; [apply Hm; exact H3|]. intros [] w2 [H5 H6]. split; [exact H5|]. eapply (p_trans P); [exact H2|]. eapply (p_trans P); eassumption. }
    destruct (state E w1) eqn:Es; try solve [fin]; apply K; try discriminate; [apply k_failed|apply k_failed|apply k_error].
  - unfold on_underlying_io_bytes_received, alloc. wps. cbn [allocs add_log]. destruct (hd true (allocs E w)); cbn [negb].
    + wps. exact (p_ubytes P w (tl (allocs E w)) b Hw).
    + wps. destruct (p_lost P w (tl (allocs E w)) b Hw) as [H1 H2]. eapply wp_imp; [apply k_error; exact H1|]. intros [] w2 [H5 H6]. split; [exact H5|]. eapply (p_trans P); eassumption.
Qed.
(* open, in an environment *)
Definition open_ok : Prop := forall oo ooc ob obc oe oec w, I w -> state E w = NOT_OPEN -> wp E I (api E env loops (OOpen true oo ooc ob obc oe oec)) (fun _ w' => I w' /\ R w w') w.
Context (Ho : open_ok).
Lemma k_api o : kept (api E env loops o).
Proof.
  assert (Ret : forall w w' o r, I w' -> R w w' -> (match o with OOpen true _ _ _ _ _ _ => False | _ => True end) -> I (w' +: LReturn o r) /\ R w (w' +: LReturn o r)).
  { intros w w' o' r H1 H2 H3. destruct (p_ret P w' o' r H3 H1) as [H4 H5]. split; [exact H4|]. eapply (p_trans P); eassumption. }
  intros w Hw. destruct (p_call P w o Hw) as [H1 H2]. destruct o as [h oo ooc ob obc oe oec|h oc occ|h b os osc|h].
  - destruct h; [|unfold api, call; wps; apply Ret; auto]. destruct (state E w) eqn:Es; [apply Ho; assumption|..].
    all: unfold api, call, tlsio_wolfssl_open; wps; cbn [state add_log]; rewrite Es; wps; apply (p_refused P); exact Hw.
  - unfold api, call, tlsio_wolfssl_close. destruct h; [|wps; apply Ret; auto]. wps. cbn [state add_log].
    assert (K : state E w <> NOT_OPEN -> wp E I (bind E (change E (fun w => set_state E w CLOSING)) (fun _ => bind E (change E (fun w => set_close_callback E w oc occ)) (fun _ => bind E (env QClose) (fun r => if negb (r =? 0) then done E 456 else done E 0))))
        (fun r w' => wp E I (emit E (LReturn (OClose true oc occ) r)) (fun _ w'' => I w'' /\ R w w'') w') (w +: LCall (OClose true oc occ))).
    { intro Hs. wps. eapply (wp_then_env env w); [exact He|exact Hw|apply (p_close P); exact Hs|]. intros r w1 H3 H4. destruct (negb (r =? 0)); wps; apply Ret; auto. }
    destruct (state E w) eqn:Es; first [apply K; discriminate|wps; apply Ret; auto].
  - unfold api, call, tlsio_wolfssl_send. destruct h; [|wps; apply Ret; auto]. wps. cbn [state add_log]. destruct (state E w) eqn:Es; try (wps; apply Ret; auto; fail).
    unfold wolfSSL_write, wolf. wps. destruct (p_write P w b os osc Es Hw) as [H3 H4]. eapply wp_imp; [apply k_running; [exact H3|apply (z_write P); assumption]|]. intros x w1 [H5 H6]. wps. destruct (negb _); wps; apply Ret; auto; eapply (p_trans P); eassumption.
  - unfold api, call, tlsio_wolfssl_dowork. destruct h; [|wps; apply Ret; auto]. wps. cbn [state add_log].
    assert (K : state E w <> NOT_OPEN -> wp E I (bind E (decode_ssl_received_bytes E env loops loops) (fun _ => bind E (env QDowork) (fun _ => done E 0))) (fun r w' => wp E I (emit E (LReturn (ODowork true) r)) (fun _ w'' => I w'' /\ R w w'') w') (w +: LCall (ODowork true))).
    { intro Hs. wps. eapply wp_imp; [apply k_decode; [exact H1|apply (z_dowork P); assumption]|]. intros [] w1 [H3 H4]. wps. eapply wp_imp; [apply k_dowork; exact H3|]. intros r w2 [H5 H6]. wps. apply Ret; auto. eapply (p_trans P); [exact H2|]. eapply (p_trans P); eassumption. }
    destruct (state E w) eqn:Es; first [apply K; discriminate|wps; apply Ret; auto].
Qed.
Lemma k_acts : forall l, kept (acts E env loops l).
Proof.
  induction l as [|[e|o] l IH]; cbn [acts]; [apply kept_done| |]; (apply kept_bind; [|intros _; exact IH]); [apply k_handle|apply k_api].
Qed.
End Env.

Theorem frame : (forall env loops, env_ok E I R env -> open_ok env loops) -> forall f s al an l, I (initial E s al an) -> I (snd (run E f s al an l)).
Proof.
  intros Ho f s al an l. apply (run_ok E I R).
  - apply (p_trans P).
  - intros w l0 q a Hw. apply (p_answer P). exact Hw.
  - intros env n l0 w He Hw. exact (k_acts env He n (Ho env n He) l0 w Hw).
Qed.

(* open, when its pieces keep I and R too *)
Record open_pieces : Prop := {
  o_ask : forall w oo ooc ob obc oe oec, state E w = NOT_OPEN ->
    T w (set_state E (set_open_callbacks E (w +: LCall (OOpen true oo ooc ob obc oe oec)) oo ooc ob obc oe oec) OPENING_UNDERLYING_IO +: LAsk QOpen);
  o_known : forall w oo ooc ob obc oe oec, I w -> state E w = NOT_OPEN ->
    Zk (set_state E (set_open_callbacks E (w +: LCall (OOpen true oo ooc ob obc oe oec)) oo ooc ob obc oe oec) OPENING_UNDERLYING_IO +: LAsk QOpen);
  o_refused : forall w o, T w (set_state E w NOT_OPEN +: LReturn o 408);
  o_handshake : forall w, Zk w -> T w (set_state E w IN_HANDSHAKE);
  o_ret : forall w o r, T w (w +: LReturn o r)
}.
Lemma open_frame : open_pieces -> forall env loops, env_ok E I R env -> open_ok env loops.
Proof.
  intros O env loops He oo ooc ob obc oe oec w Hw Es. unfold api, call, tlsio_wolfssl_open. wps. cbn [state add_log]. rewrite Es. wps.
  destruct (o_ask O w oo ooc ob obc oe oec Es Hw) as [A1 A2]. pose proof (o_known O w oo ooc ob obc oe oec Hw Es) as A3.
  eapply wp_env; [exact He|exact A1|]. intros r w1 H1 H2'. assert (H2 : R w w1) by (eapply (p_trans P); eassumption). pose proof (z_keep P _ _ A3 H1 H2') as Hz.
  assert (Ret : forall w' o r, I w' -> R w w' -> I (w' +: LReturn o r) /\ R w (w' +: LReturn o r)).
  { intros w' o z H3 H4. destruct (o_ret O w' o z H3) as [H5 H6]. split; [exact H5|]. eapply (p_trans P); eassumption. }
  destruct (negb (r =? 0)).
  - wps. destruct (o_refused O w1 (OOpen true oo ooc ob obc oe oec) H1) as [H3 H4]. split; [exact H3|]. eapply (p_trans P); eassumption.
  - wps. destruct (o_handshake O w1 Hz H1) as [H3 H4]. eapply wp_imp; [apply (k_connect env He); [exact H3|eapply (z_keep P); eassumption]|]. intros z w2 [H5 H6]. destruct (negb (z =? 1)); wps; apply Ret; auto; (eapply (p_trans P); [exact H2|]; eapply (p_trans P); eassumption).
Qed.
End Frame.
