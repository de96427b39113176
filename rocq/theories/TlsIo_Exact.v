(* A reported open is completed: exactly one callback. *)
From Verif Require Import Base TlsIo_Model TlsIo_Spec TlsIo_Logic TlsIo_Open.
Open Scope Z_scope.

Lemma good_snoc l e : good (l ++ [e]) -> good l /\ good_event e.
Proof. unfold good. rewrite Forall_app. intros [H H1]. inversion H1; auto. Qed.
Lemma good_in l e : good l -> In e l -> good_event e.
Proof. unfold good. rewrite Forall_forall. auto. Qed.
Lemma good_polite l : good l -> polite l.
Proof. unfold good, polite. apply Forall_impl. intros e H. apply H. Qed.
Lemma good_app l k : good (l ++ k) -> good l.
Proof. unfold good. rewrite Forall_app. tauto. Qed.

Ltac gd :=
  repeat match goal with
  | H : good (_ ++ [_]) |- _ => apply good_snoc in H; destruct H as [H ?]
  end.

Section Exact.
Context (E : engine).
Notation world := (world E).

Definition Iexact (w : world) : Prop := good (log E w) -> forall cb ctx,
  (open_calls cb ctx (log E w) <= open_completes cb ctx (log E w) + (if opening_with E w cb ctx then 1 else 0))%nat.

Ltac contra :=
  match goal with
  | P : good ?l, H : In (LAnswer _ ?a) ?l |- _ => pose proof (good_in _ _ P H); unfold good_event in *; cbn [polite_event] in *
  end;
  match goal with H : a_ret ?a = 0 /\ _, H1 : negb (a_ret ?a =? 0) = true |- _ => rewrite (proj1 H) in H1; discriminate H1 end.

Ltac sol :=
  try match goal with H : env_ok _ _ _ |- _ => clear H end;
  unfold Iexact in *;
  let P := fresh "P" in let a := fresh "cb" in let b := fresh "ctx" in intros P a b;
  sim; gd; subst;
  try contra;
  try match goal with H : good _ -> _ |- _ => specialize (H ltac:(eassumption) a b) end;
  unfold opening_with, open_completes, open_calls in *;
  sim; rewrite ?count_snoc in *; cbn [is_open_complete is_open_call] in *;
  repeat match goal with H : state E _ = _ |- _ => rewrite H in * end;
  repeat match goal with H : on_open E _ = _ |- _ => rewrite H in * end;
  unfold good_event in *; cbn [pending andb not_closing takes_bytes accepted] in *;
  repeat match goal with H : _ /\ _ |- _ => destruct H end;
  try contradiction; try discriminate;
  repeat match goal with |- context[if ?b then _ else _] => destruct b end;
  repeat match goal with H : context[if ?b then _ else _] |- _ => destruct b end;
  repeat match goal with |- context[match ?b with _ => _ end] => destruct b end;
  repeat match goal with H : context[match ?b with _ => _ end] |- _ => destruct b end;
  cbn [negb] in *;
  solve [lia | congruence].

Section Code.
Context (env : ask -> C E Z) (Henv : env_ok E Iexact env).

Lemma exact_decode n w : Iexact w -> wp E Iexact (decode_ssl_received_bytes E env n) (fun _ => Iexact) w.
Proof.
  revert w; induction n; intros w H; cbn [decode_ssl_received_bytes]; unf; vc Henv; try solve [assumption | sol];
  apply IHn; (assumption || sol).
Qed.

Lemma exact_write w :
  Iexact w ->
  wp E Iexact (write_outgoing_bytes E env None None)
    (fun r w' => Iexact w' /\ (r = 0 -> good (log E w') -> state E w' = state E w /\ ssl E w' = ssl E w)) w.
Proof.
  intro H. unfold write_outgoing_bytes, BIO_ctrl_pending, BIO_read, alloc. vc Henv.
  - split; [assumption|auto].
  - split; [sol|discriminate].
  - split; [sol|discriminate].
  - sol.
  - split; [assumption|]. discriminate.
  - split; [assumption|]. intros _ P. subst r.
    match goal with H : In _ _ |- _ => pose proof (proj1 (good_in _ _ P H)) as H9; cbn in H9 end.
    destruct H9 as [H9|H9].
    + match goal with H : a_actions _ = [] -> _ |- _ => rewrite (H H9) end. split; reflexivity.
    + apply Z.eqb_neq in H9. rewrite H9 in *. discriminate.
Qed.

Lemma exact_handshake w :
  Iexact w -> state E w = IN_HANDSHAKE -> wp E Iexact (send_handshake_bytes E env) (fun _ => Iexact) w.
Proof.
  intros H Hs. unfold send_handshake_bytes, SSL_is_init_finished, SSL_do_handshake, indicate_open_complete.
  vc Henv; try solve [assumption | sol].
  eapply wp_imp; [apply exact_write; sol|]. cbn beta. intros r w1 [H1 H2].
  vc Henv; try solve [assumption | sol];
  (unfold Iexact; intro P; exfalso; sim; gd;
   apply Bool.negb_false_iff in Ed1; apply Z.eqb_eq in Ed1; specialize (H2 Ed1 P); destruct H2 as [_ H9];
   rewrite H9 in *; congruence).
Qed.

Lemma exact_handle n e w : Iexact w -> wp E Iexact (handle E env n e) (fun _ => Iexact) w.
Proof.
  intro H. destruct e; unfe.
  - vc Henv; try solve [assumption | sol].
    eapply wp_imp; [apply exact_handshake; [sol|reflexivity]|]. intros r w1 H1. cbv beta.
    vc Henv; try solve [assumption | sol].
  - vc Henv; try solve [assumption | sol].
  - vc Henv; try solve [assumption | sol].
  - vc Henv; try solve [assumption | sol].
    + eapply wp_imp; [apply exact_handshake; [sol|sim; assumption]|]. intros r w1 H1. cbv beta.
      vc Henv; try solve [assumption | sol].
    + apply exact_decode. sol.
Qed.

Lemma exact_acts n l w : Iexact w -> wp E Iexact (acts E env n l) (fun _ => Iexact) w.
Proof.
  revert w; induction l as [|[e|o] l IH]; intros w H; cbn [acts].
  - apply wp_done, H.
  - apply wp_bind. eapply wp_imp with (Q := fun _ => Iexact); [|intros _ w'; apply IH].
    now apply exact_handle.
  - apply wp_bind. eapply wp_imp with (Q := fun _ => Iexact); [|intros _ w'; apply IH].
    destruct o; unf; vc Henv; try solve [assumption | sol].
Qed.
End Code.

Lemma run_exact f s al an l : Iexact (snd (run E f s al an l)).
Proof.
  apply run_ok.
  - intros w l0 q a H. sol.
  - intros; now apply exact_acts.
  - intros _ c x. cbn. lia.
Qed.

Lemma count_app {A} (p : A -> bool) l k : count p (l ++ k) = (count p l + count p k)%nat.
Proof. unfold count. now rewrite filter_app, app_length. Qed.

(* the event reaches the user: the callback is made at once *)
Lemma report_completes f e w o w' cb ctx :
  e = UError \/ e = UClosed -> opening_with E w cb ctx = true ->
  handle E (environment E f) f e w = (o, w') ->
  (open_completes cb ctx (log E w) < open_completes cb ctx (log E w'))%nat.
Proof.
  intros He Ho H.
  assert (G : exists k, log E w' = (log E w ++ [LEvent e; LAsk (QOpenComplete cb ctx false)]) ++ k).
  { unfold opening_with in Ho. apply andb_prop in Ho. destruct Ho as [Hp Ho].
    destruct (on_open E w) as [c|] eqn:Hc; [|discriminate]. apply andb_prop in Ho. destruct Ho as [Ha Hb].
    apply Nat.eqb_eq in Ha. subst c.
    assert (Hx : on_open_ctx E w = ctx).
    { destruct (on_open_ctx E w), ctx; cbn in Hb; try discriminate; [apply Nat.eqb_eq in Hb; now subst|reflexivity]. }
    assert (H1 : grows (add_log E (add_log E (set_state E w NOT_OPEN) (LEvent e)) (LAsk (QOpenComplete cb ctx false))) w').
    { assert (H2 : w' = snd (bind E (environment E f (QOpenComplete cb ctx false)) (fun _ => done E tt)
                         (add_log E (set_state E w NOT_OPEN) (LEvent e)))).
      { destruct He as [-> | ->];
        unfold handle, on_underlying_io_error, on_underlying_io_close_complete, indicate_open_complete in H;
        cbn -[environment] in H; destruct (state E w) eqn:Hst; try discriminate Hp; cbn -[environment] in H;
        rewrite Hc, ?Hx in H; cbn -[environment] in H;
        unfold bind in H |- *; unfold set_state, add_log in H |- *; cbn -[environment] in H |- *;
        rewrite ?Hc, ?Hx in H; rewrite ?Hc, ?Hx; rewrite H; reflexivity. }
      rewrite H2. unfold bind.
      set (v := add_log E (set_state E w NOT_OPEN) (LEvent e)).
      assert (H3 : grows (add_log E v (LAsk (QOpenComplete cb ctx false))) (snd (environment E f (QOpenComplete cb ctx false) v))).
      { destruct f; cbn [environment]; unfold bind at 1; cbn [emit change].
        - apply grows_refl.
        - match goal with |- grows ?a (snd (?m ?a)) => assert (Hm : growing E m) end.
          { apply growing_bind; [apply growing_get|intro]. destruct (answers E a); [apply growing_cut|].
            apply growing_bind; [apply growing_change; reflexivity|intros _].
            apply growing_bind; [apply growing_emit|intros _].
            apply growing_bind; [apply g_acts, g_environment|intros _]. apply growing_done. }
          apply Hm. }
      destruct (environment E f (QOpenComplete cb ctx false) v) as [ [|] ?]; exact H3. }
    destruct H1 as [k Hk]. exists k. rewrite Hk. cbn. now rewrite <- !app_assoc. }
  destruct G as [k ->]. unfold open_completes. rewrite !count_app. cbn. 
  rewrite Nat.eqb_refl.
  replace (same_pointer ctx ctx) with true by (destruct ctx; cbn; [now rewrite Nat.eqb_refl|reflexivity]).
  cbn. lia.
Qed.

(* C61: when the underlying io reports an error (or that it is closed), every open made so far has
   had its callback, exactly once *)
Theorem reported_open_completes_exactly_once f s al an l w e o w' cb ctx :
  run E f s al an l = (Some tt, w) ->
  handle E (environment E f) f e w = (o, w') ->
  e = UError \/ e = UClosed ->
  good (log E w') ->
  open_calls cb ctx (log E w') = open_calls cb ctx (log E w) ->
  open_completes cb ctx (log E w') = open_calls cb ctx (log E w).
Proof.
  intros Hr Hh He Hg Hn.
  assert (Hgr : grows w w').
  { pose proof (g_handle E _ (g_environment E f) f e w) as G. now rewrite Hh in G. }
  assert (G0 : good (log E w)) by (destruct Hgr as [k Hk]; rewrite Hk in Hg; eauto using good_app).
  assert (H1 : Iexact w) by (pose proof (run_exact f s al an l) as H; now rewrite Hr in H).
  specialize (H1 G0 cb ctx).
  assert (H2 : (open_completes cb ctx (log E w') <= open_calls cb ctx (log E w'))%nat).
  { pose proof (open_complete_at_most_once_per_open_partial E f s al an (l ++ [AEvent e]) cb ctx) as H2.
    assert (H3 : snd (run E f s al an (l ++ [AEvent e])) = w').
    { unfold run in *.
      assert (Happ : forall a b v, acts E (environment E f) f (a ++ b) v =
        bind E (acts E (environment E f) f a) (fun _ => acts E (environment E f) f b) v).
      { induction a as [|[x|x] a IH]; intros b v; [reflexivity| |];
        cbn [app acts]; unfold bind at 1 2 3;
        match goal with |- context[match ?m with _ => _ end] => destruct m as [ [|] ?] end; try reflexivity; apply IH. }
      rewrite Happ. unfold bind. rewrite Hr. cbn [acts]. unfold bind. rewrite Hh. destruct o; reflexivity. }
    rewrite H3 in H2. apply H2, good_polite, Hg. }
  destruct (opening_with E w cb ctx) eqn:Ho.
  - pose proof (report_completes f e w o w' cb ctx He Ho Hh). lia.
  - destruct Hgr as [k Hk]. rewrite Hk in *. unfold open_completes in *. rewrite count_app in *. lia.
Qed.
End Exact.
