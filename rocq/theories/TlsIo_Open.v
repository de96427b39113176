(* Open-complete callbacks: at most one per call of open, at most one success in a lifetime, and
   one for every open whose underlying open was reported on.  For every OpenSSL, every behaviour
   of the user (re-entrant or not) and every underlying io that is polite (TlsIo_Spec). *)
From Verif Require Import Base TlsIo_Model TlsIo_Spec TlsIo_Logic.
Open Scope Z_scope.

Lemma polite_snoc l e : polite (l ++ [e]) -> polite l /\ polite_event e.
Proof.
  unfold polite. rewrite Forall_app. intros [H H1]. inversion H1; auto.
Qed.
Lemma polite_in l e : polite l -> In e l -> polite_event e.
Proof. unfold polite. rewrite Forall_forall. auto. Qed.

Ltac pol :=
  repeat match goal with
  | H : polite (_ ++ [_]) |- _ => apply polite_snoc in H; destruct H as [H ?]
  end.

Section Open.
Context (E : engine).
Notation world := (world E).

Definition pending (s : tlsio_state) : bool :=
  match s with OPENING_UNDERLYING_IO | IN_HANDSHAKE => true | _ => false end.
Definition opening_with (w : world) (cb : nat) (ctx : pointer) : bool :=
  pending (state E w) &&
  match on_open E w with Some c => Nat.eqb c cb && same_pointer (on_open_ctx E w) ctx | None => false end.
Definition Iopen (w : world) : Prop := polite (log E w) -> forall cb ctx,
  (open_completes cb ctx (log E w) + (if opening_with w cb ctx then 1 else 0) <= open_calls cb ctx (log E w))%nat.

Ltac contra :=
  match goal with
  | P : polite ?l, H : In (LAnswer _ ?a) ?l |- _ => pose proof (polite_in _ _ P H); cbn [polite_event] in *
  end;
  match goal with H : a_ret ?a = 0, H1 : negb (a_ret ?a =? 0) = true |- _ => rewrite H in H1; discriminate H1 end.

Ltac sol :=
  unfold Iopen in *;
  let P := fresh "P" in let a := fresh "cb" in let b := fresh "ctx" in intros P a b;
  sim; pol; subst;
  try contra;
  try match goal with H : polite _ -> _ |- _ => specialize (H ltac:(eassumption) a b) end;
  unfold opening_with, open_completes, open_calls in *;
  sim; rewrite ?count_snoc in *; cbn [is_open_complete is_open_call] in *;
  repeat match goal with H : state E _ = _ |- _ => rewrite H in * end;
  repeat match goal with H : on_open E _ = _ |- _ => rewrite H in * end;
  cbn [pending andb] in *;
  try contradiction;
  repeat match goal with |- context[if ?b then _ else _] => destruct b end;
  repeat match goal with H : context[if ?b then _ else _] |- _ => destruct b end;
  repeat match goal with |- context[match ?b with _ => _ end] => destruct b end;
  repeat match goal with H : context[match ?b with _ => _ end] |- _ => destruct b end;
  lia.

Section Code.
Context (env : ask -> C E Z) (Henv : env_ok E Iopen env).

Lemma open_decode n w : Iopen w -> wp E Iopen (decode_ssl_received_bytes E env n) (fun _ => Iopen) w.
Proof.
  revert w; induction n; intros w H; cbn [decode_ssl_received_bytes]; unf; vc Henv; try solve [assumption | sol];
  apply IHn; (assumption || sol).
Qed.

Lemma open_give_up w : Iopen w -> wp E Iopen (give_up E env) (fun _ => Iopen) w.
Proof. intro H. unf. vc Henv; try solve [assumption | sol]. Qed.

Lemma open_write w :
  Iopen w ->
  wp E Iopen (write_outgoing_bytes E env None None)
    (fun r w' => Iopen w' /\ (r = 0 -> polite (log E w') -> state E w' = state E w /\ ssl E w' = ssl E w)) w.
Proof.
  intro H. unfold write_outgoing_bytes, BIO_ctrl_pending, BIO_read, alloc. vc Henv.
  - split; [assumption|auto].
  - split; [sol|discriminate].
  - split; [sol|discriminate].
  - sol.
  - split; [assumption|]. discriminate.
  - split; [assumption|]. intros _ P. subst r.
    match goal with H : In _ _ |- _ => pose proof (polite_in _ _ P H) as H9; cbn in H9 end.
    destruct H9 as [H9|H9].
    + match goal with H : a_actions _ = [] -> _ |- _ => rewrite (H H9) end. split; reflexivity.
    + apply Z.eqb_neq in H9. rewrite H9 in *. discriminate.
Qed.

Lemma open_handshake w :
  Iopen w -> state E w = IN_HANDSHAKE -> wp E Iopen (send_handshake_bytes E env) (fun _ => Iopen) w.
Proof.
  intros H Hs. unfold send_handshake_bytes, SSL_is_init_finished, SSL_do_handshake, indicate_open_complete.
  vc Henv; try solve [assumption | sol].
  eapply wp_imp; [apply open_write; sol|]. cbn beta. intros r w1 [H1 H2].
  vc Henv; try solve [assumption | sol].
  unfold Iopen. intro P. exfalso. sim. pol.
  apply Bool.negb_false_iff in Ed1. apply Z.eqb_eq in Ed1. specialize (H2 Ed1 P). destruct H2 as [_ H9].
  rewrite H9 in *. congruence.
Qed.

Lemma open_acts n l w : Iopen w -> wp E Iopen (acts E env n l) (fun _ => Iopen) w.
Proof.
  revert w; induction l as [|[e|o] l IH]; intros w H; cbn [acts].
  - apply wp_done, H.
  - apply wp_bind. eapply wp_imp with (Q := fun _ => Iopen); [|intros _ w'; apply IH].
    destruct e; unfe.
    + vc Henv; try solve [assumption | sol].
      eapply wp_imp; [apply open_handshake; [sol|reflexivity]|]. intros r w1 H1. cbv beta.
      vc Henv; try solve [assumption | sol].
    + vc Henv; try solve [assumption | sol].
    + vc Henv; try solve [assumption | sol].
    + vc Henv; try solve [assumption | sol].
      * eapply wp_imp; [apply open_handshake; [sol|sim; assumption]|]. intros r w1 H1. cbv beta.
        vc Henv; try solve [assumption | sol].
      * apply open_decode. sol.
  - apply wp_bind. eapply wp_imp with (Q := fun _ => Iopen); [|intros _ w'; apply IH].
    destruct o; unf; vc Henv; try solve [assumption | sol].
Qed.
End Code.

(* C61 *)
Theorem open_complete_at_most_once_per_open_partial f s al an l cb ctx :
  let h := log E (snd (run E f s al an l)) in
  polite h ->
  (open_completes cb ctx h <= open_calls cb ctx h)%nat.
Proof.
  assert (H : Iopen (snd (run E f s al an l))).
  { apply run_ok.
    - intros w l0 q a H. sol.
    - intros; now apply open_acts.
    - intros _ c x. cbn. lia. }
  intros h P. specialize (H P cb ctx). cbn in *. fold h. fold h in H. lia.
Qed.
End Open.
