(* An io reports a successful open at most once in its life, however often it is opened. *)
From Verif Require Import Base TlsIo_Model TlsIo_Spec TlsIo_Logic TlsIo_Open.
Open Scope Z_scope.

Section Once.
Context (E : engine) (HE : stays_finished E).
Notation world := (world E).

Definition handshaking (s : tlsio_state) : nat := match s with IN_HANDSHAKE => 1 | _ => 0 end.
Definition Iok (w : world) : Prop := polite (log E w) ->
  (ok_completes (log E w) + handshaking (state E w) <= 1)%nat /\
  (ok_completes (log E w) = 1%nat -> e_finished E (ssl E w) = true).

Ltac contra :=
  match goal with
  | P : polite ?l, H : In (LAnswer _ ?a) ?l |- _ => pose proof (polite_in _ _ P H); cbn [polite_event] in *
  end;
  match goal with H : a_ret ?a = 0, H1 : negb (a_ret ?a =? 0) = true |- _ => rewrite H in H1; discriminate H1 end.

Ltac sol :=
  try match goal with H : env_ok _ _ _ |- _ => clear H end;
  unfold Iok in *;
  let P := fresh "P" in intros P;
  sim; pol; subst;
  try contra;
  try match goal with H : polite _ -> _ |- _ => specialize (H ltac:(eassumption)); destruct H as [? ?] end;
  unfold ok_completes in *;
  sim; rewrite ?count_snoc in *;
  repeat match goal with H : state E _ = _ |- _ => rewrite H in * end;
  cbn [handshaking] in *;
  repeat match goal with |- context[match state E ?w with _ => _ end] => destruct (state E w) end;
  repeat match goal with H : e_finished E _ = _ |- _ => rewrite H in * end;
  (split; [try lia | intro; try solve [ auto | lia | match goal with H : _ -> e_finished E _ = _ |- _ => apply H; lia end |
    first [ apply (sf_handshake E HE) | apply (sf_feed E HE) | apply (sf_read E HE) | apply (sf_write E HE) ];
    repeat match goal with H : _ -> e_finished E _ = _ |- _ => apply H end; lia ]]).

Section Code.
Context (env : ask -> C E Z) (Henv : env_ok E Iok env).

Lemma ok_decode n w : Iok w -> wp E Iok (decode_ssl_received_bytes E env n) (fun _ => Iok) w.
Proof.
  revert w; induction n; intros w H; cbn [decode_ssl_received_bytes]; unf; vc Henv; try solve [assumption | sol];
  apply IHn; (assumption || sol).
Qed.

Lemma ok_write w :
  Iok w ->
  wp E Iok (write_outgoing_bytes E env None None)
    (fun r w' => Iok w' /\ (r = 0 -> polite (log E w') -> state E w' = state E w /\ ssl E w' = ssl E w)) w.
Proof.
  intro H. unfold write_outgoing_bytes, BIO_ctrl_pending, BIO_read, alloc. vc Henv.
  - split; [assumption|auto].
  - split; [sol|discriminate].
  - split; [sol|discriminate].
  - sol.
  - split; [assumption|]. discriminate.
  - split; [assumption|]. intros _ P. subst r.
    match goal with H : In _ _ |- _ => pose proof (polite_in _ _ P H) as H9; cbn in H9 end.
    destruct H9 as [H9|H9].
    + match goal with H : a_actions _ = [] -> _ |- _ => rewrite (H H9) end. split; reflexivity.
    + apply Z.eqb_neq in H9. rewrite H9 in *. discriminate.
Qed.

Lemma ok_handshake w :
  Iok w -> state E w = IN_HANDSHAKE -> wp E Iok (send_handshake_bytes E env) (fun _ => Iok) w.
Proof.
  intros H Hs. unfold send_handshake_bytes, SSL_is_init_finished, SSL_do_handshake, indicate_open_complete.
  vc Henv; try solve [assumption | sol].
  eapply wp_imp; [apply ok_write; sol|]. cbn beta. intros r w1 [H1 H2].
  vc Henv; try solve [assumption | sol].
  - unfold Iok. intro P. exfalso. sim. pol.
    apply Bool.negb_false_iff in Ed1. apply Z.eqb_eq in Ed1. specialize (H2 Ed1 P). destruct H2 as [_ H9].
    rewrite H9 in *. congruence.
Qed.

Lemma ok_acts n l w : Iok w -> wp E Iok (acts E env n l) (fun _ => Iok) w.
Proof.
  revert w; induction l as [|[e|o] l IH]; intros w H; cbn [acts].
  - apply wp_done, H.
  - apply wp_bind. eapply wp_imp with (Q := fun _ => Iok); [|intros _ w'; apply IH].
    destruct e; unfe.
    + vc Henv; try solve [assumption | sol].
      eapply wp_imp; [apply ok_handshake; [sol|reflexivity]|]. intros r w1 H1. cbv beta.
      vc Henv; try solve [assumption | sol].
    + vc Henv; try solve [assumption | sol].
    + vc Henv; try solve [assumption | sol].
    + vc Henv; try solve [assumption | sol].
      * eapply wp_imp; [apply ok_handshake; [sol|sim; assumption]|]. intros r w1 H1. cbv beta.
        vc Henv; try solve [assumption | sol].
      * apply ok_decode. sol.
  - apply wp_bind. eapply wp_imp with (Q := fun _ => Iok); [|intros _ w'; apply IH].
    destruct o; unf; vc Henv; try solve [assumption | sol].
Qed.
End Code.

Theorem open_succeeds_at_most_once_in_a_life f s al an l :
  let h := log E (snd (run E f s al an l)) in
  polite h -> (ok_completes h <= 1)%nat.
Proof.
  assert (H : Iok (snd (run E f s al an l))).
  { apply run_ok.
    - intros w l0 q a H. sol.
    - intros; now apply ok_acts.
    - intros _. cbn. split; [lia|]. discriminate. }
  intros h P. destruct (H P) as [H1 _]. fold h in H1. lia.
Qed.
End Once.
