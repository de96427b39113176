(* Close-complete callbacks: what holds for every environment and every OpenSSL. *)
From Verif Require Import Base TlsIo_Model TlsIo_Spec TlsIo_Logic.
Open Scope Z_scope.

Section CloseComplete.
Context (E : engine).
Notation world := (world E).

Definition closing_with (w : world) (cb : nat) (ctx : pointer) : bool :=
  match state E w, on_close E w with
  | CLOSING, Some c => Nat.eqb c cb && same_pointer (on_close_ctx E w) ctx
  | _, _ => false
  end.
Definition Iclose (w : world) : Prop := forall cb ctx,
  (close_completes cb ctx (log E w) + (if closing_with w cb ctx then 1 else 0) <= close_calls cb ctx (log E w))%nat.

Ltac sol :=
  unfold Iclose, closing_with, close_completes, close_calls in *; let a := fresh in let b := fresh in intros a b;
  match goal with H : forall (cb : nat) (ctx : pointer), _ |- _ => specialize (H a b) end;
  sim; rewrite ?count_snoc; cbn [is_close_complete is_close_call];
  repeat match goal with H : state E _ = _ |- _ => rewrite H in * end;
  repeat match goal with H : on_close E _ = _ |- _ => rewrite H in * end;
  repeat match goal with |- context[if ?b then _ else _] => destruct b end;
  repeat match goal with H : context[if ?b then _ else _] |- _ => destruct b end;
  repeat match goal with |- context[match ?b with _ => _ end] => destruct b end;
  repeat match goal with H : context[match ?b with _ => _ end] |- _ => destruct b end;
  lia.

Section Code.
Context (env : ask -> C E Z) (Henv : env_ok E Iclose env).

Lemma close_decode n w : Iclose w -> wp E Iclose (decode_ssl_received_bytes E env n) (fun _ => Iclose) w.
Proof.
  revert w; induction n; intros w H; cbn [decode_ssl_received_bytes]; unf; vc Henv; try solve [assumption | sol];
  apply IHn; (assumption || sol).
Qed.

Lemma close_write p c w : Iclose w -> wp E Iclose (write_outgoing_bytes E env p c) (fun _ => Iclose) w.
Proof. intro H. unf. vc Henv; try solve [assumption | sol]. Qed.
Lemma close_handshake w : Iclose w -> wp E Iclose (send_handshake_bytes E env) (fun _ => Iclose) w.
Proof.
  intro H. unfold send_handshake_bytes, SSL_is_init_finished, SSL_do_handshake, indicate_open_complete.
  vc Henv; try solve [assumption | sol].
  eapply wp_imp; [apply close_write; sol|]. cbv beta. intros r w1 H1. vc Henv; try solve [assumption | sol].
Qed.

Lemma close_acts n l w : Iclose w -> wp E Iclose (acts E env n l) (fun _ => Iclose) w.
Proof.
  revert w; induction l as [|[e|o] l IH]; intros w H; cbn [acts].
  - apply wp_done, H.
  - apply wp_bind. eapply wp_imp with (Q := fun _ => Iclose); [|intros _ w'; apply IH].
    destruct e; unfe; vc Henv; try solve [assumption | sol];
    try (eapply wp_imp; [apply close_handshake; sol|]; cbv beta; intros r w1 H1; vc Henv; solve [assumption | sol]).
    apply close_decode; sol.
  - apply wp_bind. eapply wp_imp with (Q := fun _ => Iclose); [|intros _ w'; apply IH].
    destruct o; unf; vc Henv; try solve [assumption | sol].
Qed.
End Code.

Theorem close_complete_at_most_once_per_close f s al an l cb ctx :
  let h := log E (snd (run E f s al an l)) in
  (close_completes cb ctx h <= close_calls cb ctx h)%nat.
Proof.
  assert (H : Iclose (snd (run E f s al an l))).
  { apply run_ok.
    - intros w l0 q a H. sol.
    - intros; now apply close_acts.
    - intros c x. cbn. lia. }
  specialize (H cb ctx). cbn. lia.
Qed.

(* A send completion callback is passed on at most once per call of send *)
Definition Isent (w : world) : Prop := forall cb ctx,
  (sends_handed cb ctx (log E w) <= send_calls cb ctx (log E w))%nat.
Ltac sol2 :=
  unfold Isent, sends_handed, send_calls in *; let a := fresh in let b := fresh in intros a b;
  match goal with H : forall (cb : nat) (ctx : pointer), _ |- _ => specialize (H a b) end;
  sim; rewrite ?count_snoc; cbn [is_send_handed is_send_call];
  repeat match goal with |- context[if ?b then _ else _] => destruct b end;
  lia.
Section Code2.
Context (env : ask -> C E Z) (Henv : env_ok E Isent env).
Lemma sent_write w : Isent w -> wp E Isent (write_outgoing_bytes E env None None) (fun _ => Isent) w.
Proof. intro H. unf. vc Henv; try solve [assumption | sol2]. Qed.
Lemma sent_handshake w : Isent w -> wp E Isent (send_handshake_bytes E env) (fun _ => Isent) w.
Proof.
  intro H. unfold send_handshake_bytes, SSL_is_init_finished, SSL_do_handshake, indicate_open_complete.
  vc Henv; try solve [assumption | sol2].
  eapply wp_imp; [apply sent_write; sol2|]. cbv beta. intros r w1 H1. vc Henv; try solve [assumption | sol2].
Qed.
Lemma sent_decode n w : Isent w -> wp E Isent (decode_ssl_received_bytes E env n) (fun _ => Isent) w.
Proof.
  revert w; induction n; intros w H; cbn [decode_ssl_received_bytes]; unf; vc Henv; try solve [assumption | sol2];
  apply IHn; (assumption || sol2).
Qed.
Lemma sent_acts n l w : Isent w -> wp E Isent (acts E env n l) (fun _ => Isent) w.
Proof.
  revert w; induction l as [|[e|o] l IH]; intros w H; cbn [acts].
  - apply wp_done, H.
  - apply wp_bind. eapply wp_imp with (Q := fun _ => Isent); [|intros _ w'; apply IH].
    destruct e; unfe; vc Henv; try solve [assumption | sol2];
    try (eapply wp_imp; [apply sent_handshake; sol2|]; cbv beta; intros r w1 H1; vc Henv; solve [assumption | sol2]).
    apply sent_decode; sol2.
  - apply wp_bind. eapply wp_imp with (Q := fun _ => Isent); [|intros _ w'; apply IH].
    destruct o; unf; vc Henv; try solve [assumption | sol2].
Qed.
End Code2.

Theorem send_callback_passed_on_at_most_once_per_send f s al an l cb ctx :
  let h := log E (snd (run E f s al an l)) in
  (sends_handed cb ctx h <= send_calls cb ctx h)%nat.
Proof.
  assert (H : Isent (snd (run E f s al an l))).
  { apply run_ok.
    - intros w l0 q a H. sol2.
    - intros; now apply sent_acts.
    - intros c x. cbn. lia. }
  apply H.
Qed.

Lemma environment_asks f q v : grows (add_log E v (LAsk q)) (snd (environment E f q v)).
Proof.
  destruct f; cbn [environment]; unfold bind at 1; cbn [emit change].
  - apply grows_refl.
  - match goal with |- grows ?a (snd (?m ?a)) => assert (Hm : growing E m) end.
    { apply growing_bind; [apply growing_get|intro]. destruct (answers E a); [apply growing_cut|].
      apply growing_bind; [apply growing_change; reflexivity|intros _].
      apply growing_bind; [apply growing_emit|intros _].
      apply growing_bind; [apply g_acts, g_environment|intros _]. apply growing_done. }
    apply Hm.
Qed.

Lemma write_hands_everything_over f v onsent ctx w' :
  Z.of_nat (length (out_bio E v)) < 2147483648 -> out_bio E v <> [] ->
  write_outgoing_bytes E (environment E f) onsent ctx v = (Some 0, w') ->
  exists k, log E w' = log E v ++ LAsk (QSend (out_bio E v) onsent ctx) :: k.
Proof.
  intros Hlen Hne Hw.
  assert (Ht : to_int (Z.of_nat (length (out_bio E v))) = Z.of_nat (length (out_bio E v))).
  { unfold to_int. rewrite Z.mod_small by lia. destruct (Z.ltb_spec (Z.of_nat (length (out_bio E v))) 2147483648); lia. }
  unfold write_outgoing_bytes, BIO_ctrl_pending, alloc, BIO_read, bind, get, done, change in Hw.
  rewrite Ht in Hw.
  destruct (Z.leb_spec (Z.of_nat (length (out_bio E v))) 0) as [Hl|Hl].
  { destruct (out_bio E v); [contradiction|]. cbn in Hl. lia. }
  destruct (negb (hd true (allocs E v))); [discriminate|].
  cbn [out_bio set_allocs] in Hw.
  rewrite Nat2Z.id, firstn_all, Z.eqb_refl in Hw. cbn [negb] in Hw.
  match type of Hw with context[environment _ _ ?q ?v] => pose proof (environment_asks f q v) as Hg; destruct (environment E f q v) as [ [z|] v4] end; [|discriminate].
  assert (v4 = w') by (destruct (negb (z =? 0)); inversion Hw; reflexivity). subst v4.
  destruct Hg as [k Hk]. exists k. cbn [snd] in Hk. rewrite Hk. cbn. rewrite <- !app_assoc. reflexivity.
Qed.

(* A send that returns 0 while OpenSSL holds no more than an int can count: everything OpenSSL has
   written, this call's bytes last, goes to the underlying io in one xio_send with the caller's
   callback; the first thing the call does is SSL_write of exactly the caller's bytes. *)
Theorem send_hands_everything_over f w b onsent ctx r w' :
  (Z.of_nat (length (out_bio E w ++ snd (e_write E (ssl E w) b))) < 2147483648) ->
  out_bio E w ++ snd (e_write E (ssl E w) b) <> [] ->
  tlsio_openssl_send E (environment E f) b onsent ctx w = (Some r, w') -> r = 0 ->
  state E w = OPEN /\
  snd (fst (e_write E (ssl E w) b)) mod 18446744073709551616 = Z.of_nat (length b) /\
  exists k, log E w' = log E w ++ LPut (snd (e_write E (ssl E w) b)) :: LWrite b (snd (fst (e_write E (ssl E w) b)))
    :: LAsk (QSend (out_bio E w ++ snd (e_write E (ssl E w) b)) onsent ctx) :: k.
Proof.
  intros Hlen Hne H Hr. unfold tlsio_openssl_send in H. unfold bind at 1 in H. cbn [get] in H.
  destruct (state E w); try (inversion H; subst; discriminate).
  split; [reflexivity|].
  unfold SSL_write in H. unfold bind in H. cbn -[environment write_outgoing_bytes Z.modulo] in H.
  destruct (negb _) eqn:Hn in H; [inversion H; subst; discriminate|].
  apply Bool.negb_false_iff, Z.eqb_eq in Hn. split; [exact Hn|].
  match type of H with context[write_outgoing_bytes _ _ _ _ ?v] => set (v1 := v) in H end.
  destruct (write_outgoing_bytes E (environment E f) onsent ctx v1) as [ [z|] v2] eqn:Hw; [|discriminate].
  destruct (negb (z =? 0)) eqn:Hz; [inversion H; subst; discriminate|].
  apply Bool.negb_false_iff, Z.eqb_eq in Hz. subst z. inversion H; subst v2; clear H.
  apply write_hands_everything_over in Hw; [|exact Hlen|exact Hne].
  destruct Hw as [k Hk]. exists k. rewrite Hk. unfold v1. cbn. rewrite <- !app_assoc. reflexivity.
Qed.
End CloseComplete.
