(* A program logic for the computations of TlsIo_Model. *)
From Verif Require Import Base TlsIo_Model TlsIo_Spec.
Open Scope Z_scope.

(* the log only grows *)
Definition grows {E} (w w' : world E) : Prop := exists k, log E w' = log E w ++ k.
Lemma grows_refl {E} (w : world E) : grows w w.
Proof. exists []. now rewrite app_nil_r. Qed.
Lemma grows_trans {E} (a b c : world E) : grows a b -> grows b c -> grows a c.
Proof. intros [k H] [k' H']. exists (k ++ k'). now rewrite H', H, app_assoc. Qed.

Section Logic.
Context (E : engine).
Notation world := (world E).
Notation C := (C E).
Context (I : world -> Prop).

Definition wp {A} (m : C A) (Q : A -> world -> Prop) (w : world) : Prop :=
  match m w with (Some a, w') => Q a w' | (None, w') => I w' end.

Lemma wp_bind {A B} (m : C A) (f : A -> C B) (Q : B -> world -> Prop) w :
  wp m (fun a w' => wp (f a) Q w') w -> wp (bind E m f) Q w.
Proof. unfold wp, bind. destruct (m w) as [ [a|] w']; auto. Qed.
Lemma wp_done {A} (a : A) (Q : A -> world -> Prop) w : Q a w -> wp (done E a) Q w.
Proof. auto. Qed.
Lemma wp_cut {A} (Q : A -> world -> Prop) w : I w -> wp (cut E) Q w.
Proof. auto. Qed.
Lemma wp_get (Q : world -> world -> Prop) w : Q w w -> wp (get E) Q w.
Proof. auto. Qed.
Lemma wp_change f (Q : unit -> world -> Prop) w : Q tt (f w) -> wp (change E f) Q w.
Proof. auto. Qed.
Lemma wp_imp {A} (m : C A) (Q R : A -> world -> Prop) w :
  wp m Q w -> (forall a w', Q a w' -> R a w') -> wp m R w.
Proof. unfold wp. destruct (m w) as [ [a|] w']; auto. Qed.

(* what is known of the calls out *)
Definition after (w : world) (q : ask) (a : answer) (l : list answer) : world :=
  add_log E (set_answers E (add_log E w (LAsk q)) l) (LAnswer q a).
Definition env_ok (env : ask -> C Z) : Prop := forall q w,
  I (add_log E w (LAsk q)) ->
  wp (env q) (fun r w' => I w' /\ exists a l,
    r = a_ret a /\ In (LAnswer q a) (log E w') /\ (a_actions a = [] -> w' = after w q a l) /\ grows (add_log E w (LAsk q)) w') w.

Lemma wp_env env q (Q : Z -> world -> Prop) w :
  env_ok env -> I (add_log E w (LAsk q)) ->
  (forall r w' a l, I w' -> r = a_ret a -> In (LAnswer q a) (log E w') ->
     (a_actions a = [] -> w' = after w q a l) -> grows (add_log E w (LAsk q)) w' -> Q r w') ->
  wp (env q) Q w.
Proof.
  intros H H1 H2. eapply wp_imp; [apply H; exact H1|].
  cbn. intros r w' [H3 (a & l & -> & H4 & H5 & H6)]. eapply H2; eauto.
Qed.
End Logic.

Ltac wp1 :=
  cbv beta;
  lazymatch goal with
  | |- wp _ _ (bind _ _ _) _ _ => apply wp_bind
  | |- wp _ _ (done _ _) _ _ => apply wp_done
  | |- wp _ _ (cut _) _ _ => apply wp_cut
  | |- wp _ _ (get _) _ _ => apply wp_get
  | |- wp _ _ (change _ _) _ _ => apply wp_change
  | |- wp _ _ (emit _ _) _ _ => apply wp_change
  end.
Ltac wps := repeat wp1.

Section Grow.
Context (E : engine).
Notation C := (C E).
Definition growing {A} (m : C A) : Prop := forall w, grows w (snd (m w)).
Lemma growing_bind {A B} (m : C A) (f : A -> C B) : growing m -> (forall a, growing (f a)) -> growing (bind E m f).
Proof.
  intros H H1 w. specialize (H w). unfold bind. destruct (m w) as [ [a|] w']; cbn in *; [|exact H].
  eapply grows_trans; [exact H|apply H1].
Qed.
Lemma growing_done {A} (a : A) : growing (done E a).
Proof. intro w. apply grows_refl. Qed.
Lemma growing_cut {A} : growing (@cut E A).
Proof. intro w. apply grows_refl. Qed.
Lemma growing_get : growing (get E).
Proof. intro w. apply grows_refl. Qed.
Lemma growing_emit e : growing (emit E e).
Proof. intro w. exists [e]. reflexivity. Qed.
Lemma growing_change f : (forall w, log E (f w) = log E w) -> growing (change E f).
Proof. intros H w. exists []. cbn. now rewrite H, app_nil_r. Qed.

Ltac gr := repeat first
  [ apply growing_bind; [|intro]
  | apply growing_done | apply growing_cut | apply growing_get | apply growing_emit
  | apply growing_change; intro; reflexivity
  | assumption
  | match goal with |- growing (match ?x with _ => _ end) => destruct x end ].

Section Code.
Context (env : ask -> C Z) (Henv : forall q, growing (env q)).
Ltac g := repeat progress (gr; auto).
Lemma g_error : growing (indicate_error E env). Proof. unfold indicate_error. g. Qed.
Lemma g_complete ok : growing (indicate_open_complete E env ok). Proof. unfold indicate_open_complete. g. Qed.
Lemma g_write p c : growing (write_outgoing_bytes E env p c).
Proof. unfold write_outgoing_bytes, BIO_ctrl_pending, alloc, BIO_read. g. Qed.
Lemma g_handshake : growing (send_handshake_bytes E env).
Proof.
  unfold send_handshake_bytes, SSL_is_init_finished, SSL_do_handshake. g; auto using g_complete, g_write.
  all: g; auto using g_complete, g_write.
Qed.
Lemma g_close_complete : growing (on_underlying_io_close_complete E env).
Proof. unfold on_underlying_io_close_complete. g; auto using g_complete. Qed.
Lemma g_give_up : growing (give_up E env).
Proof. unfold give_up. g; auto using g_complete. Qed.
Lemma g_open_complete ok : growing (on_underlying_io_open_complete E env ok).
Proof.
  unfold on_underlying_io_open_complete, SSL_is_init_finished.
  g; auto using g_complete, g_give_up, g_handshake.
Qed.
Lemma g_io_error : growing (on_underlying_io_error E env).
Proof. unfold on_underlying_io_error. g; auto using g_complete, g_error. Qed.
Lemma g_decode n : growing (decode_ssl_received_bytes E env n).
Proof. induction n; cbn; unfold SSL_read; g. Qed.
Lemma g_bytes n b : growing (on_underlying_io_bytes_received E env n b).
Proof.
  unfold on_underlying_io_bytes_received, BIO_write_in.
  g; auto using g_error, g_give_up, g_handshake, g_decode.
Qed.
Lemma g_call o : growing (call E env o).
Proof.
  destruct o; cbn; unfold tlsio_openssl_open, tlsio_openssl_close, tlsio_openssl_send, tlsio_openssl_dowork, SSL_write;
  g; auto using g_write.
Qed.
Lemma g_handle n e : growing (handle E env n e).
Proof.
  unfold handle. apply growing_bind; [apply growing_emit|intros _].
  destruct e; auto using g_open_complete, g_close_complete, g_io_error, g_bytes.
Qed.
Lemma g_acts n l : growing (acts E env n l).
Proof.
  induction l as [|[e|o] l IH]; cbn [acts].
  - apply growing_done.
  - apply growing_bind; [apply g_handle|intros _; exact IH].
  - apply growing_bind; [|intros _; exact IH]. unfold api.
    apply growing_bind; [apply growing_emit|intros _]. apply growing_bind; [apply g_call|intro]. apply growing_emit.
Qed.
End Code.

Lemma g_environment f q : growing (environment E f q).
Proof.
  revert q; induction f; intro q; cbn; gr. apply g_acts, IHf.
Qed.
End Grow.

Section Environment.
Context (E : engine) (I : world E -> Prop).
Context (I_answer : forall w l q a, I w -> I (add_log E (set_answers E w l) (LAnswer q a))).
Context (I_acts : forall env n l w, env_ok E I env -> I w -> wp E I (acts E env n l) (fun _ => I) w).

Theorem environment_ok f : env_ok E I (environment E f).
Proof.
  induction f as [|f IH]; intros q w Hw; cbn [environment].
  - wps. apply Hw.
  - wps. cbn [answers add_log]. destruct (answers E w) as [|a l] eqn:Ha.
    + wps. apply Hw.
    + apply wp_bind, wp_change, wp_bind, wp_change, wp_bind.
      pose (w1 := after E w q a l).
      change (wp E I (acts E (environment E f) f (a_actions a))
        (fun _ w' => wp E I (done E (a_ret a))
          (fun r w'' => I w'' /\ (exists a0 l0, r = a_ret a0 /\ In (LAnswer q a0) (log E w'') /\ (a_actions a0 = [] -> w'' = after E w q a0 l0) /\ grows (add_log E w (LAsk q)) w'')) w') w1).
      assert (H1 : I w1) by (apply I_answer; exact Hw).
      pose proof (I_acts (environment E f) f (a_actions a) w1 IH H1) as H2.
      pose proof (g_acts E (environment E f) (g_environment E f) f (a_actions a) w1) as H3.
      unfold wp in *. destruct (acts E (environment E f) f (a_actions a) w1) as [ [[]|] w2] eqn:H4; [|exact H2].
      cbn in H3. cbn. split; [exact H2|]. exists a, l. split; [reflexivity|]. split.
      * destruct H3 as [k ->]. unfold w1, after. cbn. rewrite !in_app_iff; cbn; auto.
      * split; [intro H5; rewrite H5 in H4; cbn in H4; inversion H4; subst; reflexivity|].
        eapply grows_trans; [|exact H3]. exists [LAnswer q a]. reflexivity.
Qed.

Theorem run_ok f s al an l :
  I (initial E s al an) -> I (snd (run E f s al an l)).
Proof.
  intro H. pose proof (I_acts (environment E f) f l _ (environment_ok f) H) as H1.
  unfold run, wp in *. destruct (acts _ _ _ _ _) as [ [|] ?]; exact H1.
Qed.
End Environment.

Lemma count_snoc {A} (p : A -> bool) l x : count p (l ++ [x]) = (count p l + (if p x then 1 else 0))%nat.
Proof. unfold count. rewrite filter_app, app_length. cbn. destruct (p x); cbn; lia. Qed.

Ltac vc1 Henv :=
  lazymatch goal with
  | |- wp _ _ (match ?x with _ => _ end) _ _ => let Ed := fresh "Ed" in destruct x eqn:Ed
  | |- wp _ _ (?env ?q) _ _ =>
      lazymatch type of env with
      | ask -> _ => apply (wp_env _ _ _ _ _ _ Henv); [ | intros ]
      end
  end.
Ltac vc Henv := repeat (wp1 || vc1 Henv).
Ltac unf :=
  unfold handle, api, call, tlsio_openssl_open, tlsio_openssl_close, tlsio_openssl_send, tlsio_openssl_dowork,
    on_underlying_io_bytes_received, on_underlying_io_open_complete, on_underlying_io_close_complete, on_underlying_io_error,
    give_up, send_handshake_bytes, write_outgoing_bytes, indicate_error, indicate_open_complete,
    SSL_is_init_finished, SSL_do_handshake, BIO_write_in, SSL_read, SSL_write, BIO_ctrl_pending, BIO_read, alloc.
Ltac sim :=
  cbn [log state on_open on_open_ctx on_bytes on_bytes_ctx on_error on_error_ctx on_close on_close_ctx ssl out_bio
       add_log set_state set_ssl set_out set_allocs set_answers set_open_callbacks set_close_callback] in *.
(* the same without send_handshake_bytes *)
Ltac unfe :=
  unfold handle, api, call, tlsio_openssl_open, tlsio_openssl_close, tlsio_openssl_send, tlsio_openssl_dowork,
    on_underlying_io_bytes_received, on_underlying_io_open_complete, on_underlying_io_close_complete, on_underlying_io_error,
    give_up, indicate_error, indicate_open_complete,
    SSL_is_init_finished, BIO_write_in, SSL_write.
