(* A program logic for the computations of WolfIo_Model: an invariant I of the world, kept at every
   call out, and a preorder R kept by every completed call. *)
From Verif Require Import Base WolfIo_Model WolfIo_Spec.
Open Scope Z_scope.

Section Logic.
Context (E : engine).
Notation world := (world E).
Notation C := (C E).
Context (I : world -> Prop) (R : world -> world -> Prop).

Definition wp {A} (m : C A) (Q : A -> world -> Prop) (w : world) : Prop :=
  match m w with (Some a, w') => Q a w' | (None, w') => I w' end.

Lemma wp_bind {A B} (m : C A) (f : A -> C B) (Q : B -> world -> Prop) w :
  wp m (fun a w' => wp (f a) Q w') w -> wp (bind E m f) Q w.
Proof. unfold wp, bind. destruct (m w) as [ [a|] w']; auto. Qed.
Lemma wp_done {A} (a : A) (Q : A -> world -> Prop) w : Q a w -> wp (done E a) Q w.
Proof. auto. Qed.
Lemma wp_cut {A} (Q : A -> world -> Prop) w : I w -> wp (cut E) Q w.
Proof. auto. Qed.
Lemma wp_get (Q : world -> world -> Prop) w : Q w w -> wp (get E) Q w.
Proof. auto. Qed.
Lemma wp_change f (Q : unit -> world -> Prop) w : Q tt (f w) -> wp (change E f) Q w.
Proof. auto. Qed.
Lemma wp_imp {A} (m : C A) (Q S : A -> world -> Prop) w :
  wp m Q w -> (forall a w', Q a w' -> S a w') -> wp m S w.
Proof. unfold wp. destruct (m w) as [ [a|] w']; auto. Qed.

Definition env_ok (env : ask -> C Z) : Prop := forall q w,
  I (add_log E w (LAsk q)) ->
  wp (env q) (fun _ w' => I w' /\ R (add_log E w (LAsk q)) w') w.

Lemma wp_env env q (Q : Z -> world -> Prop) w :
  env_ok env -> I (add_log E w (LAsk q)) -> (forall r w', I w' -> R (add_log E w (LAsk q)) w' -> Q r w') -> wp (env q) Q w.
Proof. intros H H1 H2. eapply wp_imp; [apply H; exact H1|]. cbn. intros r w' [H3 H4]. auto. Qed.
End Logic.

Ltac wp1 :=
  cbv beta;
  lazymatch goal with
  | |- wp _ _ (bind _ _ _) _ _ => apply wp_bind
  | |- wp _ _ (done _ _) _ _ => apply wp_done
  | |- wp _ _ (cut _) _ _ => apply wp_cut
  | |- wp _ _ (get _) _ _ => apply wp_get
  | |- wp _ _ (change _ _) _ _ => apply wp_change
  | |- wp _ _ (emit _ _) _ _ => apply wp_change
  end.
Ltac wps := repeat wp1.

Section Environment.
Context (E : engine) (I : world E -> Prop) (R : world E -> world E -> Prop).
Context (R_trans : forall a b c, R a b -> R b c -> R a c).
Context (I_answer : forall w l q a, I w -> I (add_log E (set_answers E w l) (LAnswer q a)) /\ R w (add_log E (set_answers E w l) (LAnswer q a))).
Context (I_acts : forall env n l w, env_ok E I R env -> I w -> wp E I (acts E env n l) (fun _ w' => I w' /\ R w w') w).

Theorem environment_ok f : env_ok E I R (environment E f).
Proof.
  induction f as [|f IH]; intros q w Hw; cbn [environment].
  - wps. apply Hw.
  - wps. cbn [answers add_log]. destruct (answers E w) as [|a l] eqn:Ha.
    + wps. apply Hw.
    + apply wp_bind, wp_change, wp_bind, wp_change, wp_bind.
      destruct (I_answer _ l q a Hw) as [H1 H2].
      eapply wp_imp; [exact (I_acts (environment E f) f (a_actions a) _ IH H1)|].
      intros [] w' [H3 H4]. apply wp_done. split; [exact H3|]. eapply R_trans; [exact H2|exact H4].
Qed.
Theorem run_ok f s al an l : I (initial E s al an) -> I (snd (run E f s al an l)).
Proof.
  intro H. pose proof (I_acts (environment E f) f l _ (environment_ok f) H) as H1.
  unfold run, wp in *. destruct (acts _ _ _ _ _) as [ [|] ?]; [apply H1|exact H1].
Qed.
End Environment.

(* For invariants without a relation, it is enough to look at each step. *)
Section Plain.
Context (E : engine) (I : world E -> Prop).
Definition anyR (_ _ : world E) : Prop := True.
Definition keeps {A} (m : C E A) : Prop := forall w, I w -> wp E I m (fun _ w' => I w') w.
Lemma keeps_bind {A B} (m : C E A) (f : A -> C E B) : keeps m -> (forall a, keeps (f a)) -> keeps (bind E m f).
Proof. intros H1 H2 w Hw. apply wp_bind. eapply wp_imp; [apply H1; exact Hw|]. cbn. intros a w' H. apply H2. exact H. Qed.
Lemma keeps_done {A} (a : A) : keeps (done E a). Proof. intros w H. exact H. Qed.
Lemma keeps_cut {A} : keeps (@cut E A). Proof. intros w H. exact H. Qed.
Lemma keeps_get : keeps (get E). Proof. intros w H. exact H. Qed.
Lemma keeps_change f : (forall w, I w -> I (f w)) -> keeps (change E f).
Proof. intros H w Hw. apply wp_change. auto. Qed.
Lemma keeps_env env q : env_ok E I anyR env -> (forall w, I w -> I (add_log E w (LAsk q))) -> keeps (env q).
Proof. intros H1 H2 w Hw. eapply wp_env; [exact H1|auto|auto]. Qed.
End Plain.

Lemma count_snoc {A} (p : A -> bool) l x : count p (l ++ [x]) = (count p l + (if p x then 1 else 0))%nat.
Proof. unfold count. rewrite filter_app, app_length. cbn. destruct (p x); cbn; lia. Qed.
Ltac vc1 Henv :=
  lazymatch goal with
  | |- wp _ _ (match ?x with _ => _ end) _ _ => let Ed := fresh "Ed" in destruct x eqn:Ed
  | |- wp _ _ (?env ?q) _ _ =>
      lazymatch type of env with
      | ask -> _ => eapply (wp_env _ _ _ _ _ _ _ Henv); [ | intros ]
      end
  end.
Ltac vc Henv := repeat (wp1 || vc1 Henv).
Ltac sim :=
  cbn [log state on_open on_open_ctx on_bytes on_bytes_ctx on_error on_error_ctx on_close on_close_ctx on_sent on_sent_ctx ssl rbytes answers allocs
       add_log set_state set_ssl set_rbytes set_allocs set_answers set_open_callbacks set_close_callback set_send_callback] in *.
