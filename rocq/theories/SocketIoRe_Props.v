(* C93: re-entrant use of the socket io is memory safe when the rules are kept, and not otherwise. *)
From Verif Require Import Base SocketIo_Model SocketIo_Spec SocketIoRe_Model SocketIoRe_Spec.
Open Scope Z_scope.

Definition of_dowork (f : frame) : bool := match f with InWorkSent _ _ | InWorkFailed _ | InWorkBytes _ => true | _ => false end.
Fixpoint ordered (l : list frame) : Prop :=
  match l with [] => True | f :: t => (of_dowork f = true -> existsb work_completion t = false) /\ ordered t end.
Definition holds (x : rio) (s : st) : Prop :=
  NoDup (items x) /\ (forall i, In i (items x) <-> entries s i <> None) /\ (forall i, In i (items x) -> (i < fresh_id s)%nat) /\
  (forall n i, In (InWorkSent n i) (stack s) -> hd_error (items x) = Some i) /\
  ordered (stack s) /\
  match at_ s with
  | User => True
  | Sending _ => items x <> [] /\ existsb work_completion (stack s) = false
  | Receiving _ => existsb work_completion (stack s) = false
  end.
Definition J (s : st) : Prop :=
  match inst s with
  | Some x => holds x s /\ existsb is_destroy (out s) = false
  | None => existsb is_destroy (out s) = true /\ forallb last_act (stack s) = true /\ at_ s = User /\ forall i, entries s i = None
  end.

Lemma no_work_in l n i : existsb work_completion l = false -> ~ In (InWorkSent n i) l.
Proof. induction l as [|f l IH]; [intros _ []|]. cbn. intros H [->|C]; [discriminate|]. apply orb_false_iff in H. apply IH in C; tauto. Qed.
(* states that differ only where the invariant does not look *)
Lemma existsb_app_false {A} (f : A -> bool) a b : existsb f a = false -> existsb f b = false -> existsb f (a ++ b) = false.
Proof. intros H1 H2. rewrite existsb_app, H1, H2. reflexivity. Qed.

Lemma J_finish x s n r : holds x (goto s User) -> inst s = Some x -> existsb is_destroy (out s) = false -> exists s', finish s n r = Ok s' /\ J s'.
Proof.
  intros H E Hd. eexists. split; [reflexivity|]. unfold J. cbn. rewrite E. split; [exact H|]. apply existsb_app_false; [exact Hd|reflexivity].
Qed.
Lemma J_loop x s n : holds x (goto s User) -> inst s = Some x -> existsb is_destroy (out s) = false -> existsb work_completion (stack s) = false -> exists s', loop_head s n = Ok s' /\ J s'.
Proof.
  intros (H1 & H2 & H3 & H4 & H5 & _) E Hd Hw. unfold loop_head. rewrite E. eexists. split; [reflexivity|]. unfold J. cbn. rewrite E. split; [|exact Hd].
  unfold holds. cbn. repeat (split; [assumption|]). destruct (items x); [exact Hw|]. split; [discriminate|exact Hw].
Qed.
Lemma J_push x s f e : holds x (goto s User) -> inst s = Some x -> existsb is_destroy (out s) = false ->
  (forall n i, f = InWorkSent n i -> hd_error (items x) = Some i) -> (of_dowork f = true -> existsb work_completion (stack s) = false) -> J (push_frame (see s [Did e]) f).
Proof.
  intros (H1 & H2 & H3 & H4 & H5 & _) E Hd Hf Hg. unfold J. cbn. rewrite E. split; [|apply existsb_app_false; [exact Hd|reflexivity]].
  unfold holds. cbn. repeat (split; [assumption|]). split; [|auto].
  intros n i [->|Hi]; [apply (Hf n i eq_refl)|eapply H4; exact Hi].
Qed.
Lemma J_raise x s f next : holds x (goto s User) -> inst s = Some x -> existsb is_destroy (out s) = false -> work_completion f = false -> (of_dowork f = true -> existsb work_completion (stack s) = false) ->
  (exists s', next s = Ok s' /\ J s') -> exists s', raise s x f next = Ok s' /\ J s'.
Proof.
  intros H E Hd Hf Hg Hn. unfold raise. destruct (on_error (core x)) as [c|]; [|exact Hn]. eexists. split; [reflexivity|]. apply J_push with (x := x); auto. intros n i ->. discriminate.
Qed.
Lemma holds_core c s x : holds x s -> holds {| core := c; items := items x |} s.
Proof. intros H. exact H. Qed.
Lemma remove_first_head i l : remove_first i (i :: l) = l.
Proof. cbn. rewrite Nat.eqb_refl. reflexivity. Qed.
(* the head of the list is freed and removed *)
Lemma holds_drop c s i rest : holds {| core := c; items := i :: rest |} (goto s User) -> existsb work_completion (stack s) = false ->
  forall c', holds {| core := c'; items := rest |} (goto (set_entry s i None) User).
Proof.
  intros (H1 & H2 & H3 & H4 & H5 & _) Hw c'. unfold holds in *. cbn in *. inversion H1; subst. split; [assumption|]. split.
  - intros k. destruct (k =? i)%nat eqn:Ek; [apply Nat.eqb_eq in Ek; subst; split; [intros; contradiction|congruence]|]. apply Nat.eqb_neq in Ek. rewrite <- H2. split; [tauto|]. intros [->|C]; [congruence|exact C].
  - split; [auto|]. split; [|split; [exact H5|exact I]]. intros n k Hk. exfalso. eapply no_work_in; eassumption.
Qed.
Lemma J_resume logging f s x : inst s = Some x -> holds x (goto s User) -> existsb is_destroy (out s) = false ->
  (last_act f = false -> match f with InWorkSent n i => hd_error (items x) = Some i | _ => True end /\ (match f with InSent _ => True | _ => existsb work_completion (stack s) = false end)) ->
  exists s', resume logging f s = Ok s' /\ J s'.
Proof.
  intros E H Hd Hf. destruct f as [n|n|n|n|n i|n|n]; cbn [resume].
  - apply J_finish with (x := x); auto.
  - apply J_finish with (x := x); auto.
  - unfold after_sent. rewrite E. destruct logging; apply J_finish with (x := x); auto. cbn. apply existsb_app_false; [exact Hd|reflexivity].
  - apply J_finish with (x := x); auto.
  - destruct (Hf eq_refl) as [Hh Hw]. unfold after_work_sent. destruct (items x) as [|k rest] eqn:Ei; [discriminate|]. injection Hh as ->.
    assert (Hi : entries s i <> None). { destruct H as (_ & H2 & _). apply H2. cbn. rewrite Ei. left. reflexivity. }
    destruct (entries s i); [|congruence]. rewrite E. cbn [existsb]. rewrite Ei. cbn [existsb]. rewrite Nat.eqb_refl. cbn [orb]. rewrite remove_first_head.
    apply J_loop with (x := {| core := core x; items := rest |}); auto.
    apply (holds_drop (core x) s i rest); auto. destruct x as [c it]. cbn in *. subst it. exact H.
  - destruct (Hf eq_refl) as [_ Hw]. apply J_loop with (x := x); auto.
  - destruct (Hf eq_refl) as [_ Hw]. rewrite E. eexists. split; [reflexivity|]. unfold J. cbn. rewrite E. split; [|exact Hd]. destruct H as (H1 & H2 & H3 & H4 & H5 & _). unfold holds. cbn. auto 10.
Qed.
Lemma J_callback logging cb ev f s x : inst s = Some x -> holds x (goto s User) -> existsb is_destroy (out s) = false ->
  (last_act f = false -> match f with InWorkSent n i => hd_error (items x) = Some i | _ => True end /\ (match f with InSent _ => True | _ => existsb work_completion (stack s) = false end)) ->
  exists s', callback logging cb ev f s = Ok s' /\ J s'.
Proof.
  intros E H Hd Hf. unfold callback. destruct cb as [c|]; [|eapply J_resume; eassumption]. eexists. split; [reflexivity|]. apply J_push with (x := x); auto.
  - intros n i ->. destruct (Hf eq_refl). auto.
  - intros Hf'. destruct f; try discriminate; destruct (Hf eq_refl); auto.
Qed.
Lemma NoDup_snoc {A} (l : list A) a : NoDup l -> ~ In a l -> NoDup (l ++ [a]).
Proof.
  induction 1 as [|b l Hb Hl IH]; intros Ha; cbn; [repeat constructor; intros []|]. constructor.
  - intros C. apply in_app_or in C. destruct C as [C|[C|[]]]; [contradiction|]. apply Ha. left. congruence.
  - apply IH. intros C. apply Ha. right. exact C.
Qed.
Lemma holds_add x s b cb ctx : holds x (goto s User) -> holds {| core := core x; items := items x ++ [fresh_id s] |} (goto (add_entry s x b cb ctx) User).
Proof.
  intros (H1 & H2 & H3 & H4 & H5 & _). unfold holds in *. cbn in *. split.
  { apply NoDup_snoc; [exact H1|]. intros C. apply H3 in C. lia. } split.
  { intros i. rewrite in_app_iff. cbn. destruct (i =? fresh_id s)%nat eqn:Ei.
    - apply Nat.eqb_eq in Ei. subst. split; [discriminate|auto].
    - apply Nat.eqb_neq in Ei. rewrite <- H2. split; [|auto]. intros [C|[C|[]]]; [exact C|congruence]. }
  split.
  { intros i Hi. apply in_app_or in Hi. destruct Hi as [Hi|[<-|[]]]; [specialize (H3 _ Hi)|]; lia. }
  split; [|auto]. intros n i Hi. specialize (H4 _ _ Hi). destruct (items x); [discriminate|exact H4].
Qed.
Lemma free_entries_all l : forall s, NoDup l -> (forall i, In i l -> entries s i <> None) ->
  exists s', free_entries l s = Ok s' /\ (forall i, entries s' i = if in_dec Nat.eq_dec i l then None else entries s i) /\ stack s' = stack s /\ out s' = out s /\ at_ s' = at_ s.
Proof.
  induction l as [|i l IH]; intros s Hn H.
  - exists s. repeat split; auto.
  - cbn [free_entries]. destruct (entries s i) eqn:E; [|destruct (H i (or_introl eq_refl) E)]. inversion Hn; subst.
    destruct (IH (set_entry s i None)) as (s' & E' & A & B & C & D); [assumption| |].
    + intros k Hk. cbn. destruct (k =? i)%nat eqn:Ek; [apply Nat.eqb_eq in Ek; subst; contradiction|]. apply H. right. exact Hk.
    + exists s'. split; [exact E'|]. split; [|auto]. intros k. rewrite A. cbn [set_entry entries].
      destruct (in_dec Nat.eq_dec k l) as [Hk|Hk]; destruct (in_dec Nat.eq_dec k (i :: l)) as [Hk'|Hk']; try reflexivity.
      * destruct Hk'. right. exact Hk.
      * destruct Hk' as [<-|Q]; [rewrite Nat.eqb_refl; reflexivity|contradiction].
      * destruct (k =? i)%nat eqn:Ek; [apply Nat.eqb_eq in Ek; subst; destruct Hk'; left; reflexivity|reflexivity].
Qed.

Lemma J_step logging s l : J s -> (match l with LCall o _ => permitted (existsb is_destroy (out s)) (stack s) o = true | _ => True end) ->
  re_step logging s l = Impossible \/ exists s', re_step logging s l = Ok s' /\ J s'.
Proof.
  intros Hj Hp. unfold re_step. destruct l as [o a| |a|a]; destruct (at_ s) eqn:Ea; auto.
  - right. cbn [inst enter]. unfold J in Hj. destruct (inst s) as [x|] eqn:Ei; [|destruct Hj as [Hd _]; rewrite Hd in Hp; discriminate].
    destruct Hj as [H Hd]. rewrite Hd in Hp. unfold permitted in Hp. cbn [negb andb] in Hp.
    set (s0 := enter s o).
    assert (H0 : holds x (goto s0 User)). { destruct H as (H1 & H2 & H3 & H4 & H5 & _). unfold holds. cbn. auto 10. }
    destruct o as [oo oc ob bc oe ec|cb ctx|b cb ctx| |].
    + assert (Hd0 : existsb is_destroy (out s0) = false) by (apply existsb_app_false; [exact Hd|reflexivity]).
      assert (Hs : forall y l e, holds y (goto e User) -> existsb is_destroy (out e) = false -> inst e = Some y -> existsb is_destroy l = false -> True) by auto.
      unfold re_open. destruct (state (core x)); try (apply J_finish with (x := x); auto; fail).
      destruct (sock (core x) =? -1); cbn [negb].
      2: { match goal with |- context[set_inst s0 (Some ?q)] => apply J_callback with (x := q); auto; try apply holds_core; auto; discriminate end. }
      destruct (Z.max (-1) (nth 0 (a_sys a) 0) <? 0). { match goal with |- context[set_inst _ (Some ?q)] => apply J_finish with (x := q); auto; cbn; rewrite existsb_app, Hd0 || idtac end. rewrite !existsb_app, Hd. reflexivity. }
      Ltac fin Hd := match goal with |- context[set_inst _ (Some ?q)] => apply J_finish with (x := q); auto; cbn; rewrite !existsb_app, Hd; cbn; destruct (_ =? -1); reflexivity end.
      destruct (nth 1 (a_sys a) 0 =? 0); cbn [negb]; [|fin Hd]. destruct (nth 2 (a_sys a) 0 =? 0); cbn [negb]; [|fin Hd]. destruct (nth 3 (a_sys a) 0 =? -1); cbn [negb]; [fin Hd|]. destruct (nth 4 (a_sys a) 0 =? -1); cbn [negb]; [fin Hd|].
      match goal with |- context[set_inst _ (Some ?q)] => apply J_callback with (x := q); auto; try apply holds_core; auto; try discriminate end. cbn. rewrite !existsb_app, Hd. reflexivity.
    + assert (Hd0 : existsb is_destroy (out s0) = false) by (apply existsb_app_false; [exact Hd|reflexivity]).
      unfold re_close. assert (G : exists s', callback logging cb (fun c => ECloseComplete c ctx) (InClose (calls s)) (set_inst (see s0 [Did (EShutdown (sock (core x))); Did (ECloseFd (sock (core x)))]) (Some {| core := set_state (set_sock (core x) (-1)) CLOSED; items := items x |})) = Ok s' /\ J s').
      { match goal with |- context[set_inst _ (Some ?q)] => apply J_callback with (x := q); auto; try apply holds_core; auto; try discriminate end. cbn. rewrite !existsb_app, Hd. reflexivity. }
      destruct (state (core x)); try exact G; apply J_finish with (x := x); auto.
    + assert (Hd0 : existsb is_destroy (out s0) = false) by (apply existsb_app_false; [exact Hd|reflexivity]).
      unfold re_send. destruct (length b =? 0)%nat; [apply J_finish with (x := x); auto|]. destruct (state (core x)); try (apply J_finish with (x := x); auto; fail).
      assert (G : forall l b2 r, existsb is_destroy l = false -> exists s', finish (see (add_entry (see s0 l) x b2 cb ctx) [Read (calls s)]) (calls s) (Some r) = Ok s' /\ J s').
      { intros l b2 r Hl. eapply J_finish; [|reflexivity|]; [exact (holds_add x s0 b2 cb ctx H0)|]. cbn. rewrite !existsb_app, Hd, Hl. reflexivity. }
      destruct (items x) as [|i0 it] eqn:Eit.
      * assert (Hd1 : forall l, existsb is_destroy l = false -> existsb is_destroy (out s0 ++ l) = false) by (intros l Hl; apply existsb_app_false; assumption).
        destruct (negb _).
        -- destruct (_ =? -1).
           ++ apply J_raise; auto; try discriminate; [apply Hd1; reflexivity|]. apply J_finish with (x := x); auto. apply Hd1. reflexivity.
           ++ destruct (a_memory a); [apply G; reflexivity|]. apply J_finish with (x := x); auto. apply Hd1. reflexivity.
        -- apply J_callback with (x := x); auto; apply Hd1; reflexivity.
      * destruct (a_memory a); [|apply J_finish with (x := x); auto]. specialize (G [] b 0 eq_refl). replace (see s0 []) with s0 in G by (unfold see; cbn; rewrite app_nil_r; reflexivity). exact G.
    + assert (Hd0 : existsb is_destroy (out s0) = false) by (apply existsb_app_false; [exact Hd|reflexivity]).
      unfold re_dowork. destruct (state (core x)); try (apply J_finish with (x := x); auto; fail). apply J_loop with (x := x); auto. cbn. destruct (existsb work_completion (stack s)); [discriminate|reflexivity].
    + unfold re_destroy. destruct H0 as (H1 & H2 & H3 & H4 & H5 & _). set (s1 := see s0 _). destruct (free_entries_all (items x) s1 H1) as (s2 & E2 & A & B & C & D).
      { intros i Hi. apply H2 in Hi. exact Hi. }
      rewrite E2. cbn [bind_res]. eexists. split; [reflexivity|]. unfold J. cbn. rewrite B, C. split.
      { subst s1 s0. cbn. rewrite !existsb_app. cbn. rewrite !orb_true_r. reflexivity. }
      split; [exact Hp|]. split; [reflexivity|]. intros i. rewrite A. destruct (in_dec Nat.eq_dec i (items x)) as [|Hi]; [reflexivity|]. destruct (entries s i) eqn:Eq; [|exact Eq]. destruct Hi. apply H2. cbn. congruence.
  - destruct (stack s) as [|f rest] eqn:Es; [auto|]. right. unfold J in Hj. destruct (inst s) as [x|] eqn:Ei.
    + destruct Hj as [(H1 & H2 & H3 & H4 & H5 & _) Hd]. rewrite Es in H4, H5.
      apply J_resume with (x := x); auto; cbn [pop_frame stack]; rewrite ?Es; cbn [tl].
      * unfold holds. cbn. rewrite Es. cbn. repeat (split; [assumption|]). split; [intros n i Hi; apply (H4 n i); right; exact Hi|]. split; [|exact I].
        destruct H5 as [_ H5]. exact H5.
      * intros Hl. destruct H5 as [H5 _]. split; [destruct f; auto; apply (H4 n item); left; reflexivity|]. destruct f; auto.
    + destruct Hj as (Hd & Hs & _ & He). rewrite Es in Hs. cbn in Hs. apply andb_true_iff in Hs. destruct Hs as [Hf Hs].
      assert (G : forall n r, exists s', finish (pop_frame s) n r = Ok s' /\ J s').
      { intros n r. eexists. split; [reflexivity|]. unfold J. cbn. rewrite Ei, Es. cbn. rewrite existsb_app, Hd. auto. }
      destruct f; try discriminate; apply G.
  - right. unfold J in Hj. unfold re_sending. destruct (inst s) as [x|] eqn:Ei; [|destruct Hj as (_ & _ & C & _); congruence].
    destruct Hj as [(H1 & H2 & H3 & H4 & H5 & H6) Hd]. rewrite Ea in H6. destruct H6 as [H6 Hw].
    assert (H : holds x (goto s User)) by (unfold holds; cbn; auto 10).
    destruct (items x) as [|i rest] eqn:Eit; [congruence|]. assert (Hi : entries s i <> None) by (apply H2; left; reflexivity). destruct (entries s i) as [p|] eqn:Ep; [|congruence].
    assert (Hd1 : forall e, existsb is_destroy (out s ++ [Did e]) = false) by (intros e; apply existsb_app_false; [exact Hd|reflexivity]).
    destruct x as [c it]. cbn in Eit. subst it. cbn [core]. destruct (negb _).
    + destruct (_ =? -1).
      * apply J_raise; auto; [|apply Hd1|].
        -- exact (holds_drop c s i rest H Hw _).
        -- apply J_loop with (x := {| core := set_state c ERROR; items := rest |}); auto; [|apply Hd1]. exact (holds_drop c s i rest H Hw _).
      * apply J_loop with (x := {| core := c; items := i :: rest |}); auto; [|apply Hd1]. unfold holds. cbn. split; [exact H1|]. split; [|auto].
        intros k. destruct (k =? i)%nat eqn:Ek; [apply Nat.eqb_eq in Ek; subst; split; [discriminate|auto]|]. apply H2.
    + apply J_callback with (x := {| core := c; items := i :: rest |}); auto. apply Hd1.
  - right. unfold J in Hj. unfold re_receiving. destruct (inst s) as [x|] eqn:Ei; [|destruct Hj as (_ & _ & C & _); congruence].
    destruct Hj as [(H1 & H2 & H3 & H4 & H5 & H6) Hd]. rewrite Ea in H6.
    assert (H : holds x (goto s User)) by (unfold holds; cbn; auto 10).
    assert (Hd1 : forall e, existsb is_destroy (out s ++ [Did e]) = false) by (intros e; apply existsb_app_false; [exact Hd|reflexivity]).
    destruct (if sock (core x) =? -1 then None else a) as [b|].
    + apply J_callback with (x := x); auto. apply Hd1.
    + apply J_finish with (x := x); auto. apply Hd1.
Qed.

Lemma J_run logging : forall l s, J s -> law_abiding logging s l -> re_run logging s l <> Undefined /\ forall s', re_run logging s l = Ok s' -> J s'.
Proof.
  induction l as [|a l IH]; intros s Hj Hl; [split; [discriminate|intros s' E; injection E as <-; exact Hj]|]. cbn in *. destruct Hl as [Hp Hl].
  destruct (J_step logging s a Hj Hp) as [E|(s1 & E & Hj1)]; rewrite E in *; cbn; [split; discriminate|]. apply IH; assumption.
Qed.
Lemma J_start x : J (re_start x).
Proof. cbn. split; [|reflexivity]. unfold holds. cbn. split; [constructor|]. split; [intros i; split; [intros []|congruence]|]. split; [intros i []|]. split; [intros n i []|auto]. Qed.
Lemma J_reach logging x s : re_reach logging x s -> J s.
Proof. intros (_ & l & Hl & E). eapply J_run; [apply J_start| |]; eassumption. Qed.

(* C93: a user who keeps the rules never runs into undefined behaviour, *)
Theorem reentrancy_safe : forall logging x l, new_io x -> law_abiding logging (re_start x) l -> re_run logging (re_start x) l <> Undefined.
Proof. intros logging x l _ H. apply (J_run logging l _ (J_start x) H). Qed.
(* and when the io has been destroyed no pending entry is left allocated. *)
Theorem reentrancy_no_leak : forall logging x s, re_reach logging x s -> existsb is_destroy (out s) = true -> forall i, entries s i = None.
Proof.
  intros logging x s R Hd. apply J_reach in R. unfold J in R. destruct (inst s); [destruct R; congruence|]. apply R.
Qed.

(* The rules cannot be relaxed.  Destroying the io in any other callback: the return from that
   callback reads the freed instance. *)
Theorem destroy_in_callback_refuted : forall logging x s f rest a, re_reach logging x s -> existsb is_destroy (out s) = false -> at_ s = User -> stack s = f :: rest -> last_act f = false ->
  exists s', re_step logging s (LCall RDestroy a) = Ok s' /\ re_step logging s' LReturn = Undefined.
Proof.
  intros logging x s f rest a R Hd Ha Hs Hf. apply J_reach in R. unfold J in R. destruct (inst s) as [y|] eqn:Ei; [|destruct R; congruence]. destruct R as [(H1 & H2 & _) _].
  unfold re_step at 1. rewrite Ha. cbn [inst enter]. rewrite Ei. unfold re_destroy.
  set (s1 := see _ _). destruct (free_entries_all (items y) s1 H1) as (s2 & E2 & A & B & C & D); [intros i Hi; apply H2 in Hi; exact Hi|].
  rewrite E2. cbn [bind_res]. eexists. split; [reflexivity|]. unfold re_step. cbn [at_ goto]. cbn. rewrite B. cbn. rewrite Hs.
  assert (He : forall i, entries s2 i = None). { intros i. rewrite A. destruct (in_dec Nat.eq_dec i (items y)) as [|Hi]; [reflexivity|]. cbn. destruct (entries s i) eqn:Eq; [|reflexivity]. destruct Hi. apply H2. congruence. }
  destruct f; try discriminate; cbn; unfold after_sent, after_work_sent, loop_head; cbn; rewrite ?He; reflexivity.
Qed.
(* Calling dowork in the completion of a message that dowork has sent: the message is sent and
   completed a second time, and its memory is freed twice. *)
Theorem dowork_in_completion_refuted : forall logging x s n i rest y p c a, re_reach logging x s -> existsb is_destroy (out s) = false -> at_ s = User -> stack s = InWorkSent n i :: rest ->
  inst s = Some y -> state (core y) = OPEN -> 0 <= sock (core y) -> items y = [i] -> entries s i = Some p -> p_callback p = Some c -> Z.of_nat (p_size p) <= max_rw ->
  (exists s', re_run logging s [LCall RDowork a; LSend (Z.of_nat (p_size p))] = Ok s' /\
     out s' = out s ++ [Called (calls s) RDowork; Did (ESend (sock (core y)) (firstn (p_size p) (p_bytes p)) (Z.of_nat (p_size p))); Did (ESendComplete c (p_context p) 0)]) /\
  re_run logging s [LCall RDowork a; LSend (Z.of_nat (p_size p)); LReturn; LRecv None; LReturn] = Undefined.
Proof.
  intros logging x s n i rest y p c a R Hd Ha Hs Hi Ho Hk Hit Hp Hc Hm. destruct y as [cy ity]. cbn in Ho, Hk, Hit. subst ity.
  assert (Hf : fd_takes (sock cy) (Z.of_nat (p_size p)) (p_size p) = Z.of_nat (p_size p)).
  { unfold fd_takes, kernel_takes, max_rw in *. destruct (Z.eqb_spec (sock cy) (-1)); [lia|]. destruct (Z.ltb_spec (Z.of_nat (p_size p)) 0); lia. }
  destruct s as [si se sf sc ss sa so]. cbn in Hd, Ha, Hs, Hi, Hp. subst si sa ss.
  assert (E : re_run logging {| inst := Some {| core := cy; items := [i] |}; entries := se; fresh_id := sf; calls := sc; stack := InWorkSent n i :: rest; at_ := User; out := so |} [LCall RDowork a; LSend (Z.of_nat (p_size p))] =
     Ok {| inst := Some {| core := cy; items := [i] |}; entries := se; fresh_id := sf; calls := S sc; stack := InWorkSent sc i :: InWorkSent n i :: rest; at_ := User;
           out := so ++ [Called sc RDowork; Did (ESend (sock cy) (firstn (p_size p) (p_bytes p)) (Z.of_nat (p_size p))); Did (ESendComplete c (p_context p) 0)] |}).
  { cbn. unfold re_dowork. cbn. rewrite Ho. unfold loop_head. cbn. unfold re_sending. cbn. rewrite Hp, Hf, Z.eqb_refl. cbn. unfold callback. rewrite Hc. unfold push_frame, see. cbn. rewrite <- !app_assoc. reflexivity. }
  split; [eexists; split; [exact E|reflexivity]|].
  change [LCall RDowork a; LSend (Z.of_nat (p_size p)); LReturn; LRecv None; LReturn] with ([LCall RDowork a; LSend (Z.of_nat (p_size p))] ++ [LReturn; LRecv None; LReturn]).
  assert (Happ : forall l1 l2 s0, re_run logging s0 (l1 ++ l2) = bind_res (re_run logging s0 l1) (fun s => re_run logging s l2)).
  { induction l1 as [|u l1 IH]; intros l2 s0; [reflexivity|]. cbn. destruct (re_step logging s0 u); cbn; auto. }
  rewrite Happ, E. cbn. unfold after_work_sent. cbn. rewrite Hp, Nat.eqb_refl. cbn. unfold loop_head. cbn. unfold re_receiving. cbn. destruct (sock cy =? -1); cbn; unfold after_work_sent; cbn; rewrite Nat.eqb_refl; reflexivity.
Qed.
