(* Properties of ThreadAPI (C64, C85). *)
From Verif Require Import Base ThreadApi_Model.
Local Open Scope Z_scope.

Definition is_int (r : Z) : Prop := - 2^31 <= r < 2^31.

(* C64: sleeping. *)
Theorem sleep_request ms :
  0 <= ms < 2^32 ->
  let '(s, n) := ThreadAPI_Sleep ms in
  0 <= s /\ 0 <= n < 1000000000 /\ s * 1000000000 + n = ms * 1000000.
Proof.
  intros H. unfold ThreadAPI_Sleep. change (2^32) with 4294967296 in *.
  rewrite (Z.mod_small (ms mod 1000 * 1000000)) by lia. lia.
Qed.

(* C85: without signals the sleep takes the time asked for; a signal makes
   it return early, and nothing tells the caller. *)
Theorem sleep_lasts_partial ms : 0 <= ms < 2^32 -> sleep_time ms None = ms * 1000000.
Proof.
  intros H. pose proof (sleep_request ms H) as S. unfold sleep_time.
  destruct (ThreadAPI_Sleep ms). lia.
Qed.

Theorem sleep_lasts_refuted ms :
  0 < ms < 2^32 -> exists i, 0 <= i /\ sleep_time ms (Some i) < ms * 1000000.
Proof.
  intros H. exists 0. split; [lia|]. assert (Hm : 0 <= ms < 2^32) by lia.
  pose proof (sleep_request ms Hm) as S. unfold sleep_time.
  destruct (ThreadAPI_Sleep ms). lia.
Qed.

Lemma int_round_trip r : is_int r -> ptr_to_int (int_to_ptr r) = r.
Proof.
  unfold is_int, ptr_to_int, int_to_ptr. change (2^31) with 2147483648.
  change (2^32) with 4294967296. change (2^64) with 18446744073709551616. intros H.
  destruct (_ <? _) eqn:E; lia.
Qed.

(* ------------------------------------------------------------------ *)
(** * The invariant *)

Definition created_as (w : world) (h : nat) f a := In (SawCreate h f a) (log w).

(* what is known about one pthread made for instance h *)
Definition thread_ok (w : world) (t : nat) (p : pthread) (h : nat) : Prop :=
  exists f a, created_as w h f a /\
  match p with
  | Starting i => i = h /\ (nth_error (blocks w) h = Some None \/
                            nth_error (blocks w) h = Some (Some (inst t f a)))
  | Running f' a' => f' = f /\ a' = a /\ In (SawRun h f a) (log w)
  | Ended v => exists r, v = int_to_ptr r /\ In (SawEnd h r) (log w) /\ In (SawRun h f a) (log w)
  | Joined => nth_error (blocks w) h = Some None
  end.

Record inv (w : world) : Prop := {
  inv_threads : forall t p h, nth_error (pthreads w) t = Some (p, h) -> thread_ok w t p h;
  inv_blocks : forall h x, nth_error (blocks w) h = Some (Some x) ->
     (exists p, nth_error (pthreads w) (Pthread_handle x) = Some (p, h)) /\
     created_as w h (ThreadStartFunc x) (Arg x);
  inv_known : forall h f a, created_as w h f a -> (h < length (blocks w))%nat;
  inv_once : forall h f a f' a', created_as w h f a -> created_as w h f' a' -> f = f' /\ a = a';
  inv_ends : forall h r, In (SawEnd h r) (log w) ->
     exists t p, nth_error (pthreads w) t = Some (p, h) /\
                 match p with Starting _ | Running _ _ => False | _ => True end;
  inv_handles : forall t t' p p' h, nth_error (pthreads w) t = Some (p, h) ->
     nth_error (pthreads w) t' = Some (p', h) -> t = t';
  inv_one_end : forall h r r', In (SawEnd h r) (log w) -> In (SawEnd h r') (log w) -> r = r';
  inv_joins : forall h res, In (SawJoin h THREADAPI_OK (Some res)) (log w) ->
     exists r f a, res = ptr_to_int (int_to_ptr r) /\ In (SawEnd h r) (log w) /\
       In (SawRun h f a) (log w) /\ created_as w h f a }.

Lemma put_nth {A} (l : list A) i x j :
  nth_error (put l i x) j =
  if (i =? j)%nat then match nth_error l j with Some _ => Some x | None => None end
  else nth_error l j.
Proof.
  revert i j; induction l as [|q l IH]; intros i j; cbn.
  - destruct j, (i =? _)%nat; reflexivity.
  - destruct i, j; cbn; try reflexivity. apply IH.
Qed.
Lemma put_length {A} (l : list A) i x : length (put l i x) = length l.
Proof. revert i; induction l as [|q l IH]; intros [|i]; cbn; auto. Qed.

Lemma app_nth_last {A} (l : list A) x j :
  nth_error (l ++ [x]) j = if (j =? length l)%nat then Some x else nth_error l j.
Proof.
  destruct (j =? length l)%nat eqn:E.
  - apply Nat.eqb_eq in E. subst. rewrite nth_error_app2, Nat.sub_diag by lia. reflexivity.
  - apply Nat.eqb_neq in E. destruct (Nat.lt_ge_cases j (length l)).
    + apply nth_error_app1. lia.
    + rewrite nth_error_app2 by lia. destruct (j - length l)%nat eqn:D; [lia|].
      cbn. assert (N : nth_error l j = None) by (apply nth_error_None; lia). rewrite N.
      destruct n; reflexivity.
Qed.

Lemma nth_some_lt {A} (l : list A) i x : nth_error l i = Some x -> (i < length l)%nat.
Proof. intros H. apply nth_error_Some. congruence. Qed.

(* thread_ok only grows with the log, if the block stays *)
Lemma thread_ok_mono w w' t p h :
  (forall e, In e (log w) -> In e (log w')) ->
  (nth_error (blocks w') h = nth_error (blocks w) h \/ nth_error (blocks w') h = Some None) ->
  thread_ok w t p h -> thread_ok w' t p h.
Proof.
  intros Hl Hb (f & a & Hc & H). exists f, a. split; [apply Hl, Hc|].
  destruct p; auto.
  - destruct H as [-> H]. split; [reflexivity|]. destruct Hb as [-> | ->]; auto.
  - destruct H as (-> & -> & H). auto.
  - destruct H as (r & -> & H1 & H2). exists r. auto.
  - destruct Hb as [-> | ->]; auto.
Qed.

Lemma init_inv : inv init.
Proof.
  split; cbn; unfold created_as; cbn; try tauto.
  - intros [|t]; discriminate.
  - intros [|t]; discriminate.
  - intros [|t]; discriminate.
Qed.

Lemma create_inv hd f a m c w : inv w -> inv (snd (ThreadAPI_Create hd f a m c w)).
Proof.
  intros I. unfold ThreadAPI_Create.
  destruct hd; [|exact I]. destruct f as [f|]; [|exact I]. destruct m; [|exact I]. cbn [negb].
  assert (Failed : inv (mk (blocks w ++ [None]) (pthreads w) (log w))).
  { destruct I as [I1 I2 I3 I4 I5 I6 I7 I8].
    split; cbn; auto.
    - intros t p h H. pose proof (I1 t p h H) as (f' & a' & Hc & _).
      apply I3 in Hc. eapply thread_ok_mono; [| |apply I1, H]; cbn; auto.
      left. rewrite app_nth_last. destruct (h =? _)%nat eqn:E; [|reflexivity].
      apply Nat.eqb_eq in E. lia.
    - intros h x. rewrite app_nth_last. destruct (h =? _)%nat; [discriminate|]. apply I2.
    - intros h f' a' H. rewrite app_length. apply I3 in H. lia. }
  destruct (c =? 0); [|destruct (c =? EAGAIN); exact Failed]. clear Failed.
  destruct I as [I1 I2 I3 I4 I5 I6 I7 I8]. cbn [snd].
  set (h := length (blocks w)).
  assert (Hold : forall t p h', nth_error (pthreads w) t = Some (p, h') -> h' <> h).
  { intros t p h' H. destruct (I1 _ _ _ H) as (f' & a' & Hc & _). apply I3 in Hc. unfold h. lia. }
  split; cbn; unfold created_as in *; cbn.
  - intros t p h' H. rewrite app_nth_last in H. destruct (t =? _)%nat eqn:E.
    + injection H as <- <-. exists f, a. split; [left; reflexivity|]. split; [reflexivity|].
      right. cbn. apply Nat.eqb_eq in E. subst t. rewrite app_nth_last, Nat.eqb_refl. reflexivity.
    + eapply thread_ok_mono; [| |apply I1, H]; cbn; auto. left. rewrite app_nth_last.
      destruct (h' =? _)%nat eqn:E'; [|reflexivity]. apply Nat.eqb_eq in E'.
      apply Hold in H. unfold h in H. lia.
  - intros h' x H. rewrite app_nth_last in H. destruct (h' =? _)%nat eqn:E.
    + injection H as <-. cbn. apply Nat.eqb_eq in E. subst h'. split; [|left; reflexivity].
      exists (Starting h). rewrite app_nth_last, Nat.eqb_refl. reflexivity.
    + apply I2 in H. destruct H as [(p & Hp) H]. split; [|right; exact H]. exists p.
      rewrite app_nth_last. pose proof (nth_some_lt _ _ _ Hp).
      destruct (Pthread_handle x =? _)%nat eqn:E'; [apply Nat.eqb_eq in E'; lia|exact Hp].
  - intros h' f' a' [H|H]; rewrite app_length; cbn; [injection H as <- _ _; unfold h; lia|].
    apply I3 in H. lia.
  - intros h' f1 a1 f2 a2 [H1|H1] [H2|H2].
    + injection H1 as _ <- <-. injection H2 as _ <- <-. auto.
    + injection H1 as <- _ _. apply I3 in H2. unfold h in H2. lia.
    + injection H2 as <- _ _. apply I3 in H1. unfold h in H1. lia.
    + eauto.
  - intros h' r [H|H]; [discriminate|]. destruct (I5 _ _ H) as (t & p & Hp & Hq).
    exists t, p. split; [|exact Hq]. rewrite app_nth_last. pose proof (nth_some_lt _ _ _ Hp).
    destruct (t =? _)%nat eqn:E'; [apply Nat.eqb_eq in E'; lia|exact Hp].
  - intros t t' p p' h' H1 H2. rewrite app_nth_last in H1, H2.
    destruct (t =? _)%nat eqn:E1, (t' =? _)%nat eqn:E2; rewrite ?Nat.eqb_eq in *.
    + congruence.
    + injection H1 as _ <-. exfalso. eapply Hold; eauto.
    + injection H2 as _ <-. exfalso. eapply Hold; eauto.
    + eapply I6; eauto.
  - intros h' r r' [H|H] [H'|H']; try discriminate. eauto.
  - intros h' res [H|H]; [discriminate|]. destruct (I8 _ _ H) as (r & f' & a' & E & H1 & H2 & H3).
    exists r, f', a'. auto.
Qed.

Lemma start_inv t w w' : inv w -> ThreadWrapper_start t w = Next w' -> inv w'.
Proof.
  intros [I1 I2 I3 I4 I5 I6 I7 I8] H. unfold ThreadWrapper_start in H.
  destruct (nth_error (pthreads w) t) as [ [p h]|] eqn:Ht; [|discriminate].
  destruct p as [i| | |]; try discriminate.
  destruct (I1 _ _ _ Ht) as (f & a & Hc & -> & Hb).
  destruct Hb as [Hb|Hb]; rewrite Hb in H; [discriminate|]. injection H as <-. cbn [ThreadStartFunc Arg].
  split; cbn; unfold created_as in *; cbn.
  - intros t' p' h' H. rewrite put_nth in H. destruct (t =? t')%nat eqn:E.
    + apply Nat.eqb_eq in E. subst t'. rewrite Ht in H. injection H as <- <-.
      exists f, a. split; [right; exact Hc|]. cbn. auto.
    + eapply thread_ok_mono; [| |apply I1, H]; cbn; auto.
  - intros h' x H. apply I2 in H. destruct H as [(p & Hp) H]. split; [|right; exact H].
    rewrite put_nth. destruct (t =? _)%nat eqn:E; [|eauto]. rewrite Hp.
    apply Nat.eqb_eq in E. rewrite E, Hp in Ht. injection Ht as _ <-. eauto.
  - intros h' f' a' [H|H]; [discriminate|]. eauto.
  - intros h' f1 a1 f2 a2 [H1|H1] [H2|H2]; try discriminate. eauto.
  - intros h' r [H|H]; [discriminate|]. destruct (I5 _ _ H) as (t' & p & Hp & Hq).
    exists t'. rewrite put_nth. destruct (t =? t')%nat eqn:E; [|eauto].
    apply Nat.eqb_eq in E. subst t'. rewrite Ht in Hp. injection Hp as <- <-. destruct Hq.
  - intros t1 t2 p1 p2 h' H1 H2.
    assert (Q : forall k p, nth_error (put (pthreads w) t (Running f a, h)) k = Some (p, h') ->
                exists p', nth_error (pthreads w) k = Some (p', h')).
    { intros k p. rewrite put_nth. destruct (t =? k)%nat eqn:E; [|eauto].
      apply Nat.eqb_eq in E. subst k. rewrite Ht. intros X; injection X as _ <-. eauto. }
    apply Q in H1. apply Q in H2. destruct H1, H2. eapply I6; eauto.
  - intros h' r r' [H|H] [H'|H']; try discriminate. eauto.
  - intros h' res [H|H]; [discriminate|]. destruct (I8 _ _ H) as (r & f' & a' & E & H1 & H2 & H3).
    exists r, f', a'. auto.
Qed.

Lemma ends_inv t r w w' : inv w -> thread_ends t r w = Next w' -> inv w'.
Proof.
  intros [I1 I2 I3 I4 I5 I6 I7 I8] H. unfold thread_ends in H.
  destruct (nth_error (pthreads w) t) as [ [p h]|] eqn:Ht; [|discriminate].
  destruct p as [|f0 a0| |]; try discriminate. injection H as <-.
  destruct (I1 _ _ _ Ht) as (f & a & Hc & -> & -> & Hr).
  assert (Hnew : forall r', ~ In (SawEnd h r') (log w)).
  { intros r' Hx. destruct (I5 _ _ Hx) as (t' & p & Hp & Hq).
    assert (t' = t) by (eapply I6; eauto). subst t'. rewrite Ht in Hp. injection Hp as <-. exact Hq. }
  split; cbn; unfold created_as in *; cbn.
  - intros t' p' h' H. rewrite put_nth in H. destruct (t =? t')%nat eqn:E.
    + apply Nat.eqb_eq in E. subst t'. rewrite Ht in H. injection H as <- <-.
      exists f, a. split; [right; exact Hc|]. cbn. exists r. auto.
    + eapply thread_ok_mono; [| |apply I1, H]; cbn; auto.
  - intros h' x H. apply I2 in H. destruct H as [(p & Hp) H]. split; [|right; exact H].
    rewrite put_nth. destruct (t =? _)%nat eqn:E; [|eauto]. rewrite Hp.
    apply Nat.eqb_eq in E. rewrite E, Hp in Ht. injection Ht as _ <-. eauto.
  - intros h' f' a' [H|H]; [discriminate|]. eauto.
  - intros h' f1 a1 f2 a2 [H1|H1] [H2|H2]; try discriminate. eauto.
  - intros h' r' [H|H].
    + injection H as <- <-. exists t, (Ended (int_to_ptr r)). rewrite put_nth, Nat.eqb_refl, Ht. auto.
    + destruct (I5 _ _ H) as (t' & p & Hp & Hq).
      exists t', p. rewrite put_nth. destruct (t =? t')%nat eqn:E; [|eauto].
      apply Nat.eqb_eq in E. subst t'. rewrite Ht in Hp. injection Hp as <- <-. destruct Hq.
  - intros t1 t2 p1 p2 h' H1 H2.
    assert (Q : forall k p, nth_error (put (pthreads w) t (Ended (int_to_ptr r), h)) k = Some (p, h') ->
                exists p', nth_error (pthreads w) k = Some (p', h')).
    { intros k p. rewrite put_nth. destruct (t =? k)%nat eqn:E; [|eauto].
      apply Nat.eqb_eq in E. subst k. rewrite Ht. intros X; injection X as _ <-. eauto. }
    apply Q in H1. apply Q in H2. destruct H1, H2. eapply I6; eauto.
  - intros h' r1 r2 [H|H] [H'|H'].
    + congruence.
    + injection H as <- <-. apply Hnew in H'. destruct H'.
    + injection H' as <- <-. apply Hnew in H. destruct H.
    + eauto.
  - intros h' res [H|H]; [discriminate|]. destruct (I8 _ _ H) as (r' & f' & a' & E & H1 & H2 & H3).
    exists r', f', a'. auto.
Qed.

Lemma join_inv h res ans w c w' : inv w -> ThreadAPI_Join h res ans w = Next (c, w') -> inv w'.
Proof.
  intros I H. unfold ThreadAPI_Join in H.
  destruct h as [h|]; [|injection H as _ <-; exact I].
  destruct I as [I1 I2 I3 I4 I5 I6 I7 I8].
  destruct (nth_error (blocks w) h) as [ [x|]|] eqn:Hb; try discriminate.
  destruct (I2 _ _ Hb) as [(p0 & Hp0) Hc0].
  destruct (ans =? 0) eqn:Ea; cbn [negb] in H.
  - destruct (nth_error (pthreads w) (Pthread_handle x)) as [ [p h']|] eqn:Ht; [|discriminate].
    injection Hp0 as -> ->. destruct p0 as [| |v|]; try discriminate. injection H as _ <-.
    destruct (I1 _ _ _ Ht) as (f & a & Hc & r & -> & He & Hr).
    split; cbn; unfold created_as in *; cbn.
    + intros t' p' h' H. rewrite put_nth in H. destruct (_ =? t')%nat eqn:E.
      * apply Nat.eqb_eq in E. rewrite <- E, Ht in H. injection H as <- <-.
        exists f, a. split; [right; exact Hc|]. cbn. rewrite put_nth, Nat.eqb_refl, Hb. reflexivity.
      * eapply thread_ok_mono; [| |apply I1, H]; cbn; auto. rewrite put_nth.
        destruct (h =? h')%nat eqn:E'; auto. right. apply Nat.eqb_eq in E'. subst h'. rewrite Hb. reflexivity.
    + intros h' y H. rewrite put_nth in H. destruct (h =? h')%nat eqn:E'.
      * destruct (nth_error _ h'); discriminate.
      * apply I2 in H. destruct H as [(p & Hp) H]. split; [|right; exact H].
        exists p. rewrite put_nth. destruct (Pthread_handle x =? Pthread_handle y)%nat eqn:E; [|exact Hp].
        apply Nat.eqb_eq in E. rewrite E, Hp in Ht. injection Ht as _ ->. rewrite Nat.eqb_refl in E'. discriminate.
    + intros h' f' a' [H|H]; [discriminate|]. rewrite put_length. eauto.
    + intros h' f1 a1 f2 a2 [H1|H1] [H2|H2]; try discriminate. eauto.
    + intros h' r' [H|H]; [discriminate|]. destruct (I5 _ _ H) as (t' & p & Hp & Hq).
      exists t'. rewrite put_nth. destruct (_ =? t')%nat eqn:E; [|eauto].
      apply Nat.eqb_eq in E. subst t'. rewrite Ht in Hp. injection Hp as <- <-.
      rewrite Ht. exists Joined. auto.
    + intros t1 t2 p1 p2 h' H1 H2.
      assert (Q : forall k p, nth_error (put (pthreads w) (Pthread_handle x) (Joined, h)) k = Some (p, h') ->
                exists p', nth_error (pthreads w) k = Some (p', h')).
      { intros k p. rewrite put_nth. destruct (_ =? k)%nat eqn:E; [|eauto].
        apply Nat.eqb_eq in E. subst k. rewrite Ht. intros X; injection X as _ <-. eauto. }
      apply Q in H1. apply Q in H2. destruct H1, H2. eapply I6; eauto.
    + intros h' r1 r2 [H|H] [H'|H']; try discriminate. eauto.
    + intros h' v [H|H].
      * destruct res; [|discriminate]. injection H as <- <-. exists r, f, a. auto.
      * destruct (I8 _ _ H) as (r' & f' & a' & E & H1 & H2 & H3). exists r', f', a'. auto.
  - injection H as _ <-. split; cbn; unfold created_as in *; cbn.
    + intros t' p' h' H. eapply thread_ok_mono; [| |apply I1, H]; cbn; auto. rewrite put_nth.
      destruct (h =? h')%nat eqn:E'; auto. right. apply Nat.eqb_eq in E'. subst h'. rewrite Hb. reflexivity.
    + intros h' y H. rewrite put_nth in H. destruct (h =? h')%nat eqn:E'.
      * destruct (nth_error _ h'); discriminate.
      * apply I2 in H. destruct H as [(p & Hp) H]. split; [|right; exact H]. eauto.
    + intros h' f' a' [H|H]; [discriminate|]. rewrite put_length. eauto.
    + intros h' f1 a1 f2 a2 [H1|H1] [H2|H2]; try discriminate. eauto.
    + intros h' r' [H|H]; [discriminate|]. eauto.
    + eauto.
    + intros h' r1 r2 [H|H] [H'|H']; try discriminate. eauto.
    + intros h' v [H|H]; [discriminate|].
      destruct (I8 _ _ H) as (r' & f' & a' & E & H1 & H2 & H3). exists r', f', a'. auto.
Qed.

Lemma step_inv e w w' : inv w -> step e w = Next w' -> inv w'.
Proof.
  intros I H. destruct e; cbn in H.
  - injection H as <-. apply create_inv, I.
  - eapply start_inv; eauto.
  - eapply ends_inv; eauto.
  - destruct ThreadAPI_Join as [ [c w1]| |] eqn:E; try discriminate. injection H as <-.
    eapply join_inv; eauto.
Qed.

Lemma run_inv es w w' : inv w -> run es w = Next w' -> inv w'.
Proof.
  revert w; induction es as [|e es IH]; cbn; intros w I H; [injection H as <-; exact I|].
  destruct (step e w) eqn:E; try discriminate; eauto using step_inv.
Qed.

(* ------------------------------------------------------------------ *)
(** * The theorems *)

Definition ints_only (es : list event) : Prop :=
  Forall (fun e => match e with Ends _ r => is_int r | _ => True end) es.

Lemma ends_are_ints es w w' h r :
  (forall h r, In (SawEnd h r) (log w) -> is_int r) -> ints_only es ->
  run es w = Next w' -> In (SawEnd h r) (log w') -> is_int r.
Proof.
  intros Hw Hi. revert w Hw. induction Hi as [|e es He _ IH]; cbn; intros w Hw H Hin.
  - injection H as <-. eauto.
  - destruct (step e w) as [w1| |] eqn:E; [|eauto|discriminate].
    apply (IH w1); auto. clear IH H Hin h r w'. intros h r Hin. destruct e; cbn in E.
    + injection E as <-. unfold ThreadAPI_Create in Hin.
      destruct handle, f, memory; cbn in Hin; eauto.
      destruct (createResult =? 0); cbn in Hin; [destruct Hin as [Hin|Hin]; [discriminate|]|
        destruct (createResult =? EAGAIN); cbn in Hin]; eauto.
    + unfold ThreadWrapper_start in E. destruct (nth_error (pthreads w) t) as [ [ [] ?]|]; try discriminate.
      destruct (nth_error (blocks w) i) as [ []|]; try discriminate. injection E as <-.
      destruct Hin as [Hin|Hin]; [discriminate|]. eauto.
    + unfold thread_ends in E. destruct (nth_error (pthreads w) t) as [ [ [] ?]|]; try discriminate.
      injection E as <-. destruct Hin as [Hin|Hin]; [injection Hin as <- <-; exact He|]. eauto.
    + unfold ThreadAPI_Join in E. destruct threadHandle as [k|]; [|injection E as <-; eauto].
      destruct (nth_error (blocks w) k) as [ [x|]|]; try discriminate.
      destruct (answer =? 0); cbn [negb] in E.
      * destruct (nth_error (pthreads w) _) as [ [ [] ?]|]; try discriminate.
        injection E as <-. destruct Hin as [Hin|Hin]; [discriminate|]. eauto.
      * injection E as <-. destruct Hin as [Hin|Hin]; [discriminate|]. eauto.
Qed.

(* C64: in every history of creations, starts, ends and joins, in any order,
   with any failures: the value a successful ThreadAPI_Join stores is the one
   int the thread of that handle returned or passed to ThreadAPI_Exit, and
   that thread ran the function and argument given to the ThreadAPI_Create
   that produced the handle. *)
Theorem join_delivers_partial es w h v :
  ints_only es -> run es init = Next w ->
  In (SawJoin h THREADAPI_OK (Some v)) (log w) ->
  In (SawEnd h v) (log w) /\ (forall r, In (SawEnd h r) (log w) -> r = v) /\
  exists f a, In (SawRun h f a) (log w) /\ In (SawCreate h f a) (log w) /\
    forall f' a', In (SawCreate h f' a') (log w) -> f' = f /\ a' = a.
Proof.
  intros Hi H Hj. pose proof (run_inv _ _ _ init_inv H) as I.
  destruct (inv_joins w I _ _ Hj) as (r & f & a & -> & He & Hr & Hc).
  assert (Hint : is_int r).
  { eapply ends_are_ints; [|exact Hi|exact H|exact He]. intros ? ? []. }
  rewrite (int_round_trip r Hint). split; [exact He|]. split.
  - intros r' He'. eapply inv_one_end; eauto.
  - exists f, a. split; [exact Hr|]. split; [exact Hc|]. intros f' a' Hc'. eapply inv_once; eauto.
Qed.

(* A disciplined history: only handles that ThreadAPI_Create gave, each
   joined by a join that does not fail, and never again once joined. *)
Definition join_ok (w : world) (e : event) : Prop :=
  match e with
  | Join (Some h) _ ans =>
      ans = 0 /\ (exists f a, In (SawCreate h f a) (log w)) /\
      (forall c v, ~ In (SawJoin h c v) (log w))
  | _ => True
  end.
Fixpoint disciplined (es : list event) (w : world) : Prop :=
  match es with
  | [] => True
  | e :: es => join_ok w e /\
      match step e w with
      | Next w => disciplined es w
      | Blocked => disciplined es w
      | Undefined => True
      end
  end.

(* in such a history a block is freed only by a successful join *)
Record inv3 (w : world) : Prop := {
  freed_joined : forall h f a, In (SawCreate h f a) (log w) ->
     (forall c v, ~ In (SawJoin h c v) (log w)) ->
     exists t p, nth_error (blocks w) h = Some (Some (inst t f a)) /\
                 nth_error (pthreads w) t = Some (p, h) /\ p <> Joined;
  starting_kept : forall t i h, nth_error (pthreads w) t = Some (Starting i, h) ->
     forall c v, ~ In (SawJoin h c v) (log w);
  join_known : forall h c v, In (SawJoin h c v) (log w) -> (h < length (blocks w))%nat }.

Lemma inv3_create hd f a m c w : inv w -> inv3 w -> inv3 (snd (ThreadAPI_Create hd f a m c w)).
Proof.
  intros I J. unfold ThreadAPI_Create.
  destruct hd; [|exact J]. destruct f as [f|]; [|exact J]. destruct m; [|exact J]. cbn [negb].
  destruct I as [I1 I2 I3 I4 I5 I6 I7 I8]. destruct J as [J1 J2 J3].
  assert (Failed : inv3 (mk (blocks w ++ [None]) (pthreads w) (log w))).
  { split; cbn; auto.
    - intros h f' a' H Hn. destruct (J1 _ _ _ H Hn) as (t & p & Hb & Hp).
      exists t, p. split; [|exact Hp]. rewrite app_nth_last. pose proof (nth_some_lt _ _ _ Hb).
      destruct (h =? _)%nat eqn:E; [apply Nat.eqb_eq in E; lia|exact Hb].
    - intros h c0 v H. rewrite app_length. apply J3 in H. lia. }
  destruct (c =? 0); [|destruct (c =? EAGAIN); exact Failed]. clear Failed. cbn [snd].
  set (h := length (blocks w)). split; cbn.
  - intros h' f' a' [H|H] Hn.
    + injection H as <- <- <-. exists (length (pthreads w)), (Starting h).
      rewrite !app_nth_last. unfold h. rewrite !Nat.eqb_refl.
      repeat split; auto. discriminate.
    + destruct (J1 _ _ _ H) as (t & p & Hb & Hp & Hj).
      { intros c0 v X. apply (Hn c0 v). right. exact X. }
      exists t, p. rewrite !app_nth_last. pose proof (nth_some_lt _ _ _ Hb). pose proof (nth_some_lt _ _ _ Hp).
      destruct (h' =? _)%nat eqn:E; [apply Nat.eqb_eq in E; lia|].
      destruct (t =? _)%nat eqn:E'; [apply Nat.eqb_eq in E'; lia|]. auto.
  - intros t i h' H c0 v [X|X]; [discriminate|]. rewrite app_nth_last in H.
    destruct (t =? _)%nat; [|eapply J2; eauto]. injection H as _ <-. apply J3 in X. unfold h in X. lia.
  - intros h' c0 v [X|X]; [discriminate|]. rewrite app_length. apply J3 in X. lia.
Qed.

Lemma inv3_put w t p h q e :
  inv w -> inv3 w -> nth_error (pthreads w) t = Some (p, h) ->
  match q with Running _ _ | Ended _ => True | _ => False end ->
  match e with SawRun _ _ _ | SawEnd _ _ => True | _ => False end ->
  inv3 (mk (blocks w) (put (pthreads w) t (q, h)) (e :: log w)).
Proof.
  intros [I1 I2 I3 I4 I5 I6 I7 I8] [J1 J2 J3] Hp Hq He. split; cbn.
  - intros h' f a [H|H] Hn; [subst e; destruct He|].
    destruct (J1 h' f a H) as (t' & p' & Hb & Hp' & Hj).
    { intros c v X. apply (Hn c v). right. exact X. }
    exists t'. rewrite put_nth. destruct (t =? t')%nat eqn:E; [|eauto].
    apply Nat.eqb_eq in E. subst t'. rewrite Hp in Hp'. injection Hp' as <- <-.
    rewrite Hp. exists q. repeat split; auto. destruct q; try discriminate; destruct Hq.
  - intros t' i h' H c v [X|X]; [subst e; destruct He|]. rewrite put_nth in H.
    destruct (t =? t')%nat eqn:E; [|eapply J2; eauto].
    destruct (nth_error _ t'); [|discriminate]. injection H as -> _. destruct Hq.
  - intros h' c v [X|X]; [subst e; destruct He|]. eauto.
Qed.

Lemma step_inv3 e w : inv w -> inv3 w -> join_ok w e ->
  step e w <> Undefined /\ (forall w', step e w = Next w' -> inv3 w').
Proof.
  intros I J Hj. destruct e as [hd f a m c|t|t r|h res ans]; cbn [step].
  - split; [discriminate|]. intros w' H. injection H as <-. apply inv3_create; auto.
  - unfold ThreadWrapper_start. destruct (nth_error (pthreads w) t) as [ [p h]|] eqn:Ht;
      [|split; discriminate].
    destruct p as [i| | |]; try (split; discriminate).
    destruct (inv_threads w I _ _ _ Ht) as (f & a & Hc & -> & _).
    pose proof (starting_kept w J _ _ _ Ht) as Hk.
    destruct (freed_joined w J h f a Hc Hk) as (t' & p & Hb & Hp & Hpj). rewrite Hb.
    split; [discriminate|]. intros w' H. injection H as <-. eapply inv3_put; eauto; exact Logic.I.
  - unfold thread_ends. destruct (nth_error (pthreads w) t) as [ [p h]|] eqn:Ht;
      [|split; discriminate].
    destruct p as [i| | |]; try (split; discriminate).
    split; [discriminate|]. intros w' H. injection H as <-. eapply inv3_put; eauto; exact Logic.I.
  - unfold ThreadAPI_Join. destruct h as [h|]; [|split; [discriminate|intros w' H; injection H as <-; exact J] ].
    destruct Hj as (-> & (f & a & Hc) & Hn).
    destruct (freed_joined w J h f a Hc Hn) as (t & p & Hb & Hp & Hpj). rewrite Hb. cbn [Pthread_handle Z.eqb negb].
    rewrite Hp. destruct p as [i|f' a'|v|]; try (split; discriminate); [|congruence].
    split; [discriminate|]. intros w' H. injection H as <-.
    destruct I as [I1 I2 I3 I4 I5 I6 I7 I8]. destruct J as [J1 J2 J3]. split; cbn.
    + intros h' f' a' [X|X] Hn'; [discriminate|].
      assert (Hh : h' <> h) by (intros ->; eapply Hn'; left; reflexivity).
      destruct (J1 h' f' a' X) as (t' & p' & Hb' & Hp' & Hj').
      { intros c v' Y. apply (Hn' c v'). right. exact Y. }
      exists t', p'. rewrite !put_nth.
      destruct (h =? h')%nat eqn:E; [apply Nat.eqb_eq in E; congruence|].
      destruct (t =? t')%nat eqn:E'; [|auto]. apply Nat.eqb_eq in E'. subst t'.
      rewrite Hp in Hp'. congruence.
    + intros t' i h' X c v' [Y|Y].
      * injection Y as <- _ _. rewrite put_nth in X. destruct (t =? t')%nat eqn:E; [|].
        -- destruct (nth_error _ t'); discriminate.
        -- apply Nat.eqb_neq in E. apply E. eapply I6; eauto.
      * rewrite put_nth in X. destruct (t =? t')%nat eqn:E; [|eapply J2; eauto].
        destruct (nth_error _ t'); discriminate.
    + intros h' c v' [Y|Y]; rewrite put_length; [injection Y as <- _ _; eapply nth_some_lt; eauto|eauto].
Qed.

(* C64: nothing undefined happens in any disciplined history, whatever the
   order in which threads start, end and are joined. *)
Theorem threads_defined es : disciplined es init -> exists w, run es init = Next w.
Proof.
  assert (J0 : inv3 init) by (split; cbn; try tauto; intros [|t]; discriminate).
  revert J0. generalize init_inv. generalize init.
  induction es as [|e es IH]; cbn; intros w I J D; [eauto|].
  destruct D as [Hj D]. destruct (step_inv3 e w I J Hj) as [Hd Hn].
  destruct (step e w) as [w'| |] eqn:E; [|eauto|congruence].
  apply IH; auto. eapply step_inv; eauto.
Qed.

(* ... and every thread that was created and joined has no block left. *)
Theorem joined_is_freed es w h c v :
  run es init = Next w -> In (SawJoin h c v) (log w) -> nth_error (blocks w) h = Some None.
Proof.
  assert (G : forall es w0, 
            (forall h c v, In (SawJoin h c v) (log w0) -> nth_error (blocks w0) h = Some None) ->
            run es w0 = Next w ->
            forall h c v, In (SawJoin h c v) (log w) -> nth_error (blocks w) h = Some None).
  { clear. induction es as [|e es IH]; cbn; intros w0 H0 H; [injection H as <-; exact H0|].
    destruct (step e w0) as [w1| |] eqn:E; [|eauto|discriminate].
    apply (IH w1); auto. clear IH H w. intros h c v Hin. destruct e; cbn in E.
    - injection E as <-. unfold ThreadAPI_Create in *.
      destruct handle, f, memory; cbn in *; eauto.
      assert (K : forall x, In (SawJoin h c v) (log w0) -> nth_error (blocks w0 ++ [x]) h = Some None).
      { intros x X. apply H0 in X. rewrite app_nth_last. pose proof (nth_some_lt _ _ _ X).
        destruct (h =? _)%nat eqn:E; [apply Nat.eqb_eq in E; lia|exact X]. }
      destruct (createResult =? 0); cbn in *; [destruct Hin as [Hin|Hin]; [discriminate|]|
        destruct (createResult =? EAGAIN); cbn in *]; eauto.
    - unfold ThreadWrapper_start in E. destruct (nth_error (pthreads w0) t) as [ [ [] ?]|]; try discriminate.
      destruct (nth_error (blocks w0) i) as [ []|]; try discriminate. injection E as <-.
      destruct Hin as [Hin|Hin]; [discriminate|]. eauto.
    - unfold thread_ends in E. destruct (nth_error (pthreads w0) t) as [ [ [] ?]|]; try discriminate.
      injection E as <-. destruct Hin as [Hin|Hin]; [discriminate|]. eauto.
    - unfold ThreadAPI_Join in E. destruct threadHandle as [k|]; [|injection E as <-; eauto].
      destruct (nth_error (blocks w0) k) as [ [x|]|] eqn:Hb; try discriminate.
      assert (K : forall l, In (SawJoin h c v) l ->
                 (In (SawJoin h c v) (log w0) \/ h = k) -> nth_error (put (blocks w0) k None) h = Some None).
      { intros l _ X. rewrite put_nth. destruct (k =? h)%nat eqn:E'.
        - apply Nat.eqb_eq in E'. subst h. rewrite Hb. reflexivity.
        - destruct X as [X|X]; [eauto|]. subst h. rewrite Nat.eqb_refl in E'. discriminate. }
      destruct (answer =? 0); cbn [negb] in E.
      + destruct (nth_error (pthreads w0) _) as [ [ [] ?]|]; try discriminate.
        injection E as <-. cbn. eapply K; [exact Hin|]. destruct Hin as [Hin|Hin]; [|auto].
        injection Hin as <- _ _. auto.
      + injection E as <-. cbn. eapply K; [exact Hin|]. destruct Hin as [Hin|Hin]; [|auto].
        injection Hin as <- _ _. auto. }
  intros H. eapply G; [|exact H]. intros ? ? ? [].
Qed.

(* What is false without "joins do not fail": the instance is freed although
   the thread may not have read it yet. *)
Theorem failed_join_refuted f a ans :
  ans <> 0 ->
  run [Create true (Some f) a true 0; Join (Some 0%nat) true ans; Start 0] init = Undefined.
Proof.
  intros H. cbn. destruct (ans =? 0) eqn:E; [lia|]. reflexivity.
Qed.

(* A concrete disciplined history: two threads, the second ends first. *)
Example threads_example :
  let es := [Create true (Some 7%N) 70%N true 0; Create true (Some 8%N) 80%N true 0;
             Start 1; Start 0; Join (Some 0%nat) true 0; Ends 1 (-5); Join (Some 1%nat) true 0;
             Ends 0 42; Join (Some 0%nat) true 0] in
  disciplined es init /\ ints_only es /\
  exists w, run es init = Next w /\
    In (SawJoin 0 THREADAPI_OK (Some 42)) (log w) /\
    In (SawJoin 1 THREADAPI_OK (Some (-5))) (log w).
Proof.
  cbn zeta. split; [|split].
  - cbn. repeat split; try (eexists _, _; cbn; tauto); intros c v H; cbn in H;
      repeat (destruct H as [H|H]; try discriminate); try destruct H.
  - repeat constructor; cbn; lia.
  - eexists. split; [reflexivity|]. cbn. auto.
Qed.
