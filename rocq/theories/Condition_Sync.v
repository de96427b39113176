(* C83: no wake-up is lost.  Any number of threads use one lock, one
   condition and one flag through the functions of condition_pthreads.c and
   lock_pthreads.c in the usual way:

     waiting:  Lock(l); while (!flag) Condition_Wait(c, l, t); Unlock(l);
     posting:  Lock(l); flag = true; Condition_Post(c); Unlock(l);
     or        Lock(l); flag = true; Unlock(l); Condition_Post(c);

   The scheduler is arbitrary; waits may end by a timeout, or without cause,
   at any time.  What the pthread functions do is the small machine [perform]
   below (POSIX: pthread_cond_wait releases the mutex and enqueues the caller
   in one step, and holds the mutex again when it returns; a broadcast
   releases all waiting threads, a signal at least one: here the first).
   Which pthread functions are called is not assumed: the steps run the calls
   that the models of Lock, Unlock, Condition_Wait and Condition_Post make. *)
From Verif Require Import Base Condition_Model.
Local Open Scope nat_scope.

(* Where a thread is. *)
Inductive pc :=
| WLock (t : Z)      (* waiter, before Lock; t: the timeout it uses *)
| WTest (t : Z)      (* waiter, holds the lock, about to test the flag *)
| WQueued (t : Z)    (* waiter, inside pthread_cond_(timed)wait, enqueued *)
| WWoken (t : Z)     (* waiter, released, wants the mutex back *)
| WUnlock            (* waiter, saw the flag, before Unlock *)
| PLock (early : bool)   (* poster; early: posts before it unlocks *)
| PSet (early : bool)
| PPost (early : bool)   (* before Condition_Post *)
| PUnlock (early : bool) (* before Unlock *)
| Done.

Record sys := mk {
  threads : list pc;
  owner : option nat;   (* of the mutex *)
  flag : bool }.

Fixpoint update (l : list pc) (i : nat) (p : pc) : list pc :=
  match l, i with
  | [], _ => []
  | _ :: t, O => p :: t
  | q :: t, S j => q :: update t j p
  end.

Definition wake (p : pc) : pc :=
  match p with WQueued t => WWoken t | _ => p end.
Fixpoint wake_one (l : list pc) : list pc :=
  match l with
  | [] => []
  | WQueued t :: r => WWoken t :: r
  | p :: r => p :: wake_one r
  end.

Section Sync.
Variables c l : N.   (* the condition and the lock *)

(* What one pthread call of thread [i] does; [k] is where the thread is after
   the call.  None: it has to wait. *)
Definition perform (i : nat) (k : pc) (x : call) (s : sys) : option sys :=
  match x with
  | MutexLock m =>
      if (m =? l)%N then
        match owner s with
        | None => Some (mk (update (threads s) i k) (Some i) (flag s))
        | Some _ => None
        end
      else Some s
  | MutexUnlock m =>
      if (m =? l)%N then
        match owner s with
        | Some j => if j =? i then Some (mk (update (threads s) i k) None (flag s)) else None
        | None => None
        end
      else Some s
  | CondWait cc m | CondTimedwait cc m _ _ =>
      if (cc =? c)%N && (m =? l)%N then
        match owner s with
        | Some j => if j =? i then Some (mk (update (threads s) i k) None (flag s)) else None
        | None => None
        end
      else Some s
  | CondBroadcast cc =>
      if (cc =? c)%N then Some (mk (map wake (update (threads s) i k)) (owner s) (flag s))
      else Some (mk (update (threads s) i k) (owner s) (flag s))
  | CondSignal cc =>
      if (cc =? c)%N then Some (mk (wake_one (update (threads s) i k)) (owner s) (flag s))
      else Some (mk (update (threads s) i k) (owner s) (flag s))
  | _ => Some s
  end.

Fixpoint perform_all (i : nat) (k : pc) (xs : list call) (s : sys) : option sys :=
  match xs with
  | [] => Some s
  | x :: r => match perform i k x s with Some s => perform_all i k r s | None => None end
  end.

(* One step of thread i. *)
Inductive step : nat -> sys -> sys -> Prop :=
| step_wlock i t s s' :
    nth_error (threads s) i = Some (WLock t) ->
    perform_all i (WTest t) (fst (Lock (Some l) 0)) s = Some s' -> step i s s'
| step_wtest i t s :
    nth_error (threads s) i = Some (WTest t) -> flag s = true ->
    step i s (mk (update (threads s) i WUnlock) (owner s) (flag s))
| step_wwait i t s s' now calls r :
    nth_error (threads s) i = Some (WTest t) -> flag s = false ->
    Condition_Wait (Some c) (Some l) t now 0 = Some (calls, r) ->
    perform_all i (WQueued t) calls s = Some s' -> step i s s'
| step_wake i t s :   (* a timeout, or a wake-up without cause *)
    nth_error (threads s) i = Some (WQueued t) ->
    step i s (mk (update (threads s) i (WWoken t)) (owner s) (flag s))
| step_wrelock i t s :
    nth_error (threads s) i = Some (WWoken t) -> owner s = None ->
    step i s (mk (update (threads s) i (WTest t)) (Some i) (flag s))
| step_wunlock i s s' :
    nth_error (threads s) i = Some WUnlock ->
    perform_all i Done (fst (Unlock (Some l) 0)) s = Some s' -> step i s s'
| step_plock i e s s' :
    nth_error (threads s) i = Some (PLock e) ->
    perform_all i (PSet e) (fst (Lock (Some l) 0)) s = Some s' -> step i s s'
| step_pset i e s :
    nth_error (threads s) i = Some (PSet e) ->
    step i s (mk (update (threads s) i (if e then PPost e else PUnlock e)) (owner s) true)
| step_ppost i e s s' :
    nth_error (threads s) i = Some (PPost e) ->
    perform_all i (if e then PUnlock e else Done) (fst (Condition_Post (Some c) 0)) s = Some s' ->
    step i s s'
| step_punlock i e s s' :
    nth_error (threads s) i = Some (PUnlock e) ->
    perform_all i (if e then Done else PPost e) (fst (Unlock (Some l) 0)) s = Some s' ->
    step i s s'.

Inductive steps : sys -> sys -> Prop :=
| steps_refl s : steps s s
| steps_step s i s' s'' : steps s s' -> step i s' s'' -> steps s s''.

Definition at_start (p : pc) : Prop :=
  match p with
  | WLock t => (- 2^31 <= t < 2^31)%Z   (* the timeout is an int *)
  | PLock _ => True
  | _ => False
  end.
Definition start (ts : list pc) : sys := mk ts None false.

Definition holds (p : pc) : bool :=
  match p with
  | WTest _ | WUnlock | PSet _ | PUnlock _ | PPost true => true
  | _ => false
  end.
Definition queued (p : pc) : bool := match p with WQueued _ => true | _ => false end.
(* a poster that has set the flag and has not yet posted *)
Definition to_post (p : pc) : bool :=
  match p with PPost _ | PUnlock false => true | _ => false end.

(* the invariant *)
Record inv (s : sys) : Prop := {
  inv_owner : forall i p, nth_error (threads s) i = Some p ->
                holds p = true <-> owner s = Some i;
  inv_owned : forall i, owner s = Some i -> exists p, nth_error (threads s) i = Some p;
  inv_wake : flag s = true -> (exists p, In p (threads s) /\ queued p = true) ->
             exists p, In p (threads s) /\ to_post p = true;
  inv_flag : forall p, In p (threads s) ->
             match p with PPost _ | PUnlock _ => flag s = true | _ => True end }.

Lemma update_nth ts i p j :
  nth_error (update ts i p) j =
  if i =? j then match nth_error ts j with Some _ => Some p | None => None end
  else nth_error ts j.
Proof.
  revert i j; induction ts as [|q ts IH]; intros i j; cbn.
  - destruct j, (i =? _); reflexivity.
  - destruct i, j; cbn; try reflexivity. apply IH.
Qed.

Lemma in_update ts i p q : In q (update ts i p) -> q = p \/ In q ts.
Proof.
  revert i; induction ts as [|x ts IH]; intros i; cbn; [intros []|].
  destruct i; cbn.
  - intros [-> | H]; auto.
  - intros [-> | H]; auto. apply IH in H. tauto.
Qed.

(* another thread's place survives an update *)
Lemma in_update_other ts i p old q :
  nth_error ts i = Some old -> In q ts -> q <> old -> In q (update ts i p).
Proof.
  revert i; induction ts as [|x ts IH]; intros i Hn H Hq; [destruct H|].
  destruct H as [-> | H]; destruct i; cbn in *; eauto. congruence.
Qed.

Lemma in_update_new ts i p old : nth_error ts i = Some old -> In p (update ts i p).
Proof.
  revert i; induction ts as [|x ts IH]; intros i; destruct i; cbn; try discriminate; eauto.
Qed.

Lemma nth_in (ts : list pc) i p : nth_error ts i = Some p -> In p ts.
Proof. apply nth_error_In. Qed.


Lemma update_inv s i old p o' f' :
  inv s -> nth_error (threads s) i = Some old ->
  (holds p = true <-> o' = Some i) ->
  (forall j, j <> i -> owner s = Some j <-> o' = Some j) ->
  (flag s = true -> f' = true) ->
  match p with PPost _ | PUnlock _ => f' = true | _ => True end ->
  (to_post p = true \/ f' = false \/
   (queued p = false /\ to_post old = false /\ f' = flag s)) ->
  inv (mk (update (threads s) i p) o' f').
Proof.
  intros [I1 I2 I3 I4] Hn Hh Ho Hf Hp Hw. split; cbn.
  - intros j q. rewrite update_nth. destruct (i =? j) eqn:E.
    + apply Nat.eqb_eq in E; subst j. rewrite Hn. intros H; injection H as <-. exact Hh.
    + apply Nat.eqb_neq in E. intros H. rewrite (I1 _ _ H). apply Ho. auto.
  - intros j Hj. rewrite update_nth. destruct (i =? j) eqn:E.
    + apply Nat.eqb_eq in E; subst j. rewrite Hn. eauto.
    + apply Nat.eqb_neq in E. apply I2. apply Ho; auto.
  - intros Hff (q & Hq & Hqq).
    destruct Hw as [Hw|[Hw|(H1 & H2 & H3)] ]; [|congruence|].
    + exists p. split; [eapply in_update_new; eauto|exact Hw].
    + apply in_update in Hq. destruct Hq as [-> | Hq]; [congruence|].
      destruct I3 as (r & Hr & Hrr); [congruence|eauto|].
      exists r. split; [|exact Hrr]. eapply in_update_other; eauto. intros ->. congruence.
  - intros q Hq. apply in_update in Hq. destruct Hq as [-> | Hq]; [exact Hp|].
    apply I4 in Hq. destruct q; auto.
Qed.

Lemma wake_nth ts j q :
  nth_error (map wake ts) j = Some q -> exists p, nth_error ts j = Some p /\ q = wake p.
Proof. intros H. rewrite nth_error_map in H. destruct nth_error; [|discriminate]. injection H as <-. eauto. Qed.

Lemma wake_inv ts o f : 
  (forall i p, nth_error ts i = Some p -> holds p = true <-> o = Some i) ->
  (forall i, o = Some i -> exists p, nth_error ts i = Some p) ->
  (forall p, In p ts -> match p with PPost _ | PUnlock _ => f = true | _ => True end) ->
  inv (mk (map wake ts) o f).
Proof.
  intros I1 I2 I4. split; cbn.
  - intros i q H. apply wake_nth in H. destruct H as (p & H & ->).
    rewrite <- (I1 _ _ H). destruct p; cbn; reflexivity.
  - intros i H. destruct (I2 i H) as (p & Hp). exists (wake p). rewrite nth_error_map, Hp. reflexivity.
  - intros _ (q & Hq & Hqq). apply in_map_iff in Hq. destruct Hq as (p & <- & _).
    destruct p; discriminate.
  - intros q Hq. apply in_map_iff in Hq. destruct Hq as (p & <- & Hp).
    apply I4 in Hp. destruct p; cbn; auto.
Qed.

Lemma step_inv k s s' : inv s -> step k s s' -> inv s'.
Proof.
  intros I H. pose proof I as [I1 I2 I3 I4].
  destruct H as [i t s s' Hn H|i t s Hn Hf|i t s s' now calls r Hn Hf Hc H|i t s Hn|i t s Hn Ho
                |i s s' Hn H|i e s s' Hn H|i e s Hn|i e s s' Hn H|i e s s' Hn H];
    pose proof (I1 _ _ Hn) as Hh; pose proof (I4 _ (nth_in _ _ _ Hn)) as Hfl; cbn in Hh, Hfl.
  - cbn in H. rewrite N.eqb_refl in H. destruct (owner s) eqn:Ho; [discriminate|].
    injection H as <-. eapply update_inv; eauto; cbn; try tauto.
    intros j Hj. split; congruence.
  - eapply update_inv; eauto; cbn; try tauto.
  - assert (Hx : perform i (WQueued t) (CondWait c l) s = Some s').
    { unfold Condition_Wait in Hc. destruct (t >? 0)%Z.
      - destruct now as [ns nn]. repeat (destruct (i64 _); [|discriminate]).
        injection Hc as <- _. cbn in H |- *. rewrite !N.eqb_refl in *. cbn in *.
        destruct (owner s); [|discriminate]. destruct (n =? i); [exact H|discriminate].
      - injection Hc as <- _. cbn in H |- *. rewrite !N.eqb_refl in *. cbn in *.
        destruct (owner s); [|discriminate]. destruct (n =? i); [exact H|discriminate]. }
    cbn in Hx. rewrite !N.eqb_refl in Hx. cbn in Hx. destruct (owner s) as [k|] eqn:Ho; [|discriminate].
    destruct (k =? i) eqn:E; [|discriminate]. apply Nat.eqb_eq in E. subst k. injection Hx as <-.
    eapply update_inv; eauto; cbn; try tauto.
    + split; intros; discriminate.
    + intros j Hj. rewrite Ho. split; congruence.
  - eapply update_inv; eauto; cbn; tauto.
  - eapply update_inv; eauto; cbn; try tauto. intros j Hj. split; congruence.
  - cbn in H. rewrite N.eqb_refl in H. destruct (owner s) as [k|] eqn:Ho; [|discriminate].
    destruct (k =? i) eqn:E; [|discriminate]. apply Nat.eqb_eq in E. subst k. injection H as <-.
    eapply update_inv; eauto; cbn; try tauto.
    + split; intros; discriminate.
    + intros j Hj. rewrite Ho. split; congruence.
  - cbn in H. rewrite N.eqb_refl in H. destruct (owner s) eqn:Ho; [discriminate|].
    injection H as <-. eapply update_inv; eauto; cbn; try tauto.
    intros j Hj. split; congruence.
  - eapply update_inv; eauto; destruct e; cbn; try tauto.
  - cbn in H. rewrite N.eqb_refl in H. injection H as <-.
    set (k := if e then PUnlock e else Done).
    assert (Iu : inv (mk (update (threads s) i k) (owner s) (flag s)) -> True) by auto.
    apply wake_inv.
    + intros j q. rewrite update_nth. destruct (i =? j) eqn:E.
      * apply Nat.eqb_eq in E; subst j. rewrite Hn. intros H; injection H as <-.
        rewrite <- Hh. destruct e; cbn; reflexivity.
      * apply I1.
    + intros j Hj. rewrite update_nth. destruct (i =? j) eqn:E; [|apply I2, Hj].
      apply Nat.eqb_eq in E; subst j. rewrite Hn. eauto.
    + intros q Hq. apply in_update in Hq. destruct Hq as [-> | Hq]; [|apply I4, Hq].
      destruct e; cbn; auto.
  - cbn in H. rewrite N.eqb_refl in H. destruct (owner s) as [k|] eqn:Ho; [|discriminate].
    destruct (k =? i) eqn:E; [|discriminate]. apply Nat.eqb_eq in E. subst k. injection H as <-.
    eapply update_inv; eauto; destruct e; cbn; try tauto.
    + split; intros; discriminate.
    + split; intros; discriminate.
    + intros j Hj. rewrite Ho. split; congruence.
    + intros j Hj. rewrite Ho. split; congruence.
Qed.

Lemma start_inv ts : Forall at_start ts -> inv (start ts).
Proof.
  intros H. rewrite Forall_forall in H. split; cbn.
  - intros i p Hp. apply nth_in, H in Hp. destruct p; cbn in *; try tauto; split; discriminate.
  - discriminate.
  - discriminate.
  - intros p Hp. apply H in Hp. destruct p; cbn in *; tauto.
Qed.

Lemma steps_inv ts s : Forall at_start ts -> steps (start ts) s -> inv s.
Proof.
  intros Hs H. remember (start ts) as s0. induction H; subst.
  - apply start_inv, Hs.
  - eapply step_inv; eauto.
Qed.

(* C83.  Whatever the number of threads, their kinds and timeouts and the
   schedule: once the flag is set and every poster has made its post, no
   waiter is left sleeping in the condition, even one with no timeout. *)
Theorem no_lost_wakeup ts s :
  Forall at_start ts -> steps (start ts) s ->
  flag s = true ->
  (forall e, ~ In (PPost e) (threads s)) -> (forall e, ~ In (PUnlock e) (threads s)) ->
  forall t, ~ In (WQueued t) (threads s).
Proof.
  intros Hs H Hf H1 H2 t Ht. pose proof (steps_inv ts s Hs H) as I.
  destruct (inv_wake s I Hf) as (p & Hp & Hpp); [exists (WQueued t); auto|].
  destruct p; try discriminate; [eapply H1; eauto|eapply H2; eauto].
Qed.

(* The lock excludes: at most one thread is between its Lock and its Unlock
   and not waiting. *)
Theorem lock_excludes ts s i j p q :
  Forall at_start ts -> steps (start ts) s ->
  nth_error (threads s) i = Some p -> nth_error (threads s) j = Some q ->
  holds p = true -> holds q = true -> i = j.
Proof.
  intros Hs H Hi Hj Hp Hq. pose proof (steps_inv ts s Hs H) as I.
  apply (inv_owner s I _ _ Hi) in Hp. apply (inv_owner s I _ _ Hj) in Hq. congruence.
Qed.

(* ------------------------------------------------------------------ *)
(** * No deadlock *)

Definition small (p : pc) : Prop :=
  match p with
  | WLock t | WTest t | WQueued t | WWoken t => (- 2^31 <= t < 2^31)%Z
  | _ => True
  end.
Definition will_set (p : pc) : bool :=
  match p with PLock _ | PSet _ => true | _ => false end.

Record inv2 (s : sys) : Prop := {
  inv_small : forall p, In p (threads s) -> small p;
  inv_set : flag s = false -> exists p, In p (threads s) /\ will_set p = true }.

Lemma update_inv2 s i old p o' f' :
  inv2 s -> nth_error (threads s) i = Some old -> small p ->
  (f' = true \/ (f' = flag s /\ (will_set old = true -> will_set p = true))) ->
  inv2 (mk (update (threads s) i p) o' f').
Proof.
  intros [J1 J2] Hn Hp Hf. split; cbn.
  - intros q Hq. apply in_update in Hq. destruct Hq as [-> | Hq]; auto.
  - intros E. destruct Hf as [Hf|[Hf Hw] ]; [congruence|].
    destruct J2 as (q & Hq & Hqq); [congruence|].
    destruct (will_set old) eqn:Eo.
    + exists p. split; [eapply in_update_new; eauto|auto].
    + exists q. split; [|exact Hqq]. eapply in_update_other; eauto. congruence.
Qed.

Lemma wake_inv2 ts o f : inv2 (mk ts o f) -> inv2 (mk (map wake ts) o f).
Proof.
  intros [J1 J2]; split; cbn in *.
  - intros q Hq. apply in_map_iff in Hq. destruct Hq as (p & <- & Hp).
    apply J1 in Hp. destruct p; exact Hp.
  - intros E. destruct (J2 E) as (p & Hp & Hpp). exists (wake p). split; [apply in_map, Hp|].
    destruct p; auto.
Qed.

Lemma step_inv2 k s s' : inv2 s -> step k s s' -> inv2 s'.
Proof.
  intros J H. pose proof J as [J1 J2].
  destruct H as [i t s s' Hn H|i t s Hn Hf|i t s s' now calls r Hn Hf Hc H|i t s Hn|i t s Hn Ho
                |i s s' Hn H|i e s s' Hn H|i e s Hn|i e s s' Hn H|i e s s' Hn H];
    pose proof (J1 _ (nth_in _ _ _ Hn)) as Hsm; cbn [small] in Hsm.
  - cbn in H. rewrite N.eqb_refl in H. destruct (owner s) eqn:Ho; [discriminate|].
    injection H as <-. eapply update_inv2; eauto.
  - eapply update_inv2; eauto; cbn; tauto.
  - assert (Hx : perform i (WQueued t) (CondWait c l) s = Some s').
    { unfold Condition_Wait in Hc. destruct (t >? 0)%Z.
      - destruct now as [ns nn]. repeat (destruct (i64 _); [|discriminate]).
        injection Hc as <- _. cbn in H |- *. rewrite !N.eqb_refl in *. cbn in *.
        destruct (owner s); [|discriminate]. destruct (n =? i); [exact H|discriminate].
      - injection Hc as <- _. cbn in H |- *. rewrite !N.eqb_refl in *. cbn in *.
        destruct (owner s); [|discriminate]. destruct (n =? i); [exact H|discriminate]. }
    cbn in Hx. rewrite !N.eqb_refl in Hx. cbn in Hx. destruct (owner s) as [j|] eqn:Ho; [|discriminate].
    destruct (j =? i) eqn:E; [|discriminate]. injection Hx as <-.
    eapply update_inv2; eauto.
  - eapply update_inv2; eauto.
  - eapply update_inv2; eauto.
  - cbn in H. rewrite N.eqb_refl in H. destruct (owner s) as [j|] eqn:Ho; [|discriminate].
    destruct (j =? i) eqn:E; [|discriminate]. injection H as <-.
    eapply update_inv2; eauto; exact I.
  - cbn in H. rewrite N.eqb_refl in H. destruct (owner s) eqn:Ho; [discriminate|].
    injection H as <-. eapply update_inv2; eauto; exact I.
  - eapply update_inv2; eauto; destruct e; exact I.
  - cbn in H. rewrite N.eqb_refl in H. injection H as <-. apply wake_inv2.
    eapply update_inv2; eauto; [destruct e; exact I|]. right. split; [reflexivity|discriminate].
  - cbn in H. rewrite N.eqb_refl in H. destruct (owner s) as [j|] eqn:Ho; [|discriminate].
    destruct (j =? i) eqn:E; [|discriminate]. injection H as <-.
    eapply update_inv2; eauto; [destruct e; exact I|]. right. split; [reflexivity|discriminate].
Qed.

Lemma steps_inv2 ts s :
  Forall at_start ts -> (exists e, In (PLock e) ts) -> steps (start ts) s -> inv2 s.
Proof.
  intros Hs [e He] H. remember (start ts) as s0. induction H; subst.
  - rewrite Forall_forall in Hs. split; cbn.
    + intros p Hp. apply Hs in Hp. destruct p; cbn in *; tauto.
    + intros _. exists (PLock e). auto.
  - eapply step_inv2; eauto.
Qed.

Lemma find_thread (P : pc -> bool) ts :
  (exists i p, nth_error ts i = Some p /\ P p = true) \/ (forall p, In p ts -> P p = false).
Proof.
  induction ts as [|q ts [(i & p & H & Hp)|IH] ]; [right; intros p []| |].
  - left. exists (S i), p. auto.
  - destruct (P q) eqn:E; [left; exists 0, q; auto|]. right. intros p [<- | H]; auto.
Qed.

(* C83: no deadlock.  If there is a poster, then in every reachable state
   every thread is done, or some thread that is not asleep can make a step:
   the system never depends on a timeout. *)
Theorem no_deadlock ts s :
  Forall at_start ts -> (exists e, In (PLock e) ts) -> steps (start ts) s ->
  (forall p, In p (threads s) -> p = Done) \/
  exists i p s', nth_error (threads s) i = Some p /\ queued p = false /\ step i s s'.
Proof.
  intros Hs Hp H. pose proof (steps_inv2 ts s Hs Hp H) as J. pose proof (steps_inv ts s Hs H) as I.
  destruct (owner s) as [i|] eqn:Ho.
  - right. destruct (inv_owned s I i Ho) as (p & Hi). exists i, p.
    pose proof (proj2 (inv_owner s I i p Hi) Ho) as Hh.
    pose proof (inv_small s J p (nth_in _ _ _ Hi)) as Hsm.
    destruct p as [t|t|t|t| |e|e|e|e|]; try discriminate.
    + destruct (flag s) eqn:Hf.
      * eexists. split; [exact Hi|]. split; [reflexivity|]. eapply step_wtest; eauto.
      * assert (Hw : exists calls r, Condition_Wait (Some c) (Some l) t (0, 0)%Z 0%Z = Some (calls, r) /\
                      exists s', perform_all i (WQueued t) calls s = Some s').
        { unfold Condition_Wait. destruct (t >? 0)%Z eqn:E.
          - cbn in Hsm. unfold i64, MILLISECONDS_IN_1_SECOND, NANOSECONDS_IN_1_SECOND, NANOSECONDS_IN_1_MILLISECOND.
            change (2^31)%Z with 2147483648%Z in Hsm. change (2^63)%Z with 9223372036854775808%Z.
            rewrite (Z.rem_mod_nonneg t), (Z.quot_div_nonneg t) by lia.
            destruct (_ && _) eqn:E1; [|lia].
            destruct (_ && _) eqn:E2 at 1; [|lia].
            rewrite (Z.quot_div_nonneg (0 + t mod 1000 * 1000000)) by lia.
            destruct (_ && _) eqn:E3 at 1; [|lia].
            eexists _, _. split; [reflexivity|]. cbn. rewrite !N.eqb_refl, Ho, Nat.eqb_refl. cbn. eauto.
          - eexists _, _. split; [reflexivity|]. cbn. rewrite !N.eqb_refl, Ho, Nat.eqb_refl. cbn. eauto. }
        destruct Hw as (calls & r & Hc & s' & Hs').
        exists s'. split; [exact Hi|]. split; [reflexivity|]. eapply step_wwait; eauto.
    + eexists. split; [exact Hi|]. split; [reflexivity|]. eapply step_wunlock; eauto.
      cbn. rewrite N.eqb_refl, Ho, Nat.eqb_refl. reflexivity.
    + eexists. split; [exact Hi|]. split; [reflexivity|]. eapply step_pset; eauto.
    + eexists. split; [exact Hi|]. split; [reflexivity|]. eapply step_ppost; eauto.
      cbn. rewrite N.eqb_refl. reflexivity.
    + eexists. split; [exact Hi|]. split; [reflexivity|]. eapply step_punlock; eauto.
      cbn. rewrite N.eqb_refl, Ho, Nat.eqb_refl. reflexivity.
  - assert (Hnh : forall p, In p (threads s) -> holds p = false).
    { intros p Hpp. apply In_nth_error in Hpp. destruct Hpp as [i Hi].
      destruct (holds p) eqn:E; [|reflexivity]. apply (inv_owner s I i p Hi) in E. congruence. }
    destruct (find_thread (fun p => match p with WLock _ | WWoken _ | PLock _ | PPost _ => true | _ => false end)
                          (threads s)) as [(i & p & Hi & Hpp)|Hno].
    + right. exists i, p. destruct p; try discriminate.
      * eexists. split; [exact Hi|]. split; [reflexivity|]. eapply step_wlock; eauto.
        cbn. rewrite N.eqb_refl, Ho. reflexivity.
      * eexists. split; [exact Hi|]. split; [reflexivity|]. eapply step_wrelock; eauto.
      * eexists. split; [exact Hi|]. split; [reflexivity|]. eapply step_plock; eauto.
        cbn. rewrite N.eqb_refl, Ho. reflexivity.
      * eexists. split; [exact Hi|]. split; [reflexivity|]. eapply step_ppost; eauto.
        cbn. rewrite N.eqb_refl. reflexivity.
    + left. assert (Hf : flag s = true).
      { destruct (flag s) eqn:Hf; [reflexivity|]. destruct (inv_set s J Hf) as (p & Hin & Hw).
        specialize (Hno p Hin). specialize (Hnh p Hin). destruct p; discriminate. }
      intros p Hin. specialize (Hno p Hin) as Hn. pose proof (Hnh p Hin) as Hh.
      destruct p; try discriminate; [|reflexivity].
      exfalso. destruct (inv_wake s I Hf) as (q & Hq & Hqq); [eexists; split; [exact Hin|reflexivity]|].
      specialize (Hno q Hq). specialize (Hnh q Hq). destruct q; try discriminate.
Qed.
End Sync.

Lemma steps_front c l i s s' s'' : step c l i s s' -> steps c l s' s'' -> steps c l s s''.
Proof.
  intros H H'. induction H'; [eapply steps_step; [apply steps_refl|exact H]|].
  eapply steps_step; eauto.
Qed.

(* A concrete run: two waiters without timeout are asleep when the poster
   sets the flag and posts after unlocking. *)
Example two_waiters_woken :
  exists s, steps 1%N 2%N (start [WLock 0; WLock 0; PLock false]) s /\
    threads s = [WWoken 0; WWoken 0; Done] /\ flag s = true.
Proof.
  eexists. split.
  - eapply steps_front; [eapply (step_wlock _ _ 0); reflexivity|].
    eapply steps_front; [eapply (step_wwait _ _ 0 _ _ _ (0, 0)%Z); reflexivity|].
    eapply steps_front; [eapply (step_wlock _ _ 1); reflexivity|].
    eapply steps_front; [eapply (step_wwait _ _ 1 _ _ _ (0, 0)%Z); reflexivity|].
    eapply steps_front; [eapply (step_plock _ _ 2); reflexivity|].
    eapply steps_front; [eapply (step_pset _ _ 2); reflexivity|].
    eapply steps_front; [eapply (step_punlock _ _ 2); reflexivity|].
    eapply steps_front; [eapply (step_ppost _ _ 2); reflexivity|].
    apply steps_refl.
  - split; reflexivity.
Qed.
