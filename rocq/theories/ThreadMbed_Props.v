(* C112: threads on mbed. *)
From Verif Require Import Base ThreadMbed_Model.
Local Open Scope nat_scope.

(** * What is seen, oldest first *)

Fixpoint exits (t : nat) (l : list seen) : list Z :=
  match l with
  | [] => []
  | SawExit u v :: l => exits t l ++ (if u =? t then [v] else [])
  | _ :: l => exits t l
  end.
Fixpoint joins (i : nat) (l : list seen) : list Z :=
  match l with
  | [] => []
  | SawJoin j v :: l => joins i l ++ (if j =? i then [v] else [])
  | _ :: l => joins i l
  end.

(* Executions in which a thread is only created when those created before have begun. *)
Inductive orderly : world -> Prop :=
| orderly_init : orderly init
| orderly_create w f a m : orderly w ->
    (forall t th, nth_error (threads w) t = Some th -> t_status th <> Created) -> orderly (create f a m w)
| orderly_other w w' : orderly w -> step w w' -> length (threads w') = length (threads w) -> orderly w'.

(** * Lists *)

Lemma put_length A (l : list A) i x : length (put l i x) = length l.
Proof. revert i. induction l; intros [|i]; cbn [put length]; auto. Qed.
Lemma put_same A (l : list A) i x y : nth_error l i = Some y -> nth_error (put l i x) i = Some x.
Proof. revert i. induction l; intros [|i] H; try discriminate H; cbn [put nth_error] in *; auto. Qed.
Lemma put_other A (l : list A) i j x : i <> j -> nth_error (put l i x) j = nth_error l j.
Proof. revert i j. induction l; intros [|i] [|j] H; cbn [put nth_error]; auto; try congruence. Qed.
Lemma put_cases A (l : list A) i j x y : nth_error (put l i x) j = Some y ->
  (i = j /\ y = x) \/ (i <> j /\ nth_error l j = Some y).
Proof.
  intros H. destruct (Nat.eq_dec i j) as [<-|N]; [|right; split; [exact N|]; now rewrite put_other in H].
  left. split; [reflexivity|]. destruct (nth_error l i) eqn:E.
  - rewrite (put_same _ _ _ _ _ E) in H. now injection H.
  - apply nth_error_None in E. assert (nth_error (put l i x) i = None) as X by (apply nth_error_None; rewrite put_length; exact E). congruence.
Qed.

Lemma free_slot_found l n i : free_slot l n = Some i -> exists s, n <= i /\ nth_error l (i - n) = Some s /\ id s = None.
Proof.
  revert n. induction l as [|s l IH]; intros n H; [discriminate H|]. cbn [free_slot] in H. destruct (id s) eqn:E.
  - apply IH in H as (s' & L & X & Y). exists s'. split; [lia|]. split; [|exact Y]. replace (i - n) with (S (i - S n)) by lia. exact X.
  - injection H as <-. exists s. split; [lia|]. rewrite Nat.sub_diag. split; [reflexivity|exact E].
Qed.
Lemma free_slot_none l n : (forall i s, nth_error l i = Some s -> id s <> None) <-> free_slot l n = None.
Proof.
  revert n. induction l as [|s l IH]; intros n; cbn [free_slot].
  - split; [reflexivity|]. intros _ [|i] s H; discriminate H.
  - split.
    + intros H. pose proof (H 0 s eq_refl) as X. destruct (id s); [|congruence]. apply IH. intros i s' Y. exact (H (S i) s' Y).
    + intros H. destruct (id s) eqn:E; [|discriminate H]. intros [|i] s' Y; [injection Y as <-; congruence|].
      cbn [nth_error] in Y. exact (proj2 (IH (S n)) H i s' Y).
Qed.
Lemma slot_of_found l t n i : slot_of l t n = Some i -> exists s, n <= i /\ nth_error l (i - n) = Some s /\ id s = Some t.
Proof.
  revert n. induction l as [|s l IH]; intros n H; [discriminate H|]. cbn [slot_of] in H.
  assert (slot_of l t (S n) = Some i -> exists s', n <= i /\ nth_error (s :: l) (i - n) = Some s' /\ id s' = Some t) as G.
  { intros X. apply IH in X as (s' & L & X & Y). exists s'. split; [lia|]. split; [|exact Y]. replace (i - n) with (S (i - S n)) by lia. exact X. }
  destruct (id s) as [u|] eqn:E; [|auto]. destruct (u =? t) eqn:U; [|auto].
  injection H as <-. apply Nat.eqb_eq in U as ->. exists s. split; [lia|]. rewrite Nat.sub_diag. split; [reflexivity|exact E].
Qed.
Lemma slot_of_none l t n : slot_of l t n = None -> forall i s, nth_error l i = Some s -> id s <> Some t.
Proof.
  revert n. induction l as [|s l IH]; intros n H i s' X; [destruct i; discriminate X|]. cbn [slot_of] in H.
  destruct (id s) as [u|] eqn:E.
  - destruct (u =? t) eqn:U; [discriminate H|]. apply Nat.eqb_neq in U.
    destruct i; [injection X as <-; rewrite E; congruence|]. exact (IH _ H i s' X).
  - destruct i; [injection X as <-; congruence|]. exact (IH _ H i s' X).
Qed.

(** * Every execution *)

Definition ids_kept (w w' : world) : Prop :=
  length (slots w') = length (slots w) /\
  forall i s, nth_error (slots w) i = Some s -> id s <> None -> exists s', nth_error (slots w') i = Some s' /\ id s' <> None.
Lemma put_ids l i x (s : slot) : nth_error l i = Some s -> (id s <> None -> id x <> None) ->
  length (put l i x) = length l /\ forall j s, nth_error l j = Some s -> id s <> None -> exists s', nth_error (put l i x) j = Some s' /\ id s' <> None.
Proof.
  intros E X. split; [apply put_length|]. intros j s' H N. destruct (Nat.eq_dec i j) as [<-|D].
  - exists x. split; [eapply put_same; exact E|]. apply X. congruence.
  - exists s'. rewrite put_other by exact D. auto.
Qed.
Lemma kept_same w w' : slots w' = slots w -> ids_kept w w'.
Proof. intros E. unfold ids_kept. rewrite E. split; [reflexivity|]. intros i s H N. eauto. Qed.
Lemma kept_step w w' : step w w' -> ids_kept w w'.
Proof.
  intros ST. destruct ST.
  - unfold create. destruct (free_slot (slots w) 0) as [i|]; [|now apply kept_same]. destruct m; [|now apply kept_same].
    destruct (nth_error (slots w) i) eqn:E; [|now apply kept_same]. unfold ids_kept. cbn [slots]. eapply put_ids; [exact E|]. cbn [id]. auto.
  - unfold begin in H. destruct (nth_error (threads w) t) as [ [f a i []]|]; try discriminate H.
    destruct (nth_error (slots w) i) eqn:E; [|discriminate H]. injection H as <-. unfold ids_kept. cbn [slots]. eapply put_ids; [exact E|]. cbn [id]. discriminate.
  - unfold exit in H. destruct (nth_error (threads w) t) as [ [f a i []]|]; try discriminate H.
    destruct (slot_of (slots w) t 0) as [j|]; [|injection H as <-; now apply kept_same].
    destruct (nth_error (slots w) j) as [s|] eqn:E; [|discriminate H]. injection H as <-. destruct (result s); [now apply kept_same|].
    unfold ids_kept. cbn [slots]. eapply put_ids; [exact E|]. cbn [id]. auto.
  - unfold return_ in H. destruct (nth_error (threads w) t) as [ [f a i []]|]; try discriminate H. injection H as <-. now apply kept_same.
  - unfold join in H. destruct (nth_error (slots w) i) as [s|] eqn:E; [|discriminate H]. destruct (result s); [|discriminate H]. injection H as <-.
    unfold ids_kept. cbn [slots]. eapply put_ids; [exact E|]. cbn [id]. auto.
Qed.
Lemma kept_steps w w' : steps w w' -> ids_kept w w'.
Proof.
  induction 1 as [w|w w' w'' S IH T]; [now apply kept_same|]. apply kept_step in T. destruct IH as (L1 & K1), T as (L2 & K2).
  split; [lia|]. intros i s H N. destruct (K1 i s H N) as (s' & H' & N'). exact (K2 i s' H' N').
Qed.

(* The log and the threads agree, in every execution. *)
Definition logged (w : world) : Prop :=
  length (slots w) = MAX_THREADS /\
  (forall t f a r h, In (SawCreate t f a r h) (log w) ->
     (r = THREADAPI_OK /\ exists i, h = Some i /\ exists st, nth_error (threads w) t = Some (mkthread f a i st)) \/
     (r = THREADAPI_NO_MEMORY /\ h = None)) /\
  (forall t th, nth_error (threads w) t = Some th -> In (SawCreate t (t_func th) (t_arg th) THREADAPI_OK (Some (t_slot th))) (log w)) /\
  (forall t f a, In (SawRun t f a) (log w) -> exists th, nth_error (threads w) t = Some th /\ t_func th = f /\ t_arg th = a /\
     exists s, nth_error (slots w) (t_slot th) = Some s /\ id s <> None).
Lemma ids_mono l l' i (s : slot) : (forall j s, nth_error l j = Some s -> id s <> None -> exists s', nth_error l' j = Some s' /\ id s' <> None) ->
  nth_error l i = Some s -> id s <> None -> exists s', nth_error l' i = Some s' /\ id s' <> None.
Proof. eauto. Qed.

(* a change of one thread's status, and additions to the log that are no creations *)
Lemma logged_status w w' e : logged w -> ids_kept w w' ->
  log w' = e :: log w \/ log w' = log w ->
  (forall t f a r h, e <> SawCreate t f a r h) ->
  (forall t f a, e = SawRun t f a -> exists th, nth_error (threads w') t = Some th /\ t_func th = f /\ t_arg th = a /\
     exists s, nth_error (slots w') (t_slot th) = Some s /\ id s <> None) ->
  (forall t f a i st, nth_error (threads w) t = Some (mkthread f a i st) -> exists st', nth_error (threads w') t = Some (mkthread f a i st')) ->
  length (threads w') = length (threads w) ->
  logged w'.
Proof.
  intros (L & C & T & R) (KL & K) E NC NR TT TL. split; [congruence|]. split; [|split].
  - intros t f a r h I. assert (In (SawCreate t f a r h) (log w)) as I'.
    { destruct E as [E|E]; rewrite E in I; [|exact I]. destruct I as [I|I]; [|exact I]. exfalso. exact (NC _ _ _ _ _ I). }
    destruct (C _ _ _ _ _ I') as [(O & i & HI & st & X)|X]; [left|right; exact X]. split; [exact O|]. exists i. split; [exact HI|]. eapply TT. exact X.
  - intros t [f a i st] X. assert (t < length (threads w)) as LT by (rewrite <- TL; apply nth_error_Some; congruence).
    apply nth_error_Some in LT. destruct (nth_error (threads w) t) as [ [f' a' i' st']|] eqn:Y; [|congruence].
    destruct (TT _ _ _ _ _ Y) as (st2 & Z2). rewrite X in Z2. injection Z2 as -> -> -> _.
    specialize (T _ _ Y). destruct E as [->| ->]; [right|]; exact T.
  - intros t f a I. assert (e = SawRun t f a \/ In (SawRun t f a) (log w)) as [I'|I'].
    { destruct E as [E|E]; rewrite E in I; [destruct I; auto|auto]. }
    + now apply NR.
    + destruct (R _ _ _ I') as ([f' a' i' st'] & X & <- & <- & s & Y & N). destruct (TT _ _ _ _ _ X) as (st2 & X2). eexists. split; [exact X2|].
      split; [reflexivity|]. split; [reflexivity|]. cbn [t_slot] in *. exact (K _ _ Y N).
Qed.
Lemma put_status w t f a i st st' : nth_error (threads w) t = Some (mkthread f a i st) ->
  forall u g b j s, nth_error (threads w) u = Some (mkthread g b j s) -> exists s', nth_error (put (threads w) t (mkthread f a i st')) u = Some (mkthread g b j s').
Proof.
  intros E u g b j s H. destruct (Nat.eq_dec t u) as [<-|N].
  - rewrite E in H. injection H as <- <- <- <-. eexists. eapply put_same. exact E.
  - exists s. now rewrite put_other.
Qed.
Lemma logged_step w w' : logged w -> step w w' -> logged w'.
Proof.
  intros G ST. pose proof (kept_step _ _ ST) as K. destruct ST.
  - pose proof G as (L & C & T & R). unfold create in *.
    assert (forall f a, logged (mk (slots w) (threads w) (SawCreate (length (threads w)) f a THREADAPI_NO_MEMORY None :: log w))) as NM.
    { intros f' a'. split; [exact L|]. split; [|split].
      - intros t f0 a0 r h [I|I]; [injection I as <- <- <- <- <-; right; split; reflexivity|now apply C].
      - intros t th X. right. now apply T.
      - intros t f0 a0 [I|I]; [discriminate I|now apply R]. }
    destruct (free_slot (slots w) 0) as [i|]; [|apply NM]. destruct m; [|apply NM].
    destruct (nth_error (slots w) i) as [s|] eqn:E; [|exact G]. destruct K as (KL & K). cbn [slots] in *.
    split; [cbn [slots]; congruence|]. cbn [slots threads log]. split; [|split].
    + intros t f0 a0 r h [I|I].
      * injection I as <- <- <- <- <-. left. split; [reflexivity|]. exists i. split; [reflexivity|]. exists Created. rewrite nth_error_app2, Nat.sub_diag by lia. reflexivity.
      * destruct (C _ _ _ _ _ I) as [(O & j & HI & st & X)|X]; [left|right; exact X]. split; [exact O|]. exists j. split; [exact HI|]. exists st.
        rewrite nth_error_app1; [exact X|]. apply nth_error_Some. congruence.
    + intros t th X. destruct (Nat.lt_ge_cases t (length (threads w))) as [LT|GE].
      * rewrite nth_error_app1 in X by exact LT. right. now apply T.
      * rewrite nth_error_app2 in X by exact GE. destruct (t - length (threads w)) as [|d] eqn:D; [|destruct d; discriminate X].
        injection X as <-. left. cbn. f_equal. lia.
    + intros t f0 a0 [I|I]; [discriminate I|]. destruct (R _ _ _ I) as (th & X & F & A & s' & Y & N). exists th.
      split; [rewrite nth_error_app1; [exact X|apply nth_error_Some; congruence]|]. split; [exact F|]. split; [exact A|]. exact (K _ _ Y N).
  - unfold begin in H. destruct (nth_error (threads w) t) as [ [f a i []]|] eqn:E; try discriminate H.
    destruct (nth_error (slots w) i) as [s|] eqn:ES; [|discriminate H]. injection H as <-.
    apply (logged_status w _ (SawRun t f a) G K); cbn [log threads slots].
    + now left.
    + discriminate.
    + intros t' f' a' X. injection X as <- <- <-. eexists. split; [eapply put_same; exact E|]. split; [reflexivity|]. split; [reflexivity|].
      cbn [t_slot]. eexists. split; [eapply put_same; exact ES|]. discriminate.
    + eapply put_status. exact E.
    + apply put_length.
  - unfold exit in H. destruct (nth_error (threads w) t) as [ [f a i []]|] eqn:E; try discriminate H.
    assert (threads w' = threads w /\ log w' = SawExit t v :: log w) as (TH & LG).
    { destruct (slot_of (slots w) t 0) as [j|]; [|injection H as <-; split; reflexivity].
      destruct (nth_error (slots w) j) as [s|]; [|discriminate H]. injection H as <-. split; reflexivity. }
    apply (logged_status w w' (SawExit t v) G K); [now left|discriminate|discriminate| |congruence].
    rewrite TH. eauto.
  - unfold return_ in H. destruct (nth_error (threads w) t) as [ [f a i []]|] eqn:E; try discriminate H. injection H as <-.
    apply (logged_status w _ (SawExit 0 0) G K); cbn [log threads]; [now right|discriminate|discriminate|eapply put_status; exact E|apply put_length].
  - unfold join in H. destruct (nth_error (slots w) i) as [s|] eqn:E; [|discriminate H]. destruct (result s) as [v|]; [|discriminate H]. injection H as <-.
    apply (logged_status w _ (SawJoin i v) G K); cbn [log threads]; [now left|discriminate|discriminate| |].
    + destruct (thrd s) as [t|]; [|eauto]. destruct (nth_error (threads w) t) as [ [f a j st]|] eqn:ET; [|eauto]. eapply put_status. exact ET.
    + destruct (thrd s) as [t|]; [|reflexivity]. destruct (nth_error (threads w) t) as [ [f a j st]|]; [|reflexivity]. apply put_length.
Qed.
Lemma logged_init : logged init.
Proof.
  split; [reflexivity|]. split; [intros ? ? ? ? ? []|]. split; [intros [|t] th X; discriminate X|intros ? ? ? []].
Qed.
Lemma logged_steps w : steps init w -> logged w.
Proof. intros S. remember init as w0. induction S as [|w0 w w' S IH T]; subst; [apply logged_init|]. eapply logged_step; [now apply IH|exact T]. Qed.

(* A thread runs the function it was created for, with its argument. *)
Theorem mbed_thread_runs_its_function : forall w t f a, steps init w -> In (SawRun t f a) (log w) ->
  exists i, In (SawCreate t f a THREADAPI_OK (Some i)) (log w).
Proof.
  intros w t f a S I. destruct (logged_steps _ S) as (_ & _ & T & R). destruct (R _ _ _ I) as (th & X & <- & <- & _).
  exists (t_slot th). now apply T.
Qed.

(* The handle of a thread that ran is never given out again, joined or not. *)
Theorem mbed_handle_never_reused : forall w w' t f a t' f' a' i,
  steps init w -> steps w w' ->
  In (SawCreate t f a THREADAPI_OK (Some i)) (log w) -> In (SawRun t f a) (log w) ->
  forall m, log (create f' a' m w') <> SawCreate t' f' a' THREADAPI_OK (Some i) :: log w'.
Proof.
  intros w w' t f a t' f' a' i S S' C R m E. destruct (logged_steps _ S) as (_ & HC & _ & HR).
  destruct (HR _ _ _ R) as (th & X & <- & <- & s & Y & N).
  destruct (HC _ _ _ _ _ C) as [(_ & j & J & st & X')|(X' & _)]; [|discriminate X']. injection J as <-. rewrite X in X'. injection X' as X'. apply (f_equal t_slot) in X'. cbn [t_slot] in X'. rewrite X' in Y.
  destruct (kept_steps _ _ S') as (_ & K). destruct (K _ _ Y N) as (s' & Y' & N').
  unfold create in E. destruct (free_slot (slots w') 0) as [j|] eqn:F; [|cbn [log] in E; discriminate E].
  destruct m; [|cbn [log] in E; discriminate E]. destruct (nth_error (slots w') j) eqn:EJ.
  - cbn [log] in E. injection E as _ ->. apply free_slot_found in F as (s2 & _ & F & G). rewrite Nat.sub_0_r in F. congruence.
  - cbn [log] in E. apply (f_equal (@length _)) in E. cbn [length] in E. lia.
Qed.
(* So four threads are all there ever are: after four with different handles have run, no later
   call of create succeeds, even when all have ended and were joined. *)
Theorem mbed_no_fifth_thread_refuted : forall w w' (t f a : nat -> _),
  steps init w -> steps w w' ->
  (forall i, i < MAX_THREADS -> In (SawCreate (t i) (f i) (a i) THREADAPI_OK (Some i)) (log w) /\ In (SawRun (t i) (f i) (a i)) (log w)) ->
  forall f' a' m, create f' a' m w' = mk (slots w') (threads w') (SawCreate (length (threads w')) f' a' THREADAPI_NO_MEMORY None :: log w').
Proof.
  intros w w' t f a S S' A f' a' m. destruct (logged_steps _ S) as (L & HC & _ & HR).
  destruct (kept_steps _ _ S') as (KL & K).
  unfold create. replace (free_slot (slots w') 0) with (@None nat); [reflexivity|]. symmetry. apply free_slot_none.
  intros i s X. assert (i < MAX_THREADS) as LT by (rewrite <- L, <- KL; apply nth_error_Some; congruence).
  destruct (A i LT) as (C & R). destruct (HR _ _ _ R) as (th & Y & F & G & s' & Y' & N).
  destruct (HC _ _ _ _ _ C) as [(_ & j & J & st & X')|(X' & _)]; [|discriminate X']. injection J as <-. rewrite Y in X'. injection X' as X'. apply (f_equal t_slot) in X'. cbn [t_slot] in X'. rewrite X' in Y'.
  destruct (K _ _ Y' N) as (s2 & Z2 & N2). congruence.
Qed.

(** * Orderly executions *)

(* how far a thread's value has come *)
Definition mail (w : world) (t : nat) (th : thread) (s : slot) : Prop :=
  match t_status th with
  | Created => id s = None /\ result s = None /\ exits t (log w) = [] /\ joins (t_slot th) (log w) = []
  | _ =>
      id s = Some t /\
      ((result s = None /\ exits t (log w) = [] /\ joins (t_slot th) (log w) = [] /\ t_status th <> Terminated) \/
       (exists v l, result s = Some v /\ exits t (log w) = v :: l /\ joins (t_slot th) (log w) = [] /\ t_status th <> Terminated) \/
       (exists v l, result s = None /\ exits t (log w) = v :: l /\ joins (t_slot th) (log w) = [v] /\ t_status th = Terminated))
  end.
Definition one_to_one (w : world) : Prop :=
  (forall t th, nth_error (threads w) t = Some th -> exists s, nth_error (slots w) (t_slot th) = Some s /\ thrd s = Some t /\ mail w t th s) /\
  (forall i s, nth_error (slots w) i = Some s ->
     (thrd s = None /\ id s = None /\ result s = None /\ joins i (log w) = []) \/
     exists t th, thrd s = Some t /\ nth_error (threads w) t = Some th /\ t_slot th = i) /\
  (forall t, length (threads w) <= t -> exits t (log w) = []).

Lemma mail_log w w' t th s : exits t (log w') = exits t (log w) -> joins (t_slot th) (log w') = joins (t_slot th) (log w) ->
  mail w t th s -> mail w' t th s.
Proof. intros E J. unfold mail. rewrite E, J. auto. Qed.

(* one thread and its slot change *)
Lemma frame w w' t th th' s s' :
  one_to_one w -> nth_error (threads w) t = Some th -> nth_error (slots w) (t_slot th) = Some s ->
  nth_error (threads w') t = Some th' -> t_slot th' = t_slot th -> nth_error (slots w') (t_slot th) = Some s' ->
  length (threads w') = length (threads w) ->
  (forall u, u <> t -> nth_error (threads w') u = nth_error (threads w) u) ->
  (forall j, j <> t_slot th -> nth_error (slots w') j = nth_error (slots w) j) ->
  (forall u, u <> t -> exits u (log w') = exits u (log w)) ->
  (forall j, j <> t_slot th -> joins j (log w') = joins j (log w)) ->
  thrd s' = Some t -> mail w' t th' s' -> one_to_one w'.
Proof.
  intros (A & B & C) ET ES ET' SL ES' LT OT OS OE OJ TH M.
  destruct (A _ _ ET) as (s0 & X & TS & M0). rewrite ES in X. injection X as <-.
  split; [|split].
  - intros u uh X. destruct (Nat.eq_dec u t) as [->|N].
    + rewrite ET' in X. injection X as <-. exists s'. rewrite SL. auto.
    + rewrite OT in X by exact N. destruct (A _ _ X) as (s1 & Y & T1 & M1). exists s1.
      assert (t_slot uh <> t_slot th) as D by (intros D; rewrite D in Y; rewrite ES in Y; injection Y as <-; congruence).
      split; [now rewrite OS|]. split; [exact T1|]. apply (mail_log w); auto.
  - intros j s1 X. destruct (Nat.eq_dec j (t_slot th)) as [->|N].
    + rewrite ES' in X. injection X as <-. right. exists t, th'. auto.
    + rewrite OS in X by exact N. destruct (B _ _ X) as [(P & Q & R & J)|(u & uh & P & Q & R)].
      * left. rewrite OJ by exact N. auto.
      * right. exists u, uh. split; [exact P|]. split; [|exact R]. rewrite OT; [exact Q|]. intros ->. congruence.
  - intros u L. rewrite LT in L. rewrite OE; [now apply C|]. intros ->. apply nth_error_None in L. congruence.
Qed.
Lemma exits_other u t v l : u <> t -> exits u (SawExit t v :: l) = exits u l.
Proof. intros N. cbn [exits]. replace (t =? u) with false by (symmetry; apply Nat.eqb_neq; congruence). apply app_nil_r. Qed.
Lemma exits_same t v l : exits t (SawExit t v :: l) = exits t l ++ [v].
Proof. cbn [exits]. now rewrite Nat.eqb_refl. Qed.
Lemma joins_other u t v l : u <> t -> joins u (SawJoin t v :: l) = joins u l.
Proof. intros N. cbn [joins]. replace (t =? u) with false by (symmetry; apply Nat.eqb_neq; congruence). apply app_nil_r. Qed.
Lemma joins_same t v l : joins t (SawJoin t v :: l) = joins t l ++ [v].
Proof. cbn [joins]. now rewrite Nat.eqb_refl. Qed.

Lemma one_create w f a m : one_to_one w ->
  (forall t th, nth_error (threads w) t = Some th -> t_status th <> Created) -> one_to_one (create f a m w).
Proof.
  intros (A & B & C) NC. unfold create.
  assert (forall t, one_to_one (mk (slots w) (threads w) (SawCreate t f a THREADAPI_NO_MEMORY None :: log w))) as NM.
  { intros t0. split; [|split]; cbn [slots threads log]; [|exact B|exact C].
    intros t th X. destruct (A _ _ X) as (s & Y & T & M). exists s. split; [exact Y|]. split; [exact T|]. revert M. apply mail_log; reflexivity. }
  destruct (free_slot (slots w) 0) as [i|] eqn:F; [|apply NM]. destruct m; [|apply NM].
  apply free_slot_found in F as (s & _ & F & I). rewrite Nat.sub_0_r in F. rewrite F.
  destruct (B _ _ F) as [(P & _ & R & J)|(t & th & P & Q & R)].
  2:{ exfalso. destruct (A _ _ Q) as (s' & Y & T & M). rewrite R in Y. rewrite F in Y. injection Y as <-.
      specialize (NC _ _ Q). unfold mail in M. destruct (t_status th); try congruence; destruct M as (M & _); congruence. }
  split; [|split]; cbn [slots threads log].
  - intros t th X. destruct (Nat.lt_ge_cases t (length (threads w))) as [LT|GE].
    + rewrite nth_error_app1 in X by exact LT. destruct (A _ _ X) as (s' & Y & T & M). exists s'.
      assert (i <> t_slot th) as D by congruence. rewrite put_other by exact D. split; [exact Y|]. split; [exact T|]. revert M. apply mail_log; reflexivity.
    + rewrite nth_error_app2 in X by exact GE. destruct (t - length (threads w)) as [|d] eqn:D; [|destruct d; discriminate X].
      injection X as <-. cbn [t_slot]. eexists. split; [eapply put_same; exact F|]. cbn [thrd]. split; [f_equal; lia|].
      unfold mail. cbn [t_status id result t_slot log exits joins]. split; [exact I|]. split; [exact R|]. split; [now apply C|exact J].
  - intros j s' X. apply put_cases in X as [(<- & ->)|(N & X)].
    + right. eexists. eexists. split; [reflexivity|]. split; [rewrite nth_error_app2, Nat.sub_diag by lia; reflexivity|reflexivity].
    + destruct (B _ _ X) as [E|(t & th & P' & Q & R')]; [left; exact E|]. right. exists t, th. split; [exact P'|]. split; [|exact R'].
      rewrite nth_error_app1; [exact Q|apply nth_error_Some; congruence].
  - intros t L. rewrite app_length in L. cbn [length] in L. cbn [exits]. apply C. lia.
Qed.
Lemma put_id A (l : list A) i x : nth_error l i = Some x -> put l i x = l.
Proof. revert i. induction l; intros [|i] H; try discriminate H; cbn [put nth_error] in *; [congruence|f_equal; auto]. Qed.

Lemma one_step w w' : one_to_one w -> step w w' -> length (threads w') = length (threads w) -> one_to_one w'.
Proof.
  intros G ST LT. pose proof G as (A & B & C). destruct ST.
  - unfold create in *. destruct (free_slot (slots w) 0) as [i|] eqn:F.
    2:{ split; [|split]; cbn [slots threads log]; [|exact B|exact C].
        intros t th X. destruct (A _ _ X) as (s & Y & T & M). exists s. split; [exact Y|]. split; [exact T|]. revert M. apply mail_log; reflexivity. }
    destruct m; [destruct (nth_error (slots w) i); [|exact G]; cbn [threads] in LT; rewrite app_length in LT; cbn [length] in LT; lia|].
    split; [|split]; cbn [slots threads log]; [|exact B|exact C].
    intros t th X. destruct (A _ _ X) as (s & Y & T & M). exists s. split; [exact Y|]. split; [exact T|]. revert M. apply mail_log; reflexivity.
  - unfold begin in H. destruct (nth_error (threads w) t) as [ [f a i []]|] eqn:E; try discriminate H.
    destruct (A _ _ E) as (s & Y & T & M). cbn [t_slot] in Y. rewrite Y in H. injection H as <-.
    eapply (frame w _ t _ (mkthread f a i Running) s (mkslot (thrd s) (Some t) (result s)) G E); cbn [t_slot threads slots log thrd]; try exact Y; try reflexivity.
    + eapply put_same. exact E.
    + eapply put_same. exact Y.
    + apply put_length.
    + intros u N. now apply put_other, not_eq_sym.
    + intros u N. now apply put_other, not_eq_sym.
    + exact T.
    + unfold mail in *. cbn [t_status t_slot id result log exits joins] in *. destruct M as (_ & R & EX & JO). split; [reflexivity|]. left.
      repeat split; auto. discriminate.
  - unfold exit in H. destruct (nth_error (threads w) t) as [ [f a i []]|] eqn:E; try discriminate H.
    destruct (A _ _ E) as (s & Y & T & M). cbn [t_slot] in Y.
    assert (id s = Some t) as ID by (unfold mail in M; cbn [t_status] in M; now destruct M).
    destruct (slot_of (slots w) t 0) as [j|] eqn:SO.
    2:{ exfalso. exact (slot_of_none _ _ _ SO _ _ Y ID). }
    apply slot_of_found in SO as (s1 & _ & SO & ID1). rewrite Nat.sub_0_r in SO. rewrite SO in H.
    assert (j = i) as ->.
    { destruct (B _ _ SO) as [(_ & X & _)|(u & uh & P & Q & R)]; [congruence|]. destruct (A _ _ Q) as (s2 & Y2 & T2 & M2).
      rewrite R in Y2. rewrite SO in Y2. injection Y2 as <-. unfold mail in M2.
      assert (u = t) as ->; [destruct (t_status uh); destruct M2 as (M2 & _); congruence|]. rewrite E in Q. injection Q as <-. symmetry. exact R. }
    rewrite Y in SO. injection SO as <-. injection H as <-.
    unfold mail in M. cbn [t_status t_slot] in M. destruct M as (_ & M).
    set (s' := match result s with None => mkslot (thrd s) (id s) (Some v) | Some _ => s end).
    assert (match result s with None => put (slots w) i (mkslot (thrd s) (id s) (Some v)) | Some _ => slots w end = put (slots w) i s') as PS.
    { unfold s'. destruct (result s); [symmetry; now apply put_id|reflexivity]. }
    rewrite PS.
    eapply (frame w _ t _ (mkthread f a i Running) s s' G E); cbn [t_slot threads slots log thrd]; try exact Y; try exact E; try reflexivity.
    + eapply put_same. exact Y.
    + intros u N. now apply put_other, not_eq_sym.
    + intros u N. now apply exits_other.
    + unfold s'. destruct (result s); exact T.
    + unfold mail. cbn [t_status t_slot log]. rewrite exits_same. cbn [joins]. split; [unfold s'; destruct (result s); exact ID|].
      destruct M as [(R & EX & JO & _)|[(v0 & l & R & EX & JO & _)|(v0 & l & _ & _ & _ & X)] ]; [| |discriminate X].
      * right. left. exists v, []. unfold s'. rewrite R, EX. cbn [result]. repeat split; auto. discriminate.
      * right. left. exists v0, (l ++ [v]). unfold s'. rewrite R, EX. repeat split; auto. discriminate.
  - unfold return_ in H. destruct (nth_error (threads w) t) as [ [f a i []]|] eqn:E; try discriminate H. injection H as <-.
    destruct (A _ _ E) as (s & Y & T & M). cbn [t_slot] in Y.
    eapply (frame w _ t _ (mkthread f a i Returned) s s G E); cbn [t_slot threads slots log]; try exact Y; try reflexivity; try exact T.
    + eapply put_same. exact E.
    + apply put_length.
    + intros u N. now apply put_other, not_eq_sym.
    + unfold mail in *. cbn [t_status t_slot log] in *. destruct M as (ID & M). split; [exact ID|].
      destruct M as [(R & EX & JO & _)|[(v0 & l & R & EX & JO & _)|(v0 & l & _ & _ & _ & X)] ]; [left|right; left; exists v0, l|discriminate X]; repeat split; auto; discriminate.
  - unfold join in H. destruct (nth_error (slots w) i) as [s|] eqn:ES; [|discriminate H]. destruct (result s) as [v|] eqn:R; [|discriminate H]. injection H as <-.
    destruct (B _ _ ES) as [(_ & _ & X & _)|(t & th & P & Q & X)]; [congruence|]. rewrite P in *. rewrite Q in *. destruct th as [f a j st]. cbn [t_slot] in X. subst j.
    destruct (A _ _ Q) as (s0 & Y & T & M). cbn [t_slot] in Y. rewrite ES in Y. injection Y as <-.
    eapply (frame w _ t _ (mkthread f a i Terminated) s (mkslot (Some t) (id s) None) G Q); cbn [t_slot threads slots log thrd]; try exact ES; try reflexivity.
    + eapply put_same. exact Q.
    + eapply put_same. exact ES.
    + apply put_length.
    + intros u N. now apply put_other, not_eq_sym.
    + intros u N. now apply put_other, not_eq_sym.
    + intros u N. now apply joins_other.
    + unfold mail in *. cbn [t_status t_slot log result id] in *. rewrite joins_same. cbn [exits].
      assert (id s = Some t /\ exists l, exits t (log w) = v :: l /\ joins i (log w) = []) as (ID & l & EX & JO).
      { destruct st; [destruct M as (_ & M & _); congruence| | |];
          destruct M as (ID & [(M & _)|[(v0 & l & R0 & EX & JO & _)|(v0 & l & M & _)] ]); try congruence;
          split; auto; exists l; split; congruence. }
      split; [exact ID|]. right. right. exists v, l. rewrite JO. repeat split; auto.
Qed.

Lemma one_orderly w : orderly w -> one_to_one w /\ steps init w.
Proof.
  induction 1 as [|w f a m O (IH & S) NC|w w' O (IH & S) ST L].
  - split; [|constructor]. split; [|split].
    + intros [|t] th X; discriminate X.
    + intros i s X. left. cbn [init slots] in X. apply nth_error_In in X. apply repeat_spec in X as ->. auto.
    + reflexivity.
  - split; [now apply one_create|]. eapply steps_more; [exact S|]. constructor.
  - split; [now apply (one_step w)|]. eapply steps_more; eauto.
Qed.

(* In an orderly execution different threads have different handles; a join gives the first value
   that the thread of this handle exited with, and is done once; this thread is terminated then. *)
Theorem mbed_join_partial : forall w i v, orderly w -> In v (joins i (log w)) ->
  exists t f a l, In (SawCreate t f a THREADAPI_OK (Some i)) (log w) /\
    exits t (log w) = v :: l /\ joins i (log w) = [v] /\ nth_error (threads w) t = Some (mkthread f a i Terminated).
Proof.
  intros w i v O I. apply one_orderly in O as ((A & B & _) & S). pose proof (logged_steps _ S) as (L & _ & T & _).
  destruct (nth_error (slots w) i) as [s|] eqn:E.
  - destruct (B _ _ E) as [(_ & _ & _ & J)|(t & [f a j st] & P & Q & X)]; [rewrite J in I; destruct I|]. cbn [t_slot] in X. subst j.
    specialize (T _ _ Q). cbn [t_func t_arg t_slot] in T.
    destruct (A _ _ Q) as (s0 & Y & _ & M). unfold mail in M. cbn [t_status t_slot] in M.
    assert (exists v0 l, exits t (log w) = v0 :: l /\ joins i (log w) = [v0] /\ st = Terminated) as (v0 & l & EX & JO & ->).
    { destruct st.
      - destruct M as (_ & _ & _ & J). rewrite J in I. destruct I.
      - destruct M as (_ & [(_ & _ & J & _)|[(v0 & l & _ & _ & J & _)|(v0 & l & _ & EX & J & TE)] ]); solve [rewrite J in I; destruct I | exists v0, l; auto].
      - destruct M as (_ & [(_ & _ & J & _)|[(v0 & l & _ & _ & J & _)|(v0 & l & _ & EX & J & TE)] ]); solve [rewrite J in I; destruct I | exists v0, l; auto].
      - destruct M as (_ & [(_ & _ & J & _)|[(v0 & l & _ & _ & J & _)|(v0 & l & _ & EX & J & TE)] ]); solve [rewrite J in I; destruct I | exists v0, l; auto]. }
    rewrite JO in I. destruct I as [->|[] ]. exists t, f, a, l. auto.
  - exfalso. assert (forall l, (forall j, nth_error (slots w) j = None -> joins j l = []) -> joins i l = []) as _ by auto.
    (* a join is only made of a slot *)
    assert (forall w, steps init w -> forall j v, In v (joins j (log w)) -> j < MAX_THREADS) as G.
    { clear. intros w S. remember init as w0. induction S as [|w0 w w' S IH ST]; subst; [intros j v []|].
      specialize (IH eq_refl). destruct (logged_steps _ S) as (LL & _). intros j v I.
      assert (In v (joins j (log w)) \/ j < MAX_THREADS) as [X|X]; [|eapply IH; exact X|exact X].
      destruct ST.
      - left. unfold create in I. destruct (free_slot (slots w) 0) as [i|]; [|exact I]. destruct m; [|exact I]. destruct (nth_error (slots w) i); exact I.
      - left. unfold begin in H. destruct (nth_error (threads w) t) as [ [f a i []]|]; try discriminate H.
        destruct (nth_error (slots w) i); [|discriminate H]. injection H as <-. exact I.
      - left. unfold exit in H. destruct (nth_error (threads w) t) as [ [f a i []]|]; try discriminate H.
        destruct (slot_of (slots w) t 0) as [k|]; [|injection H as <-; exact I].
        destruct (nth_error (slots w) k) as [s|]; [|discriminate H]. injection H as <-. exact I.
      - left. unfold return_ in H. destruct (nth_error (threads w) t) as [ [f a i []]|]; try discriminate H. injection H as <-. exact I.
      - unfold join in H. destruct (nth_error (slots w) i) as [s|] eqn:E; [|discriminate H]. destruct (result s) as [v0|]; [|discriminate H]. injection H as <-.
        cbn [log] in I. destruct (Nat.eq_dec j i) as [->|N].
        + right. rewrite <- LL. apply nth_error_Some. congruence.
        + rewrite joins_other in I by exact N. now left. }
    specialize (G w S i v I). rewrite <- L in G. apply nth_error_Some in G. congruence.
Qed.
Theorem mbed_handles_distinct_partial : forall w t f a t' f' a' i, orderly w ->
  In (SawCreate t f a THREADAPI_OK (Some i)) (log w) -> In (SawCreate t' f' a' THREADAPI_OK (Some i)) (log w) -> t = t'.
Proof.
  intros w t f a t' f' a' i O I I'. apply one_orderly in O as ((A & _) & S). destruct (logged_steps _ S) as (_ & C & _).
  destruct (C _ _ _ _ _ I) as [(_ & j & J & st & X)|(X & _)]; [|discriminate X]. injection J as <-.
  destruct (C _ _ _ _ _ I') as [(_ & j & J & st' & X')|(X' & _)]; [|discriminate X']. injection J as <-.
  destruct (A _ _ X) as (s & Y & T & _), (A _ _ X') as (s' & Y' & T' & _). cbn [t_slot] in *. congruence.
Qed.
(* A thread function that returns without a call of ThreadAPI_Exit: it is never joined. *)
Lemma ended_stays w w' t f a i st : step w w' -> nth_error (threads w) t = Some (mkthread f a i st) -> st = Returned \/ st = Terminated ->
  (exists st', nth_error (threads w') t = Some (mkthread f a i st') /\ (st' = Returned \/ st' = Terminated)) /\ exits t (log w') = exits t (log w).
Proof.
  intros ST E D. destruct ST.
  - unfold create. destruct (free_slot (slots w) 0) as [j|]; [|split; [eauto|reflexivity] ]. destruct m; [|split; [eauto|reflexivity] ].
    destruct (nth_error (slots w) j); [|split; [eauto|reflexivity] ]. cbn [threads log exits]. split; [|reflexivity].
    exists st. split; [|exact D]. rewrite nth_error_app1; [exact E|apply nth_error_Some; congruence].
  - unfold begin in H. destruct (nth_error (threads w) t0) as [ [f0 a0 i0 []]|] eqn:E0; try discriminate H.
    destruct (nth_error (slots w) i0); [|discriminate H]. injection H as <-. cbn [threads log exits]. split; [|reflexivity].
    assert (t0 <> t) as N by (intros ->; rewrite E0 in E; injection E as -> -> -> <-; destruct D; discriminate). exists st. split; [|exact D]. now rewrite put_other.
  - unfold exit in H. destruct (nth_error (threads w) t0) as [ [f0 a0 i0 []]|] eqn:E0; try discriminate H.
    assert (t <> t0) as N by (intros ->; rewrite E0 in E; injection E as -> -> -> <-; destruct D; discriminate).
    destruct (slot_of (slots w) t0 0) as [j|]; [|injection H as <-; cbn [threads log]; rewrite exits_other by exact N; eauto].
    destruct (nth_error (slots w) j) as [s|]; [|discriminate H]. injection H as <-. cbn [threads log]; rewrite exits_other by exact N; eauto.
  - unfold return_ in H. destruct (nth_error (threads w) t0) as [ [f0 a0 i0 []]|] eqn:E0; try discriminate H. injection H as <-. cbn [threads log exits]. split; [|reflexivity].
    assert (t0 <> t) as N by (intros ->; rewrite E0 in E; injection E as -> -> -> <-; destruct D; discriminate). exists st. split; [|exact D]. now rewrite put_other.
  - unfold join in H. destruct (nth_error (slots w) i0) as [s|]; [|discriminate H]. destruct (result s) as [v0|]; [|discriminate H]. injection H as <-. cbn [threads log exits]. split; [|reflexivity].
    destruct (thrd s) as [t0|]; [|eauto]. destruct (nth_error (threads w) t0) as [ [f0 a0 j0 st0]|] eqn:E0; [|eauto].
    destruct (Nat.eq_dec t0 t) as [->|N]; [|exists st; split; [|exact D]; now rewrite put_other].
    exists Terminated. split; [|now right]. rewrite E0 in E. injection E as -> -> -> ->. eapply put_same. exact E0.
Qed.
Theorem mbed_return_never_joined_refuted : forall w w' t f a i,
  orderly w -> steps w w' -> orderly w' ->
  nth_error (threads w) t = Some (mkthread f a i Returned) -> exits t (log w) = [] -> joins i (log w') = [].
Proof.
  intros w w' t f a i O S O' E X.
  assert ((exists st, nth_error (threads w') t = Some (mkthread f a i st) /\ (st = Returned \/ st = Terminated)) /\ exits t (log w') = []) as ((st & E' & D) & X').
  { clear O'. induction S as [w|w w' w'' S IH ST]; [eauto 6|]. destruct (IH O E X) as ((st & E' & D) & X').
    destruct (ended_stays _ _ _ _ _ _ _ ST E' D) as ((st' & E2 & D2) & X2). split; [eauto|congruence]. }
  destruct (joins i (log w')) as [|v l] eqn:J; [reflexivity|]. exfalso.
  assert (In v (joins i (log w'))) as I by (rewrite J; now left).
  destruct (mbed_join_partial _ _ _ O' I) as (t' & f' & a' & l' & C & EX & _ & TT).
  pose proof (one_orderly _ O') as (_ & S'). destruct (logged_steps _ S') as (_ & _ & T & _). specialize (T _ _ E'). cbn [t_func t_arg t_slot] in T.
  pose proof (mbed_handles_distinct_partial _ _ _ _ _ _ _ _ O' T C) as ->. congruence.
Qed.

(* Two threads created before the first begins: one handle for both; the value of the first is
   lost, who joins it gets the value of the second, and the second is terminated in its place. *)
Theorem mbed_shared_handle_refuted : exists w,
  steps init w /\
  In (SawCreate 0 1 1 THREADAPI_OK (Some 0)) (log w) /\ In (SawCreate 1 2 2 THREADAPI_OK (Some 0)) (log w) /\
  exits 0 (log w) = [10%Z] /\ exits 1 (log w) = [20%Z] /\ joins 0 (log w) = [20%Z] /\
  nth_error (threads w) 0 = Some (mkthread 1 1 0 Running) /\ nth_error (threads w) 1 = Some (mkthread 2 2 0 Terminated).
Proof.
  eexists. split.
  { eapply steps_more; [eapply steps_more; [eapply steps_more; [eapply steps_more; [eapply steps_more; [eapply steps_more; [eapply steps_more; [apply steps_none|] |] |] |] |] |] |].
    - exact (step_create _ 1 1 true).
    - exact (step_create _ 2 2 true).
    - apply (step_begin _ 0). reflexivity.
    - apply (step_begin _ 1). reflexivity.
    - apply (step_exit _ 0 10%Z). reflexivity.
    - apply (step_exit _ 1 20%Z). reflexivity.
    - apply (step_join _ 0). reflexivity. }
  cbn. repeat split; auto 10.
Qed.
(* An orderly execution: create, begin, exit, join. *)
Example orderly_case : exists w, orderly w /\ joins 0 (log w) = [7%Z] /\ exits 0 (log w) = [7%Z].
Proof.
  eexists. split.
  { eapply orderly_other; [eapply orderly_other; [eapply orderly_other; [eapply (orderly_create init 1 1 true); [apply orderly_init|intros [|t] th X; discriminate X]|..]|..]|..].
    - apply (step_begin _ 0). reflexivity.
    - reflexivity.
    - apply (step_exit _ 0 7%Z). reflexivity.
    - reflexivity.
    - apply (step_join _ 0). reflexivity.
    - reflexivity. }
  split; reflexivity.
Qed.

(** * Sleep *)

(* The waits add up to what was asked, and each is one the timer can make. *)
Theorem mbed_sleep : forall ms, (0 <= ms)%Z -> fold_right Z.add 0%Z (sleep_waits ms) = ms /\ Forall (fun x => 0 <= x <= 30000)%Z (sleep_waits ms).
Proof.
  intros ms L. unfold sleep_waits.
  assert (forall n r, fold_right Z.add 0%Z (repeat 30000%Z n ++ [r]) = (30000 * Z.of_nat n + r)%Z) as G.
  { induction n as [|n IH]; intros r; [cbn [repeat app fold_right]; lia|]. cbn [repeat app fold_right]. rewrite IH. lia. }
  pose proof (Z.mod_pos_bound ms 30000 eq_refl) as MB. split.
  - rewrite G, Z2Nat.id by (apply Z.div_pos; lia). symmetry. apply Z.div_mod. discriminate.
  - apply Forall_app. split; [|constructor; [lia|constructor] ]. apply Forall_forall. intros x I. apply repeat_spec in I. lia.
Qed.
