(* Locks on Windows and mbed (C132), conditions on mbed (C133), platform_init/deinit (C134). *)
From Verif Require Import Base Condition_Model LockPort_Model.

(** * Specification *)
(* how often thread t locked without unlocking: calls that returned LOCK_OK *)
Definition took (t : nat) (e : event) : bool :=
  match what e, result e with OLock, LOCK_OK => thread e =? t | _, _ => false end.
Definition gave (t : nat) (e : event) : bool :=
  match what e, result e with OUnlock, LOCK_OK => thread e =? t | _, _ => false end.
Definition locks (t : nat) (es : list event) : nat := length (filter (took t) es).
Definition unlocks (t : nat) (es : list event) : nat := length (filter (gave t) es).
(* t is in the section *)
Definition inside (t : nat) (es : list event) : Prop := unlocks t es < locks t es.

(** * Proofs *)
Definition held (l : lock) (t : nat) : nat := match owner (sect l) with Some o => if o =? t then depth (sect l) else 0 | None => 0 end.
Definition ok (l : lock) : Prop := made l = true /\ match owner (sect l) with Some _ => 0 < depth (sect l) | None => depth (sect l) = 0 end.

Lemma lock_step s l t r k : ok l -> Lock s (Some l) t = Returns r (Some k) ->
  ok k /\ r = LOCK_OK /\ forall u, held k u = held l u + (if t =? u then 1 else 0).
Proof.
  intros [M O] X. cbn in X. rewrite M in X. unfold enter in X. unfold held, ok. destruct (owner (sect l)) as [o|].
  - destruct (Nat.eqb_spec o t); [subst o|discriminate]. injection X as <- <-. cbn. split; [split; [auto|lia]|]. split; [reflexivity|].
    intros u. destruct (t =? u); lia.
  - injection X as <- <-. cbn. split; [split; [auto|lia]|]. split; [reflexivity|]. intros u. destruct (t =? u); lia.
Qed.
Lemma unlock_step s l t r k : ok l -> Unlock s (Some l) t = Returns r (Some k) ->
  ok k /\ forall u, held k u + (match r with LOCK_OK => if t =? u then 1 else 0 | LOCK_ERROR => 0 end) = held l u.
Proof.
  intros [M O] X. cbn in X. rewrite M in X. unfold leave in X. unfold held, ok. destruct (owner (sect l)) as [o|] eqn:W.
  - destruct (Nat.eqb_spec o t); [subst o|].
    + destruct (depth (sect l)) as [|[|n] ] eqn:D; [lia| |]; injection X as <- <-; cbn.
      * split; [split; auto|]. intros u. destruct (t =? u); lia.
      * split; [split; [auto|lia]|]. intros u. destruct (t =? u); lia.
    + destruct s; [discriminate|]. injection X as <- <-. rewrite W. split; [auto|]. intros u. destruct (o =? u); lia.
  - destruct s; [discriminate|]. injection X as <- <-. rewrite W. split; [auto|]. intros u. lia.
Qed.
Lemma locks_cons t e es : locks t (e :: es) = (if took t e then 1 else 0) + locks t es.
Proof. unfold locks. cbn. destruct (took t e); reflexivity. Qed.
Lemma unlocks_cons t e es : unlocks t (e :: es) = (if gave t e then 1 else 0) + unlocks t es.
Proof. unfold unlocks. cbn. destruct (gave t e); reflexivity. Qed.
Lemma runs_held s es l m : runs s es l m -> ok l -> ok m /\ forall u, held l u + locks u es = held m u + unlocks u es.
Proof.
  induction 1 as [l|t r l k m es L R IH|t r l k m es L R IH]; intros O.
  - split; [auto|]. intros u. cbn. lia.
  - destruct (lock_step s l t r k O L) as (K & -> & H). destruct (IH K) as [M E]. split; [auto|]. intros u. specialize (E u). specialize (H u).
    rewrite locks_cons, unlocks_cons. cbn. destruct (t =? u); lia.
  - destruct (unlock_step s l t r k O L) as (K & H). destruct (IH K) as [M E]. split; [auto|]. intros u. specialize (E u). specialize (H u).
    rewrite locks_cons, unlocks_cons. cbn. destruct r, (t =? u); lia.
Qed.
Lemma init_ok s m l : Lock_Init s m = Some l -> ok l /\ forall t, held l t = 0.
Proof. destruct s; [destruct m|]; intros X; try discriminate; injection X as <-; (split; [split; reflexivity|reflexivity]). Qed.
(* Two threads are never inside at once; whoever unlocks as often as it locked leaves the lock to the others. *)
Theorem lock_excludes s memory l es m : Lock_Init s memory = Some l -> runs s es l m ->
  (forall t u, inside t es -> inside u es -> t = u) /\
  (forall t, unlocks t es <= locks t es) /\
  (forall t, (forall u, u <> t -> locks u es = unlocks u es) -> exists k, Lock s (Some m) t = Returns LOCK_OK (Some k)) /\
  (forall t u, inside u es -> u <> t -> Lock s (Some m) t = Waits).
Proof.
  intros I R. destruct (init_ok _ _ _ I) as [O Z]. destruct (runs_held s es l m R O) as [M E].
  assert (H : forall u, held m u + unlocks u es = locks u es) by (intros u; rewrite <- E, Z; reflexivity). clear E Z. unfold inside.
  assert (P : forall u, 0 < held m u -> owner (sect m) = Some u).
  { intros u. unfold held. destruct (owner (sect m)) as [o|]; [|lia]. destruct (Nat.eqb_spec o u); [congruence|lia]. }
  destruct M as [M1 M2]. split; [|split; [|split] ].
  - intros t u T U. pose proof (H t). pose proof (H u). assert (A : owner (sect m) = Some t) by (apply P; lia).
    assert (B : owner (sect m) = Some u) by (apply P; lia). congruence.
  - intros t. specialize (H t). lia.
  - intros t F. cbn. rewrite M1. unfold enter. destruct (owner (sect m)) as [o|] eqn:W; [|eexists; reflexivity].
    destruct (Nat.eqb_spec o t) as [->|D]; [eexists; reflexivity|]. exfalso. specialize (F o D). specialize (H o). unfold held in H. rewrite W, Nat.eqb_refl in H. lia.
  - intros t u U D. specialize (H u). assert (A : owner (sect m) = Some u) by (apply P; lia). cbn. rewrite M1. unfold enter. rewrite A.
    apply Nat.eqb_neq in D. now rewrite D.
Qed.
(* a NULL handle is refused; every lock is given back by its Deinit *)
Theorem lock_null s t : Lock s None t = Returns LOCK_ERROR None /\ Unlock s None t = Returns LOCK_ERROR None /\ Lock_Deinit s None = Returns LOCK_ERROR None.
Proof. repeat split. Qed.
Theorem lock_freed s memory l es m : Lock_Init s memory = Some l -> runs s es l m ->
  exists k, Lock_Deinit s (Some m) = Returns LOCK_OK (Some k) /\ blocks k = 0 /\ blocks m = 1.
Proof.
  intros I R. destruct (init_ok _ _ _ I) as [O _]. destruct (runs_held s es l m R O) as [ [M _] _].
  assert (B : blocks m = 1).
  { assert (L : blocks l = 1) by (destruct s; [destruct memory|]; try discriminate; injection I as <-; reflexivity).
    clear I O M. induction R as [|t r l k m es E R IH|t r l k m es E R IH]; [auto| |]; apply IH; cbn in E; destruct (made l); try discriminate.
    - destruct (enter _ _); [|discriminate]. injection E as <- <-. exact L.
    - destruct (leave _ _); [injection E as <- <-; exact L|]. destruct s; [discriminate|]. injection E as <- <-. exact L. }
  eexists. cbn. rewrite M. split; [reflexivity|]. cbn. rewrite B. auto.
Qed.
Example lock_case : exists l m, Lock_Init Windows true = Some l /\
  runs Windows [mke 1 OLock LOCK_OK; mke 1 OLock LOCK_OK; mke 1 OUnlock LOCK_OK; mke 1 OUnlock LOCK_OK; mke 2 OLock LOCK_OK] l m /\ inside 2 [mke 2 OLock LOCK_OK].
Proof. do 2 eexists. split; [reflexivity|]. split; [repeat econstructor|]. cbn. unfold inside. cbn. lia. Qed.
(* On Windows an Unlock by a thread that does not have the lock is not refused: its behaviour is undefined *)
Theorem lock_foreign_unlock_refuted l t u : t <> u -> Lock_Init Windows true = Some l ->
  exists k, Lock Windows (Some l) t = Returns LOCK_OK (Some k) /\ Unlock Windows (Some k) u = Undefined.
Proof.
  intros D I. injection I as <-. eexists. split; [reflexivity|]. cbn. unfold leave. cbn. apply Nat.eqb_neq in D. now rewrite D.
Qed.

(** * C133: there are no conditions on mbed *)
Theorem mbed_condition_refuted handle lock ms : Condition_Init_mbed = None /\
  snd (Condition_Post_mbed handle) = COND_ERROR /\
  Condition_Wait_mbed Condition_Init_mbed lock ms = ([], COND_INVALID_ARG) /\ snd (Condition_Wait_mbed handle lock ms) <> COND_OK /\ snd (Condition_Wait_mbed handle lock ms) <> COND_TIMEOUT.
Proof. repeat split; destruct handle; discriminate. Qed.

(** * C134: platform_init and platform_deinit *)
(* On mbed: success means connected with the clock set; failure leaves nothing connected; deinit disconnects. *)
Theorem mbed_platform init up1 ntp up2 r n : platform_init_mbed init up1 ntp up2 nothing = (r, n) ->
  (r = true <-> connected n = true) /\ (r = true -> clock_set n = true) /\ connected (platform_deinit_mbed n) = false.
Proof.
  unfold platform_init_mbed, setupRealTime, connect, nothing. destruct init, up1, ntp, up2; cbn; intros X; injection X as <- <-; cbn; repeat split; auto; discriminate.
Qed.
(* On Windows: every init that succeeds is undone by one deinit. *)
Theorem win_platform oks : let started := fold_left (fun n ok => snd (platform_init_win ok n)) oks 0 in
  started = length (filter (fun ok => ok) oks) /\ Nat.iter (length (filter (fun ok => ok) oks)) platform_deinit_win started = 0.
Proof.
  assert (H : forall oks n, fold_left (fun n ok => snd (platform_init_win ok n)) oks n = n + length (filter (fun ok => ok) oks)).
  { induction oks0 as [|b l IH]; intros n; [cbn; lia|]. cbn. rewrite IH. destruct b; cbn; lia. }
  intros started. unfold started. rewrite H. cbn [plus]. split; [reflexivity|].
  assert (D : forall k n, Nat.iter k platform_deinit_win n = n - k). { induction k as [|k IH]; intros n; [cbn; lia|]. change (Nat.iter (S k) platform_deinit_win n) with (platform_deinit_win (Nat.iter k platform_deinit_win n)). rewrite IH. unfold platform_deinit_win. lia. }
  rewrite D. lia.
Qed.
(* What they report: on mbed success exactly when every step succeeded, on Windows exactly when WSAStartup did, which then counts. *)
Theorem platform_results : (forall init up1 ntp up2, fst (platform_init_mbed init up1 ntp up2 nothing) = true <-> init = true /\ up1 = true /\ ntp = true /\ up2 = true) /\
  (forall ok n, (fst (platform_init_win ok n) = true <-> ok = true) /\ (fst (platform_init_win ok n) = true <-> snd (platform_init_win ok n) = S n)).
Proof. split; [intros [] [] [] []; cbn; intuition discriminate|]. intros [] n; cbn; repeat split; auto; try discriminate; intros H; exfalso; lia. Qed.
