(* Properties of conditions and locks (C63, C84). *)
From Verif Require Import Base Condition_Model.
Local Open Scope Z_scope.

(* A point in time in nanoseconds. *)
Definition instant (sec nsec : Z) : Z := sec * 1000000000 + nsec.

(* C63: for every timeout of an int, every clock reading (seconds that leave
   room for 25 more days below 2^63, nanoseconds in range) and every answer
   of pthreads: the wait ends exactly timeout milliseconds after the reading
   of the clock the condition was set to, in normal form, and the result
   tells a timeout, a post and an error apart. *)
Theorem condition_wait_deadline h l ms sec nsec answer :
  0 < ms < 2^31 -> 0 <= nsec < 1000000000 -> 0 <= sec < 2^63 - 2147485 ->
  exists sec' nsec',
    Condition_Wait (Some h) (Some l) ms (sec, nsec) answer
    = Some ([ClockGettime time_basis; CondTimedwait h l sec' nsec'],
            if answer =? ETIMEDOUT then COND_TIMEOUT
            else if answer =? 0 then COND_OK else COND_ERROR) /\
    0 <= nsec' < 1000000000 /\
    instant sec' nsec' = instant sec nsec + ms * 1000000.
Proof.
  intros Hm Hn Hs. unfold Condition_Wait, i64, instant,
    MILLISECONDS_IN_1_SECOND, NANOSECONDS_IN_1_SECOND, NANOSECONDS_IN_1_MILLISECOND.
  destruct (ms >? 0) eqn:E; [|lia].
  rewrite (Z.rem_mod_nonneg ms), (Z.quot_div_nonneg ms) by lia.
  change (2^31) with 2147483648 in *. change (2^63) with 9223372036854775808 in *.
  destruct (_ && _) eqn:E1; [|lia].
  destruct (_ && _) eqn:E2 at 1; [|lia].
  rewrite (Z.rem_mod_nonneg (nsec + _)), (Z.quot_div_nonneg (nsec + _)) by lia.
  destruct (_ && _) eqn:E3 at 1; [|lia].
  eexists _, _. split; [reflexivity|]. split; lia.
Qed.

(* C63: no positive timeout: a wait without limit; NULL handles are refused
   without any call. *)
Theorem condition_wait_unlimited h l ms now answer :
  ms <= 0 ->
  Condition_Wait (Some h) (Some l) ms now answer
  = Some ([CondWait h l], if answer =? 0 then COND_OK else COND_ERROR).
Proof.
  intros H. unfold Condition_Wait. destruct (ms >? 0) eqn:E; [lia|].
  destruct (answer =? 0); reflexivity.
Qed.

Theorem condition_wait_null handle lock ms now answer :
  handle = None \/ lock = None ->
  Condition_Wait handle lock ms now answer = Some ([], COND_INVALID_ARG).
Proof. intros [-> | ->]; [reflexivity|destruct handle; reflexivity]. Qed.

(* The clock the deadlines are computed from is the one the condition is
   told to use. *)
Theorem condition_clock p h l ms sec nsec answer calls r :
  In (AttrSetclock CLOCK_MONOTONIC) (fst (Condition_Init (Some p))) /\
  (Condition_Wait (Some h) (Some l) ms (sec, nsec) answer = Some (calls, r) ->
   forall c, In (ClockGettime c) calls -> c = CLOCK_MONOTONIC).
Proof.
  split; [cbn; auto|]. unfold Condition_Wait.
  destruct (ms >? 0); [|intros H; injection H as <- <-; intros c [H|[] ]; discriminate].
  repeat (destruct (i64 _); [|discriminate]).
  intros H. injection H as <- _. intros c [H|[H|[] ] ]; [|discriminate].
  injection H as <-. reflexivity.
Qed.

(* Near the end of time the arithmetic overflows. *)
Example condition_wait_far_future h l :
  Condition_Wait (Some h) (Some l) 1000 (2^63 - 1, 0) 0 = None.
Proof. reflexivity. Qed.

(* A concrete deadline: 2.5 s after 7.9 s is 10.4 s. *)
Example condition_wait_example :
  Condition_Wait (Some 1%N) (Some 2%N) 2500 (7, 900000000) ETIMEDOUT
  = Some ([ClockGettime 1; CondTimedwait 1 2 10 400000000], COND_TIMEOUT).
Proof. reflexivity. Qed.

(* ------------------------------------------------------------------ *)
(** * C84: memory of locks and conditions *)

(* How often the block p is allocated and freed by a sequence of calls. *)
Definition allocated (p : N) (cs : list call) : nat :=
  length (filter (fun x => match x with Malloc (Some q) => (q =? p)%N | _ => false end) cs).
Definition freed (p : N) (cs : list call) : nat :=
  length (filter (fun x => match x with Free q => (q =? p)%N | _ => false end) cs).

Lemma allocated_app p a b : allocated p (a ++ b) = (allocated p a + allocated p b)%nat.
Proof. unfold allocated. rewrite filter_app, app_length. reflexivity. Qed.
Lemma freed_app p a b : freed p (a ++ b) = (freed p a + freed p b)%nat.
Proof. unfold freed. rewrite filter_app, app_length. reflexivity. Qed.

(* uses of a lock between its creation and its end *)
Inductive lock_use := ULock (answer : Z) | UUnlock (answer : Z) | UDeinit_fails (answer : Z).
Definition use_calls (h : N) (u : lock_use) : list call :=
  match u with
  | ULock a => fst (Lock (Some h) a)
  | UUnlock a => fst (Unlock (Some h) a)
  | UDeinit_fails a => fst (Lock_Deinit (Some h) a)
  end.
Definition use_ok (u : lock_use) : Prop :=
  match u with UDeinit_fails a => a <> 0 | _ => True end.

Lemma uses_no_memory h p us :
  Forall use_ok us ->
  allocated p (flat_map (use_calls h) us) = 0%nat /\ freed p (flat_map (use_calls h) us) = 0%nat.
Proof.
  induction 1 as [|u us Hu _ [IH1 IH2] ]; [split; reflexivity|].
  cbn [flat_map]. rewrite allocated_app, freed_app, IH1, IH2.
  destruct u; cbn in *; try (split; reflexivity).
  destruct (answer =? 0) eqn:E; [lia|]. split; reflexivity.
Qed.

(* A lock that cannot be made leaves nothing behind; one that is made owns
   its block through any uses, however they fail, until a Lock_Deinit that
   returns LOCK_OK, which frees it, once. *)
Theorem lock_memory got a us d calls handle :
  Lock_Init got a = (calls, handle) -> Forall use_ok us ->
  match handle with
  | None => forall p, allocated p calls = freed p calls
  | Some h => got = Some h /\
      (forall p, allocated p (calls ++ flat_map (use_calls h) us)
                 = if (p =? h)%N then 1%nat else 0%nat) /\
      (forall p, freed p (calls ++ flat_map (use_calls h) us) = 0%nat) /\
      (snd (Lock_Deinit (Some h) d) = LOCK_OK <-> d = 0) /\
      freed h (fst (Lock_Deinit (Some h) d)) = if d =? 0 then 1%nat else 0%nat
  end.
Proof.
  intros H Hu. unfold Lock_Init in H. destruct got as [q|]; [|injection H as <- <-; reflexivity].
  destruct (a =? 0) eqn:E; cbn [negb] in H; injection H as <- <-.
  - split; [reflexivity|].
    split; [|split; [|split] ].
    + intros p. rewrite allocated_app. destruct (uses_no_memory q p us Hu) as [-> _].
      unfold allocated. cbn. rewrite (N.eqb_sym q p). destruct (p =? q)%N; reflexivity.
    + intros p. rewrite freed_app. destruct (uses_no_memory q p us Hu) as [_ ->]. reflexivity.
    + unfold Lock_Deinit. destruct (d =? 0) eqn:Ed; cbn; split; intros; try congruence; lia.
    + unfold Lock_Deinit. destruct (d =? 0); cbn; [|reflexivity].
      unfold freed. cbn. rewrite N.eqb_refl. reflexivity.
  - intros p. unfold allocated, freed. cbn. destruct (q =? p)%N; reflexivity.
Qed.

Theorem condition_memory got calls handle :
  Condition_Init got = (calls, handle) ->
  handle = got /\
  forall p, freed p (calls ++ Condition_Deinit handle) = allocated p (calls ++ Condition_Deinit handle).
Proof.
  intros H. destruct got as [q|]; injection H as <- <-; (split; [reflexivity|]); intros p;
    unfold allocated, freed; cbn; [destruct (q =? p)%N; reflexivity|reflexivity].
Qed.
