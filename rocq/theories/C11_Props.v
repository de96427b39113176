(* Properties of the C11 adapters and of uniqueid_linux.c (C90-C92). *)
From Verif Require Import Base Condition_Model ThreadApi_Model UniqueId_Model UniqueId_Spec C11_Model.
From Verif Require Condition_Props.
Local Open Scope Z_scope.

(** * C90: the deadline of a wait *)

(* The wall clock shows sec seconds and nsec nanoseconds; time() gives the seconds.  The wait is
   told a valid time: exactly the timeout after the last full second, never later than asked for
   and less than a second earlier. *)
Theorem c11_wait_deadline_partial h l ms sec nsec answer :
  0 < ms < 2^31 -> 0 <= nsec < 1000000000 -> 0 <= sec ->
  exists sec' nsec',
    Condition_Wait_c11 (Some h) (Some l) ms sec answer
    = ([ClockGettime 0; CondTimedwait h l sec' nsec'],
       match answer with thrd_timedout => COND_TIMEOUT | thrd_success => COND_OK | _ => COND_ERROR end) /\
    0 <= nsec' < 1000000000 /\
    Condition_Props.instant sec' nsec' = Condition_Props.instant sec 0 + ms * 1000000 /\
    Condition_Props.instant sec nsec + ms * 1000000 - 1000000000
      < Condition_Props.instant sec' nsec' <= Condition_Props.instant sec nsec + ms * 1000000.
Proof.
  intros Hm Hn Hs. unfold Condition_Wait_c11, Condition_Props.instant.
  destruct (ms >? 0) eqn:E; [|lia]. eexists _, _. split; [reflexivity|].
  rewrite (Z.rem_mod_nonneg ms), (Z.quot_div_nonneg ms) by lia. lia.
Qed.

(* Refuted: that the wait lasts the timeout.  It is too short by the part of the second already
   gone, whenever there is one; timeouts not longer than that part have no wait at all. *)
Theorem c11_wait_too_short_refuted h l ms sec nsec answer :
  0 < ms < 2^31 -> 0 < nsec < 1000000000 -> 0 <= sec ->
  exists sec' nsec' r,
    Condition_Wait_c11 (Some h) (Some l) ms sec answer = ([ClockGettime 0; CondTimedwait h l sec' nsec'], r) /\
    Condition_Props.instant sec' nsec' - Condition_Props.instant sec nsec = ms * 1000000 - nsec /\
    (ms * 1000000 <= nsec -> Condition_Props.instant sec' nsec' <= Condition_Props.instant sec nsec).
Proof.
  intros Hm Hn Hs. unfold Condition_Wait_c11, Condition_Props.instant.
  destruct (ms >? 0) eqn:E; [|lia]. eexists _, _, _. split; [reflexivity|].
  rewrite (Z.rem_mod_nonneg ms), (Z.quot_div_nonneg ms) by lia. lia.
Qed.

Theorem c11_wait_unlimited h l ms now answer : ms <= 0 ->
  Condition_Wait_c11 (Some h) (Some l) ms now answer
  = ([CondWait h l], match answer with thrd_success => COND_OK | _ => COND_ERROR end).
Proof. intros H. unfold Condition_Wait_c11. destruct (ms >? 0) eqn:E; [lia|]. now destruct answer. Qed.
Theorem c11_wait_null handle lock ms now answer : handle = None \/ lock = None ->
  Condition_Wait_c11 handle lock ms now answer = ([], COND_INVALID_ARG).
Proof. intros [-> | ->]; [reflexivity|]. now destruct handle. Qed.

(* half a second asked for at 0.9 s past the second: the deadline is 0.4 s ago *)
Example c11_wait_example :
  Condition_Wait_c11 (Some 1%N) (Some 2%N) 500 1000 thrd_timedout
  = ([ClockGettime 0; CondTimedwait 1 2 1000 500000000], COND_TIMEOUT) /\
  Condition_Props.instant 1000 500000000 < Condition_Props.instant 1000 900000000.
Proof. split; [reflexivity|]. unfold Condition_Props.instant. lia. Qed.

(* the sleep: at least the time asked for, when an event can be created *)
Theorem c11_sleep ms : 0 <= ms < 2^32 ->
  (exists t, ThreadAPI_Sleep_c11 ms true = Some t /\ t = Z.max 1 ms /\ ms <= t /\ 0 < t < 2^32) /\
  ThreadAPI_Sleep_c11 ms false = None.
Proof.
  intros H. split; [|reflexivity]. unfold ThreadAPI_Sleep_c11. change (2^32) with 4294967296 in *.
  destruct (ms =? 0) eqn:E; eexists; (split; [reflexivity|]); lia.
Qed.

(** * C91: ownership *)

Inductive c11_use := CLock (a : thrd_result) | CUnlock (a : thrd_result).
Definition c11_calls (h : N) (u : c11_use) : list call :=
  match u with CLock a => fst (Lock_c11 (Some h) a) | CUnlock a => fst (Unlock_c11 (Some h) a) end.

(* A lock is made or leaves nothing behind; its block is freed by Lock_Deinit, once, and by nothing
   else. *)
Theorem c11_lock_memory got a us calls handle :
  Lock_Init_c11 got a = (calls, handle) ->
  match handle with
  | None => (got = None \/ a <> thrd_success) /\ forall p, Condition_Props.allocated p calls = Condition_Props.freed p calls
  | Some h => got = Some h /\ a = thrd_success /\
      let life := calls ++ flat_map (c11_calls h) us in
      (forall p, Condition_Props.freed p life = 0%nat) /\
      (forall p, Condition_Props.allocated p (life ++ fst (Lock_Deinit_c11 (Some h)))
                 = Condition_Props.freed p (life ++ fst (Lock_Deinit_c11 (Some h))))
  end.
Proof.
  intros H. unfold Lock_Init_c11 in H. destruct got as [q|].
  2: { injection H as <- <-. split; [now left|]. reflexivity. }
  assert (forall p us, Condition_Props.allocated p (flat_map (c11_calls q) us) = 0%nat /\
                       Condition_Props.freed p (flat_map (c11_calls q) us) = 0%nat) as U.
  { intros p. induction us0 as [|u us0 [I1 I2] ]; [split; reflexivity|]. cbn [flat_map].
    rewrite Condition_Props.allocated_app, Condition_Props.freed_app, I1, I2. destruct u; split; reflexivity. }
  destruct (is_success a) eqn:E; cbn [negb] in H; injection H as <- <-.
  - split; [reflexivity|]. split; [now destruct a|]. cbv zeta. split; intros p.
    + rewrite Condition_Props.freed_app. destruct (U p us) as [_ ->]. reflexivity.
    + rewrite !Condition_Props.allocated_app, !Condition_Props.freed_app. destruct (U p us) as [-> ->].
      unfold Condition_Props.allocated, Condition_Props.freed. cbn. destruct (q =? p)%N; reflexivity.
  - split; [right; now intros ->|]. intros p. unfold Condition_Props.allocated, Condition_Props.freed. cbn.
    destruct (q =? p)%N; reflexivity.
Qed.
Theorem c11_condition_memory got a calls handle :
  Condition_Init_c11 got a = (calls, handle) ->
  handle = got /\ forall p, Condition_Props.freed p (calls ++ Condition_Deinit_c11 handle)
                            = Condition_Props.allocated p (calls ++ Condition_Deinit_c11 handle).
Proof.
  intros H. destruct got as [q|]; injection H as <- <-; (split; [reflexivity|]); intros p;
    unfold Condition_Props.allocated, Condition_Props.freed; cbn; [destruct (q =? p)%N; reflexivity|reflexivity].
Qed.
(* Refuted: that a condition returned is one that could be initialised. *)
Theorem c11_condition_uninitialised_refuted p a : a <> thrd_success ->
  Condition_Init_c11 (Some p) a = ([Malloc (Some p); CondInit p], Some p).
Proof. reflexivity. Qed.
(* the results tell success from failure *)
Theorem c11_results h a :
  (snd (Lock_c11 (Some h) a) = LOCK_OK <-> a = thrd_success) /\
  (snd (Unlock_c11 (Some h) a) = LOCK_OK <-> a = thrd_success) /\
  (snd (Condition_Post_c11 (Some h) a) = COND_OK <-> a = thrd_success) /\
  fst (Condition_Post_c11 (Some h) a) = [CondBroadcast h] /\
  fst (Lock_c11 (Some h) a) = [MutexLock h] /\ fst (Unlock_c11 (Some h) a) = [MutexUnlock h].
Proof. destruct a; cbn; repeat split; congruence. Qed.

(** * C92: unique ids on Linux *)
Local Open Scope N_scope.

Lemma hex_lower_value n : n < 16 -> digit_value (hex_lower n) = Some n.
Proof.
  intros H. assert (forall k, (k < 16)%nat -> digit_value (hex_lower (N.of_nat k)) = Some (N.of_nat k)) as E.
  { intros k Hk. do 16 (destruct k as [|k]; [reflexivity|]). lia. }
  rewrite <- (N2Nat.id n). apply E. lia.
Qed.
(* C92: with a buffer of the stated size (at least 37), whatever 16 octets libuuid generates: the text
   reads back as exactly those octets, ends with a 0, and the rest of the buffer is zeros. *)
Theorem uniqueid_linux_text o blk :
  (37 <= length blk)%nat -> length o = 16%nat -> Forall (fun b => b < 256) o ->
  exists t,
    UniqueId_Generate_linux (Some blk) (N.of_nat (length blk)) o
      = Some (UNIQUEID_OK, Some (filled (t ++ repeat 0 (length blk - 36)))) /\
    length t = 36%nat /\ uuid_octets t = Some o.
Proof.
  intros H L B.
  do 16 (destruct o as [|?b o]; [discriminate L|]). destruct o; [|discriminate L]. clear L.
  repeat match goal with H : Forall _ (_ :: _) |- _ => inversion H; clear H; subst end.
  match goal with |- exists t, UniqueId_Generate_linux _ _ ?o = _ /\ _ => set (ol := o) end.
  exists (uuid_unparse ol). assert (length (uuid_unparse ol) = 36%nat) as L36 by reflexivity. split; [|split].
  - unfold UniqueId_Generate_linux. destruct (N.of_nat (length blk) <? 37) eqn:E; [lia|]. clear E.
    rewrite Nat2N.id.
    rewrite store_all_exact by (now rewrite repeat_length).
    rewrite store_all_prefix.
    2: { unfold filled. rewrite map_length, repeat_length, app_length, L36. cbn [length]. lia. }
    do 3 f_equal. unfold filled. rewrite map_app. rewrite map_app.
    rewrite <- app_assoc. f_equal.
    replace (length blk) with (37 + (length blk - 37))%nat at 1 by lia.
    rewrite repeat_app, map_app. rewrite skipn_app.
    rewrite skipn_all2 by (rewrite map_length, repeat_length, app_length, L36; cbn [length]; lia).
    rewrite map_length, repeat_length, app_length, L36.
    replace (length blk - 36)%nat with (S (length blk - 37)) by lia. cbn [length Nat.add].
    replace (37 - 37)%nat with 0%nat by lia. cbn. reflexivity.
  - reflexivity.
  - unfold uuid_octets. unfold uuid_unparse, ol.
    cbn [firstn skipn map concat app]. change (str "-") with [ch "-"].
    cbn [app length Nat.eqb forallb nth_error andb]. rewrite N.eqb_refl. cbn [andb].
    cbn [firstn skipn app]. cbn [octets].
    rewrite !hex_lower_value by lia.
    repeat match goal with |- context [16 * (?b / 16) + ?b mod 16] =>
      replace (16 * (b / 16) + b mod 16) with b by lia end.
    reflexivity.
Qed.
Theorem uniqueid_linux_too_small o len :
  (forall blk, len < 37 -> UniqueId_Generate_linux (Some blk) len o = Some (UNIQUEID_INVALID_ARG, Some blk)) /\
  UniqueId_Generate_linux None len o = Some (UNIQUEID_INVALID_ARG, None).
Proof.
  split; [|reflexivity]. intros blk H. unfold UniqueId_Generate_linux.
  destruct (len <? 37) eqn:E; [reflexivity|lia].
Qed.
Example uniqueid_linux_example :
  UniqueId_Generate_linux (Some (repeat None 38)) 38 [18; 52; 86; 120; 154; 188; 77; 240; 129; 35; 69; 103; 137; 171; 205; 239] =
  Some (UNIQUEID_OK, Some (filled (str "12345678-9abc-4df0-8123-456789abcdef" ++ [0; 0]))).
Proof. vm_compute. reflexivity. Qed.
