(* C111: the tick counters of the other platforms. *)
From Verif Require Import Base TickPort_Model.
From Verif Require TickCounter_Model TickCounter_Props.
Local Open Scope Z_scope.

(** * Histories *)

(* successive reads of one counter, all answered; the values delivered *)
Fixpoint win_reads (c : win) (ks : list Z) : option (list Z) :=
  match ks with
  | [] => Some []
  | k :: ks =>
      match win_get (Some c) true (Some k) (-1) with
      | Some (0, Some v, Some c) => match win_reads c ks with Some vs => Some (v :: vs) | None => None end
      | _ => None
      end
  end.
Fixpoint mbed_reads (cps : Z) (c : mbed) (ts : list Z) : list Z :=
  match ts with
  | [] => []
  | t :: ts => match mbed_get cps (Some c) true t with
               | (_, Some v, Some c) => v :: mbed_reads cps c ts
               | _ => []
               end
  end.
(* a clock that does not go back, with steps below [b] *)
Fixpoint runs (b : Z) (k : Z) (ks : list Z) : Prop :=
  match ks with [] => True | k' :: ks => k <= k' < k + b /\ runs b k' ks end.
Fixpoint ascends (v : Z) (vs : list Z) : Prop :=
  match vs with [] => True | v' :: vs => v <= v' /\ ascends v' vs end.

(** * Windows *)

(* the largest step whose product by 1000000 is a LONGLONG *)
Definition max_step : Z := 9223372036855.

Lemma win_step f k0 cur k : 0 < f -> k0 <= k < k0 + max_step -> 0 <= cur ->
  win_get (Some (mkwin f k0 INVALID_TIME_VALUE cur)) true (Some k) (-1) =
  Some (0, Some (uint64 (cur + (k - k0) * 1000000 / f) / 1000),
        Some (mkwin f k INVALID_TIME_VALUE (uint64 (cur + (k - k0) * 1000000 / f)))).
Proof.
  intros F K C. unfold win_get. cbn [backup_time_value last_perf_counter perf_freqency TickPort_Model.current_ms].
  change (INVALID_TIME_VALUE =? INVALID_TIME_VALUE) with true. cbv iota zeta.
  assert (forall z, 0 <= z < 9223372036854775808 -> int64_ok z = true) as OK.
  { intros z H. unfold int64_ok. change (2^63) with 9223372036854775808. apply andb_true_iff. split; [apply Z.leb_le|apply Z.ltb_lt]; lia. }
  unfold max_step in K.
  rewrite (OK (k - k0)) by lia. rewrite (OK ((k - k0) * 1000000)) by lia.
  replace (f =? 0) with false by (symmetry; apply Z.eqb_neq; lia). cbn [andb negb].
  rewrite Z.quot_div_nonneg by lia. reflexivity.
Qed.

Lemma floor_bounds a f : 0 < f -> a / f * f <= a < (a / f + 1) * f.
Proof. intros F. pose proof (Z_div_mod_eq_full a f). pose proof (Z.mod_pos_bound a f F). lia. Qed.

Lemma win_elapsed_from f : 0 < f -> forall ks k0 cur c0 n,
  runs max_step k0 ks -> c0 <= k0 -> 0 <= cur -> 0 <= n ->
  cur * f <= (k0 - c0) * 1000000 -> ((k0 - c0) * 1000000 < (cur + n) * f \/ (n = 0 /\ k0 = c0 /\ cur = 0)) ->
  (forall k, In k ks -> (k - c0) * 1000000 < 18446744073709551616 * f) ->
  exists vs, win_reads (mkwin f k0 INVALID_TIME_VALUE cur) ks = Some vs /\ length vs = length ks /\
    ascends (cur / 1000) vs /\
    forall i k v, nth_error ks i = Some k -> nth_error vs i = Some v ->
      v * 1000 * f <= (k - c0) * 1000000 < (v * 1000 + 1000 + n + Z.of_nat i) * f.
Proof.
  intros F. induction ks as [|k ks IH]; intros k0 cur c0 n R L C N A B T.
  { exists []. split; [reflexivity|]. split; [reflexivity|]. split; [exact I|]. intros i k v X. destruct i; discriminate X. }
  destruct R as (K & R). cbn [win_reads]. rewrite (win_step f k0 cur k F K C).
  pose proof (floor_bounds ((k - k0) * 1000000) f F) as FB.
  set (us := (k - k0) * 1000000 / f) in *.
  assert (0 <= us) as U0 by (apply Z.div_pos; lia).
  assert ((cur + us) * f <= (k - c0) * 1000000) as A2 by lia.
  assert ((k - c0) * 1000000 < (cur + us + (n + 1)) * f) as B2.
  { destruct B as [B|(-> & -> & ->)]; lia. }
  assert (uint64 (cur + us) = cur + us) as E.
  { unfold uint64. apply Z.mod_small. split; [lia|]. change (2^64) with 18446744073709551616.
    specialize (T k (or_introl eq_refl)). nia. }
  rewrite E.
  destruct (IH k (cur + us) c0 (n + 1) R) as (vs & W & LE & AS & NTH); try lia.
  { intros k' I. apply T. now right. }
  rewrite W. exists ((cur + us) / 1000 :: vs). split; [reflexivity|]. split; [cbn [length]; now rewrite LE|].
  split; [split; [apply Z.div_le_mono; lia|exact AS]|].
  intros i k' v X Y. destruct i as [|i].
  - cbn [nth_error] in X, Y. injection X as <-. injection Y as <-.
    pose proof (floor_bounds (cur + us) 1000 eq_refl) as G. set (q := (cur + us) / 1000) in *. change (Z.of_nat 0) with 0. split; nia.
  - cbn [nth_error] in X, Y. specialize (NTH i k' v X Y). rewrite Nat2Z.inj_succ. unfold Z.succ. lia.
Qed.

(* Every read gives the milliseconds since the creation, short of the truth by less than one
   millisecond and one microsecond per read before; the values never go down. *)
Theorem win_elapsed_partial : forall f c0 time ks c,
  0 < f -> win_create true (Some f) (Some c0) time = Some c -> runs max_step c0 ks ->
  (forall k, In k ks -> (k - c0) * 1000000 < 18446744073709551616 * f) ->
  exists vs, win_reads c ks = Some vs /\ length vs = length ks /\ ascends 0 vs /\
    forall i k v, nth_error ks i = Some k -> nth_error vs i = Some v ->
      v * 1000 * f <= (k - c0) * 1000000 < (v * 1000 + 1000 + Z.of_nat i) * f.
Proof.
  intros f c0 time ks c F E R T. injection E as <-.
  destruct (win_elapsed_from f F ks c0 0 c0 0 R) as (vs & W & L & A & N); try lia; try exact T.
  exists vs. split; [exact W|]. split; [exact L|]. split; [exact A|].
  intros i k v X Y. specialize (N i k v X Y). lia.
Qed.
Example win_elapsed_case : exists c vs, win_create true (Some 3579545) (Some 1000) 0 = Some c /\
  runs max_step 1000 [3580545; 3580546; 36796450] /\
  win_reads c [3580545; 3580546; 36796450] = Some vs /\ vs = [1000; 1000; 10279].
Proof. eexists. eexists. split; [reflexivity|]. split; [unfold max_step; cbn; lia|]. split; [vm_compute; reflexivity|reflexivity]. Qed.

(* A counter that is read more than a million times per second stands still: with a step of one
   tick between the reads it never leaves 0, however long. *)
Lemma win_stands f : 1000000 < f -> forall n k0, 0 <= k0 ->
  win_reads (mkwin f k0 INVALID_TIME_VALUE 0) (map (fun i => k0 + 1 + Z.of_nat i) (seq 0 n)) = Some (repeat 0 n).
Proof.
  intros F. induction n as [|n IH]; intros k0 K; [reflexivity|].
  cbn [seq map win_reads repeat]. change (Z.of_nat 0) with 0. rewrite win_step by (unfold max_step; lia).
  replace (k0 + 1 + 0) with (k0 + 1) by lia.
  replace ((k0 + 1 - k0) * 1000000 / f) with 0 by (symmetry; apply Z.div_small; lia).
  cbv iota beta zeta. change (uint64 (0 + 0)) with 0. change (0 / 1000) with 0.
  rewrite <- seq_shift, map_map.
  rewrite (map_ext _ (fun i => k0 + 1 + 1 + Z.of_nat i)) by (intros i; rewrite Nat2Z.inj_succ; unfold Z.succ; lia).
  now rewrite IH by lia.
Qed.
Theorem win_drift_refuted : forall f c0 n, 1000000 < f -> 0 <= c0 ->
  exists c, win_create true (Some f) (Some c0) 0 = Some c /\
    win_reads c (map (fun i => c0 + 1 + Z.of_nat i) (seq 0 n)) = Some (repeat 0 n).
Proof. intros f c0 n F C. eexists. split; [reflexivity|]. now apply win_stands. Qed.

(* Between two reads at least max_step ticks apart (51 minutes at 3 GHz): undefined behaviour. *)
Theorem win_long_pause_refuted : forall f c0 k cur, 0 < f -> c0 + max_step <= k ->
  win_get (Some (mkwin f c0 INVALID_TIME_VALUE cur)) true (Some k) (-1) = None.
Proof.
  intros f c0 k cur F K. unfold win_get. cbn [backup_time_value last_perf_counter perf_freqency].
  change (INVALID_TIME_VALUE =? INVALID_TIME_VALUE) with true. cbv iota zeta.
  replace (int64_ok ((k - c0) * 1000000)) with false; [now rewrite andb_false_r|].
  symmetry. unfold int64_ok. change (2^63) with 9223372036854775808. apply andb_false_iff. right. apply Z.ltb_ge. unfold max_step in K. lia.
Qed.

(* A read that fails says so and changes nothing; likewise without a handle or a place. *)
Theorem win_errors : forall c out counter time, c = None \/ out = false \/
    (exists c', c = Some c' /\ (backup_time_value c' = INVALID_TIME_VALUE /\ counter = None \/
                                 backup_time_value c' <> INVALID_TIME_VALUE /\ time = INVALID_TIME_VALUE)) ->
  exists e, win_get c out counter time = Some (e, None, c) /\ e <> 0.
Proof.
  intros c out counter time H. unfold win_get. destruct c as [c|]; [|exists 76; split; [reflexivity|discriminate] ].
  destruct out; [|exists 76; split; [reflexivity|discriminate] ].
  destruct H as [H|[H|(c' & E & H)] ]; try discriminate H. injection E as <-.
  destruct H as [(B & ->)|(B & ->)].
  - rewrite B. exists 88. split; [reflexivity|discriminate].
  - apply Z.eqb_neq in B. rewrite B. exists 106. split; [reflexivity|discriminate].
Qed.

(* Without a performance counter the program is that of the other tick counter (C111 then says
   what TickCounter_Props proves of it). *)
Theorem win_backup_same : forall time0 c t, time0 <> INVALID_TIME_VALUE ->
  TickCounter_Model.tickcounter_create true time0 = Some c ->
  win_create true None None time0 = Some (mkwin 0 0 time0 0) /\
  forall ms, 
    match TickCounter_Model.tickcounter_get_current_ms (Some (TickCounter_Model.tc time0 ms)) true t, win_get (Some (mkwin 0 0 time0 ms)) true None t with
    | Some (r1, v1, Some c1), Some (r2, v2, Some c2) =>
        (r1 = 0 <-> r2 = 0) /\ v1 = v2 /\ TickCounter_Model.current_ms c1 = current_ms c2 /\ backup_time_value c2 = time0 /\ TickCounter_Model.init_time_value c1 = time0
    | None, None => True
    | _, _ => False
    end.
Proof.
  intros time0 c t T E. split; [unfold win_create; apply Z.eqb_neq in T; now rewrite T|]. intros ms.
  unfold TickCounter_Model.tickcounter_get_current_ms, win_get. cbn [backup_time_value perf_freqency last_perf_counter TickCounter_Model.init_time_value].
  apply Z.eqb_neq in T. rewrite T. unfold TickCounter_Model.INVALID_TIME_VALUE, INVALID_TIME_VALUE.
  destruct (t =? -1); [split; [split; discriminate|]; repeat split; reflexivity|].
  destruct (TickCounter_Model.to_uint64 _); [|exact I]. split; [reflexivity|]. repeat split; reflexivity.
Qed.

(** * mbed *)

Lemma mod_mod_mul a b m : 0 < m -> ((a mod m) * b) mod m = (a * b) mod m.
Proof. intros M. rewrite Z.mul_mod_idemp_l; lia. Qed.

Lemma mbed_step cps t0 cur t : 0 < cps -> t0 <= t -> (t - t0) * 1000 < 2^32 ->
  mbed_get cps (Some (mkmbed (t0 mod 2^32) cur)) true (t mod 2^32) =
  (0, Some (uint64 (cur + (t - t0) * 1000 / cps)), Some (mkmbed (t mod 2^32) (uint64 (cur + (t - t0) * 1000 / cps)))).
Proof.
  intros C L S. unfold mbed_get. cbn [m_current_ms last_clock_value]. unfold uint32.
  rewrite <- Zminus_mod. rewrite mod_mod_mul by reflexivity. rewrite Z.mod_small with (a := (t - t0) * 1000) by lia. reflexivity.
Qed.

Lemma mbed_elapsed_from cps : 0 < cps -> forall ts t0 cur c0 k0 n,
  runs 4294968 t0 ts -> (forall t, In t ts -> (t - c0) * 1000 < 2^63 * cps) -> c0 <= t0 -> 0 <= n -> 0 <= k0 < 2^63 -> 0 <= cur ->
  (cur - k0) * cps <= (t0 - c0) * 1000 -> ((t0 - c0) * 1000 < (cur - k0 + n) * cps \/ (n = 0 /\ t0 = c0 /\ cur = k0)) ->
  let vs := mbed_reads cps (mkmbed (t0 mod 2^32) cur) (map (fun t => t mod 2^32) ts) in
  length vs = length ts /\ ascends cur vs /\
  forall i t v, nth_error ts i = Some t -> nth_error vs i = Some v ->
    (v - k0) * cps <= (t - c0) * 1000 < (v - k0 + 1 + n + Z.of_nat i) * cps.
Proof.
  intros C. induction ts as [|t ts IH]; intros t0 cur c0 k0 n R T L N K P A B; cbn zeta.
  { split; [reflexivity|]. split; [exact I|]. intros i t v X. destruct i; discriminate X. }
  destruct R as (S & R). cbn [map mbed_reads]. rewrite mbed_step by (try exact C; try lia; change (2^32) with 4294967296; lia).
  pose proof (floor_bounds ((t - t0) * 1000) cps C) as FB.
  set (ms := (t - t0) * 1000 / cps) in *.
  assert (0 <= ms) as U0 by (apply Z.div_pos; lia).
  assert ((cur + ms - k0) * cps <= (t - c0) * 1000) as A2 by lia.
  assert ((t - c0) * 1000 < (cur + ms - k0 + (n + 1)) * cps) as B2 by (destruct B as [B|(-> & -> & ->)]; lia).
  assert (uint64 (cur + ms) = cur + ms) as E.
  { unfold uint64. apply Z.mod_small. specialize (T t (or_introl eq_refl)). change (2^64) with (2^63 + 2^63). nia. }
  rewrite E.
  destruct (IH t (cur + ms) c0 k0 (n + 1) R) as (LE & AS & NTH); try lia.
  { intros t' I. apply T. now right. }
  split; [cbn [length]; now rewrite LE|]. split; [split; [lia|exact AS]|].
  intros i t' v X Y. destruct i as [|i]; cbn [nth_error] in X, Y.
  - injection X as <-. injection Y as <-. change (Z.of_nat 0) with 0. split; lia.
  - specialize (NTH i t' v X Y). rewrite Nat2Z.inj_succ. unfold Z.succ. lia.
Qed.

(* The ticks of the machine are counted by t; clock() gives their count modulo 2^32.  Each read
   gives the value at the creation plus the milliseconds since then, short by less than one
   millisecond per read; the values never go down. *)
Theorem mbed_elapsed_partial : forall cps c0 ts, 0 < cps -> 0 <= c0 -> runs 4294968 c0 ts ->
  (forall t, In t ts -> (t - c0) * 1000 < 2^63 * cps) ->
  let c := mbed_create cps (c0 mod 2^32) in
  let vs := mbed_reads cps c (map (fun t => t mod 2^32) ts) in
  length vs = length ts /\ ascends (m_current_ms c) vs /\
  forall i t v, nth_error ts i = Some t -> nth_error vs i = Some v ->
    (v - m_current_ms c) * cps <= (t - c0) * 1000 < (v - m_current_ms c + 1 + Z.of_nat i) * cps.
Proof.
  intros cps c0 ts C P R T. cbn zeta. unfold mbed_create. cbn [m_current_ms].
  set (k0 := uint32 (c0 mod 2^32 * 1000) / cps).
  assert (0 <= k0 < 2^63) as K.
  { pose proof (Z.mod_pos_bound (c0 mod 2^32 * 1000) (2^32) eq_refl). unfold k0, uint32. split; [apply Z.div_pos; lia|].
    apply Z.le_lt_trans with (c0 mod 2^32 * 1000 mod 2^32); [apply Z.div_le_upper_bound; nia|]. change (2^63) with (2^32 * 2^31). nia. }
  destruct (mbed_elapsed_from cps C ts c0 k0 c0 k0 0 R T) as (LE & AS & NTH); try lia.
  split; [exact LE|]. split; [exact AS|]. intros i t v X Y. specialize (NTH i t v X Y). lia.
Qed.
(* Where a tick is a whole number of milliseconds nothing is lost. *)
Theorem mbed_exact : forall q c0 ts, 0 < q -> 0 <= c0 -> forall cps, 1000 = q * cps -> runs 4294968 c0 ts ->
  (forall t, In t ts -> (t - c0) * 1000 < 2^62 * cps) ->
  let c := mbed_create cps (c0 mod 2^32) in
  mbed_reads cps c (map (fun t => t mod 2^32) ts) = map (fun t => m_current_ms c + (t - c0) * q) ts.
Proof.
  intros q c0 ts Q P cps C R T. cbn zeta. unfold mbed_create. cbn [m_current_ms].
  assert (0 < cps) as CP by nia.
  set (k0 := uint32 (c0 mod 2^32 * 1000) / cps).
  assert (0 <= k0 < 2^32) as K.
  { pose proof (Z.mod_pos_bound (c0 mod 2^32 * 1000) (2^32) eq_refl). unfold k0, uint32. split; [apply Z.div_pos; lia|].
    apply Z.le_lt_trans with (c0 mod 2^32 * 1000 mod 2^32); [apply Z.div_le_upper_bound; nia|lia]. }
  clearbody k0.
  assert (forall ts t0, c0 <= t0 -> runs 4294968 t0 ts -> (forall t, In t ts -> (t - c0) * 1000 < 2^62 * cps) ->
    mbed_reads cps (mkmbed (t0 mod 2^32) (k0 + (t0 - c0) * q)) (map (fun t => t mod 2^32) ts) = map (fun t => k0 + (t - c0) * q) ts) as G.
  { clear ts R T. induction ts as [|t ts IH]; intros t0 L R T; [reflexivity|]. destruct R as (S & R).
    cbn [map mbed_reads]. rewrite mbed_step by (try exact CP; try lia; change (2^32) with 4294967296; lia).
    replace ((t - t0) * 1000 / cps) with ((t - t0) * q).
    2:{ rewrite C. replace ((t - t0) * (q * cps)) with ((t - t0) * q * cps) by ring. now rewrite Z.div_mul by lia. }
    replace (k0 + (t0 - c0) * q + (t - t0) * q) with (k0 + (t - c0) * q) by ring.
    assert (uint64 (k0 + (t - c0) * q) = k0 + (t - c0) * q) as E.
    { unfold uint64. apply Z.mod_small. pose proof (T t (or_introl eq_refl)). split; [nia|].
      assert ((t - c0) * q < 2^62) by nia. change (2^62) with 4611686018427387904 in *. change (2^32) with 4294967296 in *. change (2^64) with 18446744073709551616. lia. }
    rewrite E. f_equal. apply IH; [lia|exact R|]. intros t' I. apply T. now right. }
  specialize (G ts c0 (Z.le_refl _) R T). replace (k0 + (c0 - c0) * q) with k0 in G by ring. exact G.
Qed.
Example mbed_case : let c := mbed_create 100 4294967290 in
  runs 4294968 4294967290 [4294967295; 4294967299; 4295000000] /\
  mbed_reads 100 c (map (fun t => t mod 2^32) [4294967295; 4294967299; 4295000000]) = map (fun d => m_current_ms c + d) [50; 90; 327100].
Proof. cbn zeta. split; [cbn; lia|]. vm_compute. reflexivity. Qed.

(* Two reads 4294968 ticks apart or more: time is lost (12 hours at 100 ticks per second). *)
Theorem mbed_long_pause_refuted : forall cps cur t0, 0 < cps -> 0 <= cur < 2^63 ->
  exists t v c, t0 < t /\ 2^32 <= (t - t0) * 1000 < 2^32 + 1000 /\
    mbed_get cps (Some (mkmbed (t0 mod 2^32) cur)) true (t mod 2^32) = (0, Some v, Some c) /\ v <= cur + 704 / cps.
Proof.
  intros cps cur t0 C K. exists (t0 + 4294968), (uint64 (cur + 704 / cps)). eexists. split; [lia|]. split; [change (2^32) with 4294967296; lia|].
  assert (0 <= 704 / cps <= 704) as D.
  { split; [apply Z.div_pos; lia|apply Z.div_le_upper_bound; nia]. }
  split; [|unfold uint64; rewrite Z.mod_small; [lia|]; change (2^64) with 18446744073709551616; change (2^63) with 9223372036854775808 in K; lia].
  unfold mbed_get. cbn [m_current_ms last_clock_value]. unfold uint32. rewrite <- Zminus_mod, mod_mod_mul by reflexivity.
  replace (t0 + 4294968 - t0) with 4294968 by ring. change (4294968 * 1000 mod 2^32) with 704. reflexivity.
Qed.
(* clock() on mbed is the 32-bit microsecond ticker divided by 10000 (100 ticks per second):
   when the ticker wraps around, the step from 429496 to 0 is counted as 10 hours and more. *)
Theorem mbed_ticker_wrap_refuted : forall cur, 0 <= cur < 2^63 ->
  exists v c, mbed_get 100 (Some (mkmbed 429496 cur)) true 0 = (0, Some v, Some c) /\ v = cur + 38654712.
Proof.
  intros cur K. exists (cur + 38654712). eexists. split; [|reflexivity]. unfold mbed_get. cbn [m_current_ms last_clock_value].
  change (uint32 (uint32 (0 - 429496) * 1000) / 100) with 38654712.
  assert (uint64 (cur + 38654712) = cur + 38654712) as E.
  { unfold uint64. apply Z.mod_small. change (2^64) with 18446744073709551616. change (2^63) with 9223372036854775808 in K. lia. }
  rewrite E. reflexivity.
Qed.

(* A counter is made only when there is memory and a clock that can be read. *)
Theorem win_create_reads memory freq counter time c : win_create memory freq counter time = Some c ->
  memory = true /\ (freq = None /\ time <> INVALID_TIME_VALUE \/ freq <> None /\ counter <> None).
Proof.
  unfold win_create. destruct memory; [|discriminate]. destruct freq; [destruct counter; [|discriminate] |destruct (Z.eqb_spec time INVALID_TIME_VALUE); [discriminate|] ];
    intros _; (split; [reflexivity|]); [right|left]; split; congruence.
Qed.
Example win_create_reads_case : exists c, win_create true (Some 10) (Some 5) 0 = Some c.
Proof. eexists. reflexivity. Qed.
