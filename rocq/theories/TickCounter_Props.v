(* C68: the tick counter. *)
From Verif Require Import Base TickCounter_Model.
Local Open Scope Z_scope.

(* ------------------------------------------------------------------ *)
(** * Rounding *)

Lemma rne_small z : 0 <= z < 2^53 -> rne z = z.
Proof.
  intros H. unfold rne. destruct (z <? 0) eqn:E; [lia|]. unfold rne_nonneg.
  destruct (z <? 2^53) eqn:E'; [reflexivity|]. apply Z.ltb_ge in E'. lia.
Qed.

Lemma rne_nonneg_small z : z < 2^53 -> rne_nonneg z = z.
Proof. intros H. unfold rne_nonneg. apply Z.ltb_lt in H. rewrite H. reflexivity. Qed.

(* a rounded number lies between the powers of two around it, and rounding
   is the identity or goes to a neighbouring multiple of the unit *)
Definition rnd (u z : Z) : Z :=
  let q := z / u in let r := z mod u in
  if 2 * r <? u then q * u
  else if 2 * r =? u then (if Z.even q then q * u else (q + 1) * u)
  else (q + 1) * u.

Lemma rnd_mono u a b : 0 < u -> a <= b -> rnd u a <= rnd u b.
Proof.
  intros Hu Hab. unfold rnd.
  pose proof (Z.div_mod a u) as Da. pose proof (Z.div_mod b u) as Db.
  pose proof (Z.mod_pos_bound a u Hu) as Ma. pose proof (Z.mod_pos_bound b u Hu) as Mb.
  pose proof (Z.div_le_mono a b u Hu Hab) as Q.
  set (qa := a / u) in *. set (qb := b / u) in *. set (ra := a mod u) in *. set (rb := b mod u) in *.
  clearbody qa qb ra rb.
  destruct (Z.eq_dec qa qb) as [<- | Hne].
  - assert (ra <= rb) by lia.
    destruct (2 * ra <? u) eqn:E1, (2 * rb <? u) eqn:E2, (2 * ra =? u) eqn:E3,
      (2 * rb =? u) eqn:E4, (Z.even qa); nia.
  - assert (qa + 1 <= qb) by lia.
    destruct (2 * ra <? u), (2 * rb <? u), (2 * ra =? u), (2 * rb =? u), (Z.even qa), (Z.even qb); nia.
Qed.

Lemma rnd_multiple u k : 0 < u -> rnd u (k * u) = k * u.
Proof.
  intros Hu. unfold rnd. rewrite Z.div_mul, Z.mod_mul by lia.
  destruct (2 * 0 <? u) eqn:E; [reflexivity|lia].
Qed.

Lemma rne_nonneg_rnd z : 2^53 <= z -> rne_nonneg z = rnd (2 ^ (Z.log2 z - 52)) z.
Proof.
  intros H. unfold rne_nonneg. destruct (z <? 2^53) eqn:E; [apply Z.ltb_lt in E; lia|]. reflexivity.
Qed.

Lemma rnd_bounds z :
  2^53 <= z -> 2 ^ Z.log2 z <= rnd (2 ^ (Z.log2 z - 52)) z <= 2 ^ (Z.log2 z + 1).
Proof.
  intros H. assert (Hp : 0 < z) by (assert (0 < 2^53) by reflexivity; lia).
  pose proof (Z.log2_spec z Hp) as L.
  assert (Hl : 53 <= Z.log2 z).
  { change 53 with (Z.log2 (2^53)). apply Z.log2_le_mono, H. }
  set (u := 2 ^ (Z.log2 z - 52)).
  assert (Hu : 0 < u) by (apply Z.pow_pos_nonneg; lia).
  assert (E1 : 2 ^ Z.log2 z = 2^52 * u).
  { unfold u. rewrite <- Z.pow_add_r by lia. f_equal. lia. }
  assert (E2 : 2 ^ (Z.log2 z + 1) = 2^53 * u).
  { unfold u. rewrite <- Z.pow_add_r by lia. f_equal. lia. }
  rewrite <- Z.add_1_r in L. rewrite E1, E2 in *.
  split.
  - rewrite <- (rnd_multiple u (2^52) Hu). apply rnd_mono; [exact Hu|]. lia.
  - rewrite <- (rnd_multiple u (2^53) Hu). apply rnd_mono; [exact Hu|]. lia.
Qed.

Lemma rne_nonneg_mono a b : 0 <= a -> a <= b -> rne_nonneg a <= rne_nonneg b.
Proof.
  intros Ha Hab.
  destruct (Z_lt_le_dec a (2^53)) as [A|A].
  - assert (Ea : rne_nonneg a = a).
    { unfold rne_nonneg. destruct (a <? 2^53) eqn:E; [reflexivity|]. apply Z.ltb_ge in E. lia. }
    rewrite Ea. destruct (Z_lt_le_dec b (2^53)) as [B|B].
    + unfold rne_nonneg. destruct (b <? 2^53) eqn:E; [exact Hab|]. apply Z.ltb_ge in E. lia.
    + rewrite rne_nonneg_rnd by exact B. pose proof (rnd_bounds b B) as [L _].
      assert (2^53 <= 2 ^ Z.log2 b).
      { apply Z.pow_le_mono_r; [lia|]. change 53 with (Z.log2 (2^53)). apply Z.log2_le_mono, B. }
      lia.
  - assert (B : 2^53 <= b) by lia. rewrite !rne_nonneg_rnd by assumption.
    pose proof (Z.log2_le_mono _ _ Hab) as L.
    destruct (Z.eq_dec (Z.log2 a) (Z.log2 b)) as [E|E].
    + rewrite E. apply rnd_mono; [|exact Hab]. apply Z.pow_pos_nonneg; [lia|].
      assert (53 <= Z.log2 b) by (change 53 with (Z.log2 (2^53)); apply Z.log2_le_mono, B). lia.
    + pose proof (rnd_bounds a A) as [_ U]. pose proof (rnd_bounds b B) as [W _].
      assert (2 ^ (Z.log2 a + 1) <= 2 ^ Z.log2 b) by (apply Z.pow_le_mono_r; lia). lia.
Qed.

Lemma rne_nonneg_nonneg a : 0 <= a -> 0 <= rne_nonneg a.
Proof. intros H. pose proof (rne_nonneg_mono 0 a (Z.le_refl 0) H). exact H0. Qed.

Lemma rne_mono a b : 0 <= a -> a <= b -> 0 <= rne a <= rne b.
Proof.
  intros Ha Hab. unfold rne. destruct (a <? 0) eqn:E; [lia|]. destruct (b <? 0) eqn:E'; [lia|].
  split; [apply rne_nonneg_nonneg, Ha|apply rne_nonneg_mono; assumption].
Qed.

(* ------------------------------------------------------------------ *)
(** * Histories *)

(* Readings of one counter, each with the answer time() gives it; the list
   of the values given out, or None if one was undefined. *)
Fixpoint readings (c : option TICK_COUNTER_INSTANCE) (times : list Z) : option (list Z) :=
  match times with
  | [] => Some []
  | t :: ts =>
      match tickcounter_get_current_ms c true t with
      | None => None
      | Some (_, v, c) =>
          match readings c ts with
          | None => None
          | Some vs => Some (match v with Some v => v :: vs | None => vs end)
          end
      end
  end.

Fixpoint ascending (x : Z) (l : list Z) : Prop :=
  match l with [] => True | y :: l => x <= y /\ ascending y l end.

(* the clock does not go backwards; a failed reading (-1) may come any time;
   no reading is so late that the milliseconds exceed 64 bits *)
Definition clock_ok (t0 : Z) (times : list Z) : Prop :=
  ascending t0 (filter (fun t => negb (t =? INVALID_TIME_VALUE)) times) /\
  Forall (fun t => t - t0 <= 18446744073709548) times.

Definition ms_of (t0 t : Z) : Z := rne (rne (t - t0) * 1000).

Lemma ms_mono t0 t t' : t0 <= t -> t <= t' -> 0 <= ms_of t0 t <= ms_of t0 t'.
Proof.
  intros H H'. unfold ms_of.
  assert (B : 0 <= rne (t - t0) <= rne (t' - t0)) by (apply rne_mono; lia).
  apply rne_mono; lia.
Qed.

Lemma ms_defined t0 t :
  0 <= t - t0 <= 18446744073709548 -> to_uint64 (ms_of t0 t) = Some (ms_of t0 t).
Proof.
  intros H. pose proof (ms_mono t0 t (t0 + 18446744073709548)) as M.
  assert (E : ms_of t0 (t0 + 18446744073709548) < 2^64).
  { unfold ms_of. replace (t0 + 18446744073709548 - t0) with 18446744073709548 by lia.
    vm_compute. reflexivity. }
  unfold to_uint64. destruct (_ && _) eqn:F; [reflexivity|].
  apply andb_false_iff in F. destruct F as [F|F]; [apply Z.leb_gt in F|apply Z.ltb_ge in F]; lia.
Qed.

Lemma readings_general t0 ms times x :
  t0 <= x -> ascending x (filter (fun t => negb (t =? INVALID_TIME_VALUE)) times) ->
  Forall (fun t => t - t0 <= 18446744073709548) times ->
  readings (Some (tc t0 ms)) times
  = Some (map (ms_of t0) (filter (fun t => negb (t =? INVALID_TIME_VALUE)) times)).
Proof.
  intros Hx Ha Hf. revert x ms Hx Ha. induction Hf as [|t ts Ht _ IH]; intros x ms Hx Ha; [reflexivity|].
  cbn [readings filter] in *. unfold tickcounter_get_current_ms. cbn [init_time_value].
  destruct (t =? INVALID_TIME_VALUE) eqn:E; cbn [negb] in *.
  - rewrite (IH x ms Hx Ha). reflexivity.
  - destruct Ha as [Ht' Ha]. unfold difftime. fold (ms_of t0 t).
    rewrite ms_defined by lia. rewrite (IH t _ ltac:(lia) Ha). reflexivity.
Qed.

Lemma ascending_ms t0 x l : t0 <= x -> ascending x l -> ascending (ms_of t0 x) (map (ms_of t0) l).
Proof.
  revert x. induction l as [|y l IH]; intros x Hx H; [exact I|]. destruct H as [H1 H2].
  cbn. split; [apply ms_mono; assumption|]. apply IH; [lia|exact H2].
Qed.

(* C68, monotone: whatever the readings of a clock that does not go
   backwards, with any failures among them, no call is undefined and the
   values given out never decrease, from 0 on. *)
Theorem tickcounter_monotone t0 times c :
  tickcounter_create true t0 = Some c -> clock_ok t0 times ->
  exists vs, readings (Some c) times = Some vs /\ ascending 0 vs.
Proof.
  intros Hc [Ha Hf]. unfold tickcounter_create in Hc.
  destruct (t0 =? INVALID_TIME_VALUE); [discriminate|]. injection Hc as <-.
  eexists. split; [eapply readings_general; [apply Z.le_refl|exact Ha|exact Hf]|].
  assert (Z0 : ms_of t0 t0 = 0) by (unfold ms_of; rewrite Z.sub_diag; reflexivity).
  rewrite <- Z0. apply ascending_ms; [lia|exact Ha].
Qed.

(* C68, exact: for the first 285 thousand years (2^53 ms) a reading is 1000
   times the seconds elapsed since the counter was created. *)
Theorem tickcounter_exact t0 t c ms :
  tickcounter_create true t0 = Some c -> t <> INVALID_TIME_VALUE ->
  0 <= t - t0 -> (t - t0) * 1000 < 2^53 ->
  tickcounter_get_current_ms (Some (tc (init_time_value c) ms)) true t
  = Some (0, Some ((t - t0) * 1000), Some (tc t0 ((t - t0) * 1000))).
Proof.
  intros Hc Ht H1 H2. unfold tickcounter_create in Hc.
  destruct (t0 =? INVALID_TIME_VALUE); [discriminate|]. injection Hc as <-.
  cbn [init_time_value]. unfold tickcounter_get_current_ms. cbn [init_time_value].
  destruct (t =? INVALID_TIME_VALUE) eqn:E; [apply Z.eqb_eq in E; congruence|].
  unfold difftime. rewrite (rne_small (t - t0)) by lia. rewrite rne_small by lia.
  unfold to_uint64. destruct (_ && _) eqn:F; [reflexivity|].
  assert (2^53 <= 2^64) by (apply Z.pow_le_mono_r; lia).
  apply andb_false_iff in F. destruct F as [F|F]; [apply Z.leb_gt in F|apply Z.ltb_ge in F]; lia.
Qed.

(* A failing clock, and NULL arguments: an error, nothing stored, the
   counter as it was. *)
Theorem tickcounter_errors c out t :
  c = None \/ out = false \/ t = INVALID_TIME_VALUE ->
  exists e, tickcounter_get_current_ms c out t = Some (e, None, c) /\ e <> 0.
Proof.
  intros H. unfold tickcounter_get_current_ms. destruct c as [c|]; [|exists 58; split; [reflexivity|lia] ].
  destruct out; [|exists 58; split; [reflexivity|lia] ].
  destruct H as [H|[H|H] ]; try discriminate. subst t. exists 65. split; [reflexivity|lia].
Qed.

(* Why the condition on the clock: time() is the wall clock, and a reading
   after it was set back by a second or more is undefined. *)
Theorem tickcounter_clock_set_back t0 t c :
  tickcounter_create true t0 = Some c -> t < t0 -> t <> INVALID_TIME_VALUE ->
  t0 - t < 2^53 / 1000 ->
  tickcounter_get_current_ms (Some c) true t = None.
Proof.
  intros Hc Ht Hi Hs. unfold tickcounter_create in Hc.
  destruct (t0 =? INVALID_TIME_VALUE); [discriminate|]. injection Hc as <-.
  unfold tickcounter_get_current_ms. cbn [init_time_value].
  destruct (t =? INVALID_TIME_VALUE) eqn:E; [apply Z.eqb_eq in E; congruence|].
  change (2^53 / 1000) with 9007199254740 in Hs.
  assert (E1 : difftime t t0 = t - t0).
  { unfold difftime, rne. destruct (t - t0 <? 0) eqn:F; [|lia].
    assert (X : rne_nonneg (- (t - t0)) = - (t - t0)).
    { apply rne_nonneg_small. change (2^53) with 9007199254740992. lia. }
    rewrite X. lia. }
  assert (E2 : rne ((t - t0) * 1000) = (t - t0) * 1000).
  { unfold rne. destruct ((t - t0) * 1000 <? 0) eqn:F; [|lia].
    assert (X : rne_nonneg (- ((t - t0) * 1000)) = - ((t - t0) * 1000)).
    { apply rne_nonneg_small. change (2^53) with 9007199254740992. lia. }
    rewrite X. lia. }
  rewrite E1, E2. unfold to_uint64. destruct (_ && _) eqn:F; [|reflexivity].
  apply andb_true_iff in F. destruct F as [F _]. apply Z.leb_le in F. lia.
Qed.

Example tickcounter_example :
  readings (tickcounter_create true 1000000) [1000000; 1000002; -1; 1000002; 1000007]
  = Some [0; 2000; 2000; 7000].
Proof. reflexivity. Qed.
