(* Proofs about the model of src/crt_abstractions.c. *)
From Verif Require Import Base Strings_Model Strings_Proofs Crt_Model Crt_Spec.
Open Scope N_scope.

(* ------------------------------------------------------------------ *)
(** Blocks, pointwise *)

Lemma store_some b i v : (i < length b)%nat -> exists b', store b i v = Some b'.
Proof.
  intros H. destruct (store b i v) as [b'|] eqn:E; [eauto|]. apply store_none in E. lia.
Qed.

Lemma store_nth b i v b' j : store b i v = Some b' ->
  nth_error b' j = if (i =? j)%nat then Some (Some v) else nth_error b j.
Proof.
  revert i j b'; induction b as [|c t IH]; intros i j b' H; [discriminate|].
  destruct i as [|i]; cbn in H.
  - injection H as <-. destruct j; reflexivity.
  - destruct (store t i v) as [t'|] eqn:E; [|discriminate]. injection H as <-.
    destruct j as [|j]; cbn; [reflexivity|]. apply IH, E.
Qed.

Lemma store_all_some vs : forall b i, (i + length vs <= length b)%nat ->
  exists b', store_all b i vs = Some b'.
Proof.
  induction vs as [|v vs IH]; intros b i H; cbn; [eauto|]. cbn in H.
  destruct (store_some b i v) as [b' E]; [lia|]. rewrite E. apply IH.
  rewrite (store_length _ _ _ _ E). lia.
Qed.

Lemma store_all_length vs : forall b i b', store_all b i vs = Some b' -> length b' = length b.
Proof.
  induction vs as [|v vs IH]; intros b i b' H; cbn in H; [congruence|].
  destruct (store b i v) as [b1|] eqn:E; [|discriminate].
  rewrite (IH _ _ _ H). eapply store_length, E.
Qed.

Lemma store_all_nth vs : forall b i b' j, store_all b i vs = Some b' ->
  nth_error b' j = if (i <=? j)%nat && (j <? i + length vs)%nat
                   then option_map Some (nth_error vs (j - i)) else nth_error b j.
Proof.
  induction vs as [|v vs IH]; intros b i b' j H; cbn [store_all] in H.
  - injection H as <-. cbn [length]. replace ((i <=? j)%nat && (j <? i + 0)%nat) with false by lia. reflexivity.
  - destruct (store b i v) as [b1|] eqn:E; [|discriminate].
    rewrite (IH _ _ _ j H). rewrite (store_nth _ _ _ _ j E). cbn [length].
    destruct (Nat.eqb_spec i j) as [->|Hne].
    + replace ((S j <=? j)%nat && (j <? S j + length vs)%nat) with false by lia.
      replace ((j <=? j)%nat && (j <? j + S (length vs))%nat) with true by lia.
      rewrite Nat.sub_diag. reflexivity.
    + destruct (Nat.leb_spec (S i) j) as [H1|H1].
      * replace (i <=? j)%nat with true by lia. cbn [andb].
        replace (j <? i + S (length vs))%nat with (j <? S i + length vs)%nat by lia.
        destruct (j <? S i + length vs)%nat; [|reflexivity].
        replace (j - i)%nat with (S (j - S i)) by lia. reflexivity.
      * replace (i <=? j)%nat with false by lia. reflexivity.
Qed.

Lemma nth_error_ext {A} (a b : list A) : (forall i, nth_error a i = nth_error b i) -> a = b.
Proof.
  revert b; induction a as [|x a IH]; intros [|y b] H.
  - reflexivity.
  - specialize (H 0%nat). discriminate.
  - specialize (H 0%nat). discriminate.
  - pose proof (H 0%nat) as H0. cbn in H0. injection H0 as ->. f_equal. apply IH.
    intros i. exact (H (S i)).
Qed.

Lemma nth_skipn {A} (l : list A) n j : nth_error (skipn n l) j = nth_error l (n + j).
Proof.
  revert l; induction n as [|n IH]; intros l; [reflexivity|].
  destruct l as [|x l]; [destruct j; reflexivity|]. cbn. apply IH.
Qed.

Lemma store_keeps_beyond b i v b' n : store b i v = Some b' -> (i < n)%nat -> skipn n b' = skipn n b.
Proof.
  intros H Hi. apply nth_error_ext. intros j. rewrite !nth_skipn, (store_nth _ _ _ _ _ H).
  replace (i =? n + j)%nat with false by lia. reflexivity.
Qed.

Lemma store_all_keeps_beyond vs b i b' n : store_all b i vs = Some b' -> (i + length vs <= n)%nat ->
  skipn n b' = skipn n b.
Proof.
  intros H Hi. apply nth_error_ext. intros j. rewrite !nth_skipn, (store_all_nth _ _ _ _ _ H).
  replace ((i <=? n + j)%nat && (n + j <? i + length vs)%nat) with false by lia. reflexivity.
Qed.

Lemma store0_text b b' : store b 0 0 = Some b' -> ctext b' = Some [].
Proof. destruct b; [discriminate|]. cbn. intros H. injection H as <-. reflexivity. Qed.

Lemma ctext_written s room : cstr_ok s -> ctext (filled (s ++ [0]) ++ room) = Some s.
Proof. intros H. apply wf_ctext. split; [exact H|exists room; reflexivity]. Qed.

(* ------------------------------------------------------------------ *)
(** Decimal digits, least significant first *)

Inductive lsd : N -> list N -> Prop :=
| lsd_last v : v < 10 -> lsd v [48 + v]
| lsd_more v l : 10 <= v -> lsd (v / 10) l -> lsd v ((48 + v mod 10) :: l).

Lemma lsd_exists v : exists l, lsd v l.
Proof.
  induction v as [v IH] using (well_founded_induction N.lt_wf_0).
  destruct (N.lt_ge_cases v 10) as [H|H]; [eexists; apply lsd_last, H|].
  destruct (IH (v / 10)) as [l Hl]; [lia|]. eexists. apply lsd_more; eassumption.
Qed.

Lemma lsd_unique v l l' : lsd v l -> lsd v l' -> l = l'.
Proof.
  intros H. revert l'. induction H as [v H|v l H Hl IH]; intros l' H'.
  - inversion H'; subst; [reflexivity|lia].
  - inversion H' as [? Hv|? l'' Hv Hl']; subst; [lia|]. f_equal. apply IH, Hl'.
Qed.

Lemma lsd_nonempty v l : lsd v l -> l <> [].
Proof. intros H; destruct H; discriminate. Qed.

Lemma numeral_app a b acc : numeral_value acc (a ++ b) = numeral_value (numeral_value acc a) b.
Proof. revert acc; induction a as [|c a IH]; intros acc; [reflexivity|]. cbn. apply IH. Qed.

Lemma lsd_decimal v l : lsd v l -> decimal v (rev l).
Proof.
  intros H. unfold decimal.
  assert (A : Forall is_digit l /\ numeral_value 0 (rev l) = v /\
              (forall l' c, l = l' ++ [c] -> c = ch "0" -> v = 0)).
  { induction H as [v H|v l H Hl (I1 & I2 & I3)].
    - split; [|split].
      + constructor; [|constructor]. unfold is_digit. change (ch "0") with 48. change (ch "9") with 57. lia.
      + cbn. change (ch "0") with 48. lia.
      + intros l' c E ->. destruct l' as [|x l']; [injection E as E; change (ch "0") with 48 in E; lia|].
        destruct l'; discriminate.
    - split; [|split].
      + constructor; [|exact I1]. unfold is_digit. change (ch "0") with 48. change (ch "9") with 57. lia.
      + cbn [rev]. rewrite numeral_app, I2. cbn. change (ch "0") with 48. lia.
      + intros l' c E Hc. destruct l' as [|x l'].
        { injection E as _ E. subst l. inversion Hl. }
        injection E as _ E. specialize (I3 l' c E Hc). lia. }
  destruct A as (A1 & A2 & A3).
  assert (Hr : Forall is_digit (rev l)).
  { apply Forall_forall. intros x Hx. apply in_rev in Hx. rewrite Forall_forall in A1. auto. }
  split; [exact Hr|]. split; [exact A2|].
  destruct (rev l) as [|c r] eqn:E.
  { apply (f_equal (@rev N)) in E. rewrite rev_involutive in E. apply (lsd_nonempty _ _ H E). }
  destruct r as [|d r]; [exact I|].
  intros Hc. pose proof (f_equal (@rev N) E) as E'. rewrite rev_involutive in E'. cbn [rev] in E'.
  specialize (A3 (rev r ++ [d]) c E' Hc). subst v.
  inversion H as [? Hv Ev El|? l0 Hv]; [|lia]. rewrite E' in El. apply (f_equal (@length N)) in El.
  rewrite !app_length in El. cbn in El. lia.
Qed.

Lemma decimal_lsd v ds : decimal v ds -> lsd v (rev ds).
Proof.
  intros (Hd & Hv & Hz). revert v Hd Hv Hz.
  induction ds as [|c ds IH] using rev_ind; intros v Hd Hv Hz; [contradiction|].
  rewrite rev_app_distr. cbn [rev app].
  apply Forall_app in Hd. destruct Hd as [Hd Hc]. inversion Hc as [|? ? Hc' _]; subst.
  unfold is_digit in Hc'. change (ch "0") with 48 in Hc'. change (ch "9") with 57 in Hc'.
  rewrite numeral_app in *. cbn [numeral_value] in *. change (ch "0") with 48 in *.
  destruct ds as [|d ds].
  - cbn in *. replace c with (48 + (10 * 0 + (c - 48))) at 2 by lia. apply lsd_last. lia.
  - set (q := numeral_value 0 (d :: ds)) in *.
    assert (Hq : (10 * q + (c - 48)) / 10 = q) by lia.
    assert (Hm : (10 * q + (c - 48)) mod 10 = c - 48) by lia.
    assert (Hz' : match d :: ds with [] => False | [_] => True | x :: _ => x <> 48 end).
    { cbn in Hz. destruct ds as [|e ds]; [exact I|]. exact Hz. }
    specialize (IH q Hd eq_refl Hz').
    assert (Hpos : 0 < q).
    { (* the leading digit is not zero *)
      assert (Hd0 : d <> 48) by (cbn in Hz; destruct ds; exact Hz).
      inversion Hd as [|? ? Hdd Hds]; subst. unfold is_digit in Hdd.
      change (ch "0") with 48 in Hdd. change (ch "9") with 57 in Hdd.
      assert (M : forall l acc, 0 < acc -> 0 < numeral_value acc l).
      { induction l as [|x l IHl]; intros acc Ha; cbn; [exact Ha|]. apply IHl. lia. }
      unfold q. cbn [numeral_value]. apply M. change (ch "0") with 48. lia. }
    replace c with (48 + (10 * q + (c - 48)) mod 10) at 2 by lia.
    apply lsd_more; [lia|]. rewrite Hq. exact IH.
Qed.

Lemma digit_loop_spec room : forall b pos v l, lsd v l -> (0 < room)%nat ->
  (pos + room < length b)%nat ->
  exists b' v', digit_loop room b pos v = Some (b', pos + Nat.min room (length l), v')%nat /\
    store_all b pos (firstn room l) = Some b' /\ (v' = 0 <-> (length l <= room)%nat).
Proof.
  induction room as [|room IH]; intros b pos v l Hl Hr Hb; [lia|].
  cbn [digit_loop]. destruct (store_some b pos (48 + v mod 10)) as [b1 E]; [lia|]. rewrite E.
  inversion Hl as [? Hv|? l' Hv Hl']; subst.
  - replace (v / 10) with 0 by lia. cbn [N.ltb andb]. change (0 <? 0) with false. cbn [andb].
    exists b1, 0. split; [|split].
    + cbn [length]. rewrite Nat.min_r by lia. rewrite Nat.add_1_r. reflexivity.
    + cbn [firstn]. rewrite firstn_nil. cbn. replace v with (v mod 10) by lia. rewrite E. reflexivity.
    + split; [cbn; lia|reflexivity].
  - replace (0 <? v / 10) with true by lia. cbn [andb].
    destruct room as [|room].
    + cbn [Nat.ltb Nat.leb]. exists b1, (v / 10). split; [|split].
      * cbn [length]. rewrite Nat.min_l by lia. rewrite Nat.add_1_r. reflexivity.
      * cbn. rewrite E. reflexivity.
      * split; [lia|]. intros H. apply lsd_nonempty in Hl'. destruct l'; [congruence|]. cbn in H. lia.
    + change (0 <? S room)%nat with true. cbv iota.
      destruct (IH b1 (S pos) (v / 10) l' Hl' ltac:(lia)) as (b' & v' & E1 & E2 & Hz).
      { rewrite (store_length _ _ _ _ E). lia. }
      rewrite E1. exists b', v'. split; [|split].
      * cbn [length]. f_equal. f_equal. f_equal. lia.
      * cbn [firstn store_all]. cbn [firstn] in E2. rewrite E. exact E2.
      * rewrite Hz. cbn. lia.
Qed.

(* ------------------------------------------------------------------ *)
(** The reversing loop *)

(* after the swaps at indices < w *)
Definition swapped (l : block) (p w j : nat) : option cell :=
  if (j <? p)%nat && ((j <? w)%nat || (p - w <=? j)%nat) then nth_error l (p - 1 - j) else nth_error l j.

Lemma swap_loop_spec l p n : forall b w,
  (p <= length l)%nat -> (0 < p)%nat ->
  (forall j, (j < p)%nat -> exists v, nth_error l j = Some (Some v)) ->
  (w + n = S ((p - 1) / 2))%nat ->
  length b = length l ->
  (forall j, nth_error b j = swapped l p w j) ->
  exists b', swap_loop n b p w = Some b' /\ length b' = length l /\
    forall j, nth_error b' j = if (j <? p)%nat then nth_error l (p - 1 - j) else nth_error l j.
Proof.
  induction n as [|n IH]; intros b w Hp Hp0 Hl Hw Hlb Hb.
  - exists b. split; [reflexivity|]. split; [exact Hlb|]. intros j. rewrite Hb. unfold swapped.
    destruct (Nat.ltb_spec j p) as [Hj|Hj]; [|reflexivity]. cbn [andb].
    destruct ((j <? w)%nat || (p - w <=? j)%nat) eqn:E; [reflexivity|].
    assert ((p - 1) / 2 * 2 <= p - 1 < (p - 1) / 2 * 2 + 2)%nat.
    { pose proof (Nat.div_mod (p - 1) 2 ltac:(lia)). pose proof (Nat.mod_upper_bound (p - 1) 2 ltac:(lia)). lia. }
    lia.
  - cbn [swap_loop].
    assert (Hw2 : (2 * w <= p - 1)%nat).
    { pose proof (Nat.div_mod (p - 1) 2 ltac:(lia)). pose proof (Nat.mod_upper_bound (p - 1) 2 ltac:(lia)). lia. }
    destruct (Hl w ltac:(lia)) as [x Hx]. destruct (Hl (p - 1 - w)%nat ltac:(lia)) as [y Hy].
    assert (E1 : nth_error b w = Some (Some x)).
    { rewrite Hb. unfold swapped. replace (w <? w)%nat with false by lia.
      destruct (Nat.leb_spec (p - w) w); [lia|]. rewrite andb_false_r. exact Hx. }
    assert (E2 : nth_error b (p - 1 - w) = Some (Some y)).
    { rewrite Hb. unfold swapped.
      replace ((p - 1 - w <? p)%nat && ((p - 1 - w <? w)%nat || (p - w <=? p - 1 - w)%nat)) with false by lia.
      exact Hy. }
    rewrite E1, E2.
    destruct (store_some b w y) as [b1 S1]; [lia|]. rewrite S1.
    destruct (store_some b1 (p - 1 - w) x) as [b2 S2]; [rewrite (store_length _ _ _ _ S1); lia|].
    rewrite S2. apply IH; try assumption.
    + lia.
    + rewrite (store_length _ _ _ _ S2), (store_length _ _ _ _ S1). exact Hlb.
    + intros j. rewrite (store_nth _ _ _ _ _ S2), (store_nth _ _ _ _ _ S1), Hb. unfold swapped.
      destruct (Nat.eqb_spec (p - 1 - w) j) as [Ej|Ej].
      * replace ((j <? p)%nat && ((j <? S w)%nat || (p - S w <=? j)%nat)) with true by lia.
        replace (p - 1 - j)%nat with w by lia. symmetry. exact Hx.
      * destruct (Nat.eqb_spec w j) as [<-|Ewj].
        { replace ((w <? p)%nat && ((w <? S w)%nat || (p - S w <=? w)%nat)) with true by lia.
          symmetry. exact Hy. }
        replace ((j <? p)%nat && ((j <? S w)%nat || (p - S w <=? j)%nat))
          with ((j <? p)%nat && ((j <? w)%nat || (p - w <=? j)%nat)) by lia.
        reflexivity.
Qed.

Lemma nth_rev {A} (l : list A) j : (j < length l)%nat -> nth_error (rev l) j = nth_error l (length l - 1 - j).
Proof.
  intros H. destruct (nth_error l (length l - 1 - j)) as [x|] eqn:E.
  2:{ apply nth_error_None in E. lia. }
  assert (Hd : exists d : A, True) by (exists x; exact I). destruct Hd as [d _].
  pose proof (rev_nth l d H) as R. rewrite (nth_error_nth' (rev l) d) by (rewrite rev_length; exact H).
  rewrite R. replace (length l - S j)%nat with (length l - 1 - j)%nat by lia.
  f_equal. apply nth_error_nth. exact E.
Qed.

Lemma to_string_ok b size v ds : (2 <= size <= length b)%nat -> decimal v ds ->
  exists r b', uintToString (Some b) size v = Some (r, Some b') /\
    skipn size b' = skipn size b /\ length b' = length b /\
    (if (length ds <? size)%nat then r = true /\ ctext b' = Some ds else r = false).
Proof.
  intros Hs Hd. pose proof (decimal_lsd _ _ Hd) as Hl. pose proof (lsd_nonempty _ _ Hl) as Hne.
  set (l := rev ds) in *. assert (Hll : length l = length ds) by (apply rev_length).
  unfold uintToString. replace (size <? 2)%nat with false by lia.
  destruct (digit_loop_spec (size - 1) b 0 v l Hl ltac:(lia) ltac:(lia)) as (b1 & v' & E1 & E2 & Hz).
  rewrite E1. cbn [Nat.add]. destruct (Nat.ltb_spec (length ds) size) as [H|H].
  - assert (v' = 0) by (apply Hz; lia). subst v'. change (0 =? 0) with true. cbv iota.
    rewrite Nat.min_r by lia. rewrite firstn_all2 in E2 by lia.
    pose proof (store_all_length _ _ _ _ E2) as Lb1.
    destruct (store_some b1 (length l) 0) as [b2 E3]; [lia|]. rewrite E3.
    pose proof (store_length _ _ _ _ E3) as Lb2.
    assert (N2 : forall j, nth_error b2 j = if (j <? length l)%nat then option_map Some (nth_error l j)
              else if (j =? length l)%nat then Some (Some 0) else nth_error b j).
    { intros j. rewrite (store_nth _ _ _ _ _ E3), (store_all_nth _ _ _ _ _ E2), Nat.add_0_l, Nat.sub_0_r.
      change (0 <=? j)%nat with true. cbn [andb].
      destruct (Nat.eqb_spec (length l) j) as [<-|Hj].
      - replace (length l <? length l)%nat with false by lia. rewrite Nat.eqb_refl. reflexivity.
      - replace (j =? length l)%nat with false by lia. reflexivity. }
    assert (Hlpos : (0 < length l)%nat) by (destruct l; [congruence|cbn; lia]).
    destruct (swap_loop_spec b2 (length l) (S ((length l - 1) / 2)) b2 0) as (b3 & E4 & Lb3 & N3).
    + lia.
    + exact Hlpos.
    + intros j Hj. rewrite N2. replace (j <? length l)%nat with true by lia.
      apply nth_error_Some in Hj. destruct (nth_error l j) as [c|]; [exists c; reflexivity|congruence].
    + lia.
    + reflexivity.
    + intros j. unfold swapped. replace (j <? 0)%nat with false by lia.
      destruct (Nat.ltb_spec j (length l)); [|reflexivity]. replace (length l - 0 <=? j)%nat with false by lia.
      reflexivity.
    + rewrite E4. exists true, b3. split; [reflexivity|].
      assert (Eb3 : b3 = filled (ds ++ [0]) ++ skipn (length ds + 1) b).
      { apply nth_error_ext. intros j. rewrite N3, !N2. unfold filled.
        rewrite map_app, <- app_assoc.
        destruct (Nat.ltb_spec j (length l)) as [Hj|Hj].
        - replace (length l - 1 - j <? length l)%nat with true by lia.
          rewrite nth_error_app1 by (rewrite map_length; lia).
          rewrite nth_error_map. f_equal. pose proof (nth_rev l j Hj) as X.
          unfold l in X at 1. rewrite rev_involutive in X. symmetry. exact X.
        - rewrite nth_error_app2 by (rewrite map_length; lia). rewrite map_length.
          destruct (Nat.eqb_spec j (length l)) as [->|Hj'].
          + rewrite Hll, Nat.sub_diag. reflexivity.
          + cbn [map app]. replace (j - length ds)%nat with (S (j - length ds - 1)) by lia. cbn [nth_error].
            rewrite nth_skipn. f_equal. lia. }
      rewrite Eb3. split; [|split].
      * apply nth_error_ext. intros j. rewrite !nth_skipn.
        rewrite nth_error_app2 by (rewrite filled_length, app_length; cbn; lia).
        rewrite nth_skipn, filled_length, app_length. cbn. f_equal. lia.
      * rewrite app_length, filled_length, app_length, skipn_length. cbn. lia.
      * split; [reflexivity|]. apply ctext_written. destruct Hd as (Hd & _).
        eapply Forall_impl; [|exact Hd]. intros c Hc. unfold is_digit in Hc. unfold char_ok.
        change (ch "0") with 48 in Hc. change (ch "9") with 57 in Hc. lia.
  - assert (v' <> 0) by (intros X; apply Hz in X; lia).
    destruct (N.eqb_spec v' 0) as [X|_]; [congruence|].
    exists false, b1. split; [reflexivity|]. split; [|split; [apply (store_all_length _ _ _ _ E2)|reflexivity]].
    eapply store_all_keeps_beyond; [exact E2|]. rewrite firstn_length. lia.
Qed.
