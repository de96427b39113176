(* Proofs about the functions of the types of C and of strings. *)
From Verif Require Import Base Strings_Model Strings_Props UMockTypes_Model UMockTypes_Props UMockC_Model UMockC_Spec MockText_Props.
Local Open Scope Z_scope.

Lemma value_app s c : value (s ++ [c]) = 10 * value s + (Z.of_N c - 48).
Proof. unfold value. rewrite fold_left_app. reflexivity. Qed.
Lemma digit_at n : 0 <= n < 10 -> digit (Z.to_N (48 + n)) /\ Z.of_N (Z.to_N (48 + n)) - 48 = n.
Proof. intros H. unfold digit. split; lia. Qed.
Lemma dec_one n : 0 <= n < 10 -> numeral [Z.to_N (48 + n)] n /\ (0 < n -> hd 0%N [Z.to_N (48 + n)] <> 48%N) /\ forall j, 0 < j -> n < 10 ^ j -> Z.of_nat (length [Z.to_N (48 + n)]) <= j.
Proof.
  intros H. destruct (digit_at n H) as (D & V). split; [|split; [cbn [hd]; lia|intros j Hj _; cbn [length]; lia] ].
  split; [discriminate|]. split; [constructor; [exact D|constructor]|]. split; [unfold value; cbn [fold_left]; rewrite V; lia|]. intros t E. injection E as _ <-. reflexivity.
Qed.
Lemma dec_at k : forall n, 0 <= n < 2 ^ Z.of_nat (S k) -> numeral (dec (S k) n) n /\ (0 < n -> hd 0%N (dec (S k) n) <> 48%N) /\ forall j, 0 < j -> n < 10 ^ j -> Z.of_nat (length (dec (S k) n)) <= j.
Proof.
  induction k as [|k IH]; intros n H; (cbn [dec]; destruct (Z.ltb_spec n 10) as [L|L]; [apply dec_one; lia|]).
  - cbn in H. lia.
  - change (if n / 10 <? 10 then [Z.to_N (48 + n / 10)] else dec k (n / 10 / 10) ++ [Z.to_N (48 + (n / 10) mod 10)]) with (dec (S k) (n / 10)).
    destruct (IH (n / 10)) as ((A1 & A2 & A3 & A4) & B & C).
    { replace (Z.of_nat (S (S k))) with (Z.of_nat (S k) + 1) in H by lia. rewrite Z.pow_add_r in H by lia. split; [apply Z.div_pos; lia|]. apply Z.div_lt_upper_bound; lia. }
    destruct (digit_at (n mod 10)) as (D & V); [apply Z.mod_pos_bound; lia|].
    assert (P : 0 < n / 10) by (apply Z.div_str_pos; lia).
    set (d := dec (S k) (n / 10)) in *. clearbody d. split; [|split].
    + split; [destruct d; discriminate|]. split; [apply Forall_app; split; [exact A2|constructor; [exact D|constructor] ]|]. split; [rewrite value_app, A3, V; pose proof (Z.div_mod n 10); lia|].
      intros t E. destruct d as [|c d]; [congruence|]. cbn in E. injection E as E _. destruct (B P). exact E.
    + intros _. destruct d as [|c d]; [congruence|]. exact (B P).
    + intros j Hj Lj. rewrite app_length, Nat2Z.inj_add. cbn [length]. assert (1 < j) by (destruct (Z.eq_dec j 1) as [->|]; [cbn in Lj; lia|lia]).
      enough (Z.of_nat (length d) <= j - 1) by lia. apply C; [lia|]. apply Z.div_lt_upper_bound; [lia|]. replace j with (1 + (j - 1)) in Lj by lia. rewrite Z.pow_add_r in Lj by lia. exact Lj.
Qed.
Lemma decimal_at n : 0 <= n -> numeral (decimal n) n /\ forall j, 0 < j -> n < 10 ^ j -> Z.of_nat (length (decimal n)) <= j.
Proof.
  intros H. unfold decimal. destruct (dec_at (Z.to_nat (Z.log2 n)) n) as (A & _ & B); [|auto]. split; [exact H|].
  destruct (Z.eq_dec n 0) as [->|N]; [apply Z.pow_pos_nonneg; lia|]. rewrite Nat2Z.inj_succ, Z2Nat.id by apply Z.log2_nonneg. apply Z.log2_spec. lia.
Qed.
Lemma print_signed_at z : signed_numeral (print_signed z) z.
Proof. unfold print_signed, signed_numeral. destruct (Z.ltb_spec z 0); [right; split; [lia|]; eexists; split; [reflexivity|]; apply decimal_at; lia|left; split; [lia|]; apply decimal_at; lia]. Qed.
Lemma digits_chars s : Forall digit s -> cstr_ok s.
Proof. intros H. eapply Forall_impl; [|exact H]. intros c D. unfold digit in D. unfold char_ok. lia. Qed.
Lemma signed_chars s z : signed_numeral s z -> cstr_ok s.
Proof. intros [ (_ & _ & H & _)|(_ & t & -> & _ & H & _)]; [apply digits_chars, H|]. constructor; [unfold char_ok; lia|apply digits_chars, H]. Qed.
(* the text says which number it is *)
Lemma signed_unique s a b : signed_numeral s a -> signed_numeral s b -> a = b.
Proof.
  assert (X : forall t, Forall digit (45%N :: t) -> False) by (intros t H; inversion H as [|? ? D]; unfold digit in D; lia).
  intros [ (_ & _ & D & V & _)|(_ & t & -> & _ & D & V & _)] [ (_ & _ & D' & V' & _)|(_ & t' & E & _ & D' & V' & _)].
  - congruence.
  - subst s. destruct (X _ D).
  - destruct (X _ D').
  - injection E as <-. rewrite V in V'. lia.
Qed.
Lemma stringify_at text o : (length text <= 31)%nat -> exists r o' used, stringify text o = Some (r, o') /\ o = used ++ o' /\ ((r = None /\ In false used) \/ r = Some (filled (text ++ [0%N]))).
Proof.
  intros L. unfold stringify, bind at 1. rewrite store_all_prefix by (rewrite app_length, fresh_length; cbn [length]; lia). unfold lift. unfold bind at 1. destruct (alloc_spec o) as (ok & o1 & u & A & U & F). rewrite A.
  destruct ok; cbn [negb]; eexists _, o1, u; (split; [reflexivity|]); (split; [exact U|]); [right|left; split; [reflexivity|] ].
  - f_equal. replace (length text + 1)%nat with (length (filled (text ++ [0%N]))) by (rewrite filled_length, app_length; reflexivity). rewrite firstn_app, Nat.sub_diag, firstn_O, app_nil_r. apply firstn_all.
  - apply F. reflexivity.
Qed.

(* ---- integers ---- *)
Definition real_platform (p : platform) : Prop := (long_bits p = 32 \/ long_bits p = 64) /\ (size_bits p = 32 \/ size_bits p = 64).
Lemma type_range p t z : real_platform p -> in_type p t z -> - 2 ^ 63 <= z < 2 ^ 64.
Proof.
  intros ([L|L] & [S|S]) H; unfold in_type, bits in H; destruct t; cbn [is_signed] in H; rewrite ?L, ?S in H; cbn in H |- *; lia.
Qed.
Lemma print_signed_length z : - 2 ^ 63 <= z < 2 ^ 64 -> (length (print_signed z) <= 31)%nat.
Proof.
  intros H. assert (X : forall n, 0 <= n < 2 ^ 64 -> (length (decimal n) <= 20)%nat).
  { intros n K. destruct (decimal_at n) as (_ & B); [lia|]. specialize (B 20 eq_refl). assert (2 ^ 64 < 10 ^ 20) by reflexivity. lia. }
  unfold print_signed. assert (2 ^ 63 < 2 ^ 64) by reflexivity. destruct (Z.ltb_spec z 0); cbn [length]; [specialize (X (- z))|specialize (X z)]; lia.
Qed.
(* The text of an integer is its decimal numeral, in a block of just the right size. *)
Theorem integer_text_partial p t z o : real_platform p -> in_type p t z -> (t = CSize -> z < 2 ^ 32) ->
  exists r o' used, umocktypes_stringify_int t (Some z) o = Some (r, o') /\ o = used ++ o' /\
   ((r = None /\ In false used) \/ exists s, r = Some (filled (s ++ [0%N])) /\ cstr_ok s /\ signed_numeral s z).
Proof.
  intros P H K. assert (E : sprintf_int t z = print_signed z).
  { unfold sprintf_int. destruct t; try reflexivity. specialize (K eq_refl). unfold in_type in H. cbn [is_signed] in H. rewrite Z.mod_small by lia. reflexivity. }
  cbn [umocktypes_stringify_int]. rewrite E. destruct (stringify_at (print_signed z) o) as (r & o' & u & A & U & B); [eapply print_signed_length, type_range; eassumption|].
  exists r, o', u. split; [exact A|]. split; [exact U|]. destruct B as [B|B]; [left; exact B|right]. exists (print_signed z). split; [exact B|]. split; [eapply signed_chars, print_signed_at|apply print_signed_at].
Qed.
Theorem integer_text_case : umocktypes_stringify_int CLongLong (Some (- 2 ^ 63)) [] = Some (Some (filled [45; 57; 50; 50; 51; 51; 55; 50; 48; 51; 54; 56; 53; 52; 55; 55; 53; 56; 48; 56; 0]%N), []).
Proof. vm_compute. reflexivity. Qed.
(* Two values with the same text are the same value. *)
Theorem integer_texts_differ_partial p t a b : real_platform p -> in_type p t a -> in_type p t b -> (t = CSize -> a < 2 ^ 32 /\ b < 2 ^ 32) ->
  forall o r o', umocktypes_stringify_int t (Some a) o = Some (Some r, o') -> forall q r' q', umocktypes_stringify_int t (Some b) q = Some (Some r', q') -> r = r' -> a = b.
Proof.
  intros P A B K o r o' E q r' q' E' ->. destruct (integer_text_partial p t a o P A) as (x & y & u & X & _ & [ (N & _)|(s & X2 & _ & X3)]); [intros T; apply K, T|congruence|].
  destruct (integer_text_partial p t b q P B) as (x' & y' & u' & X' & _ & [ (N & _)|(s' & X2' & _ & X3')]); [intros T; apply K, T|congruence|].
  assert (S : filled (s ++ [0%N]) = filled (s' ++ [0%N])) by congruence. assert (s = s').
  { apply (f_equal (map (fun o => match o with Some c => c | None => 0%N end))) in S. unfold filled in S. rewrite !map_map in S. cbn in S. rewrite !map_id in S. apply app_inj_tail in S. tauto. }
  subst s'. eapply signed_unique; eassumption.
Qed.
(* A size_t of 64 bits is printed with "%u": 4294967296 is shown as 0. *)
Theorem size_text_refuted : let p := Build_platform 64 64 in in_type p CSize (2 ^ 32) /\ in_type p CSize 0 /\
  umocktypes_stringify_int CSize (Some (2 ^ 32)) [] = umocktypes_stringify_int CSize (Some 0) [] /\ umocktypes_stringify_int CSize (Some (2 ^ 32)) [] = Some (Some (filled [48; 0]%N), []).
Proof. repeat split; vm_compute; (reflexivity || discriminate). Qed.
(* Equality, and copying: the copy of a value is a value equal to it and to nothing else. *)
Theorem integer_equal_spec a b : (umocktypes_are_equal_int (Some a) (Some b) = 1 <-> a = b) /\ (umocktypes_are_equal_int (Some a) (Some b) = 0 <-> a <> b).
Proof. cbn. destruct (Z.eqb_spec a b); split; split; (auto || congruence || discriminate). Qed.
Theorem integer_copy_spec a : exists b, umocktypes_copy_int true (Some a) = (0, Some b) /\ umocktypes_are_equal_int (Some a) (Some b) = 1.
Proof. exists a. split; [reflexivity|]. apply integer_equal_spec. reflexivity. Qed.
Theorem integer_null_arguments t : (forall o, umocktypes_stringify_int t None o = Some (None, o)) /\ (forall x, umocktypes_are_equal_int None x = -1 /\ umocktypes_are_equal_int x None = -1) /\
  (forall x, fst (umocktypes_copy_int false x) <> 0 /\ snd (umocktypes_copy_int false x) = None) /\ fst (umocktypes_copy_int true None) <> 0.
Proof. split; [reflexivity|]. split; [intros [x|]; split; reflexivity|]. split; [intros x; split; [discriminate|reflexivity]|discriminate]. Qed.

(* ---- floating point ---- *)
Lemma padded_at n : forall z, 0 <= z < 10 ^ Z.of_nat n -> length (padded n z) = n /\ Forall digit (padded n z) /\ value (padded n z) = z.
Proof.
  induction n as [|n IH]; intros z H; cbn [padded]; [cbn in H; replace z with 0 by lia; repeat split; constructor|].
  destruct (IH (z / 10)) as (A & B & C). { split; [apply Z.div_pos; lia|]. rewrite Nat2Z.inj_succ, Z.pow_succ_r in H by lia. apply Z.div_lt_upper_bound; lia. }
  destruct (digit_at (z mod 10)) as (D & V); [apply Z.mod_pos_bound; lia|]. split; [rewrite app_length, A; cbn [length]; lia|]. split; [apply Forall_app; split; [exact B|constructor; [exact D|constructor] ]|].
  rewrite value_app, C, V. pose proof (Z.div_mod z 10). lia.
Qed.
Lemma millionths_at m e : rounds (millionths (Z.abs m) e) m e /\ 0 <= millionths (Z.abs m) e.
Proof.
  unfold rounds, millionths. destruct (Z.leb_spec 0 e) as [L|L]; [split; [reflexivity|apply Z.mul_nonneg_nonneg; [apply Z.mul_nonneg_nonneg; [lia|apply Z.pow_nonneg; lia]|lia] ]|].
  assert (P : 0 < 2 ^ (- e)) by (apply Z.pow_pos_nonneg; lia). set (b := 2 ^ (- e)) in *. set (a := Z.abs m * 10 ^ 6). assert (A : 0 <= a) by (unfold a; lia). clearbody a b. unfold nearest.
  pose proof (Z.div_mod a b ltac:(lia)) as D. pose proof (Z.mod_pos_bound a b P) as B. assert (Q : 0 <= a / b) by (apply Z.div_pos; lia). set (q := a / b) in *. set (r := a mod b) in *. clearbody q r.
  destruct (Z.ltb_spec (2 * r) b); [split; [subst a; replace (q * b - (b * q + r)) with (- r) by lia; lia|lia]|].
  assert (2 * Z.abs ((q + 1) * b - a) <= b) by (subst a; replace ((q + 1) * b - (b * q + r)) with (b - r) by lia; lia).
  destruct (Z.eqb_spec (2 * r) b); [|split; [assumption|lia] ]. destruct (Z.even q); [|split; [assumption|lia] ]. split; [subst a; replace (q * b - (b * q + r)) with (- r) by lia; lia|lia].
Qed.
(* The text of a finite number that is not too large: the nearest number of millionths. *)
Theorem real_text_partial m e o : millionths (Z.abs m) e < 10 ^ 29 -> exists r o' used q, umocktypes_stringify_real false (Some (Finite m e)) o = Some (r, o') /\ o = used ++ o' /\ rounds q m e /\
   ((r = None /\ In false used) \/ exists s, r = Some (filled (s ++ [0%N])) /\ cstr_ok s /\ fixed_point s (m <? 0) q).
Proof.
  intros H. destruct (millionths_at m e) as (R & P). set (q := millionths (Z.abs m) e) in *.
  assert (E : sprintf_f (Finite m e) = (if m <? 0 then [45%N] else []) ++ decimal (q / 10 ^ 6) ++ [46%N] ++ padded 6 (q mod 10 ^ 6)) by reflexivity. clearbody q.
  destruct (decimal_at (q / 10 ^ 6)) as (A & B); [apply Z.div_pos; lia|]. destruct (padded_at 6 (q mod 10 ^ 6)) as (C & D & V); [apply Z.mod_pos_bound; lia|].
  set (a := decimal (q / 10 ^ 6)) in *. set (b := padded 6 (q mod 10 ^ 6)) in *. clearbody a b.
  assert (L : Z.of_nat (length a) <= 23) by (apply B; [lia|apply Z.div_lt_upper_bound; [lia|exact H] ]).
  destruct (stringify_at ((if m <? 0 then [45%N] else []) ++ a ++ [46%N] ++ b) o) as (r & o' & u & X & U & Y); [rewrite !app_length, C; destruct (m <? 0); cbn [length]; lia|].
  exists r, o', u, q. split; [cbn [umocktypes_stringify_real]; rewrite E; exact X|]. split; [exact U|]. split; [exact R|]. destruct Y as [Y|Y]; [left; exact Y|right]. eexists. split; [exact Y|]. split.
  - apply Forall_app. split; [destruct (m <? 0); constructor; [unfold char_ok; lia|constructor]|]. apply Forall_app. split; [apply digits_chars, A|]. constructor; [unfold char_ok; lia|apply digits_chars, D].
  - exists a, b. tauto.
Qed.
Theorem real_text_case : umocktypes_stringify_real false (Some (Finite (-5) (-2))) [] = Some (Some (filled [45; 49; 46; 50; 53; 48; 48; 48; 48; 0]%N), []).
Proof. vm_compute. reflexivity. Qed.
(* 2^80 is a float; its text does not fit the 32 bytes.  A long double is printed as if it were a double. *)
Theorem real_text_refuted : (forall o, umocktypes_stringify_real false (Some (Finite 1 80)) o = None) /\ forall x o, umocktypes_stringify_real true (Some x) o = None.
Proof. split; [intros o; vm_compute; reflexivity|reflexivity]. Qed.
(* the same number, or the same infinity *)
Definition equal_reals (a b : real) : Prop :=
  match a, b with
  | Finite m e, Finite m' e' => forall k, 0 <= e + k -> 0 <= e' + k -> m * 2 ^ (e + k) = m' * 2 ^ (e' + k)
  | Infinite n, Infinite n' => n = n'
  | _, _ => False
  end.
Theorem real_equal_spec a b : (umocktypes_are_equal_real (Some a) (Some b) = 1 <-> equal_reals a b) /\ (umocktypes_are_equal_real (Some a) (Some b) = 0 <-> ~ equal_reals a b).
Proof.
  assert (X : same_real a b = true <-> equal_reals a b).
  { destruct a as [m e|n|], b as [m' e'|n'|]; cbn [same_real equal_reals]; try (split; [discriminate|intros []]).
    - rewrite Z.eqb_eq. split; intros H.
      + intros k A B. replace (e + k) with ((e - Z.min e e') + (Z.min e e' + k)) by lia. replace (e' + k) with ((e' - Z.min e e') + (Z.min e e' + k)) by lia. rewrite (Z.pow_add_r 2 (e - Z.min e e')), (Z.pow_add_r 2 (e' - Z.min e e')) by lia. rewrite !Z.mul_assoc, H. reflexivity.
      + specialize (H (- Z.min e e')). rewrite !Z.add_opp_r in H. apply H; lia.
    - apply Bool.eqb_true_iff. }
  cbn. destruct (same_real a b); split; split; intros H; try reflexivity; try discriminate H; try (apply X; reflexivity); try (apply X in H; discriminate H).
  - destruct H. apply X. reflexivity.
  - intros K. apply X in K. discriminate K.
Qed.
(* so the copy of a value that is not a number does not match it *)
Theorem nan_copy_refuted : umocktypes_are_equal_real (Some NaN) (Some NaN) = 0.
Proof. reflexivity. Qed.

(* ---- strings ---- *)
(* The text of a string is the string between quotes. *)
Theorem string_text_partial s o : cstr_ok s -> exists r o' used, umocktypes_stringify_charptr (Some s) o = Some (r, o') /\ o = used ++ o' /\
   ((r = None /\ In false used) \/ r = Some (filled ([34%N] ++ s ++ [34%N; 0%N]))).
Proof.
  intros K. cbn [umocktypes_stringify_charptr]. unfold bind at 1. destruct (alloc_spec o) as (ok & o1 & u & A & U & F). rewrite A. destruct ok; cbn [negb]; [|exists None, o1, u; split; [reflexivity|]; split; [exact U|]; left; split; [reflexivity|apply F; reflexivity] ].
  assert (E : store_all (fresh (length s + 3)) 0 ([34%N] ++ s ++ [34%N] ++ [0%N]) = Some (filled ([34%N] ++ s ++ [34%N; 0%N]))).
  { apply store_all_exact. rewrite fresh_length, !app_length. cbn [length]. lia. }
  assert (Z : forall b i v, store b i v = store_all b i [v]) by (intros b i v; cbn; destruct (store b i v); reflexivity).
  rewrite store_all_cat in E. rewrite Z. destruct (store_all (fresh (length s + 3)) 0 [34%N]) as [b1|]; [|discriminate E].
  cbn [lift]. unfold bind at 1. unfold lift at 1. cbn [length Nat.add] in E. rewrite store_all_cat in E. destruct (store_all b1 1 s) as [b2|]; [|discriminate E]. unfold bind at 1. unfold lift at 1.
  rewrite store_all_cat in E. rewrite Z. replace (length s + 1)%nat with (1 + length s)%nat by lia. destruct (store_all b2 (1 + length s) [34%N]) as [b3|]; [|discriminate E]. unfold bind at 1. unfold lift at 1.
  rewrite Z. replace (length s + 2)%nat with (1 + length s + length [34%N])%nat by (cbn; lia). rewrite E. unfold bind, lift, ret. eexists _, o1, u. split; [reflexivity|]. split; [exact U|]. right. reflexivity.
Qed.
Theorem string_text_refuted : forall o, umocktypes_stringify_charptr None o = None /\ umocktypes_copy_charptr None o = None.
Proof. intros o. split; reflexivity. Qed.
(* Quotes are not escaped: the texts of two strings, with a comma between them, do not say which strings they were. *)
Theorem string_texts_refuted : exists a b a' b', (a, b) <> (a', b') /\ forall t t' u u' : list N,
   umocktypes_stringify_charptr (Some a) [] = Some (Some (filled (t ++ [0%N])), []) -> umocktypes_stringify_charptr (Some b) [] = Some (Some (filled (u ++ [0%N])), []) ->
   umocktypes_stringify_charptr (Some a') [] = Some (Some (filled (t' ++ [0%N])), []) -> umocktypes_stringify_charptr (Some b') [] = Some (Some (filled (u' ++ [0%N])), []) ->
   t ++ [44%N] ++ u = t' ++ [44%N] ++ u'.
Proof.
  exists [97; 34; 44; 34; 98]%N, [99%N], [97%N], [98; 34; 44; 34; 99]%N. split; [discriminate|]. intros t t' u u' A B C D.
  assert (X : forall l m : list N, Some (Some (filled m), @nil bool) = Some (Some (filled (l ++ [0%N])), []) -> m = l ++ [0%N]).
  { intros l m H. injection H as H. apply (f_equal (map (fun o => match o with Some c => c | None => 0%N end))) in H. unfold filled in H. rewrite !map_map in H. cbn in H. rewrite !map_id in H. exact H. }
  apply (X t [34; 97; 34; 44; 34; 98; 34; 0]%N) in A. apply (X u [34; 99; 34; 0]%N) in B. apply (X t' [34; 97; 34; 0]%N) in C. apply (X u' [34; 98; 34; 44; 34; 99; 34; 0]%N) in D.
  change [34; 97; 34; 44; 34; 98; 34; 0]%N with ([34; 97; 34; 44; 34; 98; 34]%N ++ [0%N]) in A. change [34; 99; 34; 0]%N with ([34; 99; 34]%N ++ [0%N]) in B. change [34; 97; 34; 0]%N with ([34; 97; 34]%N ++ [0%N]) in C. change [34; 98; 34; 44; 34; 99; 34; 0]%N with ([34; 98; 34; 44; 34; 99; 34]%N ++ [0%N]) in D.
  apply app_inj_tail in A, B, C, D. destruct A as (<- & _), B as (<- & _), C as (<- & _), D as (<- & _). reflexivity.
Qed.
(* A copy is a block of its own with the same string in it, which is equal to the first by are_equal and to no other. *)
Theorem string_copy_partial s o : cstr_ok s -> exists r b o' used, umocktypes_copy_charptr (Some s) o = Some ((r, b), o') /\ o = used ++ o' /\
   ((r <> 0 /\ b = None /\ In false used) \/ (r = 0 /\ b = Some (filled (s ++ [0%N])))).
Proof.
  intros K. cbn [umocktypes_copy_charptr]. unfold bind at 1. destruct (alloc_spec o) as (ok & o1 & u & A & U & F). rewrite A. destruct ok; cbn [negb]; [|exists 86, None, o1, u; split; [reflexivity|]; split; [exact U|]; left; split; [discriminate|]; split; [reflexivity|apply F; reflexivity] ].
  rewrite store_all_exact by (rewrite fresh_length, app_length; cbn [length]; lia). unfold lift, bind, ret. eexists _, _, o1, u. split; [reflexivity|]. split; [exact U|]. right. split; reflexivity.
Qed.
Theorem string_equal_partial a b : exists z, umocktypes_are_equal_charptr false (Some a) (Some b) = Some z /\ (z = 1 <-> a = b) /\ (z = 0 <-> a <> b).
Proof.
  cbn. eexists. split; [reflexivity|]. pose proof (strcmp_eq a b) as E. destruct (Z.eqb_spec (strcmp a b) 0) as [H|H].
  - apply E in H. split; split; intros K; try reflexivity; try discriminate K; try tauto.
  - assert (a <> b) by (intros X; apply H, E, X). split; split; intros K; try reflexivity; try discriminate K; tauto.
Qed.
Theorem string_copy_case : umocktypes_copy_charptr (Some [104; 105]%N) [] = Some ((0, Some (filled [104; 105; 0]%N)), []).
Proof. reflexivity. Qed.

(* The ranges meant by [in_type], type by type. *)
Theorem type_ranges p z :
  (in_type p CChar z <-> -128 <= z <= 127) /\ (in_type p CUnsignedChar z <-> 0 <= z <= 255) /\
  (in_type p CShort z <-> -32768 <= z <= 32767) /\ (in_type p CUnsignedShort z <-> 0 <= z <= 65535) /\
  (in_type p CInt z <-> -2147483648 <= z <= 2147483647) /\ (in_type p CUnsignedInt z <-> 0 <= z <= 4294967295) /\
  (in_type p CLong z <-> - 2 ^ (long_bits p - 1) <= z < 2 ^ (long_bits p - 1)) /\ (in_type p CUnsignedLong z <-> 0 <= z < 2 ^ long_bits p) /\
  (in_type p CLongLong z <-> -9223372036854775808 <= z <= 9223372036854775807) /\ (in_type p CUnsignedLongLong z <-> 0 <= z <= 18446744073709551615) /\
  (in_type p CSize z <-> 0 <= z < 2 ^ size_bits p).
Proof. unfold in_type, bits. cbn [is_signed]. change (2 ^ (8 - 1)) with 128. change (2 ^ 8) with 256. change (2 ^ (16 - 1)) with 32768. change (2 ^ 16) with 65536. change (2 ^ (32 - 1)) with 2147483648. change (2 ^ 32) with 4294967296. change (2 ^ (64 - 1)) with 9223372036854775808. change (2 ^ 64) with 18446744073709551616. repeat split; lia. Qed.
(* What is not a number of either sign has the text printf gives it. *)
Theorem special_texts n : umocktypes_stringify_real false (Some (Infinite n)) [] = Some (Some (filled ((if n then str "-inf" else str "inf") ++ [0%N])), []) /\
  umocktypes_stringify_real false (Some NaN) [] = Some (Some (filled (str "nan" ++ [0%N])), []).
Proof. destruct n; split; reflexivity. Qed.
