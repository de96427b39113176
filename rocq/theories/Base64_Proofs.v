(* Proofs about the model of src/base64.c. *)
From Verif Require Import Base Base64_Model Base64_Spec.
Open Scope N_scope.

(* ---------------------------------------------------------------- *)
(** Finite sweeps over byte values. *)

Definition below (n : nat) : list N := map N.of_nat (seq 0 n).

Lemma below_In n x : x < N.of_nat n -> In x (below n).
Proof.
  intros H. unfold below. apply in_map_iff. exists (N.to_nat x).
  split; [lia|]. apply in_seq. lia.
Qed.

Lemma sweep n (p : N -> bool) :
  forallb p (below n) = true -> forall x, x < N.of_nat n -> p x = true.
Proof. intros H x Hx. rewrite forallb_forall in H. apply H, below_In, Hx. Qed.

Definition s64 (v : N) : N := nth (N.to_nat v) base64char 0.

Lemma s64_tab v : v < 64 -> tab base64char v = Some (s64 v).
Proof.
  intros H. unfold tab, s64. apply nth_error_nth'.
  change (length base64char) with 64%nat. lia.
Qed.

Lemma s64_val v : v < 64 -> base64toValue (s64 v) = Some v.
Proof.
  intros H.
  pose proof (sweep 64 (fun v => match base64toValue (s64 v) with
                                 | Some w => w =? v | None => false end)
                eq_refl v H) as E.
  cbn beta in E. destruct (base64toValue (s64 v)) as [w|]; [|discriminate].
  apply N.eqb_eq in E. subst. reflexivity.
Qed.

Lemma s64_notpad v : v < 64 -> (s64 v =? 61) = false.
Proof.
  intros H.
  pose proof (sweep 64 (fun v => negb (s64 v =? 61)) eq_refl v H) as E.
  cbn beta in E. apply negb_true_iff in E. exact E.
Qed.

Lemma s64_ok v : v < 64 -> char_ok (s64 v).
Proof.
  intros H.
  pose proof (sweep 64 (fun v => (0 <? s64 v) && (s64 v <? 256)) eq_refl v H) as E.
  unfold char_ok. cbn beta in E. lia.
Qed.

Lemma b16_tab v : v < 16 -> tab base64b16 v = Some (s64 (v * 4)).
Proof.
  intros H.
  pose proof (sweep 16 (fun v => match tab base64b16 v with
                                 | Some w => w =? s64 (v * 4) | None => false end)
                eq_refl v H) as E.
  cbn beta in E. destruct (tab base64b16 v) as [w|]; [|discriminate].
  apply N.eqb_eq in E. subst. reflexivity.
Qed.

Lemma b8_tab v : v < 4 -> tab base64b8 v = Some (s64 (v * 16)).
Proof.
  intros H.
  pose proof (sweep 4 (fun v => match tab base64b8 v with
                                | Some w => w =? s64 (v * 16) | None => false end)
                eq_refl v H) as E.
  cbn beta in E. destruct (tab base64b8 v) as [w|]; [|discriminate].
  apply N.eqb_eq in E. subst. reflexivity.
Qed.

Lemma val_range c v : base64toValue c = Some v -> v < 64.
Proof.
  unfold base64toValue.
  destruct ((65 <=? c) && (c <=? 90)) eqn:E1; [intros [= <-]; lia|].
  destruct ((97 <=? c) && (c <=? 122)) eqn:E2; [intros [= <-]; lia|].
  destruct ((48 <=? c) && (c <=? 57)) eqn:E3; [intros [= <-]; lia|].
  destruct (c =? 43) eqn:E4; [intros [= <-]; lia|].
  destruct (c =? 47) eqn:E5; [intros [= <-]; lia|]. discriminate.
Qed.

Lemma val_lt c : base64val c < 64.
Proof.
  unfold base64val. destruct (base64toValue c) eqn:E; [|lia].
  eapply val_range; eauto.
Qed.

(* ---------------------------------------------------------------- *)
(** Structured form of the encoder's output. *)

Fixpoint enc_text (l : list N) : list N :=
  match l with
  | b0 :: b1 :: b2 :: rest =>
      s64 (b0 / 4) :: s64 ((b0 mod 4) * 16 + b1 / 16)
      :: s64 ((b1 mod 16) * 4 + b2 / 64) :: s64 (b2 mod 64) :: enc_text rest
  | [b0; b1] =>
      [s64 (b0 / 4); s64 ((b0 mod 4) * 16 + b1 / 16); s64 ((b1 mod 16) * 4); 61]
  | [b0] => [s64 (b0 / 4); s64 ((b0 mod 4) * 16); 61; 61]
  | [] => []
  end.

(* Induction three bytes at a time. *)
Lemma list_ind3 (P : list N -> Prop) :
  P [] -> (forall a, P [a]) -> (forall a b, P [a; b]) ->
  (forall a b c l, P l -> P (a :: b :: c :: l)) -> forall l, P l.
Proof.
  intros H0 H1 H2 H3.
  fix IH 1. intros [|a [|b [|c l]]];
    [exact H0|exact (H1 a)|exact (H2 a b)|exact (H3 a b c l (IH l))].
Qed.

Lemma list_ind4 (P : list N -> Prop) :
  P [] -> (forall a, P [a]) -> (forall a b, P [a; b]) -> (forall a b c, P [a; b; c]) ->
  (forall a b c d l, P l -> P (a :: b :: c :: d :: l)) -> forall l, P l.
Proof.
  intros H0 H1 H2 H3 H4.
  fix IH 1. intros [|a [|b [|c [|d l]]]];
    [exact H0|exact (H1 a)|exact (H2 a b)|exact (H3 a b c)|exact (H4 a b c d l (IH l))].
Qed.

(* Bit operations of the source as arithmetic. *)
Lemma land3 x : N.land x 3 = x mod 4.
Proof. exact (N.land_ones x 2). Qed.
Lemma land15 x : N.land x 15 = x mod 16.
Proof. exact (N.land_ones x 4). Qed.
Lemma land63 x : N.land x 63 = x mod 64.
Proof. exact (N.land_ones x 6). Qed.
Lemma shr x k : N.shiftr x k = x / 2 ^ k.
Proof. apply N.shiftr_div_pow2. Qed.
Lemma lor_add a b k m : m = 2 ^ k -> b < m -> N.lor (N.shiftl a k) b = a * m + b.
Proof. intros -> H. apply lor_shift_add, H. Qed.

Lemma encode_loop_spec l : bytes_ok l -> forall b pos,
  encode_loop l b pos = store_all b pos (enc_text l ++ [0]).
Proof.
  induction l as [| a | a b0 | a b0 c l IH] using list_ind3; intros Hok b pos.
  - cbn. destruct (store b pos 0); reflexivity.
  - inversion_clear Hok as [|? ? Ha _]. unfold byte_ok in Ha.
    cbn [encode_loop enc_text]. rewrite shr, land3.
    change (2 ^ 2) with 4.
    rewrite s64_tab by lia. rewrite b8_tab by lia.
    rewrite store_all_cat. cbn [length].
    match goal with |- context [store_all ?x ?y ?z] => destruct (store_all x y z) end; [|reflexivity].
    cbn. destruct (store _ _ _); reflexivity.
  - inversion_clear Hok as [|? ? Ha Hr]. inversion_clear Hr as [|? ? Hb _].
    unfold byte_ok in *.
    cbn [encode_loop enc_text]. rewrite !shr, land3, land15.
    change (2 ^ 2) with 4; change (2 ^ 4) with 16.
    rewrite (lor_add _ _ 4 16) by (try reflexivity; lia).
    rewrite !s64_tab by lia. rewrite b16_tab by lia.
    rewrite store_all_cat. cbn [length].
    match goal with |- context [store_all ?x ?y ?z] => destruct (store_all x y z) end; [|reflexivity].
    cbn. destruct (store _ _ _); reflexivity.
  - inversion_clear Hok as [|? ? Ha Hr]. inversion_clear Hr as [|? ? Hb Hr'].
    inversion_clear Hr' as [|? ? Hc Hl]. unfold byte_ok in Ha, Hb, Hc.
    cbn [encode_loop enc_text]. rewrite !shr, !land3, land15, land63.
    change (2 ^ 2) with 4; change (2 ^ 4) with 16; change (2 ^ 6) with 64.
    rewrite (lor_add _ _ 4 16) by (try reflexivity; lia).
    rewrite (N.mod_small (c / 64) 4) by lia.
    rewrite (lor_add _ _ 2 4) by (try reflexivity; lia).
    rewrite !s64_tab by lia.
    change ((s64 (a / 4) :: s64 (a mod 4 * 16 + b0 / 16)
       :: s64 (b0 mod 16 * 4 + c / 64) :: s64 (c mod 64) :: enc_text l) ++ [0])
      with ([s64 (a / 4); s64 (a mod 4 * 16 + b0 / 16);
             s64 (b0 mod 16 * 4 + c / 64); s64 (c mod 64)] ++ (enc_text l ++ [0])).
    rewrite store_all_cat.
    match goal with |- context [store_all b pos ?z] => destruct (store_all b pos z) end; [|reflexivity].
    rewrite IH by assumption. reflexivity.
Qed.

Lemma enc_text_length l : length (enc_text l) = (4 * ((length l + 2) / 3))%nat.
Proof.
  induction l as [| a | a b0 | a b0 c l IH] using list_ind3; try reflexivity.
  cbn [enc_text length]. rewrite IH. lia.
Qed.

Lemma neededSize_enc l : neededSize (length l) = length (enc_text l ++ [0]).
Proof.
  rewrite app_length, enc_text_length. cbn [length]. unfold neededSize.
  destruct (Nat.eqb_spec (length l) 0) as [E|E]; [rewrite E; reflexivity|]. lia.
Qed.

Lemma encode_block l : bytes_ok l ->
  encode_loop l (fresh (neededSize (length l))) 0 = Some (filled (enc_text l ++ [0])).
Proof.
  intros H. rewrite encode_loop_spec by assumption.
  apply store_all_exact. rewrite fresh_length. apply neededSize_enc.
Qed.

Lemma enc_text_chars l : bytes_ok l -> cstr_ok (enc_text l).
Proof.
  induction l as [| a | a b0 | a b0 c l IH] using list_ind3; intros Hok.
  - constructor.
  - inversion_clear Hok as [|? ? Ha _]. unfold byte_ok in Ha.
    cbn [enc_text]. repeat constructor; try (apply s64_ok; lia).
  - inversion_clear Hok as [|? ? Ha Hr]. inversion_clear Hr as [|? ? Hb _].
    unfold byte_ok in *. cbn [enc_text]. repeat constructor; try (apply s64_ok; lia).
  - inversion_clear Hok as [|? ? Ha Hr]. inversion_clear Hr as [|? ? Hb Hr'].
    inversion_clear Hr' as [|? ? Hc Hl]. unfold byte_ok in Ha, Hb, Hc.
    cbn [enc_text]. repeat (constructor; [apply s64_ok; lia|]). apply IH, Hl.
Qed.

(* ---------------------------------------------------------------- *)
(** The encoder against the RFC. *)

Lemma bv_hi6 b : b < 256 ->
  bits_val [N.testbit b 7; N.testbit b 6; N.testbit b 5; N.testbit b 4; N.testbit b 3; N.testbit b 2] = b / 4.
Proof.
  intros H. apply N.eqb_eq.
  exact (sweep 256 (fun b => bits_val [N.testbit b 7; N.testbit b 6; N.testbit b 5;
           N.testbit b 4; N.testbit b 3; N.testbit b 2] =? b / 4) eq_refl b H).
Qed.
Lemma bv_lo2 b : b < 256 -> bits_val [N.testbit b 1; N.testbit b 0] = b mod 4.
Proof.
  intros H. apply N.eqb_eq.
  exact (sweep 256 (fun b => bits_val [N.testbit b 1; N.testbit b 0] =? b mod 4) eq_refl b H).
Qed.
Lemma bv_hi4 b : b < 256 ->
  bits_val [N.testbit b 7; N.testbit b 6; N.testbit b 5; N.testbit b 4] = b / 16.
Proof.
  intros H. apply N.eqb_eq.
  exact (sweep 256 (fun b => bits_val [N.testbit b 7; N.testbit b 6; N.testbit b 5;
           N.testbit b 4] =? b / 16) eq_refl b H).
Qed.
Lemma bv_lo4 b : b < 256 ->
  bits_val [N.testbit b 3; N.testbit b 2; N.testbit b 1; N.testbit b 0] = b mod 16.
Proof.
  intros H. apply N.eqb_eq.
  exact (sweep 256 (fun b => bits_val [N.testbit b 3; N.testbit b 2; N.testbit b 1;
           N.testbit b 0] =? b mod 16) eq_refl b H).
Qed.
Lemma bv_hi2 b : b < 256 -> bits_val [N.testbit b 7; N.testbit b 6] = b / 64.
Proof.
  intros H. apply N.eqb_eq.
  exact (sweep 256 (fun b => bits_val [N.testbit b 7; N.testbit b 6] =? b / 64) eq_refl b H).
Qed.
Lemma bv_lo6 b : b < 256 ->
  bits_val [N.testbit b 5; N.testbit b 4; N.testbit b 3; N.testbit b 2; N.testbit b 1; N.testbit b 0] = b mod 64.
Proof.
  intros H. apply N.eqb_eq.
  exact (sweep 256 (fun b => bits_val [N.testbit b 5; N.testbit b 4; N.testbit b 3;
           N.testbit b 2; N.testbit b 1; N.testbit b 0] =? b mod 64) eq_refl b H).
Qed.

Lemma bits_val_app l m :
  bits_val (l ++ m) = bits_val l * 2 ^ N.of_nat (length m) + bits_val m.
Proof.
  revert l; induction m as [|b m IH] using rev_ind; intros l.
  - rewrite app_nil_r. cbn. lia.
  - unfold bits_val in *. rewrite app_assoc, !fold_left_app. cbn [fold_left].
    rewrite <- fold_left_app, IH.
    rewrite app_length. cbn [length].
    replace (N.of_nat (length m + 1)) with (N.succ (N.of_nat (length m))) by lia.
    rewrite N.pow_succ_r'. ring.
Qed.

Lemma alphabet_is_table v : nth (N.to_nat v) alphabet 0 = s64 v.
Proof. reflexivity. Qed.

Lemma sextets3 a b c l :
  sextets (bits_of (a :: b :: c :: l)) =
  [N.testbit a 7; N.testbit a 6; N.testbit a 5; N.testbit a 4; N.testbit a 3; N.testbit a 2]
  :: [N.testbit a 1; N.testbit a 0; N.testbit b 7; N.testbit b 6; N.testbit b 5; N.testbit b 4]
  :: [N.testbit b 3; N.testbit b 2; N.testbit b 1; N.testbit b 0; N.testbit c 7; N.testbit c 6]
  :: [N.testbit c 5; N.testbit c 4; N.testbit c 3; N.testbit c 2; N.testbit c 1; N.testbit c 0]
  :: sextets (bits_of l).
Proof. reflexivity. Qed.

Lemma bv_mid1 a b : a < 256 -> b < 256 ->
  bits_val [N.testbit a 1; N.testbit a 0; N.testbit b 7; N.testbit b 6; N.testbit b 5; N.testbit b 4]
  = a mod 4 * 16 + b / 16.
Proof.
  intros Ha Hb.
  change [N.testbit a 1; N.testbit a 0; N.testbit b 7; N.testbit b 6; N.testbit b 5; N.testbit b 4]
    with ([N.testbit a 1; N.testbit a 0] ++ [N.testbit b 7; N.testbit b 6; N.testbit b 5; N.testbit b 4]).
  rewrite bits_val_app, bv_lo2, bv_hi4 by assumption. reflexivity.
Qed.
Lemma bv_mid2 b c : b < 256 -> c < 256 ->
  bits_val [N.testbit b 3; N.testbit b 2; N.testbit b 1; N.testbit b 0; N.testbit c 7; N.testbit c 6]
  = b mod 16 * 4 + c / 64.
Proof.
  intros Ha Hb.
  change [N.testbit b 3; N.testbit b 2; N.testbit b 1; N.testbit b 0; N.testbit c 7; N.testbit c 6]
    with ([N.testbit b 3; N.testbit b 2; N.testbit b 1; N.testbit b 0] ++ [N.testbit c 7; N.testbit c 6]).
  rewrite bits_val_app, bv_lo4, bv_hi2 by assumption. reflexivity.
Qed.
Lemma bv_tail2 a : a < 256 ->
  bits_val [N.testbit a 1; N.testbit a 0; false; false; false; false] = a mod 4 * 16.
Proof.
  intros Ha.
  change [N.testbit a 1; N.testbit a 0; false; false; false; false]
    with ([N.testbit a 1; N.testbit a 0] ++ [false; false; false; false]).
  rewrite bits_val_app, bv_lo2 by assumption.
  change (bits_val [false; false; false; false]) with 0. cbn [length].
  change (2 ^ N.of_nat 4) with 16. lia.
Qed.
Lemma bv_tail4 b : b < 256 ->
  bits_val [N.testbit b 3; N.testbit b 2; N.testbit b 1; N.testbit b 0; false; false] = b mod 16 * 4.
Proof.
  intros Hb.
  change [N.testbit b 3; N.testbit b 2; N.testbit b 1; N.testbit b 0; false; false]
    with ([N.testbit b 3; N.testbit b 2; N.testbit b 1; N.testbit b 0] ++ [false; false]).
  rewrite bits_val_app, bv_lo4 by assumption.
  change (bits_val [false; false]) with 0. cbn [length].
  change (2 ^ N.of_nat 2) with 4. lia.
Qed.

Lemma enc_text_rfc l : bytes_ok l -> enc_text l = rfc4648 l.
Proof.
  induction l as [| a | a b0 | a b0 c l IH] using list_ind3; intros Hok.
  - reflexivity.
  - inversion_clear Hok as [|? ? Ha _]. unfold byte_ok in Ha.
    unfold rfc4648.
    change (sextets (bits_of [a])) with
      [[N.testbit a 7; N.testbit a 6; N.testbit a 5; N.testbit a 4; N.testbit a 3; N.testbit a 2];
       [N.testbit a 1; N.testbit a 0; false; false; false; false]].
    cbn [map]. rewrite bv_hi6, bv_tail2 by assumption. reflexivity.
  - inversion_clear Hok as [|? ? Ha Hr]. inversion_clear Hr as [|? ? Hb _].
    unfold byte_ok in *. unfold rfc4648.
    change (sextets (bits_of [a; b0])) with
      [[N.testbit a 7; N.testbit a 6; N.testbit a 5; N.testbit a 4; N.testbit a 3; N.testbit a 2];
       [N.testbit a 1; N.testbit a 0; N.testbit b0 7; N.testbit b0 6; N.testbit b0 5; N.testbit b0 4];
       [N.testbit b0 3; N.testbit b0 2; N.testbit b0 1; N.testbit b0 0; false; false]].
    cbn [map]. rewrite bv_hi6, bv_mid1, bv_tail4 by assumption. reflexivity.
  - inversion_clear Hok as [|? ? Ha Hr]. inversion_clear Hr as [|? ? Hb Hr'].
    inversion_clear Hr' as [|? ? Hc Hl]. unfold byte_ok in Ha, Hb, Hc.
    unfold rfc4648. rewrite sextets3. cbn [map enc_text].
    rewrite bv_hi6, bv_mid1, bv_mid2, bv_lo6 by assumption.
    rewrite !alphabet_is_table. rewrite IH by assumption.
    unfold rfc4648. set (core := map _ (sextets (bits_of l))).
    cbn [length app].
    replace (S (S (S (S (length core)))) mod 4)%nat with (length core mod 4)%nat by lia.
    reflexivity.
Qed.

(* ---------------------------------------------------------------- *)
(** The decoder. *)

(* The bytes Base64decode writes, in order, for a run of symbols. *)
Fixpoint dec_bytes (cs : list N) : list N :=
  match cs with
  | c1 :: c2 :: c3 :: c4 :: rest =>
      base64val c1 * 4 + base64val c2 / 16
      :: (base64val c2 mod 16) * 16 + base64val c3 / 4
      :: (base64val c3 mod 4) * 64 + base64val c4 :: dec_bytes rest
  | [c1; c2] => [base64val c1 * 4 + base64val c2 / 16]
  | [c1; c2; c3] =>
      [base64val c1 * 4 + base64val c2 / 16; (base64val c2 mod 16) * 16 + base64val c3 / 4]
  | _ => []
  end.

Lemma w1 c1 c2 :
  N.lor (N.shiftl (base64val c1) 2) (N.shiftr (base64val c2) 4) mod 256
  = base64val c1 * 4 + base64val c2 / 16.
Proof.
  pose proof (val_lt c1). pose proof (val_lt c2).
  rewrite shr. change (2 ^ 4) with 16.
  rewrite (lor_add _ _ 2 4) by (try reflexivity; lia).
  apply N.mod_small. lia.
Qed.
Lemma w2 c2 c3 :
  N.lor (N.shiftl (N.land (base64val c2) 15) 4) (N.shiftr (base64val c3) 2) mod 256
  = (base64val c2 mod 16) * 16 + base64val c3 / 4.
Proof.
  pose proof (val_lt c2). pose proof (val_lt c3).
  rewrite shr, land15. change (2 ^ 2) with 4.
  rewrite (lor_add _ _ 4 16) by (try reflexivity; lia).
  apply N.mod_small. lia.
Qed.
Lemma w3 c3 c4 :
  N.lor (N.shiftl (N.land (base64val c3) 3) 6) (base64val c4) mod 256
  = (base64val c3 mod 4) * 64 + base64val c4.
Proof.
  pose proof (val_lt c3). pose proof (val_lt c4).
  rewrite land3.
  rewrite (lor_add _ _ 6 64) by (try reflexivity; lia).
  apply N.mod_small. lia.
Qed.

Lemma Base64decode_spec cs : forall b i,
  Base64decode cs b i = store_all b i (dec_bytes cs).
Proof.
  induction cs as [| a | a b0 | a b0 c | a b0 c d l IH] using list_ind4; intros b i.
  - reflexivity.
  - reflexivity.
  - cbn [Base64decode dec_bytes store_all]. rewrite w1.
    destruct (store b i _); reflexivity.
  - cbn [Base64decode dec_bytes store_all]. rewrite w1, w2.
    destruct (store b i _) as [b1|]; [|reflexivity].
    rewrite Nat.add_1_r. destruct (store b1 _ _); reflexivity.
  - cbn [Base64decode dec_bytes store_all]. cbv zeta. rewrite w1, w2, w3.
    destruct (store b i _) as [b1|]; [|reflexivity].
    rewrite Nat.add_1_r. destruct (store b1 _ _) as [b2|]; [|reflexivity].
    replace (i + 2)%nat with (S (S i)) by lia.
    destruct (store b2 _ _) as [b3|]; [|reflexivity].
    rewrite IH. replace (i + 3)%nat with (S (S (S i))) by lia. reflexivity.
Qed.

Lemma dec_bytes_length cs :
  length (dec_bytes cs) = (length cs / 4 * 3 + (length cs mod 4 - 1))%nat.
Proof.
  induction cs as [| a | a b0 | a b0 c | a b0 c d l IH] using list_ind4; try reflexivity.
  cbn [dec_bytes length]. rewrite IH. lia.
Qed.

Lemma dec_bytes_ok cs : bytes_ok (dec_bytes cs).
Proof.
  induction cs as [| a | a b0 | a b0 c | a b0 c d l IH] using list_ind4;
    cbn [dec_bytes]; unfold bytes_ok; repeat constructor; unfold byte_ok;
    try (pose proof (val_lt a)); try (pose proof (val_lt b0));
    try (pose proof (val_lt c)); try (pose proof (val_lt d)); try lia.
  exact IH.
Qed.

Definition is_sym (c : N) : Prop := base64toValue c <> None.

Lemma nchars_app cs t : Forall is_sym cs ->
  match t with [] => True | c :: _ => base64toValue c = None end ->
  numberOfBase64Characters (cs ++ t) = length cs.
Proof.
  induction 1 as [|c cs Hc Hcs IH]; intros Ht; cbn.
  - destruct t as [|x t]; [reflexivity|]. cbn. rewrite Ht. reflexivity.
  - unfold is_sym in Hc. destruct (base64toValue c); [|congruence].
    rewrite IH by assumption. reflexivity.
Qed.

Lemma nchars_le s : (numberOfBase64Characters s <= length s)%nat.
Proof.
  induction s as [|c t IH]; cbn; [lia|].
  destruct (base64toValue c); lia.
Qed.

Lemma nchars_no_pad s u : s = u ++ [61] -> (numberOfBase64Characters s <= length u)%nat.
Proof.
  intros ->. induction u as [|c t IH].
  - vm_compute. lia.
  - cbn [app numberOfBase64Characters length].
    destruct (base64toValue c); lia.
Qed.

Lemma nchars_no_pad2 s u : s = u ++ [61; 61] -> (numberOfBase64Characters s <= length u)%nat.
Proof.
  intros ->. induction u as [|c t IH].
  - vm_compute. lia.
  - cbn [app numberOfBase64Characters length].
    destruct (base64toValue c); lia.
Qed.

(* Cases of Base64decode_len. *)
Lemma len_two u : Base64decode_len (u ++ [61; 61]) = (length u / 4 * 3 + 1)%nat.
Proof.
  unfold Base64decode_len. rewrite rev_app_distr. cbn [rev app].
  change (61 =? 61) with true. cbv iota. rewrite rev_length. reflexivity.
Qed.
Lemma len_one u c : (c =? 61) = false ->
  Base64decode_len (u ++ [c; 61]) = ((length u + 1) / 4 * 3 + 2)%nat.
Proof.
  intros H. unfold Base64decode_len. rewrite rev_app_distr. cbn [rev app].
  change (61 =? 61) with true. cbv iota. rewrite H. cbn [length].
  rewrite rev_length. replace (S (length u)) with (length u + 1)%nat by lia. reflexivity.
Qed.
Lemma len_zero u c : (c =? 61) = false ->
  Base64decode_len (u ++ [c]) = ((length u + 1) / 4 * 3)%nat.
Proof.
  intros H. unfold Base64decode_len. rewrite rev_app_distr. cbn [rev app].
  rewrite H. rewrite app_length. reflexivity.
Qed.

(* The decoder with both allocations granted, as one expression. *)
Definition decode_core (s : list N) : option (option block) :=
  let n := numberOfBase64Characters s in
  if (n mod 4 =? 1)%nat then Some None
  else if (0 <? Base64decode_len s)%nat
       then match store_all (fresh (Base64decode_len s)) 0 (dec_bytes (firstn n s)) with
            | Some b => Some (Some b)
            | None => None
            end
       else Some (Some []).

Lemma decoder_cases s o :
  (exists o', Base64_Decoder_str s o = Some (None, o') /\ In false o) \/
  (match decode_core s with
   | None => Base64_Decoder_str s o = None
   | Some r => exists o', Base64_Decoder_str s o = Some (r, o')
   end).
Proof.
  unfold Base64_Decoder_str, decode_core.
  destruct (numberOfBase64Characters s mod 4 =? 1)%nat.
  - right. eexists. reflexivity.
  - unfold bind at 1. unfold alloc at 1.
    destruct o as [|[|] o]; cbn [negb].
    + destruct (0 <? Base64decode_len s)%nat; [|right; eexists; reflexivity].
      right. rewrite <- Base64decode_spec. cbn. unfold bind, lift.
      destruct (Base64decode _ _ _); [eexists|]; reflexivity.
    + destruct (0 <? Base64decode_len s)%nat; [|right; eexists; reflexivity].
      rewrite <- Base64decode_spec. unfold bind, alloc.
      destruct o as [|[|] o]; cbn [negb].
      * right. unfold lift. destruct (Base64decode _ _ _); [eexists|]; reflexivity.
      * right. unfold lift. destruct (Base64decode _ _ _); [eexists|]; reflexivity.
      * left. eexists. split; [reflexivity|]. right. left. reflexivity.
    + left. eexists. split; [reflexivity|]. left. reflexivity.
Qed.

Lemma decoder_ok s :
  exists o', Base64_Decoder_str s [] = match decode_core s with
                                       | None => None
                                       | Some r => Some (r, o') end.
Proof.
  destruct (decoder_cases s []) as [(o' & _ & [])|H].
  destruct (decode_core s) as [r|].
  - exact H.
  - exists []. exact H.
Qed.

(* Length multiple of four: in bounds whatever the characters. *)
Lemma mult4_in_bounds s : (length s mod 4 = 0)%nat -> decode_core s <> None.
Proof.
  intros Hl. unfold decode_core.
  pose proof (nchars_le s) as Hn. set (n := numberOfBase64Characters s) in *.
  destruct (Nat.eqb_spec (n mod 4) 1) as [E|E]; [discriminate|].
  destruct (Nat.ltb_spec 0 (Base64decode_len s)) as [Hp|Hp]; [|discriminate].
  rewrite store_all_prefix; [discriminate|].
  rewrite dec_bytes_length, fresh_length, firstn_length, Nat.min_l by exact Hn.
  destruct (rev s) as [|x t] eqn:Er.
  { apply (f_equal (@rev N)) in Er. rewrite rev_involutive in Er. cbn in Er.
    subst s. vm_compute in Hp. lia. }
  assert (Es : s = rev t ++ [x]).
  { rewrite <- (rev_involutive s), Er. reflexivity. }
  destruct (x =? 61) eqn:Ex.
  - apply N.eqb_eq in Ex. subst x.
    pose proof (nchars_no_pad s (rev t) Es) as Hn1. fold n in Hn1.
    destruct t as [|y t'].
    + subst s. cbn in Hl. discriminate.
    + destruct (y =? 61) eqn:Ey.
      * apply N.eqb_eq in Ey. subst y. cbn [rev] in Es. rewrite <- app_assoc in Es.
        cbn in Es. pose proof (nchars_no_pad2 s (rev t') Es) as Hn2. fold n in Hn2.
        rewrite Es, len_two. rewrite Es, app_length in Hl. cbn [length] in Hl. lia.
      * cbn [rev] in Es. rewrite <- app_assoc in Es. cbn in Es.
        rewrite Es, len_one by assumption.
        rewrite Es, app_length in Hl. cbn [length] in Hl.
        cbn [rev] in Hn1. rewrite app_length in Hn1. cbn [length] in Hn1. lia.
  - rewrite Es, len_zero by assumption.
    rewrite Es, app_length in Hl, Hn. cbn [length] in Hl, Hn. lia.
Qed.

(* Well-formed text: symbols, then the padding that makes the length a
   multiple of four. *)
Lemma decode_wf cs : Forall is_sym cs -> (length cs mod 4 <> 1)%nat ->
  decode_core (cs ++ repeat 61 ((4 - length cs mod 4) mod 4)) = Some (Some (filled (dec_bytes cs))).
Proof.
  intros Hs Hm. unfold decode_core.
  assert (Hn : numberOfBase64Characters (cs ++ repeat 61 ((4 - length cs mod 4) mod 4)) = length cs).
  { apply nchars_app; [assumption|]. destruct ((4 - length cs mod 4) mod 4)%nat; exact I || reflexivity. }
  rewrite Hn. destruct (Nat.eqb_spec (length cs mod 4) 1) as [E|E]; [contradiction|].
  rewrite firstn_app, Nat.sub_diag, firstn_O, app_nil_r, firstn_all.
  assert (HL : Base64decode_len (cs ++ repeat 61 ((4 - length cs mod 4) mod 4)) = length (dec_bytes cs)).
  { rewrite dec_bytes_length.
    assert (Hc : (length cs mod 4 = 0 \/ length cs mod 4 = 2 \/ length cs mod 4 = 3)%nat) by lia.
    destruct Hc as [Hc|[Hc|Hc]]; rewrite Hc.
    - change (repeat 61 ((4 - 0) mod 4)) with (@nil N). rewrite app_nil_r.
      destruct (rev cs) as [|x t] eqn:Er.
      + apply (f_equal (@rev N)) in Er. rewrite rev_involutive in Er. cbn in Er. subst cs. reflexivity.
      + assert (Es : cs = rev t ++ [x]) by (rewrite <- (rev_involutive cs), Er; reflexivity).
        assert (Hx : (x =? 61) = false).
        { destruct (N.eqb_spec x 61) as [->|]; [|reflexivity]. exfalso.
          rewrite Es in Hs. apply Forall_app in Hs. destruct Hs as [_ Hs].
          inversion_clear Hs as [|? ? Hx _]. apply Hx. reflexivity. }
        rewrite Es, len_zero by assumption. rewrite app_length. cbn [length]. lia.
    - change (repeat 61 ((4 - 2) mod 4)) with [61; 61]. rewrite len_two. lia.
    - change (repeat 61 ((4 - 3) mod 4)) with [61].
      destruct (rev cs) as [|x t] eqn:Er.
      + apply (f_equal (@rev N)) in Er. rewrite rev_involutive in Er. cbn in Er. subst cs. discriminate.
      + assert (Es : cs = rev t ++ [x]) by (rewrite <- (rev_involutive cs), Er; reflexivity).
        assert (Hx : (x =? 61) = false).
        { destruct (N.eqb_spec x 61) as [->|]; [|reflexivity]. exfalso.
          rewrite Es in Hs. apply Forall_app in Hs. destruct Hs as [_ Hs].
          inversion_clear Hs as [|? ? Hx _]. apply Hx. reflexivity. }
        rewrite Es, <- app_assoc. cbn [app]. rewrite len_one by assumption.
        rewrite app_length. cbn [length]. lia. }
  rewrite HL. destruct (Nat.ltb_spec 0 (length (dec_bytes cs))) as [Hp|Hp].
  - rewrite store_all_exact; [reflexivity|]. apply fresh_length.
  - destruct (dec_bytes cs); [reflexivity|cbn in Hp; lia].
Qed.

(* Symbols of the encoder's output, without padding. *)
Fixpoint enc_syms (l : list N) : list N :=
  match l with
  | b0 :: b1 :: b2 :: rest =>
      s64 (b0 / 4) :: s64 ((b0 mod 4) * 16 + b1 / 16)
      :: s64 ((b1 mod 16) * 4 + b2 / 64) :: s64 (b2 mod 64) :: enc_syms rest
  | [b0; b1] =>
      [s64 (b0 / 4); s64 ((b0 mod 4) * 16 + b1 / 16); s64 ((b1 mod 16) * 4)]
  | [b0] => [s64 (b0 / 4); s64 ((b0 mod 4) * 16)]
  | [] => []
  end.

Lemma enc_text_syms l :
  enc_text l = enc_syms l ++ repeat 61 ((4 - length (enc_syms l) mod 4) mod 4)
  /\ (length (enc_syms l) mod 4 <> 1)%nat.
Proof.
  induction l as [| a | a b0 | a b0 c l [IH IH2]] using list_ind3;
    try (split; [reflexivity|cbn; discriminate]).
  cbn [enc_text enc_syms length app]. rewrite IH.
  replace (S (S (S (S (length (enc_syms l))))) mod 4)%nat
    with (length (enc_syms l) mod 4)%nat by lia.
  split; [reflexivity|exact IH2].
Qed.

Lemma s64_sym v : v < 64 -> is_sym (s64 v).
Proof. intros H. unfold is_sym. rewrite s64_val by assumption. discriminate. Qed.

Lemma enc_syms_sym l : bytes_ok l -> Forall is_sym (enc_syms l).
Proof.
  induction l as [| a | a b0 | a b0 c l IH] using list_ind3; intros Hok.
  - constructor.
  - inversion_clear Hok as [|? ? Ha _]. unfold byte_ok in Ha.
    cbn [enc_syms]. repeat constructor; apply s64_sym; lia.
  - inversion_clear Hok as [|? ? Ha Hr]. inversion_clear Hr as [|? ? Hb _].
    unfold byte_ok in *. cbn [enc_syms]. repeat constructor; apply s64_sym; lia.
  - inversion_clear Hok as [|? ? Ha Hr]. inversion_clear Hr as [|? ? Hb Hr'].
    inversion_clear Hr' as [|? ? Hc Hl]. unfold byte_ok in Ha, Hb, Hc.
    cbn [enc_syms]. repeat (constructor; [apply s64_sym; lia|]). apply IH, Hl.
Qed.

Lemma s64_base64val v : v < 64 -> base64val (s64 v) = v.
Proof. intros H. unfold base64val. rewrite s64_val by assumption. reflexivity. Qed.

Lemma dec_enc l : bytes_ok l -> dec_bytes (enc_syms l) = l.
Proof.
  induction l as [| a | a b0 | a b0 c l IH] using list_ind3; intros Hok.
  - reflexivity.
  - inversion_clear Hok as [|? ? Ha _]. unfold byte_ok in Ha.
    cbn [enc_syms dec_bytes]. rewrite !s64_base64val by lia. f_equal. lia.
  - inversion_clear Hok as [|? ? Ha Hr]. inversion_clear Hr as [|? ? Hb _].
    unfold byte_ok in *. cbn [enc_syms dec_bytes]. rewrite !s64_base64val by lia.
    f_equal; [lia|]. f_equal. lia.
  - inversion_clear Hok as [|? ? Ha Hr]. inversion_clear Hr as [|? ? Hb Hr'].
    inversion_clear Hr' as [|? ? Hc Hl]. unfold byte_ok in Ha, Hb, Hc.
    cbn [enc_syms dec_bytes]. rewrite !s64_base64val by lia. rewrite IH by assumption.
    f_equal; [lia|]. f_equal; [lia|]. f_equal. lia.
Qed.

Lemma decode_enc_text l : bytes_ok l -> decode_core (enc_text l) = Some (Some (filled l)).
Proof.
  intros H. destruct (enc_text_syms l) as [E1 E2]. rewrite E1.
  rewrite decode_wf by (try apply enc_syms_sym; assumption).
  rewrite dec_enc by assumption. reflexivity.
Qed.

(* ---------------------------------------------------------------- *)
(** Top-level statements. *)

Lemma encoder_cases l o : bytes_ok l ->
  (exists o', Base64_Encode_Internal l o = Some (None, o') /\ In false o) \/
  (exists o', Base64_Encode_Internal l o = Some (Some (filled (rfc4648 l ++ [0])), o')).
Proof.
  intros H. unfold Base64_Encode_Internal. rewrite encode_block by assumption.
  rewrite enc_text_rfc by assumption. unfold bind, alloc, lift, ret.
  destruct o as [|[|] o]; cbn [negb].
  - right. eexists. reflexivity.
  - destruct o as [|[|] o]; cbn [negb].
    + right. eexists. reflexivity.
    + right. eexists. reflexivity.
    + left. eexists. split; [reflexivity|]. right; left; reflexivity.
  - left. eexists. split; [reflexivity|]. left; reflexivity.
Qed.

Lemma encode_conforms l o : bytes_ok l ->
  (exists o', Base64_Encode (Some l) o = Some (None, o') /\ In false o) \/
  (exists o', Base64_Encode (Some l) o = Some (Some (filled (rfc4648 l ++ [0])), o')).
Proof. apply encoder_cases. Qed.

Lemma encode_bytes_conforms l o : bytes_ok l ->
  (exists o', Base64_Encode_Bytes (Some l) o = Some (None, o') /\ In false o) \/
  (exists o', Base64_Encode_Bytes (Some l) o = Some (Some (filled (rfc4648 l ++ [0])), o')).
Proof.
  intros H. destruct l as [|x l].
  - cbn. unfold bind, alloc, ret.
    destruct o as [|[|] [|[|] o]]; cbn;
      try (right; eexists; reflexivity);
      left; eexists; (split; [reflexivity|auto]).
  - apply (encoder_cases (x :: l) o H).
Qed.

Lemma rfc4648_length l : bytes_ok l -> length (rfc4648 l) = (4 * ((length l + 2) / 3))%nat.
Proof. intros H. rewrite <- enc_text_rfc by assumption. apply enc_text_length. Qed.

Lemma rfc4648_cstr l : bytes_ok l -> cstr_ok (rfc4648 l).
Proof. intros H. rewrite <- enc_text_rfc by assumption. apply enc_text_chars, H. Qed.

Lemma decode_rfc l o : bytes_ok l ->
  (exists o', Base64_Decoder (Some (rfc4648 l)) o = Some (None, o') /\ In false o) \/
  (exists o', Base64_Decoder (Some (rfc4648 l)) o = Some (Some (filled l), o')).
Proof.
  intros H. cbn [Base64_Decoder].
  destruct (decoder_cases (rfc4648 l) o) as [X|X]; [left; exact X|right].
  rewrite <- enc_text_rfc in * by assumption.
  rewrite decode_enc_text in X by assumption. exact X.
Qed.

Lemma decoder_mult4 s o : (length s mod 4 = 0)%nat -> Base64_Decoder (Some s) o <> None.
Proof.
  intros H. cbn [Base64_Decoder].
  destruct (decoder_cases s o) as [(o' & E & _)|X]; [congruence|].
  pose proof (mult4_in_bounds s H) as N. destruct (decode_core s) as [r|]; [|congruence].
  destruct X as [o' E]. congruence.
Qed.

(* Canonical texts are exactly the encodings. *)
Lemma sym_val c : sym c -> exists v, v < 64 /\ c = s64 v.
Proof.
  intros H. unfold sym in H. apply In_nth with (d := 0) in H.
  destruct H as (n & Hn & <-). exists (N.of_nat n).
  change (length alphabet) with 64%nat in Hn. split; [lia|].
  unfold s64. rewrite Nat2N.id. reflexivity.
Qed.

Lemma index_of_nth c l v : index_of c l = Some v ->
  (N.to_nat v < length l)%nat /\ nth (N.to_nat v) l 0 = c.
Proof.
  revert v; induction l as [|x l IH]; intros v H; cbn in H; [discriminate|].
  destruct (N.eqb_spec x c) as [->|_].
  - injection H as <-. cbn. split; [lia|reflexivity].
  - destruct (index_of c l) as [i|]; [|discriminate]. injection H as <-.
    destruct (IH i eq_refl) as [H1 H2].
    replace (N.to_nat (i + 1)) with (S (N.to_nat i)) by lia.
    cbn [length nth]. split; [lia|exact H2].
Qed.

Lemma index_of_s64 c v : index_of c alphabet = Some v -> v < 64 /\ c = s64 v.
Proof.
  intros H. apply index_of_nth in H. destruct H as [H1 H2].
  change (length alphabet) with 64%nat in H1. split; [lia|].
  unfold s64. symmetry. exact H2.
Qed.

Lemma canonical_enc t : canonical t -> exists l, bytes_ok l /\ t = enc_text l.
Proof.
  induction 1 as [| a b v Ha Hb Hv | a b c v Ha Hb Hc Hv | a b c d rest Ha Hb Hc Hd Hr (l & Hl & E)].
  - exists []. split; [constructor|reflexivity].
  - apply sym_val in Ha. destruct Ha as (va & Hva & ->).
    apply index_of_s64 in Hb. destruct Hb as (Hvb & ->).
    exists [va * 4 + v / 16]. split; [repeat constructor; unfold byte_ok; lia|].
    cbn [enc_text]. change pad with 61.
    replace ((va * 4 + v / 16) / 4) with va by lia.
    replace ((va * 4 + v / 16) mod 4 * 16) with v by lia. reflexivity.
  - apply sym_val in Ha. destruct Ha as (va & Hva & ->).
    apply sym_val in Hb. destruct Hb as (vb & Hvb & ->).
    apply index_of_s64 in Hc. destruct Hc as (Hvc & ->).
    exists [va * 4 + vb / 16; vb mod 16 * 16 + v / 4].
    split; [repeat constructor; unfold byte_ok; lia|].
    cbn [enc_text]. change pad with 61.
    replace ((va * 4 + vb / 16) / 4) with va by lia.
    replace ((va * 4 + vb / 16) mod 4 * 16 + (vb mod 16 * 16 + v / 4) / 16) with vb by lia.
    replace ((vb mod 16 * 16 + v / 4) mod 16 * 4) with v by lia. reflexivity.
  - apply sym_val in Ha. destruct Ha as (va & Hva & ->).
    apply sym_val in Hb. destruct Hb as (vb & Hvb & ->).
    apply sym_val in Hc. destruct Hc as (vc & Hvc & ->).
    apply sym_val in Hd. destruct Hd as (vd & Hvd & ->).
    exists (va * 4 + vb / 16 :: vb mod 16 * 16 + vc / 4 :: vc mod 4 * 64 + vd :: l).
    split; [repeat constructor; unfold byte_ok; try lia; exact Hl|].
    cbn [enc_text]. rewrite E.
    replace ((va * 4 + vb / 16) / 4) with va by lia.
    replace ((va * 4 + vb / 16) mod 4 * 16 + (vb mod 16 * 16 + vc / 4) / 16) with vb by lia.
    replace ((vb mod 16 * 16 + vc / 4) mod 16 * 4 + (vc mod 4 * 64 + vd) / 64) with vc by lia.
    replace ((vc mod 4 * 64 + vd) mod 64) with vd by lia. reflexivity.
Qed.

Lemma decode_canonical t o : canonical t ->
  (exists o', Base64_Decoder (Some t) o = Some (None, o') /\ In false o) \/
  (exists o' l, Base64_Decoder (Some t) o = Some (Some (filled l), o')
                /\ bytes_ok l /\ rfc4648 l = t).
Proof.
  intros H. destruct (canonical_enc t H) as (l & Hl & ->).
  rewrite enc_text_rfc by assumption.
  destruct (decode_rfc l o Hl) as [X|(o' & X)]; [left; exact X|right].
  exists o', l. auto.
Qed.

(* Everything the encoder emits is canonical. *)
Lemma s64_in v : v < 64 -> sym (s64 v).
Proof.
  intros H. unfold sym, s64. change alphabet with base64char. apply nth_In.
  vm_compute (length base64char). lia.
Qed.

Lemma index_s64 v : v < 64 -> index_of (s64 v) alphabet = Some v.
Proof.
  intros H.
  pose proof (sweep 64 (fun v => match index_of (s64 v) alphabet with
                                 | Some w => w =? v | None => false end)
                eq_refl v H) as E.
  cbn beta in E. destruct (index_of (s64 v) alphabet) as [w|]; [|discriminate].
  apply N.eqb_eq in E. subst. reflexivity.
Qed.

Lemma rfc_canonical l : bytes_ok l -> canonical (rfc4648 l).
Proof.
  intros H. rewrite <- enc_text_rfc by assumption. revert H.
  induction l as [| a | a b0 | a b0 c l IH] using list_ind3; intros Hok.
  - constructor.
  - inversion_clear Hok as [|? ? Ha _]. unfold byte_ok in Ha. cbn [enc_text].
    apply can_pad2 with (v := a mod 4 * 16); [apply s64_in; lia|apply index_s64; lia|apply N.mod_mul; discriminate].
  - inversion_clear Hok as [|? ? Ha Hr]. inversion_clear Hr as [|? ? Hb _].
    unfold byte_ok in *. cbn [enc_text].
    apply can_pad1 with (v := b0 mod 16 * 4);
      [apply s64_in; lia|apply s64_in; lia|apply index_s64; lia|apply N.mod_mul; discriminate].
  - inversion_clear Hok as [|? ? Ha Hr]. inversion_clear Hr as [|? ? Hb Hr'].
    inversion_clear Hr' as [|? ? Hc Hl]. unfold byte_ok in Ha, Hb, Hc.
    cbn [enc_text]. apply can_quad; try (apply s64_in; lia). apply IH, Hl.
Qed.

(* ---------------------------------------------------------------- *)
(** Statements used by Base64_Props. *)

Lemma round_trip bs o1 o1' blk o2 :
  bytes_ok bs ->
  Base64_Encode (Some bs) o1 = Some (Some blk, o1') ->
  exists txt, blk = filled (txt ++ [0]) /\ cstr_ok txt /\
    ((exists o2', Base64_Decoder (Some txt) o2 = Some (None, o2') /\ In false o2) \/
     (exists o2', Base64_Decoder (Some txt) o2 = Some (Some (filled bs), o2'))).
Proof.
  intros H E. exists (rfc4648 bs).
  destruct (encode_conforms bs o1 H) as [(o & E' & _)|(o & E')]; rewrite E in E'; [congruence|].
  injection E' as -> _. split; [reflexivity|].
  split; [apply rfc4648_cstr, H|]. apply decode_rfc, H.
Qed.

Lemma is_sym_sym c : sym c -> is_sym c.
Proof. intros H. apply sym_val in H. destruct H as (v & Hv & ->). apply s64_sym, Hv. Qed.

Lemma unpadded_overflow cs o :
  Forall sym cs -> (4 < length cs)%nat -> (2 <= length cs mod 4)%nat ->
  ~ In false o -> Base64_Decoder (Some cs) o = None.
Proof.
  intros Hs Hl Hm Ho. cbn [Base64_Decoder].
  destruct (decoder_cases cs o) as [(? & _ & F)|X]; [contradiction|].
  assert (E : decode_core cs = None); [|rewrite E in X; exact X].
  clear X. unfold decode_core.
  assert (Hs' : Forall is_sym cs) by (eapply Forall_impl; [|exact Hs]; apply is_sym_sym).
  assert (Hn : numberOfBase64Characters cs = length cs).
  { rewrite <- (app_nil_r cs) at 1. apply nchars_app; [assumption|exact I]. }
  rewrite Hn, firstn_all. replace (length cs mod 4 =? 1)%nat with false by lia.
  assert (HL : Base64decode_len cs = (length cs / 4 * 3)%nat).
  { destruct (rev cs) as [|x t] eqn:Er.
    - apply (f_equal (@rev N)) in Er. rewrite rev_involutive in Er. cbn in Er. subst cs. cbn in Hl. lia.
    - assert (Es : cs = rev t ++ [x]) by (rewrite <- (rev_involutive cs), Er; reflexivity).
      assert (Hx : (x =? 61) = false).
      { destruct (N.eqb_spec x 61) as [->|]; [|reflexivity]. exfalso.
        rewrite Es in Hs'. apply Forall_app in Hs'. destruct Hs' as [_ Hs'].
        inversion_clear Hs' as [|? ? Hx _]. apply Hx. reflexivity. }
      rewrite Es, len_zero by assumption. rewrite app_length. reflexivity. }
  rewrite HL. replace (0 <? length cs / 4 * 3)%nat with true by lia.
  rewrite store_all_none; [reflexivity| |].
  - intros F. apply (f_equal (@length N)) in F. rewrite dec_bytes_length in F. cbn in F. lia.
  - rewrite fresh_length, dec_bytes_length. lia.
Qed.

Lemma unpadded_short a b : sym a -> sym b ->
  Base64_Decoder (Some [a; b]) [] = Some (Some [], []).
Proof.
  intros Ha Hb. apply sym_val in Ha. destruct Ha as (v & Hv & ->).
  apply sym_val in Hb. destruct Hb as (w & Hw & ->).
  unfold Base64_Decoder, Base64_Decoder_str.
  cbn [numberOfBase64Characters]. rewrite !s64_val by assumption.
  change (2 mod 4 =? 1)%nat with false. cbv iota.
  unfold Base64decode_len. cbn [rev app]. rewrite s64_notpad by assumption. reflexivity.
Qed.

Lemma encode_null o : Base64_Encode None o = Some (None, o)
  /\ Base64_Encode_Bytes None o = Some (None, o) /\ Base64_Decoder None o = Some (None, o).
Proof. repeat split. Qed.

Lemma encode_injective a b : bytes_ok a -> bytes_ok b -> rfc4648 a = rfc4648 b -> a = b.
Proof.
  intros Ha Hb E.
  destruct (decode_rfc a [] Ha) as [(? & _ & [])|(o & E1)].
  destruct (decode_rfc b [] Hb) as [(? & _ & [])|(o2 & E2)].
  rewrite E, E2 in E1. injection E1 as E1. symmetry. apply filled_inj. congruence.
Qed.

Lemma bad_length_null s o :
  (numberOfBase64Characters s mod 4 = 1)%nat -> Base64_Decoder (Some s) o = Some (None, o).
Proof. intros H. cbn. unfold Base64_Decoder_str. rewrite H. reflexivity. Qed.

Lemma sym_b c : existsb (N.eqb c) alphabet = true -> sym c.
Proof.
  intros H. apply existsb_exists in H. destruct H as (x & Hx & E).
  apply N.eqb_eq in E. subst. exact Hx.
Qed.

Lemma syms_b cs : forallb (fun c => existsb (N.eqb c) alphabet) cs = true -> Forall sym cs.
Proof.
  intros H. apply Forall_forall. intros c Hc. rewrite forallb_forall in H. apply sym_b, H, Hc.
Qed.
