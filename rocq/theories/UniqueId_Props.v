(* Properties of UniqueId_Generate (C62, C82). *)
From Verif Require Import Base UniqueId_Model UniqueId_Spec.
Local Open Scope N_scope.

(* The octets the random source gives: the i-th octet, with the version and
   variant fields the code puts into octets 7 and 8. *)
Definition random_octet (rand : nat -> Z) (i : nat) : N :=
  let b := Z.to_N (rand i mod 256) in
  if (i =? 7)%nat then 64 + b mod 16
  else if (i =? 8)%nat then 16 * (b / 16) + 8 + b mod 4
  else b.

Lemma to_uchar_ok r : to_uchar r < 256.
Proof. unfold to_uchar. lia. Qed.

Lemma all_bytes (P : N -> bool) :
  forallb P (map N.of_nat (seq 0 256)) = true -> forall b, b < 256 -> P b = true.
Proof.
  intros H b Hb. rewrite forallb_forall in H. apply H.
  apply in_map_iff. exists (N.to_nat b). split; [lia|]. apply in_seq. lia.
Qed.

Lemma version_bits b : b < 256 -> N.lor (N.land b 0x0f) 0x40 = 64 + b mod 16.
Proof.
  intros H. apply N.eqb_eq. revert b H. apply all_bytes. vm_compute. reflexivity.
Qed.

Lemma variant_bits b :
  b < 256 -> N.lor (N.land b 0xf3) 0x08 = 16 * (b / 16) + 8 + b mod 4.
Proof.
  intros H. apply N.eqb_eq. revert b H. apply all_bytes. vm_compute. reflexivity.
Qed.

(* the character the code writes for a digit, and the one specified *)
Definition hexchar (d : N) : N := if d <? 10 then 48 + d else 55 + d.

Lemma nibbles (P : N -> bool) :
  forallb P (map N.of_nat (seq 0 16)) = true -> forall b, b < 16 -> P b = true.
Proof.
  intros H b Hb. rewrite forallb_forall in H. apply H.
  apply in_map_iff. exists (N.to_nat b). split; [lia|]. apply in_seq. lia.
Qed.

Lemma tochar_digit d : d < 16 -> nth_error tochar (N.to_nat d) = Some (hexchar d).
Proof.
  intros H.
  assert (E : match nth_error tochar (N.to_nat d) with
              | Some c => c =? hexchar d | None => false end = true).
  { revert d H. apply nibbles. vm_compute. reflexivity. }
  destruct nth_error; [apply N.eqb_eq in E; congruence|discriminate].
Qed.

Lemma tochar_low b : nth_error tochar (N.to_nat (N.land b 0xf)) = Some (hexchar (b mod 16)).
Proof.
  assert (E : N.land b 15 = b mod 16) by (apply (N.land_ones b 4)).
  rewrite E. apply tochar_digit. lia.
Qed.

Lemma tochar_high b : b < 256 ->
  nth_error tochar (N.to_nat (N.land (N.shiftr b 4) 0xf)) = Some (hexchar (b / 16)).
Proof.
  intros H. rewrite tochar_low. rewrite N.shiftr_div_pow2.
  change (2 ^ 4) with 16. rewrite (N.mod_small (b / 16)); [reflexivity|lia].
Qed.

Lemma hexchar_value d : d < 16 -> digit_value (hexchar d) = Some d.
Proof.
  intros H.
  assert (E : match digit_value (hexchar d) with Some v => v =? d | None => false end = true).
  { revert d H. apply nibbles. vm_compute. reflexivity. }
  destruct digit_value; [apply N.eqb_eq in E; congruence|discriminate].
Qed.

Lemma hexchar_upper d : d < 16 -> upper_hex (hexchar d).
Proof. unfold upper_hex, hexchar. cbn. intros H. destruct (d <? 10) eqn:E; lia. Qed.

(* the array after generate128BitUUID *)
Lemma generate_eq rand :
  generate128BitUUID rand = Some (map (random_octet rand) (seq 0 16)).
Proof.
  unfold generate128BitUUID, get. cbn -[N.land N.lor to_uchar].
  rewrite version_bits, variant_bits by apply to_uchar_ok. reflexivity.
Qed.

Lemma random_octet_ok rand i : random_octet rand i < 256.
Proof. unfold random_octet. destruct (i =? 7)%nat; [lia|destruct (i =? 8)%nat; lia]. Qed.

(* the text written for sixteen octets *)
Definition lo (b : N) := hexchar (b mod 16).
Definition hi (b : N) := hexchar (b / 16).
Definition two (b : N) : list N := [lo b; hi b].
Definition text (o : nat -> N) : list N :=
  two (o 0%nat) ++ two (o 1%nat) ++ two (o 2%nat) ++ two (o 3%nat) ++ [ch "-"] ++
  two (o 4%nat) ++ two (o 5%nat) ++ [ch "-"] ++ two (o 6%nat) ++ two (o 7%nat) ++ [ch "-"] ++
  two (o 8%nat) ++ two (o 9%nat) ++ [ch "-"] ++ two (o 10%nat) ++ two (o 11%nat) ++ two (o 12%nat) ++
  two (o 13%nat) ++ two (o 14%nat) ++ two (o 15%nat).

Lemma block_split (n : nat) (b : list (option N)) :
  (n <= length b)%nat -> exists p q, b = p ++ q /\ length p = n.
Proof.
  intros H. exists (firstn n b), (skipn n b). rewrite firstn_skipn.
  rewrite firstn_length. split; [reflexivity|lia].
Qed.

Ltac cells p H :=
  match type of H with
  | length _ = O => destruct p; [clear H|discriminate H]
  | length _ = S _ =>
      let c := fresh "c" in
      let q := fresh "q" in
      destruct p as [|c q]; [discriminate H|]; injection H as H; cells q H
  end.

Lemma rounds_eq (o : nat -> N) p q :
  (forall i, o i < 256) -> length p = 37%nat ->
  exists a, rounds 0 16 (map o (seq 0 16), p ++ q, 0%nat)
            = Some (a, map Some (text o) ++ skipn 36 p ++ q, 36%nat).
Proof.
  intros Ho H. 
  eexists. cbn [seq map].
  pose proof (Ho 0%nat). pose proof (Ho 1%nat). pose proof (Ho 2%nat). pose proof (Ho 3%nat).
  pose proof (Ho 4%nat). pose proof (Ho 5%nat). pose proof (Ho 6%nat). pose proof (Ho 7%nat).
  pose proof (Ho 8%nat). pose proof (Ho 9%nat). pose proof (Ho 10%nat). pose proof (Ho 11%nat).
  pose proof (Ho 12%nat). pose proof (Ho 13%nat). pose proof (Ho 14%nat). pose proof (Ho 15%nat).
  unfold text, two.
  cells p H.
  repeat (cbn [rounds]; unfold round at 1; cbn [get nth_error]; rewrite tochar_low;
          cbn [Nat.eqb orb store set app];
          unfold round at 1; cbn [get nth_error]; rewrite tochar_high by assumption;
          cbn [Nat.eqb orb store set app]).
  cbn [rounds]. reflexivity.
Qed.

Lemma text_length o : length (text o) = 36%nat.
Proof. reflexivity. Qed.

Lemma generate_cells rand p q len :
  37 <= len -> length p = 37%nat ->
  UniqueId_Generate (Some (p ++ q)) len rand
  = Some (UNIQUEID_OK, Some (filled (text (random_octet rand) ++ [0]) ++ q)).
Proof.
  intros Hl Hp. unfold UniqueId_Generate.
  destruct (len <? 37) eqn:E; [lia|]. rewrite generate_eq.
  destruct (rounds_eq (random_octet rand) p q (random_octet_ok rand) Hp) as [a Ea].
  rewrite Ea.
  assert (Hs : exists c, skipn 36 p = [c]).
  { pose proof (skipn_length 36 p) as Hk. rewrite Hp in Hk.
    destruct (skipn 36 p) as [|c [|d r] ]; try discriminate. exists c. reflexivity. }
  destruct Hs as [c Hc]. rewrite Hc.
  change ([c] ++ q) with (c :: q).
  assert (Hlen : length (map Some (text (random_octet rand))) = 36%nat) by reflexivity.
  rewrite <- Hlen at 1. rewrite store_app. unfold filled.
  rewrite map_app, <- app_assoc. reflexivity.
Qed.

Lemma octets_two o r :
  octets (two o ++ r) =
  match octets r with
  | Some v => if o <? 256 then Some (swapped o :: v) else octets (two o ++ r)
  | None => octets (two o ++ r)
  end.
Proof.
  destruct (octets r) eqn:E; [|reflexivity].
  destruct (o <? 256) eqn:Ho; [|reflexivity].
  cbn [two app octets]. unfold lo, hi.
  rewrite !hexchar_value by lia. rewrite E. reflexivity.
Qed.

Lemma two_ok o r v : o < 256 -> octets r = Some v -> octets (two o ++ r) = Some (swapped o :: v).
Proof.
  intros Ho E. rewrite octets_two, E. destruct (o <? 256) eqn:H; [reflexivity|lia].
Qed.

Lemma text_octets o :
  (forall i, o i < 256) -> uuid_octets (text o) = Some (map (fun i => swapped (o i)) (seq 0 16)).
Proof.
  intros Ho. unfold uuid_octets. rewrite text_length. cbn [Nat.eqb].
  replace (forallb _ _) with true by reflexivity. cbn [andb].
  change (octets (two (o 0%nat) ++ two (o 1%nat) ++ two (o 2%nat) ++ two (o 3%nat) ++
    two (o 4%nat) ++ two (o 5%nat) ++ two (o 6%nat) ++ two (o 7%nat) ++
    two (o 8%nat) ++ two (o 9%nat) ++ two (o 10%nat) ++ two (o 11%nat) ++
    two (o 12%nat) ++ two (o 13%nat) ++ two (o 14%nat) ++ two (o 15%nat) ++ [])
    = Some (map (fun i => swapped (o i)) (seq 0 16))).
  cbn [seq map]. repeat (apply two_ok; [apply Ho|]). reflexivity.
Qed.

(* ------------------------------------------------------------------ *)
(** * The theorems *)

Lemma swapped_inj a b : a < 256 -> b < 256 -> swapped a = swapped b -> a = b.
Proof. unfold swapped. lia. Qed.

Lemma filled_inj a b : filled a = filled b -> a = b.
Proof.
  unfold filled. revert b. induction a as [|x a IH]; intros [|y b] H; try discriminate; [reflexivity|].
  cbn in H. injection H as -> H. f_equal. auto.
Qed.

Lemma first_cells t q :
  length t = 36%nat -> firstn 37 (filled (t ++ [0]) ++ q) = filled (t ++ [0]).
Proof.
  intros H. assert (L : length (filled (t ++ [0])) = 37%nat).
  { unfold filled. rewrite map_length, app_length, H. reflexivity. }
  rewrite <- L. rewrite firstn_app, Nat.sub_diag, firstn_all, app_nil_r. reflexivity.
Qed.

(* C62: with a buffer of at least 37 bytes, whatever rand() gives: success,
   36 characters (upper-case digits and '-' in the 8-4-4-4-12 pattern) and a
   terminator are written, the rest of the buffer is untouched, and the text
   is the UUID text of the generated octets, each with its digits exchanged. *)
Theorem uniqueid_text_partial rand blk :
  (37 <= length blk)%nat ->
  exists t,
    UniqueId_Generate (Some blk) (N.of_nat (length blk)) rand
      = Some (UNIQUEID_OK, Some (filled (t ++ [0]) ++ skipn 37 blk)) /\
    length t = 36%nat /\
    (forall i c, nth_error t i = Some c ->
       if existsb (Nat.eqb i) [8; 13; 18; 23]%nat then c = ch "-" else upper_hex c) /\
    uuid_octets t = Some (map (fun i => swapped (random_octet rand i)) (seq 0 16)).
Proof.
  intros H. exists (text (random_octet rand)). split; [|split; [reflexivity|split] ].
  - destruct (block_split 37 blk H) as (p & q & -> & Hp).
    rewrite generate_cells; [|lia|exact Hp]. do 3 f_equal.
    rewrite skipn_app, skipn_all2, Hp by lia. reflexivity.
  - assert (Hx : forall k, upper_hex (lo (random_octet rand k)) /\ upper_hex (hi (random_octet rand k))).
    { intros k. pose proof (random_octet_ok rand k). unfold lo, hi.
      split; apply hexchar_upper; lia. }
    intros i c Hc. unfold text, two in Hc.
    do 36 (destruct i as [|i];
           [cbn [nth_error app] in Hc; injection Hc as <-; cbn [existsb Nat.eqb orb];
            first [reflexivity|apply Hx]|]).
    cbn in Hc. destruct i; discriminate.
  - apply text_octets. apply random_octet_ok.
Qed.

(* C62: a NULL buffer, or a stated size below 37: an error and nothing written. *)
Theorem uniqueid_too_small rand len :
  (forall blk, len < 37 ->
     UniqueId_Generate (Some blk) len rand = Some (UNIQUEID_INVALID_ARG, Some blk)) /\
  UniqueId_Generate None len rand = Some (UNIQUEID_INVALID_ARG, None).
Proof.
  split; [|reflexivity]. intros blk H. unfold UniqueId_Generate.
  destruct (len <? 37) eqn:E; [reflexivity|lia].
Qed.

(* The 122 random bits survive: equal texts come from equal octets. *)
Theorem uniqueid_injective rand rand' blk out :
  (37 <= length blk)%nat ->
  UniqueId_Generate (Some blk) (N.of_nat (length blk)) rand = Some (UNIQUEID_OK, Some out) ->
  UniqueId_Generate (Some blk) (N.of_nat (length blk)) rand' = Some (UNIQUEID_OK, Some out) ->
  forall i, (i < 16)%nat -> random_octet rand i = random_octet rand' i.
Proof.
  intros H E E' i Hi.
  destruct (uniqueid_text_partial rand blk H) as (t & Et & Hl & _ & Ho).
  destruct (uniqueid_text_partial rand' blk H) as (t' & Et' & Hl' & _ & Ho').
  assert (Eq : filled (t ++ [0]) ++ skipn 37 blk = filled (t' ++ [0]) ++ skipn 37 blk) by congruence.
  apply app_inv_tail in Eq. apply filled_inj in Eq. apply app_inv_tail in Eq.
  subst t'. rewrite Ho in Ho'. injection Ho' as Ho'.
  pose proof (random_octet_ok rand) as R. pose proof (random_octet_ok rand') as R'.
  do 16 (destruct i as [|i]; [apply swapped_inj; [apply R|apply R'|assumption]|]).
  lia.
Qed.

(* C62, what is false: read in the usual order the text gives the generated
   octets only if every octet consists of two equal digits. *)
Theorem uniqueid_reads_back_refuted rand blk out t :
  (37 <= length blk)%nat ->
  UniqueId_Generate (Some blk) (N.of_nat (length blk)) rand = Some (UNIQUEID_OK, Some out) ->
  firstn 37 out = filled (t ++ [0]) ->
  uuid_octets t = Some (map (random_octet rand) (seq 0 16)) ->
  forall i, (i < 16)%nat -> random_octet rand i mod 16 = random_octet rand i / 16.
Proof.
  intros H E Hf Ho i Hi.
  destruct (uniqueid_text_partial rand blk H) as (t' & Et & Hl & _ & Ho').
  rewrite Et in E. injection E as <-.
  rewrite first_cells in Hf by exact Hl.
  apply filled_inj in Hf. apply app_inv_tail in Hf.
  subst t'. rewrite Ho' in Ho. injection Ho as Ho.
  pose proof (random_octet_ok rand) as R.
  assert (S : forall b, b < 256 -> swapped b = b -> b mod 16 = b / 16) by (unfold swapped; lia).
  do 16 (destruct i as [|i]; [apply S; [apply R|assumption]|]).
  lia.
Qed.

(* C82: the variant is the one of RFC 4122 (binary 10) ... *)
Theorem uniqueid_variant_partial rand blk out t :
  (37 <= length blk)%nat ->
  UniqueId_Generate (Some blk) (N.of_nat (length blk)) rand = Some (UNIQUEID_OK, Some out) ->
  firstn 37 out = filled (t ++ [0]) ->
  exists o, uuid_octets t = Some o /\ variant o = 2 /\
            version o = Z.to_N (rand 6%nat mod 256) mod 16.
Proof.
  intros H E Hf.
  destruct (uniqueid_text_partial rand blk H) as (t' & Et & Hl & _ & Ho').
  rewrite Et in E. injection E as <-.
  rewrite first_cells in Hf by exact Hl.
  apply filled_inj in Hf. apply app_inv_tail in Hf.
  subst t'. eexists. split; [exact Ho'|]. unfold variant, version. cbn [seq map nth].
  unfold random_octet, swapped. cbn [Nat.eqb].
  generalize (rand 8%nat), (rand 6%nat). intros r r6. split; lia.
Qed.

(* ... but the version is whatever rand() gave: the text is marked as a
   version 4 (random) UUID only for one in sixteen random octets. *)
Theorem uniqueid_version_refuted :
  exists rand blk out t o,
    UniqueId_Generate (Some blk) (N.of_nat (length blk)) rand = Some (UNIQUEID_OK, Some out) /\
    firstn 37 out = filled (t ++ [0]) /\ uuid_octets t = Some o /\ version o <> 4.
Proof.
  exists (fun i => Z.of_nat i), (fresh 40).
  eexists. exists (str "00102030-4050-6074-8090-A0B0C0D0E0F0"). eexists.
  split; [vm_compute; reflexivity|]. split; [reflexivity|].
  split; [vm_compute; reflexivity|]. vm_compute. discriminate.
Qed.

(* A concrete case: the text for rand() = 0, 11, 22, ... *)
Example uniqueid_example :
  UniqueId_Generate (Some (fresh 38)) 38 (fun i => 11 * Z.of_nat i)%Z
  = Some (UNIQUEID_OK,
      Some (filled (str "00B06112-C273-24D4-8536-E69748F8A95A" ++ [0]) ++ [None])).
Proof. vm_compute. reflexivity. Qed.

(* C186: the shape of the text. *)
Theorem uniqueid_shape rand blk :
  (37 <= length blk)%nat ->
  exists t,
    UniqueId_Generate (Some blk) (N.of_nat (length blk)) rand
      = Some (UNIQUEID_OK, Some (filled (t ++ [0]) ++ skipn 37 blk)) /\
    length t = 36%nat /\
    (forall i c, nth_error t i = Some c ->
       if existsb (Nat.eqb i) [8; 13; 18; 23]%nat then c = ch "-" else upper_hex c).
Proof. intros H. destruct (uniqueid_text_partial rand blk H) as (t & A & B & C & _). exists t. auto. Qed.
