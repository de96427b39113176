(* Bits and bytes: what PadMessage appends is the padding of FIPS 180-2, and the words written
   out most significant byte first are the digest. *)
From Verif Require Import Base Sha_Spec Sha_Model Sha_Words.
Open Scope N_scope.

Lemma bits_of_app n m x : bits_of (n + m) x = bits_of n (N.shiftr x (N.of_nat m)) ++ bits_of m x.
Proof.
  induction n as [|n IH]; [reflexivity|]. cbn [Nat.add bits_of app]. f_equal; [|exact IH].
  rewrite N.shiftr_spec by lia. f_equal. lia.
Qed.
Lemma bits_of_mod n k x : (n <= k)%nat -> bits_of n (x mod 2 ^ N.of_nat k) = bits_of n x.
Proof.
  induction n as [|n IH]; intros H; [reflexivity|]. cbn [bits_of]. f_equal; [|apply IH; lia].
  apply N.mod_pow2_bits_low. lia.
Qed.
Lemma bits_of_cat n m h l : l < 2 ^ N.of_nat m -> bits_of (n + m) (h * 2 ^ N.of_nat m + l) = bits_of n h ++ bits_of m l.
Proof.
  intros Hl. rewrite bits_of_app. f_equal.
  - f_equal. rewrite N.shiftr_div_pow2, N.add_comm, N.div_add by apply pow2_nz. rewrite N.div_small by exact Hl. reflexivity.
  - rewrite <- (bits_of_mod m m (h * _ + l)) by lia. f_equal. rewrite N.add_comm, N.mod_add by apply pow2_nz. apply N.mod_small, Hl.
Qed.
Lemma bits_of_zero n : bits_of n 0 = repeat false n.
Proof. induction n as [|n IH]; [reflexivity|]. cbn [bits_of repeat]. rewrite IH, N.bits_0. reflexivity. Qed.

Lemma be_bytes_length n x : length (be_bytes n x) = n.
Proof. induction n; cbn; auto. Qed.
Lemma be_bytes_ok n x : bytes_ok (be_bytes n x).
Proof. induction n as [|n IH]; cbn; constructor; auto. unfold byte_ok. apply N.mod_lt. lia. Qed.
Lemma be_bytes_bits n x : bits_of_bytes (be_bytes n x) = bits_of (8 * n) x.
Proof.
  induction n as [|n IH]; [reflexivity|]. cbn [be_bytes]. unfold bits_of_bytes in *. cbn [map concat]. rewrite IH.
  replace (8 * S n)%nat with (8 + 8 * n)%nat by lia. rewrite bits_of_app. f_equal.
  rewrite (bits_of_mod 8 8) by lia. do 2 f_equal. lia.
Qed.
Lemma zero_bytes_bits n : bits_of_bytes (repeat 0 n) = repeat false (8 * n).
Proof.
  induction n as [|n IH]; [reflexivity|]. cbn [repeat]. unfold bits_of_bytes in *. cbn [map concat]. rewrite IH, bits_of_zero, <- repeat_app.
  f_equal. lia.
Qed.

(** * Padding *)

(* the words of the block after the message *)
Lemma least_pad b x k : (0 < b)%nat -> (k < b)%nat -> ((x + k) mod b = 0)%nat -> ((b - x mod b) mod b = k)%nat.
Proof.
  intros Hb Hk H. pose proof (Nat.div_mod x b ltac:(lia)) as Hx. pose proof (Nat.mod_upper_bound x b ltac:(lia)) as Hu.
  apply Nat.mod_divides in H; [|lia]. destruct H as [c Hc].
  assert (x mod b = b * (c - x / b) - k)%nat by nia.
  destruct (Nat.eq_dec (x mod b) 0) as [E|E].
  - rewrite E, Nat.sub_0_r, Nat.mod_same by lia. assert (c - x / b <= 1)%nat by nia. nia.
  - assert (c - x / b = 1)%nat by nia. rewrite Nat.mod_small by lia. nia.
Qed.

(* number of zero bytes PadMessage writes after the byte with the 1 bit, r = bytes pending *)
Definition zero_bytes (B L r : nat) : nat := if (B - L <=? r)%nat then (B - r - 1 + (B - L))%nat else (B - L - r - 1)%nat.

Lemma bytes_bits a : block_bits a = (8 * Block_Size (variant_for a))%nat /\ length_bits a = (8 * (2 * wbytes (variant_for a)))%nat /\
  N.to_nat (word_size a) = (8 * wbytes (variant_for a))%nat /\ (2 * wbytes (variant_for a) < Block_Size (variant_for a))%nat /\
  (0 < wbytes (variant_for a))%nat.
Proof. destruct a; vm_compute; repeat split; lia. Qed.

Lemma padded_bytes a full rest e pad high low :
  let V := variant_for a in let B := Block_Size V in
  Forall (fun b => length b = B) full -> (length rest < B)%nat -> (length e < 8)%nat ->
  bits_of 8 pad = e ++ true :: repeat false (7 - length e) ->
  low < 2 ^ word_size a ->
  high * 2 ^ word_size a + low = N.of_nat (8 * length (concat full ++ rest) + length e) ->
  padded a (bits_of_bytes (concat full ++ rest) ++ e) =
    bits_of_bytes (concat full ++ rest ++ pad :: repeat 0 (zero_bytes B (2 * wbytes V) (length rest)) ++ be_bytes (wbytes V) high ++ be_bytes (wbytes V) low).
Proof.
  intros V B Hfull Hrest He Hpad Hlow Hlen. destruct (bytes_bits a) as (Eb & El & Ew & HL & HW). fold V B in Eb, El, Ew, HL, HW.
  unfold padded. set (k := ((block_bits a - _) mod _)%nat).
  assert (Hk : k = (7 - length e + 8 * zero_bytes B (2 * wbytes V) (length rest))%nat).
  { unfold k. rewrite Eb, El. rewrite app_length, bits_of_bytes_length, app_length, (concat_length_n B) by exact Hfull.
    unfold zero_bytes. apply least_pad.
    - lia.
    - destruct (Nat.leb_spec (B - 2 * wbytes V) (length rest)); lia.
    - apply Nat.mod_divides; [lia|]. destruct (Nat.leb_spec (B - 2 * wbytes V) (length rest)).
      + exists (length full + 2)%nat. nia.
      + exists (length full + 1)%nat. nia. }
  rewrite Hk. clear k Hk. rewrite <- !app_assoc.
  replace (N.of_nat (length (bits_of_bytes (concat full ++ rest) ++ e)))
    with (high * 2 ^ word_size a + low) by (rewrite app_length, bits_of_bytes_length; exact Hlen).
  rewrite !bits_of_bytes_app, <- !app_assoc. do 2 f_equal.
  assert (E : forall l, bits_of_bytes (pad :: l) = bits_of 8 pad ++ bits_of_bytes l) by reflexivity.
  rewrite E, Hpad, !bits_of_bytes_app, <- app_assoc. cbn [app]. do 2 f_equal. rewrite repeat_app, <- app_assoc. f_equal.
  rewrite zero_bytes_bits, !be_bytes_bits, El. f_equal.
  replace (8 * (2 * wbytes V))%nat with (8 * wbytes V + 8 * wbytes V)%nat by lia.
  replace (word_size a) with (N.of_nat (8 * wbytes V)) in * by (rewrite <- Ew; apply N2Nat.id). apply bits_of_cat. exact Hlow.
Qed.

(* the blocks are the bytes, B at a time *)
Lemma blocks_bytes a (bl : list (list N)) m : Forall (fun b => length b = Block_Size (variant_for a)) bl -> bytes_ok (concat bl) ->
  padded a m = bits_of_bytes (concat bl) -> blocks_of a m = map (block_words (wbytes (variant_for a))) bl.
Proof.
  intros Hl Hb E. destruct (bytes_bits a) as (Eb & El & Ew & HL & HW). unfold blocks_of. rewrite E, bits_of_bytes_concat, Eb.
  rewrite split_concat.
  - rewrite map_map. apply map_ext_in. intros b Hi. rewrite Ew. rewrite Forall_forall in Hl. apply block_words_bits; auto.
    apply Forall_forall. intros x Hx. unfold bytes_ok in Hb. rewrite Forall_forall in Hb. apply Hb, in_concat. eauto.
  - lia.
  - apply Forall_map. eapply Forall_impl; [|exact Hl]. cbn. intros b Eb'. rewrite bits_of_bytes_length, Eb'. reflexivity.
Qed.

(** * The digest *)

Lemma bytes_of_word_ok a x : bytes_of_word a x = be_bytes (wbytes (variant_for a)) x.
Proof.
  destruct (bytes_bits a) as (Eb & El & Ew & HL & HW). unfold bytes_of_word. rewrite Ew, <- be_bytes_bits. unfold bits_of_bytes.
  rewrite split_concat; [|lia|].
  - rewrite map_map. rewrite <- (map_id (be_bytes _ x)) at 2. apply map_ext_in. intros b Hb. rewrite val_bits_of.
    apply N.mod_small. pose proof (be_bytes_ok (wbytes (variant_for a)) x) as H. unfold bytes_ok in H. rewrite Forall_forall in H. apply H, Hb.
  - apply Forall_map, Forall_forall. intros. apply bits_of_length.
Qed.

Lemma be_bytes_nth n x i : (i < n)%nat -> nth_error (be_bytes n x) i = Some (N.shiftr x (8 * N.of_nat (n - 1 - i)) mod 256).
Proof.
  revert i. induction n as [|n IH]; intros [|i] H; try lia; cbn [be_bytes nth_error].
  - do 3 f_equal. lia.
  - rewrite IH by lia. do 4 f_equal. lia.
Qed.
Lemma digest_byte_ok V h : (0 < wbytes V)%nat -> forall i, digest_byte V h i = nth_error (concat (map (be_bytes (wbytes V)) h)) i.
Proof.
  intros HW. unfold digest_byte. induction h as [|x h IH]; intros i; cbn [map concat].
  - destruct (i / wbytes V)%nat, i; reflexivity.
  - destruct (Nat.lt_ge_cases i (wbytes V)) as [H|H].
    + rewrite nth_error_app1 by (rewrite be_bytes_length; exact H). rewrite Nat.div_small, Nat.mod_small by exact H. cbn [nth_error obind].
      rewrite be_bytes_nth by exact H. reflexivity.
    + rewrite nth_error_app2 by (rewrite be_bytes_length; exact H). rewrite be_bytes_length, <- IH.
      assert (Ei : (i = (i - wbytes V) + 1 * wbytes V)%nat) by lia. revert Ei. generalize (i - wbytes V)%nat. intros j ->.
      rewrite Nat.div_add, Nat.mod_add by lia.
      rewrite Nat.add_1_r. reflexivity.
Qed.
Lemma skipn_nth {A} (l : list A) : forall i b, nth_error l i = Some b -> skipn i l = b :: skipn (S i) l.
Proof.
  induction l as [|x l IH]; intros [|i] b H; cbn [nth_error] in H; try discriminate; [injection H as ->; reflexivity|].
  cbn [skipn]. rewrite (IH i b H). reflexivity.
Qed.
Lemma digest_bytes_ok V h : (0 < wbytes V)%nat -> forall n i, (i + n <= wbytes V * length h)%nat ->
  digest_bytes V h n i = Some (firstn n (skipn i (concat (map (be_bytes (wbytes V)) h)))).
Proof.
  intros HW. induction n as [|n IH]; intros i H; [reflexivity|]. cbn [digest_bytes]. rewrite digest_byte_ok, IH by lia.
  assert (Hl : length (concat (map (be_bytes (wbytes V)) h)) = (length h * wbytes V)%nat).
  { rewrite (concat_length_n (wbytes V)); [rewrite map_length; reflexivity|]. apply Forall_map, Forall_forall. intros. apply be_bytes_length. }
  set (l := concat _) in *. destruct (nth_error l i) as [b|] eqn:E; [|apply nth_error_None in E; nia]. cbn [obind].
  rewrite (skipn_nth l i b E). reflexivity.
Qed.

Lemma digest_is a m h : fold_left (compress a) (blocks_of a m) (initial a) = h -> (digest_size a <= wbytes (variant_for a) * length h)%nat ->
  digest_bytes (variant_for a) h (HashSize (variant_for a)) 0 = Some (digest a m).
Proof.
  intros E H. assert (Es : HashSize (variant_for a) = digest_size a) by (destruct a; reflexivity).
  rewrite digest_bytes_ok by (rewrite ?Es; destruct (bytes_bits a); lia). cbn [skipn]. unfold digest. rewrite E, Es. do 3 f_equal.
  apply map_ext. intros x. symmetry. apply bytes_of_word_ok.
Qed.
