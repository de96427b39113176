(* The C operations on words are those of FIPS 180-2, the constants are the ones it describes,
   and ProcessMessageBlock is its compression function. *)
From Verif Require Import Base Sha_Spec Sha_Model.
Open Scope N_scope.

Lemma pow2_nz w : 2 ^ w <> 0.
Proof. apply N.pow_nonzero. discriminate. Qed.

Lemma lt_pow2_land w x : x < 2 ^ w <-> N.land x (N.ones w) = x.
Proof.
  rewrite N.land_ones. split; intros H.
  - apply N.mod_small. exact H.
  - rewrite <- H. apply N.mod_lt, pow2_nz.
Qed.
Lemma lxor_lt w a b : a < 2 ^ w -> b < 2 ^ w -> N.lxor a b < 2 ^ w.
Proof.
  rewrite !lt_pow2_land. intros Ha Hb. apply N.bits_inj. intros n.
  rewrite <- Ha at 2. rewrite <- Hb at 2. rewrite !N.land_spec, !N.lxor_spec, !N.land_spec.
  destruct (N.testbit a n), (N.testbit b n), (N.testbit (N.ones w) n); reflexivity.
Qed.
Lemma land_lt w a b : a < 2 ^ w -> N.land a b < 2 ^ w.
Proof.
  rewrite !lt_pow2_land. intros Ha. apply N.bits_inj. intros n.
  rewrite <- Ha at 2. rewrite !N.land_spec.
  destruct (N.testbit a n), (N.testbit b n), (N.testbit (N.ones w) n); reflexivity.
Qed.
Lemma mod_lt w x : x mod 2 ^ w < 2 ^ w.
Proof. apply N.mod_lt, pow2_nz. Qed.

(** * Rotations *)

Lemma rotr_lor w n x : n <= w -> x < 2 ^ w ->
  N.lor (N.shiftr x n) (N.shiftl x (w - n) mod 2 ^ w) = rotr w n x.
Proof.
  intros Hn Hx. rewrite N.shiftr_div_pow2, N.shiftl_mul_pow2, N.lor_comm.
  assert (Ew : 2 ^ w = 2 ^ n * 2 ^ (w - n)) by (rewrite <- N.pow_add_r; f_equal; lia).
  rewrite Ew at 1. rewrite N.mul_mod_distr_r by apply pow2_nz.
  rewrite <- N.shiftl_mul_pow2, lor_shift_add.
  - unfold rotr. rewrite N.add_comm. reflexivity.
  - apply N.div_lt_upper_bound; [apply pow2_nz|]. rewrite <- Ew. exact Hx.
Qed.
Lemma rotr_ok w n x : n <= w -> x < 2 ^ w -> SHA_ROTR w n x = rotr w n x.
Proof. apply rotr_lor. Qed.
Lemma rotl_ok n x : n <= 32 -> x < 2 ^ 32 -> SHA1_ROTL n x = rotl 32 n x.
Proof.
  intros Hn Hx. unfold SHA1_ROTL, c_shl, rotl. rewrite N.lor_comm.
  rewrite <- (rotr_lor 32 (32 - n) x) by (auto; lia). replace (32 - (32 - n)) with n by lia. reflexivity.
Qed.
Lemma rotr_lt w n x : n <= w -> x < 2 ^ w -> rotr w n x < 2 ^ w.
Proof.
  intros Hn Hx. unfold rotr. assert (Ew : 2 ^ w = 2 ^ n * 2 ^ (w - n)) by (rewrite <- N.pow_add_r; f_equal; lia).
  assert (H1 : x / 2 ^ n < 2 ^ (w - n)) by (apply N.div_lt_upper_bound; [apply pow2_nz|]; rewrite <- Ew; exact Hx).
  assert (H2 : x mod 2 ^ n < 2 ^ n) by apply mod_lt. rewrite Ew. clear Ew Hx.
  generalize dependent (x / 2 ^ n). generalize dependent (x mod 2 ^ n). intros r Hr q Hq.
  generalize dependent (2 ^ n). intros s Hr. generalize dependent (2 ^ (w - n)). intros u Hq. nia.
Qed.
Lemma shr_lt w n x : x < 2 ^ w -> shr n x < 2 ^ w.
Proof.
  intros Hx. unfold shr. eapply N.le_lt_trans; [|exact Hx]. apply N.div_le_upper_bound; [apply pow2_nz|].
  pose proof (pow2_nz n). nia.
Qed.
Lemma c_not_ok w x : x < 2 ^ w -> c_not w x = complement w x.
Proof.
  intros Hx. unfold c_not, complement. rewrite <- N.pred_sub, <- N.ones_equiv.
  change (N.lxor x (N.ones w)) with (N.lnot x w).
  destruct (N.eq_dec x 0) as [->|Hz].
  - rewrite N.lnot_0_l, N.sub_0_r. reflexivity.
  - apply N.lnot_sub_low. apply N.log2_lt_pow2; lia.
Qed.
Lemma complement_lt w x : complement w x < 2 ^ w.
Proof. unfold complement. pose proof (pow2_nz w). lia. Qed.
Lemma ch_ok w x y z : x < 2 ^ w -> SHA_Ch w x y z = ch w x y z.
Proof. intros H. unfold SHA_Ch, ch. rewrite c_not_ok by exact H. reflexivity. Qed.

Lemma addw_lt w l : addw w l < 2 ^ w.
Proof. apply mod_lt. Qed.
Lemma add2_ok w a b : c_add w a b = addw w [a; b].
Proof. unfold c_add, addw. cbn. f_equal. lia. Qed.
Lemma add_more w a l : addw w (addw w l :: a) = addw w (l ++ a).
Proof.
  unfold addw. cbn. rewrite N.add_mod_idemp_l by apply pow2_nz. f_equal.
  induction l as [|x l IH]; cbn; [reflexivity|]. rewrite <- IH. lia.
Qed.
Lemma add4_ok w a b c d : c_add w (c_add w (c_add w a b) c) d = addw w [a; b; c; d].
Proof. rewrite !add2_ok. repeat (rewrite add_more; cbn [app]). reflexivity. Qed.
Lemma add5_ok w a b c d e : c_add w (c_add w (c_add w (c_add w a b) c) d) e = addw w [a; b; c; d; e].
Proof. rewrite !add2_ok. repeat (rewrite add_more; cbn [app]). reflexivity. Qed.
Lemma addw_swap w a b c d e : addw w [a; b; c; d; e] = addw w [a; b; c; e; d].
Proof. unfold addw. cbn. f_equal. lia. Qed.

(** * Constants *)

Lemma cbrt_below_ok k : forall n r, r * r * r <= n -> n < (r + 2 ^ N.of_nat k) * (r + 2 ^ N.of_nat k) * (r + 2 ^ N.of_nat k) ->
  let s := cbrt_below k n r in s * s * s <= n < (s + 1) * (s + 1) * (s + 1).
Proof.
  induction k as [|k IH]; intros n r H1 H2; cbn [cbrt_below].
  - change (2 ^ N.of_nat 0) with 1 in H2. cbn. lia.
  - rewrite Nat2N.inj_succ, N.pow_succ_r' in H2.
    destruct (N.leb_spec ((r + 2 ^ N.of_nat k) * (r + 2 ^ N.of_nat k) * (r + 2 ^ N.of_nat k)) n) as [H|H].
    + apply IH; [exact H|]. eapply N.lt_le_trans; [exact H2|].
      replace (r + 2 ^ N.of_nat k + 2 ^ N.of_nat k) with (r + 2 * 2 ^ N.of_nat k) by lia. apply N.le_refl.
    + apply IH; [exact H1|exact H].
Qed.
Lemma cube_mono a b : a < b -> (a + 1) * (a + 1) * (a + 1) <= b * b * b.
Proof. intros H. assert (H' : a + 1 <= b) by lia. apply N.mul_le_mono; [apply N.mul_le_mono|]; exact H'. Qed.
Lemma cbrt_unique n r s : r * r * r <= n < (r + 1) * (r + 1) * (r + 1) -> s * s * s <= n < (s + 1) * (s + 1) * (s + 1) -> r = s.
Proof.
  intros [H1 H2] [H3 H4]. destruct (N.lt_trichotomy r s) as [H|[H|H]]; [|exact H|].
  - apply cube_mono in H. lia.
  - apply cube_mono in H. lia.
Qed.

(* a table entry checked by cubing; i = the integer part of the root *)
Definition cbrt_check (w : N) (pk : N * N * N) : bool :=
  let '(p, i, k) := pk in
  let r := i * 2 ^ w + k in
  (k <? 2 ^ w) && (r <? 2 ^ (w + 4)) && (r * r * r <=? p * 2 ^ (3 * w)) && (p * 2 ^ (3 * w) <? (r + 1) * (r + 1) * (r + 1)).
Lemma cbrt_check_ok w p i k : p < 512 -> cbrt_check w (p, i, k) = true -> cbrt_fraction w p = k.
Proof.
  intros Hp H. unfold cbrt_check in H. cbv zeta in H. repeat rewrite andb_true_iff in H. destruct H as [[[Hk Hr] H1] H2].
  apply N.ltb_lt in Hk, Hr, H2. apply N.leb_le in H1.
  unfold cbrt_fraction.
  assert (E : cbrt_below (N.to_nat w + 4) (p * 2 ^ (3 * w)) 0 = i * 2 ^ w + k).
  { symmetry. apply (cbrt_unique (p * 2 ^ (3 * w))); [split; assumption|]. apply cbrt_below_ok.
    - lia.
    - rewrite Nat2N.inj_add, N2Nat.id. change (N.of_nat 4) with 4. eapply N.lt_le_trans; [exact H2|]. rewrite N.add_0_l.
      apply cube_mono in Hr. exact Hr. }
  rewrite E, N.add_comm, N.mod_add by apply pow2_nz. apply N.mod_small. exact Hk.
Qed.

Definition prime_table : list N :=
  [2; 3; 5; 7; 11; 13; 17; 19; 23; 29; 31; 37; 41; 43; 47; 53; 59; 61; 67; 71; 73; 79; 83; 89; 97; 101; 103; 107; 109; 113;
   127; 131; 137; 139; 149; 151; 157; 163; 167; 173; 179; 181; 191; 193; 197; 199; 211; 223; 227; 229; 233; 239; 241; 251;
   257; 263; 269; 271; 277; 281; 283; 293; 307; 311; 313; 317; 331; 337; 347; 349; 353; 359; 367; 373; 379; 383; 389; 397;
   401; 409].
Lemma primes_ok : primes = prime_table.
Proof. vm_compute. reflexivity. Qed.
Definition int_cbrt (p : N) : N :=
  if p <? 8 then 1 else if p <? 27 then 2 else if p <? 64 then 3 else if p <? 125 then 4 else if p <? 216 then 5
  else if p <? 343 then 6 else 7.
Lemma table_ok w : forall ps ks, length ps = length ks -> Forall (fun p => p < 512) ps ->
  forallb (cbrt_check w) (map (fun pk => (fst pk, int_cbrt (fst pk), snd pk)) (combine ps ks)) = true ->
  map (cbrt_fraction w) ps = ks.
Proof.
  induction ps as [|p ps IH]; intros [|k ks] Hl Hp H; cbn in Hl; try discriminate; [reflexivity|].
  cbn [map combine forallb fst snd] in H. apply andb_true_iff in H as [H1 H2]. inversion Hp; subst.
  cbn [map]. rewrite (cbrt_check_ok w p (int_cbrt p) k) by assumption. f_equal. apply IH; auto.
Qed.
Lemma prime_table_small : Forall (fun p => p < 512) prime_table.
Proof. apply Forall_forall. intros p Hp. assert (H : forallb (fun p => p <? 512) prime_table = true) by (vm_compute; reflexivity).
  rewrite forallb_forall in H. apply N.ltb_lt. apply H. exact Hp. Qed.
Lemma forall_firstn {A} (P : A -> Prop) n l : Forall P l -> Forall P (firstn n l).
Proof. intros H. rewrite <- (firstn_skipn n l) in H. apply Forall_app in H. tauto. Qed.

Lemma K256_ok : sha2_k sha2_32 = K256.
Proof.
  unfold sha2_k. rewrite primes_ok. apply table_ok.
  - reflexivity.
  - apply forall_firstn, prime_table_small.
  - vm_compute. reflexivity.
Qed.
Lemma K512_ok : sha2_k sha2_64 = K512.
Proof.
  unfold sha2_k. rewrite primes_ok. apply table_ok.
  - reflexivity.
  - apply forall_firstn, prime_table_small.
  - vm_compute. reflexivity.
Qed.

(* the C file's variant for an algorithm *)
Definition variant_for (a : algorithm) : variant :=
  match a with Sha1 => vSHA1 | Sha224 => vSHA224 | Sha256 => vSHA256 | Sha384 => vSHA384 | Sha512 => vSHA512 end.
Lemma H0_ok a : H0 (variant_for a) = initial a.
Proof. unfold initial. rewrite primes_ok. destruct a; vm_compute; reflexivity. Qed.
Lemma word_bits_ok a : word_bits (variant_for a) = word_size a.
Proof. destruct a; reflexivity. Qed.

(** * Arrays *)

Lemma get_filled ws r i : (i < length ws)%nat -> get (filled ws ++ r) i = Some (nth i ws 0).
Proof.
  intros H. unfold get. rewrite nth_error_app1 by (rewrite filled_length; exact H).
  unfold filled. rewrite nth_error_map, (nth_error_nth' ws 0 H). reflexivity.
Qed.
Lemma get_filled' ws i : (i < length ws)%nat -> get (filled ws) i = Some (nth i ws 0).
Proof. intros H. rewrite <- (app_nil_r (filled ws)). apply get_filled. exact H. Qed.

Lemma store_next ws n v : store (filled ws ++ fresh (S n)) (length ws) v = Some (filled (ws ++ [v]) ++ fresh n).
Proof.
  rewrite <- (filled_length ws). change (fresh (S n)) with (None :: fresh n). rewrite store_app.
  unfold filled. rewrite map_app, <- app_assoc. reflexivity.
Qed.

(* P: a property all words have *)
Lemma fill_extend (P : N -> Prop) f next n : forall ws r, (16 <= length ws)%nat -> Forall P ws ->
  (forall ws' r', (16 <= length ws')%nat -> Forall P ws' ->
     f (length ws') (filled ws' ++ fresh r') = Some (next ws') /\ P (next ws')) ->
  fill f n (length ws) (filled ws ++ fresh (n + r)) = Some (filled (extend next n ws) ++ fresh r) /\ Forall P (extend next n ws).
Proof.
  induction n as [|n IH]; intros ws r H16 HP Hf; [split; [reflexivity|exact HP]|].
  cbn [fill extend]. destruct (Hf ws (S n + r)%nat H16 HP) as [E Ep]. rewrite E. cbn [obind].
  change (S n + r)%nat with (S (n + r)). rewrite store_next. cbn [obind].
  replace (S (length ws)) with (length (ws ++ [next ws])) by (rewrite app_length; cbn; lia).
  apply IH; [rewrite app_length; lia| |exact Hf]. apply Forall_app. auto.
Qed.
Lemma extend_length next n : forall ws, length (extend next n ws) = (n + length ws)%nat.
Proof. induction n as [|n IH]; intros ws; cbn; [reflexivity|]. rewrite IH, app_length. cbn. lia. Qed.

Lemma fill_load g vs : forall ws r, (forall i, (i < length vs)%nat -> g (length ws + i)%nat = Some (nth i vs 0)) ->
  fill (fun t _ => g t) (length vs) (length ws) (filled ws ++ fresh (length vs + r)) = Some (filled (ws ++ vs) ++ fresh r).
Proof.
  induction vs as [|v vs IH]; intros ws r H; [cbn; rewrite app_nil_r; reflexivity|].
  cbn [length fill]. pose proof (H 0%nat) as H1. cbn in H1. rewrite Nat.add_0_r in H1. rewrite H1 by lia. cbn [obind].
  change (S (length vs) + r)%nat with (S (length vs + r)). rewrite store_next. cbn [obind].
  replace (S (length ws)) with (length (ws ++ [v])) by (rewrite app_length; cbn; lia).
  rewrite IH; [rewrite <- app_assoc; reflexivity|]. intros i Hi. rewrite app_length. cbn [length].
  replace (length ws + 1 + i)%nat with (length ws + S i)%nat by lia. rewrite H by (cbn; lia). reflexivity.
Qed.

(** * Bits and bytes *)

Lemma fold_val l : forall a, fold_left (fun a b => 2 * a + N.b2n b) l a = a * 2 ^ N.of_nat (length l) + val l.
Proof.
  unfold val. induction l as [|b l IH]; intros a; cbn [fold_left length].
  - change (2 ^ N.of_nat 0) with 1. lia.
  - rewrite IH, (IH (2 * 0 + N.b2n b)), Nat2N.inj_succ, N.pow_succ_r'. lia.
Qed.
Lemma val_app l1 l2 : val (l1 ++ l2) = val l1 * 2 ^ N.of_nat (length l2) + val l2.
Proof. unfold val at 1. rewrite fold_left_app, fold_val. reflexivity. Qed.
Lemma bits_of_length n x : length (bits_of n x) = n.
Proof. induction n; cbn; auto. Qed.
Lemma val_bits_of n x : val (bits_of n x) = x mod 2 ^ N.of_nat n.
Proof.
  induction n as [|n IH]; cbn [bits_of].
  - change (2 ^ N.of_nat 0) with 1. rewrite N.mod_1_r. reflexivity.
  - change (N.testbit x (N.of_nat n) :: bits_of n x) with ([N.testbit x (N.of_nat n)] ++ bits_of n x).
    rewrite val_app, bits_of_length, IH. unfold val. cbn [fold_left].
    rewrite Nat2N.inj_succ, N.pow_succ_r', (N.mul_comm 2 (2 ^ N.of_nat n)), N.mod_mul_r by (try apply pow2_nz; discriminate).
    rewrite N.testbit_spec' . lia.
Qed.
Lemma bits_of_bytes_length l : length (bits_of_bytes l) = (8 * length l)%nat.
Proof. unfold bits_of_bytes. induction l as [|b l IH]; cbn [map concat length]; [reflexivity|]. rewrite app_length, IH, bits_of_length. lia. Qed.
Lemma bits_of_bytes_app l1 l2 : bits_of_bytes (l1 ++ l2) = bits_of_bytes l1 ++ bits_of_bytes l2.
Proof. unfold bits_of_bytes. rewrite map_app, concat_app. reflexivity. Qed.
Lemma bits_of_bytes_concat bl : bits_of_bytes (concat bl) = concat (map bits_of_bytes bl).
Proof. induction bl as [|b bl IH]; [reflexivity|]. cbn [concat map]. rewrite bits_of_bytes_app, IH. reflexivity. Qed.

(* the number bytes denote, most significant first *)
Definition be (l : list N) : N := fold_left (fun a b => 256 * a + b) l 0.
Lemma fold_be l : forall a, fold_left (fun a b => 256 * a + b) l a = a * 256 ^ N.of_nat (length l) + be l.
Proof.
  unfold be. induction l as [|b l IH]; intros a; cbn [fold_left length].
  - change (256 ^ N.of_nat 0) with 1. lia.
  - rewrite IH, (IH (256 * 0 + b)), Nat2N.inj_succ, N.pow_succ_r'. lia.
Qed.
Lemma val_bytes l : bytes_ok l -> val (bits_of_bytes l) = be l.
Proof.
  unfold bytes_ok. induction l as [|b l IH] using rev_ind; intros H; [reflexivity|].
  apply Forall_app in H as [H1 H2]. inversion H2; subst. rewrite bits_of_bytes_app, val_app, (IH H1).
  unfold be at 2. rewrite fold_left_app. fold (be l). cbn [fold_left].
  unfold bits_of_bytes. cbn [map concat]. rewrite app_nil_r, bits_of_length, val_bits_of.
  rewrite N.mod_small; [|exact H3]. change (2 ^ N.of_nat 8) with 256. lia.
Qed.

Lemma pieces_concat {A} n : forall (bl : list (list A)) fuel, (0 < n)%nat -> Forall (fun b => length b = n) bl ->
  (length bl <= fuel)%nat -> pieces fuel n (concat bl) = bl.
Proof.
  induction bl as [|b bl IH]; intros fuel Hn Hl Hf; [destruct fuel; reflexivity|].
  inversion Hl as [|? ? Hb Hl']; subst. destruct fuel as [|fuel]; cbn in Hf; [lia|]. cbn [concat pieces].
  destruct b as [|x b]; [cbn in Hn; lia|].
  change ((x :: b) ++ concat bl) with (x :: (b ++ concat bl)) at 1. cbn match.
  rewrite firstn_app, Nat.sub_diag, firstn_all, skipn_app, Nat.sub_diag, skipn_all. cbn [firstn skipn app].
  rewrite app_nil_r, IH; auto. lia.
Qed.
Lemma concat_length_n {A} n (bl : list (list A)) : Forall (fun b => length b = n) bl -> length (concat bl) = (length bl * n)%nat.
Proof. induction 1 as [|b bl Hb Hl IH]; [reflexivity|]. cbn. rewrite app_length, IH. lia. Qed.
Lemma split_concat {A} n (bl : list (list A)) : (0 < n)%nat -> Forall (fun b => length b = n) bl -> split_every n (concat bl) = bl.
Proof.
  intros Hn Hl. unfold split_every. apply pieces_concat; auto. rewrite (concat_length_n n) by exact Hl. nia.
Qed.
Lemma exact_pieces {A} n : forall k (l : list A), length l = (k * n)%nat ->
  exists bl, l = concat bl /\ Forall (fun b => length b = n) bl /\ length bl = k.
Proof.
  induction k as [|k IH]; intros l H.
  - exists []. destruct l; [auto|discriminate].
  - destruct (IH (skipn n l)) as (bl & E & Hl & Hk). { rewrite skipn_length. lia. }
    exists (firstn n l :: bl). repeat split.
    + cbn. rewrite <- E, firstn_skipn. reflexivity.
    + constructor; [|exact Hl]. rewrite firstn_length. lia.
    + cbn. lia.
Qed.

(* the words of a block of bytes *)
Definition block_words (n : nat) (l : list N) : list N := map be (split_every n l).
Lemma block_words_bits n l : (0 < n)%nat -> length l = (16 * n)%nat -> bytes_ok l ->
  map val (split_every (8 * n) (bits_of_bytes l)) = block_words n l.
Proof.
  intros Hn Hl Hb. destruct (exact_pieces n 16 l Hl) as (bl & -> & Hf & _). unfold block_words.
  rewrite bits_of_bytes_concat, !split_concat; auto; try lia.
  - rewrite map_map. apply map_ext_in. intros b Hi. apply val_bytes.
    apply Forall_forall. intros x Hx. unfold bytes_ok in Hb. rewrite Forall_forall in Hb. apply Hb.
    apply in_concat. eauto.
  - apply Forall_map. eapply Forall_impl; [|exact Hf]. cbn. intros b Eb. rewrite bits_of_bytes_length, Eb. reflexivity.
Qed.
