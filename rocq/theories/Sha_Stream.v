(* The context after any sequence of inputs holds the state of the standard's algorithm on what
   was put in. *)
From Verif Require Import Base Sha_Spec Sha_Model Sha_Words Sha_Compress Sha_Padding.
Open Scope N_scope.

#[local] Arguments Block_Size : simpl never.
#[local] Arguments variant_for : simpl never.
Section Stream.
Variable a : algorithm.
Notation V := (variant_for a).
Notation B := (Block_Size (variant_for a)).
Notation W := (wbytes (variant_for a)).

Lemma sizes : (2 * W < B)%nat /\ (0 < W)%nat /\ B = (16 * W)%nat /\ word_size a = N.of_nat (8 * W).
Proof. destruct a; vm_compute; repeat split; lia. Qed.

Definition hash_blocks (bl : list (list N)) : list N := fold_left (fun h b => compress a h (block_words W b)) bl (initial a).

Lemma initial_ok : length (initial a) = state_len a /\ Forall (fun x => x < 2 ^ word_size a) (initial a).
Proof. rewrite <- H0_ok. destruct a; split; try reflexivity; repeat constructor. Qed.

Lemma hash_blocks_snoc bl b : hash_blocks (bl ++ [b]) = compress a (hash_blocks bl) (block_words W b).
Proof. unfold hash_blocks. rewrite fold_left_app. reflexivity. Qed.
Lemma hash_blocks_ok bl : Forall (fun b => length b = B) bl -> bytes_ok (concat bl) ->
  length (hash_blocks bl) = state_len a /\ Forall (fun x => x < 2 ^ word_size a) (hash_blocks bl).
Proof.
  induction bl as [|b bl IH] using rev_ind; intros Hl Hb; [exact initial_ok|].
  apply Forall_app in Hl as [Hl Hl1]. inversion Hl1 as [|? ? Hlb _]; subst. unfold bytes_ok in Hb. rewrite concat_app in Hb. cbn in Hb. rewrite app_nil_r in Hb.
  apply Forall_app in Hb as [Hb Hb1]. destruct (IH Hl Hb) as [H1 H2]. rewrite hash_blocks_snoc.
  destruct (process_ok a (hash_blocks bl) b H1 H2 Hlb Hb1) as (_ & H3 & H4). auto.
Qed.

Definition same_meta (c c' : context) : Prop :=
  Length_Low c' = Length_Low c /\ Length_High c' = Length_High c /\ Computed c' = Computed c /\ Corrupted c' = Corrupted c.
Lemma same_meta_refl c : same_meta c c. Proof. unfold same_meta. auto. Qed.
Lemma same_meta_trans c1 c2 c3 : same_meta c1 c2 -> same_meta c2 c3 -> same_meta c1 c3.
Proof. unfold same_meta. intros (H1 & H2 & H3 & H4) (H5 & H6 & H7 & H8). repeat split; congruence. Qed.

Record buffered (c : context) (full : list (list N)) (rest : list N) : Prop := {
  b_full : Forall (fun b => length b = B) full;
  b_rest : (length rest <= B)%nat;
  b_bytes : bytes_ok (concat full ++ rest);
  b_hash : Intermediate_Hash c = hash_blocks full;
  b_idx : Message_Block_Index c = length rest;
  b_block : exists tail, Message_Block c = filled rest ++ tail /\ length tail = (B - length rest)%nat }.

Lemma put_byte_ok c full rest b : buffered c full rest -> (length rest < B)%nat -> b < 256 ->
  exists c', put_byte c b = Some c' /\ buffered c' full (rest ++ [b]) /\ same_meta c c'.
Proof.
  intros [H1 H2 H3 H4 H5 (tail & H6 & H7)] Hr Hb. unfold put_byte. rewrite H5, H6.
  destruct tail as [|x tail]; cbn in H7; [lia|]. rewrite <- (filled_length rest), store_app. cbn [obind].
  eexists. split; [reflexivity|]. split; [|unfold same_meta; cbn; auto].
  constructor; cbn [Intermediate_Hash Message_Block_Index Message_Block]; auto.
  - rewrite app_length. cbn. lia.
  - unfold bytes_ok in *. apply Forall_app in H3 as [H3 H3']. rewrite app_assoc, <- app_assoc. repeat (apply Forall_app; split; auto).
  - rewrite app_length, filled_length. cbn. lia.
  - exists tail. split; [unfold filled; rewrite map_app, <- app_assoc; reflexivity|]. rewrite app_length. cbn. lia.
Qed.

Lemma process_block_ok c full rest : buffered c full rest -> length rest = B ->
  exists c', ProcessMessageBlock V c = Some c' /\ buffered c' (full ++ [rest]) [] /\ same_meta c c'.
Proof.
  intros [H1 H2 H3 H4 H5 (tail & H6 & H7)] Hr. unfold ProcessMessageBlock. rewrite H4, H6.
  assert (E : tail = []) by (destruct tail; [reflexivity|cbn in H7; lia]). subst tail. rewrite app_nil_r in *.
  pose proof H3 as H3'. unfold bytes_ok in H3'. apply Forall_app in H3' as [H3a H3b]. destruct (hash_blocks_ok full H1 H3a) as [Hh1 Hh2].
  destruct (process_ok a (hash_blocks full) rest Hh1 Hh2 Hr H3b) as (E & _ & _). rewrite E. cbn [obind].
  eexists. split; [reflexivity|]. split; [|unfold same_meta; cbn; auto].
  constructor; cbn [Intermediate_Hash Message_Block_Index Message_Block length]; auto; try lia.
  - apply Forall_app. auto.
  - rewrite concat_app. cbn. rewrite !app_nil_r. exact H3.
  - rewrite hash_blocks_snoc. reflexivity.
  - exists (filled rest). split; [reflexivity|]. rewrite filled_length. lia.
Qed.

(** * Input *)

Definition total (c : context) : N := Length_High c * 2 ^ word_size a + Length_Low c.
Definition small (c : context) : Prop := Length_Low c < 2 ^ word_size a /\ Length_High c < 2 ^ word_size a.

Lemma AddLength_fields c n : let c' := AddLength V c n in
  Intermediate_Hash c' = Intermediate_Hash c /\ Message_Block_Index c' = Message_Block_Index c /\ Message_Block c' = Message_Block c /\ Computed c' = Computed c.
Proof. cbn. auto. Qed.

Lemma two_words : 2 ^ (2 * word_size a) = 2 ^ word_size a * 2 ^ word_size a.
Proof. rewrite <- N.pow_add_r. f_equal. lia. Qed.

Lemma AddLength_ok c n : small c -> n < 2 ^ word_size a -> let c' := AddLength V c n in
  small c' /\
  (total c + n < 2 ^ (2 * word_size a) -> total c' = total c + n /\ Corrupted c' = 0) /\
  (2 ^ (2 * word_size a) <= total c + n -> Corrupted c' = 1).
Proof.
  intros [Hl Hh] Hn. unfold AddLength. rewrite (word_bits_ok a). cbv zeta. rewrite two_words. unfold small, total.
  cbn [Length_Low Length_High Corrupted]. set (P := 2 ^ word_size a) in *.
  assert (HP : P <> 0) by apply pow2_nz.
  destruct (N.lt_ge_cases (Length_Low c + n) P) as [H|H].
  - rewrite N.mod_small by exact H. rewrite (proj2 (N.ltb_ge _ _)) by lia. cbn [andb]. repeat split; auto; nia.
  - assert (E : (Length_Low c + n) mod P = Length_Low c + n - P).
    { symmetry. apply N.mod_unique with (q := 1); lia. }
    rewrite E. rewrite (proj2 (N.ltb_lt _ _)) by lia. cbn [andb].
    destruct (N.lt_ge_cases (Length_High c + 1) P) as [G|G].
    + rewrite N.mod_small by exact G. rewrite (proj2 (N.eqb_neq _ _)) by lia. repeat split; auto; nia.
    + assert (G' : Length_High c + 1 = P) by lia. rewrite G', N.mod_same by exact HP. rewrite N.eqb_refl.
      repeat split; auto; try lia.
Qed.

(* the context after absorbing the bytes m *)
Record absorbing (c : context) (m : list N) : Prop := {
  s_buf : exists full rest, m = concat full ++ rest /\ (length rest < B)%nat /\ buffered c full rest;
  s_small : small c; s_total : total c = 8 * N.of_nat (length m);
  s_computed : Computed c = false; s_corrupted : Corrupted c = 0 }.

Lemma small_meta c c' : same_meta c c' -> small c -> small c'.
Proof. intros (H1 & H2 & _) [H3 H4]. split; congruence. Qed.
Lemma total_meta c c' : same_meta c c' -> total c' = total c.
Proof. intros (H1 & H2 & _). unfold total. congruence. Qed.

Lemma buffered_same c c' full rest : Intermediate_Hash c' = Intermediate_Hash c -> Message_Block_Index c' = Message_Block_Index c ->
  Message_Block c' = Message_Block c -> buffered c full rest -> buffered c' full rest.
Proof. intros E1 E2 E3 [H1 H2 H3 H4 H5 H6]. constructor; try rewrite E1; try rewrite E2; try rewrite E3; auto. Qed.

(* one byte *)
Lemma absorb_byte c m b : absorbing c m -> b < 256 ->
  exists c1, put_byte c (N.land b 0xFF) = Some c1 /\
    let c2 := AddLength V c1 8 in
    (8 * N.of_nat (S (length m)) < 2 ^ (2 * word_size a) ->
       exists c3, (if (Corrupted c2 =? 0) && (Message_Block_Index c2 =? B)%nat then ProcessMessageBlock V c2 else Some c2) = Some c3 /\
       absorbing c3 (m ++ [b])) /\
    (2 ^ (2 * word_size a) <= 8 * N.of_nat (S (length m)) -> Corrupted c2 = 1 /\ Computed c2 = false).
Proof.
  intros [(full & rest & -> & Hr & Hb) Hs Ht Hc Hk] Hbyte.
  assert (E : N.land b 0xFF = b). { change 0xFF with (N.ones 8). rewrite N.land_ones. apply N.mod_small. exact Hbyte. }
  rewrite E. destruct (put_byte_ok c full rest b Hb Hr Hbyte) as (c1 & E1 & Hb1 & Hm). exists c1. split; [exact E1|]. cbv zeta.
  assert (H8 : 8 < 2 ^ word_size a) by (destruct a; reflexivity).
  destruct (AddLength_ok c1 8 (small_meta _ _ Hm Hs) H8) as (Hs2 & Hok & Hover).
  rewrite (total_meta _ _ Hm), Ht in Hok, Hover.
  replace (8 * N.of_nat (length (concat full ++ rest)) + 8) with (8 * N.of_nat (S (length (concat full ++ rest)))) in * by lia.
  pose proof Hm as (Hm1 & Hm2 & Hm3 & Hm4).
  split.
  - intros Hlt. destruct (Hok Hlt) as [Ht2 Hk2]. rewrite Hk2, N.eqb_refl. cbn [andb].
    set (c2 := AddLength V c1 8) in *.
    assert (Hb2 : buffered c2 full (rest ++ [b])) by (eapply buffered_same; [..|exact Hb1]; reflexivity).
    rewrite (b_idx _ _ _ Hb2). destruct (Nat.eqb_spec (length (rest ++ [b])) B) as [EB|EB].
    + destruct (process_block_ok c2 full (rest ++ [b]) Hb2 EB) as (c3 & E3 & Hb3 & Hm'). exists c3. split; [exact E3|].
      constructor.
      * exists (full ++ [rest ++ [b]]), []. rewrite app_nil_r, concat_app. cbn. rewrite app_nil_r, app_assoc. pose proof sizes. split; [reflexivity|]. split; [lia|exact Hb3].
      * eapply small_meta; eauto.
      * rewrite (total_meta _ _ Hm'), Ht2, !app_length. cbn [length]. lia.
      * destruct Hm' as (_ & _ & H3 & _). rewrite H3. change (Computed c1 = false). congruence.
      * destruct Hm' as (_ & _ & _ & H4). congruence.
    + exists c2. split; [reflexivity|]. constructor; auto.
      * exists full, (rest ++ [b]). rewrite app_assoc. split; [reflexivity|]. split; [|exact Hb2].
        rewrite app_length in *. cbn in *. lia.
      * rewrite Ht2, !app_length. cbn [length]. lia.
      * change (Computed c1 = false). congruence.
  - intros Hge. split; [exact (Hover Hge)|]. change (Computed c1 = false). congruence.
Qed.

Definition fits (m : list N) : Prop := 8 * N.of_nat (length m) < 2 ^ (2 * word_size a).

Lemma input_loop_corrupted c l : Corrupted c = 1 -> input_loop V c l = Some c.
Proof. intros H. destruct l; [reflexivity|]. cbn. rewrite H. reflexivity. Qed.

Lemma input_loop_ok l : forall c m, absorbing c m -> bytes_ok l ->
  exists c', input_loop V c l = Some c' /\
    (fits (m ++ l) -> absorbing c' (m ++ l)) /\
    (~ fits (m ++ l) -> Corrupted c' = 1 /\ Computed c' = false).
Proof.
  induction l as [|b l IH]; intros c m Ha Hl.
  - rewrite app_nil_r. exists c. split; [reflexivity|]. split; [auto|]. intros H. exfalso. apply H. unfold fits.
    rewrite <- (s_total _ _ Ha). unfold total. destruct (s_small _ _ Ha) as [H1 H2]. rewrite two_words. nia.
  - inversion Hl as [|? ? Hb Hl']; subst. cbn [input_loop]. rewrite (s_corrupted _ _ Ha), N.eqb_refl.
    destruct (absorb_byte c m b Ha Hb) as (c1 & E1 & Hok & Hover). rewrite E1. cbn [obind].
    destruct (N.lt_ge_cases (8 * N.of_nat (S (length m))) (2 ^ (2 * word_size a))) as [H|H].
    + destruct (Hok H) as (c3 & E3 & Ha3). destruct (IH c3 (m ++ [b]) Ha3 Hl') as (c' & E & H1 & H2).
      rewrite <- !app_assoc in H1, H2. cbn [app] in H1, H2. exists c'. split; [|auto].
      destruct ((Corrupted (AddLength V c1 8) =? 0) && (Message_Block_Index (AddLength V c1 8) =? B)%nat).
      * rewrite E3. cbn [obind]. exact E.
      * injection E3 as ->. exact E.
    + destruct (Hover H) as [Hk Hc]. rewrite Hk. cbn [N.eqb andb]. rewrite input_loop_corrupted by exact Hk.
      eexists. split; [reflexivity|]. split; [|auto]. intros Hf. exfalso. unfold fits in Hf. rewrite app_length in Hf. cbn [length] in Hf. lia.
Qed.

(** * Padding and the end *)

Lemma zero_until_ok lim : (lim <= B)%nat -> forall fuel c full rest, buffered c full rest -> (lim <= length rest + fuel)%nat ->
  exists c', zero_until fuel lim c = Some c' /\ buffered c' full (rest ++ repeat 0 (lim - length rest)) /\ same_meta c c'.
Proof.
  intros Hlim. induction fuel as [|fuel IH]; intros c full rest Hb Hf; cbn [zero_until].
  - replace (lim - length rest)%nat with 0%nat by lia. cbn. rewrite app_nil_r. exists c. auto using same_meta_refl.
  - rewrite (b_idx _ _ _ Hb). destruct (Nat.ltb_spec (length rest) lim) as [H|H].
    + destruct (put_byte_ok c full rest 0 Hb) as (c1 & E1 & Hb1 & Hm1); [lia|lia|]. rewrite E1. cbn [obind].
      destruct (IH c1 full (rest ++ [0]) Hb1) as (c2 & E2 & Hb2 & Hm2); [rewrite app_length; cbn; lia|].
      exists c2. split; [exact E2|]. split; [|eapply same_meta_trans; eauto].
      rewrite app_length in Hb2. cbn [length] in Hb2. rewrite <- app_assoc in Hb2. cbn [app] in Hb2.
      replace (lim - length rest)%nat with (S (lim - (length rest + 1))) by lia. exact Hb2.
    + replace (lim - length rest)%nat with 0%nat by lia. cbn. rewrite app_nil_r. exists c. auto using same_meta_refl.
Qed.

Lemma pad_ok c full rest pad : buffered c full rest -> (length rest < B)%nat -> pad < 256 ->
  exists c' extra, PadMessage V c pad = Some c' /\ same_meta c c' /\
    Forall (fun b => length b = B) (full ++ extra) /\
    concat (full ++ extra) = concat full ++ rest ++ pad :: repeat 0 (zero_bytes B (2 * W) (length rest)) ++ be_bytes W (Length_High c) ++ be_bytes W (Length_Low c) /\
    bytes_ok (concat (full ++ extra)) /\ Intermediate_Hash c' = hash_blocks (full ++ extra).
Proof.
  intros Hb Hr Hp. destruct sizes as (HL & HW & _ & _). unfold PadMessage. cbv zeta. rewrite (b_idx _ _ _ Hb).
  destruct (put_byte_ok c full rest pad Hb Hr Hp) as (c1 & E1 & Hb1 & Hm1).
  (* after the part before the length *)
  assert (Hmid : exists c2 full2 rest2,
    obind (if (B - 2 * W <=? length rest)%nat
           then obind (put_byte c pad) (fun c => obind (zero_until B B c) (fun c => ProcessMessageBlock V c)) else put_byte c pad)
          (fun c => zero_until B (B - 2 * W) c) = Some c2 /\
    buffered c2 full2 rest2 /\ length rest2 = (B - 2 * W)%nat /\ same_meta c c2 /\
    (exists e, full2 = full ++ e) /\
    concat full2 ++ rest2 = concat full ++ rest ++ pad :: repeat 0 (zero_bytes B (2 * W) (length rest))).
  { unfold zero_bytes. destruct (Nat.leb_spec (B - 2 * W) (length rest)) as [H|H]; rewrite E1; cbn [obind].
    - destruct (zero_until_ok B ltac:(lia) B c1 full (rest ++ [pad]) Hb1) as (c2 & E2 & Hb2 & Hm2); [rewrite app_length; cbn; lia|].
      rewrite E2. cbn [obind]. rewrite app_length in Hb2. cbn [length] in Hb2.
      destruct (process_block_ok c2 full _ Hb2) as (c3 & E3 & Hb3 & Hm3).
      { rewrite !app_length, repeat_length. cbn. lia. }
      rewrite E3. cbn [obind].
      destruct (zero_until_ok (B - 2 * W) ltac:(lia) B c3 _ [] Hb3) as (c4 & E4 & Hb4 & Hm4); [cbn; lia|].
      exists c4. eexists _, _. split; [exact E4|]. split; [exact Hb4|]. split; [|split; [|split]].
      + cbn. rewrite repeat_length. lia.
      + eauto using same_meta_trans.
      + eauto.
      + cbn [app length]. rewrite concat_app. cbn [concat]. rewrite app_nil_r, <- !app_assoc. do 2 f_equal.
        cbn [app]. f_equal. rewrite <- repeat_app. f_equal. lia.
    - destruct (zero_until_ok (B - 2 * W) ltac:(lia) B c1 full (rest ++ [pad]) Hb1) as (c2 & E2 & Hb2 & Hm2); [rewrite app_length; cbn; lia|].
      exists c2. eexists _, _. split; [exact E2|]. split; [exact Hb2|]. split; [|split; [|split]].
      + rewrite !app_length, repeat_length. cbn. lia.
      + eauto using same_meta_trans.
      + exists []. rewrite app_nil_r. reflexivity.
      + rewrite app_length. cbn [length]. rewrite <- !app_assoc. cbn [app]. do 4 f_equal. lia. }
  destruct Hmid as (c2 & full2 & rest2 & E2 & Hb2 & Hl2 & Hm2 & (e & He) & Hcat).
  destruct (if (B - 2 * W <=? length rest)%nat then _ else _) as [c1'|]; cbn [obind] in E2; [|discriminate]. cbn [obind].
  rewrite E2. cbn [obind]. clear E2 c1'.
  destruct (b_block _ _ _ Hb2) as (tail & Eb & Ht). rewrite Hl2 in Ht.
  pose proof Hm2 as (Hlow & Hhigh & _). rewrite Hlow, Hhigh.
  set (lenb := be_bytes W (Length_High c) ++ be_bytes W (Length_Low c)) in *.
  assert (Hlenb : length lenb = (2 * W)%nat) by (unfold lenb; rewrite app_length, !be_bytes_length; lia).
  rewrite Eb. pose proof (store_all_app_gen lenb (filled rest2) tail []) as Es. rewrite !app_nil_r, filled_length, Hl2 in Es.
  rewrite Es by lia. cbn [obind]. clear Es.
  set (c3 := {| Intermediate_Hash := Intermediate_Hash c2; Message_Block := _ |}).
  set (c3' := {| Intermediate_Hash := Intermediate_Hash c3; Length_Low := Length_Low c3; Length_High := Length_High c3;
                 Message_Block_Index := length (rest2 ++ lenb); Message_Block := Message_Block c3; Computed := Computed c3; Corrupted := Corrupted c3 |}).
  assert (Hb3 : buffered c3' full2 (rest2 ++ lenb)).
  { destruct Hb2 as [H1 H2 H3 H4 H5 _]. constructor; cbn; auto.
    - rewrite app_length. lia.
    - unfold bytes_ok, lenb in *. apply Forall_app in H3 as [H3 H3']. repeat (apply Forall_app; split); auto; apply be_bytes_ok.
    - exists []. rewrite app_nil_r. unfold filled. rewrite map_app. split; [reflexivity|]. rewrite app_length. cbn. lia. }
  destruct (process_block_ok c3' full2 (rest2 ++ lenb) Hb3) as (c4 & E4 & Hb4 & Hm4); [rewrite app_length; lia|].
  exists c4, (e ++ [rest2 ++ lenb]). split; [exact E4|]. split; [|split; [|split; [|split]]].
  - destruct Hm4 as (M1 & M2 & M3 & M4). destruct Hm2 as (L1 & L2 & L3 & L4). repeat split; auto; cbn in *; congruence.
  - rewrite app_assoc, <- He. apply (b_full _ _ _ Hb4).
  - rewrite app_assoc, <- He, concat_app. cbn [concat]. rewrite app_nil_r, app_assoc, Hcat, <- !app_assoc. reflexivity.
  - pose proof (b_bytes _ _ _ Hb4) as H. rewrite app_nil_r in H. rewrite app_assoc, <- He. exact H.
  - rewrite app_assoc, <- He. apply (b_hash _ _ _ Hb4).
Qed.

(* finished with digest d *)
Definition finished (c : context) (d : list N) : Prop :=
  Computed c = true /\ Corrupted c = 0 /\ digest_bytes V (Intermediate_Hash c) (HashSize V) 0 = Some d.

Lemma Finalize_ok c full rest e pad : buffered c full rest -> (length rest < B)%nat -> (length e < 8)%nat ->
  bits_of 8 pad = e ++ true :: repeat false (7 - length e) -> pad < 256 -> small c ->
  exists c', Finalize V c pad = Some c' /\ Computed c' = true /\ Corrupted c' = Corrupted c /\
    (total c = N.of_nat (8 * length (concat full ++ rest) + length e) -> 
     digest_bytes V (Intermediate_Hash c') (HashSize V) 0 = Some (digest a (bits_of_bytes (concat full ++ rest) ++ e))).
Proof.
  intros Hb Hr He Hpad Hp [Hs1 Hs2]. unfold Finalize.
  destruct (pad_ok c full rest pad Hb Hr Hp) as (c1 & extra & E1 & Hm & Hl & Hc & Hok & Hh). rewrite E1. cbn [obind].
  eexists. split; [reflexivity|]. cbn [Computed Corrupted Intermediate_Hash]. split; [reflexivity|]. split; [apply Hm|].
  intros Ht. apply digest_is.
  - rewrite Hh. rewrite (blocks_bytes a (full ++ extra)); auto.
    + unfold hash_blocks. generalize (initial a). generalize (full ++ extra). intros bl. induction bl as [|x bl IH]; intros i; [reflexivity|]. cbn. apply IH.
    + rewrite Hc. apply padded_bytes; auto. apply (b_full _ _ _ Hb).
  - rewrite Hh. destruct (hash_blocks_ok (full ++ extra) Hl Hok) as [-> _]. destruct a; vm_compute; lia.
Qed.
End Stream.
