(* hmac.c computes RFC 2104 for every history of calls. *)
From Coq Require Import ZArith.
From Verif Require Import Base Sha_Spec Sha_Model Sha_Words Sha_Compress Sha_Padding Sha_Stream Sha_History Sha_Props Hmac_Model.
Open Scope N_scope.
#[local] Arguments Block_Size : simpl never.
#[local] Arguments variant_for : simpl never.

(** * Specification of a history *)

Inductive hmac_state :=
| HReady (a : algorithm) (key' : list N) (inner : hash_state)   (* key' = the key made one block long *)
| HUnknown.                                                    (* a reset failed *)

(* the bytes a pointer and a length stand for; None = not that many there *)
Definition denotes (p : bytes_ptr) (n : Z) : option (list N) :=
  match p with
  | None => if (n <=? 0)%Z then Some [] else None
  | Some l => if (n <=? Z.of_nat (length l))%Z then Some (firstn (Z.to_nat n) l) else None
  end.

(* an int taken as unsigned int *)
Definition unsigned_of (n : Z) : Z := if (n <? 0)%Z then (n + 2 ^ 32)%Z else n.

Definition hmac_step (s : option hmac_state) (op : hop) : option (hres * option hmac_state) :=
  match op with
  | HReset true _ _ _ | HInput true _ _ | HFinalBits true _ _ | HResult true _ => Some ((shaNull, None), s)
  | HReset false w key n =>
      match algorithm_of w with
      | None => None
      | Some a =>
          match key with
          | None => if (Z.of_nat (block_bytes a) <? n)%Z && (n <? 2 ^ 31)%Z then Some ((1, None), Some HUnknown)
                    else if (n <=? 0)%Z then Some ((0, None), Some (HReady a (hmac_key a []) (Absorbing a (xor_pad 0x36 (hmac_key a [])))))
                    else None
          | Some _ =>
              if (n <? 2 ^ 31)%Z then
                match denotes key n with
                | Some k => Some ((0, None), Some (HReady a (hmac_key a k) (Absorbing a (xor_pad 0x36 (hmac_key a k)))))
                | None => None
                end
              else None
          end
      end
  | HInput false text n =>
      match s with
      | Some (HReady a k inner) =>
          match text with
          | None =>
              match hash_step (Some inner) (UInput false (inl (to_unsigned n))) with
              | Some (r, Some i') => Some (r, Some (HReady a k i'))
              | _ => None
              end
          | Some l =>
              if (- 2 ^ 31 <=? n)%Z && (n <? 2 ^ 31)%Z then
                match denotes text (unsigned_of n) with
                | Some t => match hash_step (Some inner) (UInput false (inr t)) with
                            | Some (r, Some i') => Some (r, Some (HReady a k i'))
                            | _ => None
                            end
                | None => None
                end
              else None
          end
      | _ => None
      end
  | HFinalBits false b n =>
      match s with
      | Some (HReady a k inner) =>
          match hash_step (Some inner) (UFinalBits false b n) with
          | Some (r, Some i') => Some (r, Some (HReady a k i'))
          | _ => None
          end
      | _ => None
      end
  | HResult false room =>
      match s with
      | Some (HReady a k inner) =>
          match hash_step (Some inner) (UResult false room) with
          | Some ((0, Some d), _) =>
              let mac := digest a (bits_of_bytes (xor_pad 0x5c k) ++ bits_of_bytes d) in
              Some ((0, Some mac), Some (HReady a k (Finished a mac)))
          | Some (_, Some i') => Some ((1, None), Some (HReady a k i'))
          | _ => None
          end
      | _ => None
      end
  end.

Fixpoint hmac_run (s : option hmac_state) (ops : list hop) : option (list hres * option hmac_state) :=
  match ops with
  | [] => Some ([], s)
  | op :: t =>
      match hmac_step s op with
      | None => None
      | Some (r, s') => match hmac_run s' t with Some (rs, s'') => Some (r :: rs, s'') | None => None end
      end
  end.

Definition ptr_ok (p : bytes_ptr) : Prop := match p with Some l => bytes_ok l | None => True end.
Definition hop_ok (op : hop) : Prop :=
  match op with HReset _ _ k _ => ptr_ok k | HInput _ t _ => ptr_ok t | HFinalBits _ b _ => b < 256 | _ => True end.

(** * Pads *)

Lemma xor_pad_length v l : length (xor_pad v l) = length l. Proof. apply map_length. Qed.
Lemma xor_pad_ok v l : v < 256 -> bytes_ok l -> bytes_ok (xor_pad v l).
Proof. intros Hv H. apply Forall_map. eapply Forall_impl; [|exact H]. intros x Hx. apply (lxor_lt 8); assumption. Qed.

Lemma store_pre pre x t v : store (filled pre ++ x :: t) (length pre) v = Some (filled (pre ++ [v]) ++ t).
Proof. rewrite <- (filled_length pre), store_app. unfold filled. rewrite map_app, <- app_assoc. reflexivity. Qed.

Lemma pad_loop_ok l : forall p1 p2 t1 t2, length p1 = length p2 -> (length l <= length t1)%nat -> (length l <= length t2)%nat ->
  pad_loop l (length p1) (filled p1 ++ t1) (filled p2 ++ t2) =
    Some (filled (p1 ++ xor_pad 0x36 l) ++ skipn (length l) t1, filled (p2 ++ xor_pad 0x5c l) ++ skipn (length l) t2).
Proof.
  induction l as [|b l IH]; intros p1 p2 t1 t2 Hp H1 H2; cbn [pad_loop xor_pad map length skipn].
  - rewrite !app_nil_r. reflexivity.
  - destruct t1 as [|x1 t1]; cbn in H1; [lia|]. destruct t2 as [|x2 t2]; cbn in H2; [lia|].
    rewrite store_pre. cbn [obind]. rewrite Hp, store_pre. cbn [obind].
    specialize (IH (p1 ++ [N.lxor b 0x36]) (p2 ++ [N.lxor b 0x5c]) t1 t2). rewrite !app_length in IH. cbn [length] in IH.
    rewrite Nat.add_1_r, Hp in IH. rewrite IH by lia. rewrite <- !app_assoc. cbn [app skipn].
    rewrite (N.lxor_comm b 0x36), (N.lxor_comm b 0x5c). reflexivity.
Qed.
Lemma zero_loop_ok n : forall p1 p2 t1 t2, length p1 = length p2 -> (n <= length t1)%nat -> (n <= length t2)%nat ->
  zero_loop n (length p1) (filled p1 ++ t1) (filled p2 ++ t2) =
    Some (filled (p1 ++ xor_pad 0x36 (repeat 0 n)) ++ skipn n t1, filled (p2 ++ xor_pad 0x5c (repeat 0 n)) ++ skipn n t2).
Proof.
  induction n as [|n IH]; intros p1 p2 t1 t2 Hp H1 H2; cbn [zero_loop repeat xor_pad map skipn].
  - rewrite !app_nil_r. reflexivity.
  - destruct t1 as [|x1 t1]; cbn in H1; [lia|]. destruct t2 as [|x2 t2]; cbn in H2; [lia|].
    rewrite store_pre. cbn [obind]. rewrite Hp, store_pre. cbn [obind].
    specialize (IH (p1 ++ [0x36]) (p2 ++ [0x5c]) t1 t2). rewrite !app_length in IH. cbn [length] in IH.
    rewrite Nat.add_1_r, Hp in IH. rewrite IH by lia. rewrite <- !app_assoc. reflexivity.
Qed.
Lemma read_n_ok l : forall p t, read_n (length l) (length p) (filled (p ++ l) ++ t) = Some l.
Proof.
  induction l as [|b l IH]; intros p t; cbn [length read_n]; [reflexivity|].
  rewrite get_filled by (rewrite app_length; cbn; lia). rewrite app_nth2, Nat.sub_diag by lia. cbn [nth obind].
  specialize (IH (p ++ [b]) t). rewrite app_length in IH. cbn [length] in IH. rewrite Nat.add_1_r, <- app_assoc in IH. cbn [app] in IH.
  rewrite IH. reflexivity.
Qed.

Lemma digest_bytes_length V h : forall n i d, digest_bytes V h n i = Some d -> length d = n /\ bytes_ok d.
Proof.
  induction n as [|n IH]; intros i d H; cbn [digest_bytes] in H.
  - injection H as <-. split; [reflexivity|constructor].
  - unfold digest_byte in H. destruct (nth_error h _) as [x|]; cbn [obind] in H; [|discriminate].
    destruct (digest_bytes V h n (S i)) as [r|] eqn:E; cbn [obind] in H; [|discriminate]. injection H as <-.
    destruct (IH _ _ E) as [H1 H2]. split; [cbn; lia|]. constructor; [|exact H2]. unfold byte_ok. apply N.mod_lt. lia.
Qed.
Lemma finished_ok a c d : finished a c d -> length d = digest_size a /\ bytes_ok d.
Proof. intros (_ & _ & H). apply digest_bytes_length in H as [H1 H2]. split; [|exact H2]. rewrite H1. destruct a; reflexivity. Qed.
Lemma digest_ok a l : bytes_ok l -> fits a l -> length (digest a (bits_of_bytes l)) = digest_size a /\ bytes_ok (digest a (bits_of_bytes l)).
Proof.
  intros Hl Hf. destruct (input_loop_ok a l _ [] (reset_ok a) Hl) as (c & _ & H & _). specialize (H Hf). cbn [app] in H.
  destruct (sha_result_ok a c (Absorbing a l) true) as (code & out & s' & c' & E1 & _ & E3).
  { split; [reflexivity|exact H]. }
  injection E1 as <- <- <-. destruct E3 as [_ E3]. eapply finished_ok; eauto.
Qed.

(** * The context *)

Definition hrepr (h : option hctx) (s : option hmac_state) : Prop :=
  match h, s with
  | None, None => True
  | Some x, Some HUnknown => length (k_opad x) = USHA_Max_Message_Block_Size
  | Some x, Some (HReady a k inner) =>
      algorithm_of (h_which x) = Some a /\ h_hash x = digest_size a /\ h_block x = block_bytes a /\
      length k = block_bytes a /\ bytes_ok k /\
      (exists t, k_opad x = filled (xor_pad 0x5c k) ++ t) /\ length (k_opad x) = USHA_Max_Message_Block_Size /\
      (exists u c, h_sha x = Some u /\ whichSha u = h_which x /\ uctx u = Some c /\ repr a c inner)
  | _, _ => False
  end.

Lemma which_sizes w a : algorithm_of w = Some a ->
  USHABlockSize w = block_bytes a /\ USHAHashSize w = digest_size a /\ Block_Size (variant_for a) = block_bytes a.
Proof.
  intros H. unfold USHABlockSize, USHAHashSize. rewrite variant_of_alg, H. destruct a; repeat split; reflexivity.
Qed.
Lemma bounds a : (1 <= digest_size a <= block_bytes a)%nat /\ (block_bytes a <= 128)%nat /\ (64 <= block_bytes a)%nat /\ (digest_size a <= 64)%nat.
Proof. destruct a; cbv; lia. Qed.
Lemma fits_small a l : N.of_nat (length l) < 2 ^ 32 -> fits a l.
Proof. intros H. unfold fits. assert (2 ^ 64 <= 2 ^ (2 * word_size a)) by (apply N.pow_le_mono_r; destruct a; cbn; lia). lia. Qed.

Lemma key_length a k : bytes_ok k -> N.of_nat (length k) < 2 ^ 32 -> length (hmac_key a k) = block_bytes a /\ bytes_ok (hmac_key a k).
Proof.
  intros Hk Hl. pose proof (bounds a) as (B1 & B2 & B3 & B4). unfold hmac_key.
  destruct (Nat.leb_spec (length k) (block_bytes a)) as [H|H].
  - split; [rewrite app_length, repeat_length; lia|]. apply Forall_app. split; [exact Hk|]. apply Forall_forall. intros x Hx. apply repeat_spec in Hx. subst. reflexivity.
  - destruct (digest_ok a k Hk (fits_small a k Hl)) as [D1 D2]. split; [rewrite app_length, repeat_length; lia|].
    apply Forall_app. split; [exact D2|]. apply Forall_forall. intros x Hx. apply repeat_spec in Hx. subst. reflexivity.
Qed.

(* a call on the inner context *)
Lemma inner_step w a u c inner op r s' : algorithm_of w = Some a -> whichSha u = w -> uctx u = Some c -> repr a c inner -> op_ok op ->
  hash_step (Some inner) op = Some (r, Some s') ->
  (forall b x, op <> UReset b x) ->
  exists u' c', ustep (Some u) op = Some (r, Some u') /\ whichSha u' = w /\ uctx u' = Some c' /\ repr a c' s'.
Proof.
  intros Ha Hw Hc Hr Hop Hs Hnr.
  assert (Hwr : wrepr (Some u) (Some inner)).
  { apply (wrepr_some u inner a c); auto; [eapply repr_not_bad; eauto|congruence]. }
  destruct op as [b x|[] x|[] b n|[] room]; try (exfalso; eapply Hnr; reflexivity);
    try (injection Hs as <- <-; exists u, c; cbn; auto).
  - cbn [ustep]. rewrite Hw, variant_of_alg, Ha, Hc. cbn [option_map].
    destruct (sha_input_ok a c inner x Hr Hop) as (code & s1 & c1 & E1 & E2 & E3). rewrite E1 in Hs. injection Hs as <- <-.
    rewrite E2. cbn [obind fst snd]. eexists _, c1. repeat split; auto.
  - cbn [ustep]. rewrite Hw, variant_of_alg, Ha, Hc. cbn [option_map].
    destruct (sha_finalbits_ok a c inner b n Hr Hop) as (code & s1 & c1 & E1 & E2 & E3). rewrite E1 in Hs. injection Hs as <- <-.
    rewrite E2. cbn [obind fst snd]. eexists _, c1. repeat split; auto.
  - cbn [ustep]. rewrite Hw, variant_of_alg, Ha, Hc. cbn [option_map].
    destruct (sha_result_ok a c inner room Hr) as (code & out & s1 & c1 & E1 & E2 & E3). rewrite E1 in Hs. injection Hs as <- <-.
    rewrite E2. cbn [obind fst snd]. eexists _, c1. repeat split; auto.
Qed.

Lemma reset_step w a u : algorithm_of w = Some a ->
  exists u' c', USHAReset u w = ((0, None), Some u') /\ whichSha u' = w /\ uctx u' = Some c' /\ repr a c' (Absorbing a []).
Proof.
  intros Ha. unfold USHAReset. rewrite variant_of_alg, Ha. cbn [option_map]. eexists _, _. split; [reflexivity|]. split; [reflexivity|].
  split; [reflexivity|]. split; [reflexivity|]. apply reset_ok.
Qed.
Lemma absorb_step w a u c m l : algorithm_of w = Some a -> whichSha u = w -> uctx u = Some c -> repr a c (Absorbing a m) -> bytes_ok l ->
  N.of_nat (length (m ++ l)) < 2 ^ 33 ->
  exists u' c', ustep (Some u) (UInput false (inr l)) = Some ((0, None), Some u') /\ whichSha u' = w /\ uctx u' = Some c' /\ repr a c' (Absorbing a (m ++ l)).
Proof.
  intros Ha Hw Hc Hr Hl Hs. eapply (inner_step w a u c (Absorbing a m)); [exact Ha|exact Hw|exact Hc|exact Hr|exact Hl| |discriminate]. cbn [hash_step]. destruct l as [|x l]; [rewrite app_nil_r; reflexivity|].
  unfold fitsb. rewrite (proj2 (N.ltb_lt _ _)); [reflexivity|].
  assert (2 ^ 64 <= 2 ^ (2 * word_size a)) by (apply N.pow_le_mono_r; destruct a; cbn; lia). lia.
Qed.
Lemma result_step w a u c m : algorithm_of w = Some a -> whichSha u = w -> uctx u = Some c -> repr a c (Absorbing a m) ->
  let d := digest a (bits_of_bytes m) in
  exists u' c', ustep (Some u) (UResult false true) = Some ((0, Some d), Some u') /\ whichSha u' = w /\ uctx u' = Some c' /\ repr a c' (Finished a d).
Proof. intros Ha Hw Hc Hr d. eapply (inner_step w a u c (Absorbing a m)); [exact Ha|exact Hw|exact Hc|exact Hr|exact I|reflexivity|discriminate]. Qed.

Lemma bytes_firstn n l : bytes_ok l -> bytes_ok (firstn n l).
Proof. apply forall_firstn. Qed.

(* the pads and the start of the inner hash *)
Lemma reset_tail w a l h0 : algorithm_of w = Some a -> bytes_ok l -> (length l <= block_bytes a)%nat -> length (k_opad h0) = USHA_Max_Message_Block_Size ->
  let key' := l ++ repeat 0 (block_bytes a - length l) in
  exists p1 p2 ip op u' c',
    pad_loop l 0 (fresh USHA_Max_Message_Block_Size) (k_opad h0) = Some (p1, p2) /\
    zero_loop (block_bytes a - length l) (length l) p1 p2 = Some (ip, op) /\
    (exists u1, USHAReset (h_sha h0) w = ((0, None), u1) /\
      read_n (block_bytes a) 0 ip = Some (xor_pad 0x36 key') /\
      ustep u1 (UInput false (inr (xor_pad 0x36 key'))) = Some ((0, None), Some u')) /\
    whichSha u' = w /\ uctx u' = Some c' /\ repr a c' (Absorbing a (xor_pad 0x36 key')) /\
    (exists t, op = filled (xor_pad 0x5c key') ++ t) /\ length op = USHA_Max_Message_Block_Size.
Proof.
  intros Ha Hl Hlen Ho key'. pose proof (bounds a) as (B1 & B2 & B3 & B4). change USHA_Max_Message_Block_Size with 128%nat in *.
  pose proof (pad_loop_ok l [] [] (fresh 128) (k_opad h0) eq_refl) as E1. cbn [filled map app length] in E1.
  rewrite fresh_length, Ho in E1. specialize (E1 ltac:(lia) ltac:(lia)).
  pose proof (zero_loop_ok (block_bytes a - length l) (xor_pad 0x36 l) (xor_pad 0x5c l) (skipn (length l) (fresh 128)) (skipn (length l) (k_opad h0))) as E2.
  rewrite !xor_pad_length, !skipn_length, fresh_length, Ho in E2. specialize (E2 eq_refl ltac:(lia) ltac:(lia)).
  assert (Ek : forall v, xor_pad v l ++ xor_pad v (repeat 0 (block_bytes a - length l)) = xor_pad v key').
  { intros v. unfold key', xor_pad. rewrite map_app. reflexivity. }
  rewrite !Ek in E2.
  assert (Lk : length key' = block_bytes a) by (unfold key'; rewrite app_length, repeat_length; lia).
  assert (Bk : bytes_ok key').
  { apply Forall_app. split; [exact Hl|]. apply Forall_forall. intros x Hx. apply repeat_spec in Hx. subst. reflexivity. }
  destruct (reset_step w a (h_sha h0) Ha) as (u1 & c1 & R1 & R2 & R3 & R4).
  destruct (absorb_step w a u1 c1 [] (xor_pad 0x36 key') Ha R2 R3 R4) as (u' & c' & S1 & S2 & S3 & S4).
  { apply xor_pad_ok; [reflexivity|exact Bk]. } { cbn [app]. rewrite xor_pad_length. lia. }
  do 6 eexists. split; [exact E1|]. split; [exact E2|]. split.
  { exists (Some u1). split; [exact R1|]. split; [|exact S1].
    rewrite <- Lk, <- (xor_pad_length 0x36 key'). apply (read_n_ok (xor_pad 0x36 key') []). }
  split; [exact S2|]. split; [exact S3|]. split; [exact S4|]. split; [eauto|].
  rewrite app_length, filled_length, xor_pad_length, Lk, !skipn_length, Ho. lia.
Qed.

Lemma hmacReset_ok h s w a key n k : hrepr h s -> algorithm_of w = Some a -> ptr_ok key -> (n < 2 ^ 31)%Z -> denotes key n = Some k ->
  exists h', hmacReset h w key n = Some (0, h') /\ hrepr (Some h') (Some (HReady a (hmac_key a k) (Absorbing a (xor_pad 0x36 (hmac_key a k))))).
Proof.
  intros Hr Ha Hk Hn Hd. pose proof (bounds a) as (B1 & B2 & B3 & B4). destruct (which_sizes w a Ha) as (W1 & W2 & W3).
  assert (Kok : bytes_ok k /\ length k = Z.to_nat n).
  { unfold denotes in Hd. destruct key as [l|].
    - destruct (Z.leb_spec n (Z.of_nat (length l))); [|discriminate]. injection Hd as <-. split; [apply bytes_firstn, Hk|]. rewrite firstn_length. lia.
    - destruct (Z.leb_spec n 0); [|discriminate]. injection Hd as <-. split; [constructor|]. cbn. lia. }
  destruct Kok as [Bk Lk].
  unfold hmacReset. rewrite W1, W2. cbv zeta. set (h0 := {| h_which := w |}).
  assert (Ho : length (k_opad h0) = USHA_Max_Message_Block_Size).
  { subst h0. cbn [k_opad]. destruct h as [x|]; [|reflexivity]. destruct s as [[a0 k0 i0|]|]; cbn [hrepr] in Hr; tauto. }
  assert (Hfin : forall l, bytes_ok l -> (length l <= block_bytes a)%nat -> hmac_key a k = l ++ repeat 0 (block_bytes a - length l) ->
    forall kp, exists h', (key_bytes kp (Z.of_nat (length l)) = Some l ->
     obind (key_bytes kp (Z.of_nat (length l))) (fun l => obind (pad_loop l 0 (fresh USHA_Max_Message_Block_Size) (k_opad h0))
       (fun p => obind (zero_loop (block_bytes a - length l) (length l) (fst p) (snd p)) (fun p =>
        let '(ipad, opad) := p in
        match USHAReset (h_sha h0) w with
        | ((e1, _), u1) =>
          let h1 u := {| h_which := w; h_hash := digest_size a; h_block := block_bytes a; h_sha := u; k_opad := opad |} in
          if e1 =? 0 then
            obind (read_n (block_bytes a) 0 ipad) (fun i =>
            obind (ustep u1 (UInput false (inr i))) (fun r =>
            Some (if fst (fst r) =? 0 then 0 else 1, h1 (snd r))))
          else Some (1, h1 u1)
        end))) = Some (0, h')) /\ hrepr (Some h') (Some (HReady a (hmac_key a k) (Absorbing a (xor_pad 0x36 (hmac_key a k)))))).
  { intros l Hl Hle Hkey kp. destruct (reset_tail w a l h0 Ha Hl Hle Ho) as (p1 & p2 & ip & op & u' & c' & E1 & E2 & (u1 & E3 & E4 & E5) & E6 & E7 & E8 & E9 & E10).
    rewrite <- Hkey in *. eexists. split.
    - intros ->. cbn [obind]. rewrite E1. cbn [obind fst snd]. rewrite E2. cbn [obind]. rewrite E3. cbv zeta. rewrite N.eqb_refl, E4. cbn [obind]. rewrite E5. cbn [obind fst snd].
      rewrite N.eqb_refl. reflexivity.
    - cbn [hrepr h_which h_hash h_block h_sha k_opad]. destruct (key_length a k Bk ltac:(lia)) as [L1 L2].
      repeat split; auto. exists u', c'. auto. }
  destruct (Z.ltb_spec (Z.of_nat (block_bytes a)) n) as [Hlong|Hshort].
  - (* key hashed first *)
    destruct key as [l|]; [|unfold denotes in Hd; destruct (Z.leb_spec n 0); [lia|discriminate]].
    destruct (reset_step w a None Ha) as (u1 & c1 & R1 & R2 & R3 & R4). rewrite R1, N.eqb_refl.
    unfold denotes in Hd. destruct (Z.leb_spec n (Z.of_nat (length l))) as [Hle|]; [|discriminate]. injection Hd as <-.
    unfold input_arg. assert (Hu : N.to_nat (to_unsigned n) = Z.to_nat n).
    { unfold to_unsigned. rewrite Z.mod_small by lia. lia. }
    rewrite Hu, (proj2 (Nat.leb_le _ _)) by lia. cbn [obind].
    destruct (absorb_step w a u1 c1 [] (firstn (Z.to_nat n) l) Ha R2 R3 R4 Bk) as (u2 & c2 & S1 & S2 & S3 & S4); [cbn [app]; rewrite Lk; lia|].
    rewrite S1. cbn [obind fst snd]. rewrite N.eqb_refl. destruct (result_step w a u2 c2 _ Ha S2 S3 S4) as (u3 & c3 & T1 & T2 & T3 & T4).
    rewrite T1. cbn [obind fst snd app]. cbn [app] in T4.
    destruct (digest_ok a (firstn (Z.to_nat n) l) Bk) as [D1 D2]; [apply fits_small; rewrite Lk; lia|].
    destruct (Hfin (digest a (bits_of_bytes (firstn (Z.to_nat n) l))) D2 ltac:(lia)) with (kp := Some (digest a (bits_of_bytes (firstn (Z.to_nat n) l)))) as (h' & G1 & G2).
    { unfold hmac_key. destruct (Nat.leb_spec (length (firstn (Z.to_nat n) l)) (block_bytes a)); [lia|]. reflexivity. }
    exists h'. split; [|exact G2]. rewrite D1 in G1. apply G1. unfold key_bytes. rewrite Nat2Z.id, D1, Nat.leb_refl, <- D1, firstn_all. reflexivity.
  - cbn [obind]. destruct (Hfin k Bk ltac:(lia)) with (kp := key) as (h' & G1 & G2).
    { unfold hmac_key. destruct (Nat.leb_spec (length k) (block_bytes a)); [|lia]. reflexivity. }
    exists h'. split; [|exact G2].
    assert (Hkb : key_bytes key n = Some k).
    { unfold denotes in Hd. unfold key_bytes. destruct key as [l|].
      - destruct (Z.leb_spec n (Z.of_nat (length l))); [|discriminate]. rewrite (proj2 (Nat.leb_le _ _)) by lia. exact Hd.
      - destruct (Z.leb_spec n 0); [|discriminate]. replace (Z.to_nat n) with 0%nat by lia. exact Hd. }
    assert (Hkb' : key_bytes key (Z.of_nat (length k)) = Some k).
    { unfold key_bytes in *. replace (Z.to_nat (Z.of_nat (length k))) with (Z.to_nat n) by lia. exact Hkb. }
    specialize (G1 Hkb'). rewrite Hkb' in G1. rewrite Hkb. exact G1.
Qed.

Lemma hmacResult_ok x a k inner room r s' : hrepr (Some x) (Some (HReady a k inner)) ->
  hmac_step (Some (HReady a k inner)) (HResult false room) = Some (r, s') ->
  exists h', hmacResult x room = Some (r, h') /\ hrepr (Some h') s'.
Proof.
  intros Hr Hs. cbn [hmac_step] in Hs. cbn [hrepr] in Hr. destruct Hr as (Ha & Hh & Hb & Lk & Bk & (t & Ht) & Ho & (u & c & Hu & Hw & Hc & Hi)).
  pose proof (bounds a) as (B1 & B2 & B3 & B4).
  destruct (sha_result_ok a c inner room Hi) as (code & out & s1 & c1 & E1 & _ & E3).
  destruct (inner_step (h_which x) a u c inner (UResult false room) _ _ Ha Hw Hc Hi I E1) as (u1 & c1' & U1 & U2 & U3 & U4); [discriminate|].
  unfold hmacResult. rewrite Hu, U1. cbn [obind fst snd]. rewrite E1 in Hs.
  (* the inner digest is there exactly when the code is 0 *)
  assert (Hout : code = 0 /\ (exists d, out = Some d /\ s1 = Finished a d) \/ (code <> 0 /\ out = None)).
  { clear Hs E3. unfold hash_step in E1. destruct room; cbn [negb] in E1.
    - destruct inner as [a' m|a' d|a' e f|]; cbn [repr] in Hi; try tauto; destruct Hi as [-> Hi]; injection E1 as <- <- <-.
      + left. eauto. + left. eauto. + right. split; [tauto|reflexivity].
    - destruct inner; cbn [repr] in Hi; try tauto; injection E1 as <- <- <-; right; split; [discriminate|reflexivity|discriminate|reflexivity|discriminate|reflexivity]. }
  destruct Hout as [[-> (d & -> & ->)]|[Hcode ->]].
  - (* outer hash *)
    injection Hs as <- <-. destruct U4 as [_ Hfin]. destruct (finished_ok a c1' d Hfin) as [D1 D2].
    destruct (reset_step (h_which x) a (Some u1) Ha) as (v1 & e1 & R1 & R2 & R3 & R4). rewrite R1, N.eqb_refl.
    rewrite Hb, Ht. assert (Hread : read_n (block_bytes a) 0 (filled (xor_pad 0x5c k) ++ t) = Some (xor_pad 0x5c k)).
    { rewrite <- Lk, <- (xor_pad_length 0x5c k). apply (read_n_ok (xor_pad 0x5c k) []). }
    rewrite Hread. cbn [obind].
    destruct (absorb_step (h_which x) a v1 e1 [] (xor_pad 0x5c k) Ha R2 R3 R4) as (v2 & e2 & S1 & S2 & S3 & S4).
    { apply xor_pad_ok; [reflexivity|exact Bk]. } { cbn [app]. rewrite xor_pad_length. lia. }
    rewrite S1. cbn [obind fst snd]. rewrite N.eqb_refl. unfold input_arg. rewrite Hh, Nat2N.id, D1, Nat.leb_refl, <- D1, firstn_all. cbn [obind].
    cbn [app] in S4. destruct (absorb_step (h_which x) a v2 e2 _ d Ha S2 S3 S4 D2) as (v3 & e3 & T1 & T2 & T3 & T4).
    { rewrite app_length, xor_pad_length. lia. }
    rewrite T1. cbn [obind fst snd]. rewrite N.eqb_refl. destruct (result_step (h_which x) a v3 e3 _ Ha T2 T3 T4) as (v4 & e4 & V1 & V2 & V3 & V4).
    rewrite V1. cbn [obind fst snd]. rewrite bits_of_bytes_app in *. eexists. split; [reflexivity|].
    cbn [hrepr h_which h_hash h_block h_sha k_opad]. rewrite D1. repeat split; auto.
    + rewrite Ht in Ho. eauto. 
    + congruence.
    + exists v4, e4. auto.
  - assert (Em : forall (A : Type) (y z : A), match code with 0 => y | _ => z end = z) by (intros; destruct code; [congruence|reflexivity]).
    assert (Hs' : Some ((1, None), Some (HReady a k s1)) = Some (r, s')) by (destruct code; [congruence|exact Hs]).
    injection Hs' as <- <-. destruct code as [|cp]; [congruence|]. eexists. split; [reflexivity|].
    cbn [hrepr h_which h_hash h_block h_sha k_opad]. repeat split; auto; [eauto|exists u1, c1'; auto].
Qed.

Lemma hstep_ok h s op r s' : hrepr h s -> hop_ok op -> hmac_step s op = Some (r, s') ->
  exists h', hstep h op = Some (r, h') /\ hrepr h' s'.
Proof.
  intros Hr Hop Hs.
  destruct op as [[] w key n|[] text n|[] b n|[] room]; try (injection Hs as <- <-; exists h; split; [reflexivity|exact Hr]).
  - cbn [hmac_step] in Hs. destruct (algorithm_of w) as [a|] eqn:Ha; [|discriminate]. cbn [hstep].
    assert (Hgood : forall k, (n < 2 ^ 31)%Z -> denotes key n = Some k ->
      Some ((0, None), Some (HReady a (hmac_key a k) (Absorbing a (xor_pad 0x36 (hmac_key a k))))) = Some (r, s') ->
      exists h', obind (hmacReset h w key n) (fun r => Some ((fst r, None), Some (snd r))) = Some (r, h') /\ hrepr h' s').
    { intros k H1 H2 H3. injection H3 as <- <-. destruct (hmacReset_ok h s w a key n k Hr Ha Hop H1 H2) as (h' & E & Hr').
      rewrite E. cbn [obind fst snd]. eauto. }
    destruct key as [l|].
    + destruct (Z.ltb_spec n (2 ^ 31)) as [H1|]; [|discriminate]. destruct (denotes (Some l) n) as [k|] eqn:E; [|discriminate].
      apply (Hgood k); auto.
    + destruct (Z.leb_spec n 0) as [H0|H0].
      * assert (E : (Z.of_nat (block_bytes a) <? n)%Z = false) by lia. rewrite E in Hs. cbn [andb] in Hs.
        apply (Hgood []); [lia| |exact Hs]. cbn. destruct (Z.leb_spec n 0); [reflexivity|lia].
      * destruct ((Z.of_nat (block_bytes a) <? n)%Z && (n <? 2 ^ 31)%Z) eqn:E; [|discriminate]. injection Hs as <- <-.
        apply andb_prop in E as [E1 E2]. destruct (which_sizes w a Ha) as (W1 & W2 & W3). unfold hmacReset. rewrite W1, W2, E1. cbv zeta.
        destruct (reset_step w a None Ha) as (u1 & c1 & R1 & R2 & R3 & R4). rewrite R1, N.eqb_refl. cbn [input_arg obind].
        assert (Hu : to_unsigned n <> 0). { unfold to_unsigned. rewrite Z.mod_small by lia. lia. }
        destruct (inner_step w a u1 c1 (Absorbing a []) (UInput false (inl (to_unsigned n))) (shaNull, None) (Absorbing a []) Ha R2 R3 R4 I) as (u2 & c2 & S1 & _).
        { cbn [hash_step]. rewrite (proj2 (N.eqb_neq _ _) Hu). reflexivity. } { discriminate. }
        rewrite S1. cbn [obind fst snd N.eqb shaNull]. eexists. split; [reflexivity|]. cbn [hrepr k_opad].
        destruct h as [x|]; [|reflexivity]. destruct s as [[a0 k0 i0|]|]; cbn [hrepr] in Hr; tauto.
  - destruct s as [[a k inner|]|]; try discriminate. destruct h as [x|]; [|destruct Hr]. cbn [hmac_step] in Hs. cbn [hstep obind].
    cbn [hrepr] in Hr. destruct Hr as (Ha & Hh & Hb & Lk & Bk & Ht & Ho & (u & c & Hu & Hw & Hc & Hi)).
    assert (Hgo : forall arg r0 i', op_ok (UInput false arg) -> input_arg text (to_unsigned n) = Some arg ->
      hash_step (Some inner) (UInput false arg) = Some (r0, Some i') -> Some (r0, Some (HReady a k i')) = Some (r, s') ->
      exists h', obind (hmacInput x text n) (fun r => Some ((fst r, None), Some (snd r))) = Some (r, h') /\ hrepr h' s').
    { intros arg r0 i' Hok Harg Hst E. injection E as <- <-. unfold hmacInput. rewrite Harg. cbn [obind].
      destruct (inner_step (h_which x) a u c inner (UInput false arg) r0 i' Ha Hw Hc Hi Hok Hst) as (u1 & c1 & U1 & U2 & U3 & U4); [discriminate|].
      rewrite Hu, U1. cbn [obind fst snd].
      destruct (sha_input_ok a c inner arg Hi Hok) as (code & s1 & c2 & E1 & _). rewrite E1 in Hst. injection Hst as <- <-.
      eexists. split; [reflexivity|]. cbn [hrepr h_which h_hash h_block h_sha k_opad]. repeat split; auto. exists u1, c1. auto. }
    destruct text as [l|].
    + destruct ((- 2 ^ 31 <=? n)%Z && (n <? 2 ^ 31)%Z) eqn:E; [|discriminate]. apply andb_prop in E as [E1 E2].
      unfold denotes in Hs. destruct (Z.leb_spec (unsigned_of n) (Z.of_nat (length l))) as [H|]; [|discriminate].
      destruct (hash_step (Some inner) _) as [[r0 [i'|]]|] eqn:Eh in Hs; try discriminate.
      eapply Hgo; [| |exact Eh|exact Hs].
      * cbn [op_ok]. apply bytes_firstn. exact Hop.
      * unfold input_arg. assert (Hn : N.to_nat (to_unsigned n) = Z.to_nat (unsigned_of n)).
        { unfold to_unsigned, unsigned_of. destruct (Z.ltb_spec n 0); [|rewrite Z.mod_small by lia; lia].
          rewrite <- (Z.mod_unique n (2 ^ 32) (-1) (n + 2 ^ 32)) by lia. lia. }
        rewrite Hn, (proj2 (Nat.leb_le _ _)) by lia. reflexivity.
    + destruct (hash_step (Some inner) _) as [[r0 [i'|]]|] eqn:Eh in Hs; try discriminate.
      apply (Hgo (inl (to_unsigned n)) r0 i'); [exact I|reflexivity|exact Eh|exact Hs].
  - destruct s as [[a k inner|]|]; try discriminate. destruct h as [x|]; [|destruct Hr]. cbn [hmac_step] in Hs. cbn [hstep obind].
    cbn [hrepr] in Hr. destruct Hr as (Ha & Hh & Hb & Lk & Bk & Ht & Ho & (u & c & Hu & Hw & Hc & Hi)).
    destruct (hash_step (Some inner) _) as [[r0 [i'|]]|] eqn:Hst in Hs; try discriminate. injection Hs as <- <-.
    destruct (inner_step (h_which x) a u c inner (UFinalBits false b n) r0 i' Ha Hw Hc Hi Hop Hst) as (u1 & c1 & U1 & U2 & U3 & U4); [discriminate|].
    unfold hmacFinalBits. rewrite Hu, U1. cbn [obind fst snd].
    destruct (sha_finalbits_ok a c inner b n Hi Hop) as (code & s1 & c2 & E1 & _). rewrite E1 in Hst. injection Hst as <- <-.
    eexists. split; [reflexivity|]. cbn [hrepr h_which h_hash h_block h_sha k_opad]. repeat split; auto. exists u1, c1. auto.
  - destruct s as [[a k inner|]|]; try discriminate. destruct h as [x|]; [|destruct Hr].
    destruct (hmacResult_ok x a k inner room r s' Hr Hs) as (h' & E & Hr'). cbn [hstep obind]. rewrite E. cbn [obind fst snd].
    exists (Some h'). destruct r. split; [reflexivity|exact Hr'].
Qed.

(* C46: every history of calls on one HMAC context *)
Theorem hmac_history ops rs s' : Forall hop_ok ops -> hmac_run None ops = Some (rs, s') -> exists h', hrun None ops = Some (rs, h').
Proof.
  intros Hok. enough (G : forall h s, hrepr h s -> forall rs s', hmac_run s ops = Some (rs, s') -> exists h', hrun h ops = Some (rs, h') /\ hrepr h' s').
  { intros H. destruct (G None None I rs s' H) as (h' & E & _). eauto. }
  clear rs s'. induction Hok as [|op ops Hop Hok IH]; intros h s Hr rs s' H; cbn [hmac_run hrun] in *.
  - injection H as <- <-. eauto.
  - destruct (hmac_step s op) as [[r s1]|] eqn:Es; [|discriminate].
    destruct (hmac_run s1 ops) as [[rs1 s2]|] eqn:Er; [|discriminate]. injection H as <- <-.
    destruct (hstep_ok h s op r s1 Hr Hop Es) as (h1 & E1 & Hr1). rewrite E1. cbn [obind fst snd].
    destruct (IH h1 s1 Hr1 _ _ Er) as (h2 & E2 & Hr2). rewrite E2. cbn [obind fst snd]. eauto.
Qed.

(** * Corollaries *)

Lemma hmac_run_app s ops1 ops2 : hmac_run s (ops1 ++ ops2) =
  match hmac_run s ops1 with
  | Some (r1, s1) => match hmac_run s1 ops2 with Some (r2, s2) => Some (r1 ++ r2, s2) | None => None end
  | None => None
  end.
Proof.
  revert s. induction ops1 as [|op ops1 IH]; intros s; cbn [app hmac_run].
  - destruct (hmac_run s ops2) as [[r2 s2]|]; reflexivity.
  - destruct (hmac_step s op) as [[r s1]|]; [|reflexivity]. rewrite IH. destruct (hmac_run s1 ops1) as [[r1 s2]|]; [|reflexivity].
    destruct (hmac_run s2 ops2) as [[r2 s3]|]; reflexivity.
Qed.

Definition len (l : list N) : Z := Z.of_nat (length l).
Definition give (l : list N) : hop := HInput false (Some l) (len l).
Lemma denotes_all l : denotes (Some l) (len l) = Some l.
Proof. unfold denotes, len. rewrite Z.leb_refl, Nat2Z.id, firstn_all. reflexivity. Qed.

Lemma gives_run a k : forall chunks m, Forall (fun c => (len c < 2 ^ 31)%Z) chunks ->
  8 * N.of_nat (length (m ++ concat chunks)) < 2 ^ (2 * word_size a) ->
  hmac_run (Some (HReady a k (Absorbing a m))) (map give chunks) = Some (map (fun _ => done) chunks, Some (HReady a k (Absorbing a (m ++ concat chunks)))).
Proof.
  induction chunks as [|c chunks IH]; intros m Hc H; cbn [map hmac_run concat]; [rewrite app_nil_r; reflexivity|].
  inversion Hc as [|? ? Hc1 Hc2]; subst. cbn [concat] in H. unfold give at 1. cbn [hmac_step].
  rewrite (proj2 (Z.leb_le _ _)), (proj2 (Z.ltb_lt _ _)) by (unfold len in *; lia). cbn [andb].
  replace (unsigned_of (len c)) with (len c) by (unfold unsigned_of, len; destruct (Z.ltb_spec (Z.of_nat (length c)) 0); lia). rewrite denotes_all.
  destruct c as [|x c].
  - cbn [hash_step app]. rewrite IH by auto. reflexivity.
  - cbn [hash_step]. unfold fitsb. rewrite (proj2 (N.ltb_lt _ _)) by (rewrite !app_length in *; lia).
    rewrite IH by (auto; rewrite <- app_assoc; exact H). rewrite <- app_assoc. reflexivity.
Qed.

Definition final (tail : option (N * nat)) : list hop := match tail with Some (b, n) => [HFinalBits false b (N.of_nat n)] | None => [] end.
Definition final_bits (tail : option (N * nat)) : list bool := match tail with Some (b, n) => firstn n (bits_of 8 b) | None => [] end.
Definition tail_ok (tail : option (N * nat)) : Prop := match tail with Some (b, n) => b < 256 /\ (1 <= n < 8)%nat | None => True end.

(* C46: for every key of less than 2^31 bytes, text, chunking and trailing bits: RFC 2104 *)
Theorem hmac_rfc2104 a key chunks tail : bytes_ok key -> (len key < 2 ^ 31)%Z -> Forall bytes_ok chunks -> Forall (fun c => (len c < 2 ^ 31)%Z) chunks ->
  tail_ok tail -> hashable a (bits_of_bytes (xor_pad 0x36 (hmac_key a key)) ++ bits_of_bytes (concat chunks) ++ final_bits tail) ->
  exists h', hrun None (HReset false (code_of a) (Some key) (len key) :: map give chunks ++ final tail ++ [HResult false true]) =
    Some (done :: map (fun _ => done) chunks ++ map (fun _ => done) (final tail) ++
          [(0, Some (hmac_spec a key (bits_of_bytes (concat chunks) ++ final_bits tail)))], h').
Proof.
  intros Hk Hkl Hc Hcl Ht Hh.
  assert (Hrun : exists s', hmac_run None (HReset false (code_of a) (Some key) (len key) :: map give chunks ++ final tail ++ [HResult false true]) =
    Some (done :: map (fun _ => done) chunks ++ map (fun _ => done) (final tail) ++
          [(0, Some (hmac_spec a key (bits_of_bytes (concat chunks) ++ final_bits tail)))], s')).
  { unfold hashable in Hh. rewrite !app_length, !bits_of_bytes_length in Hh.
    cbn [hmac_run hmac_step]. rewrite algorithm_code, denotes_all, (proj2 (Z.ltb_lt _ _)) by exact Hkl.
    rewrite hmac_run_app, gives_run by (auto; rewrite app_length; lia).
    destruct tail as [[b n]|]; cbn [final app map hmac_run hmac_step hash_step final_bits].
    - destruct Ht as [Hb Hn]. cbn [final_bits] in Hh. rewrite firstn_bits in Hh by lia.
      rewrite (proj2 (N.eqb_neq _ _)), (proj2 (N.leb_gt _ _)) by lia. unfold fitsb. rewrite (proj2 (N.ltb_lt _ _)) by (rewrite app_length; lia).
      rewrite Nat2N.id. cbn [hash_step negb]. unfold hmac_spec. rewrite bits_of_bytes_app, <- !app_assoc. eexists. reflexivity.
    - cbn [negb]. unfold hmac_spec. rewrite app_nil_r, bits_of_bytes_app. eexists. reflexivity. }
  destruct Hrun as (s' & Hrun). eapply hmac_history; [|exact Hrun].
  constructor; [exact Hk|]. apply Forall_app. split; [apply Forall_map; exact Hc|]. apply Forall_app. split; [|repeat constructor].
  destruct tail as [[b n]|]; cbn [final]; repeat constructor. apply Ht.
Qed.

Lemma give_step a k m text : (len text < 2 ^ 31)%Z -> N.of_nat (length m) < 2 ^ 32 ->
  hmac_step (Some (HReady a k (Absorbing a m))) (give text) = Some (done, Some (HReady a k (Absorbing a (m ++ text)))).
Proof.
  intros Ht Hm. pose proof (gives_run a k [text] m) as G. cbn [map concat hmac_run] in G. rewrite app_nil_r in G.
  assert (H : 8 * N.of_nat (length (m ++ text)) < 2 ^ (2 * word_size a)).
  { assert (2 ^ 64 <= 2 ^ (2 * word_size a)) by (apply N.pow_le_mono_r; destruct a; cbn; lia). rewrite app_length. unfold len in Ht. lia. }
  specialize (G ltac:(auto) H). destruct (hmac_step _ (give text)) as [[r s]|]; [|discriminate]. injection G as -> ->. reflexivity.
Qed.

(* hmac() itself *)
Theorem hmac_correct a key text : bytes_ok key -> (len key < 2 ^ 31)%Z -> bytes_ok text -> (len text < 2 ^ 31)%Z ->
  hmac (code_of a) (Some text) (len text) (Some key) (len key) = Some (0, Some (hmac_spec a key (bits_of_bytes text))).
Proof.
  intros Hk Hkl Ht Htl.
  destruct (hstep_ok None None (HReset false (code_of a) (Some key) (len key)) (0, None)
             (Some (HReady a (hmac_key a key) (Absorbing a (xor_pad 0x36 (hmac_key a key)))))) as (h1 & E1 & R1); [exact I|exact Hk| |].
  { cbn [hmac_step]. rewrite algorithm_code, denotes_all, (proj2 (Z.ltb_lt _ _)) by exact Hkl. reflexivity. }
  destruct (key_length a key Hk) as [Lk Bk]; [unfold len in Hkl; lia|]. pose proof (bounds a) as (B1 & B2 & B3 & B4).
  destruct (hstep_ok _ _ (give text) (0, None) (Some (HReady a (hmac_key a key) (Absorbing a (xor_pad 0x36 (hmac_key a key) ++ text)))) R1) as (h2 & E2 & R2); [exact Ht| |].
  { apply give_step; [exact Htl|]. rewrite xor_pad_length. lia. }
  destruct (hstep_ok _ _ (HResult false true) (0, Some (hmac_spec a key (bits_of_bytes text)))
              (Some (HReady a (hmac_key a key) (Finished a (hmac_spec a key (bits_of_bytes text))))) R2) as (h3 & E3 & R3); [exact I| |].
  { cbn [hmac_step hash_step negb]. unfold hmac_spec. rewrite bits_of_bytes_app. reflexivity. }
  unfold hmac. unfold give in E2. cbn [hstep] in E1, E2, E3.
  destruct (hmacReset None (code_of a) (Some key) (len key)) as [[c1 x1]|]; cbn [obind fst snd] in *; [|discriminate].
  injection E1 as -> <-. cbn [N.eqb obind] in *.
  destruct (hmacInput x1 (Some text) (len text)) as [[c2 x2]|]; cbn [obind fst snd] in *; [|discriminate]. injection E2 as -> <-. cbn [N.eqb obind] in *.
  destruct (hmacResult x2 true) as [[[c3 d3] x3]|]; cbn [obind fst snd] in *; [|discriminate]. injection E3 as -> -> _. reflexivity.
Qed.

(* Result is not repeatable, unlike USHAResult: the second call hashes the first code again *)
Theorem hmac_result_again a key text : bytes_ok key -> (len key < 2 ^ 31)%Z -> bytes_ok text -> (len text < 2 ^ 31)%Z ->
  let mac := hmac_spec a key (bits_of_bytes text) in
  exists h', hrun None [HReset false (code_of a) (Some key) (len key); give text; HResult false true; HResult false true] =
    Some ([done; done; (0, Some mac); (0, Some (digest a (bits_of_bytes (xor_pad 0x5c (hmac_key a key)) ++ bits_of_bytes mac)))], h').
Proof.
  intros Hk Hkl Ht Htl mac. eapply hmac_history; [repeat constructor; auto|].
  destruct (key_length a key Hk) as [Lk Bk]; [unfold len in Hkl; lia|]. pose proof (bounds a) as (B1 & B2 & B3 & B4).
  cbn [hmac_run hmac_step]. rewrite algorithm_code, denotes_all, (proj2 (Z.ltb_lt _ _)) by exact Hkl.
  rewrite give_step by (try exact Htl; rewrite xor_pad_length; lia). cbn [hash_step negb]. unfold mac, hmac_spec. rewrite bits_of_bytes_app. reflexivity.
Qed.

(* a selector that names no algorithm: the reset fails, whatever the key *)
Theorem hmac_bad_selector h w key n r h' : algorithm_of w = None -> hmacReset h w key n = Some (r, h') -> r = 1.
Proof.
  intros Hw. unfold hmacReset, USHAReset. rewrite !variant_of_alg, Hw. cbn [option_map]. cbv zeta.
  destruct (Z.ltb_spec (Z.of_nat (USHABlockSize w)) n); cbn [obind].
  - cbn. congruence.
  - destruct (key_bytes key n); cbn [obind]; [|discriminate]. destruct (pad_loop _ _ _ _) as [p|]; cbn [obind]; [|discriminate].
    destruct (zero_loop _ _ _ _) as [[q1 q2]|]; cbn [obind]; [|discriminate]. cbn. congruence.
Qed.

(* Hmac over the whole range of int: a negative key length is an empty key, a negative text
   length is taken as unsigned *)
Lemma hmac_ints a key n text m k t : bytes_ok key -> (n < 2 ^ 31)%Z -> denotes (Some key) n = Some k ->
  bytes_ok text -> (- 2 ^ 31 <= m < 2 ^ 31)%Z -> denotes (Some text) (unsigned_of m) = Some t ->
  hmac (code_of a) (Some text) m (Some key) n = Some (0, Some (hmac_spec a k (bits_of_bytes t))).
Proof.
  intros Hk Hn Hd Ht Hm Hdt.
  assert (Kok : bytes_ok k /\ N.of_nat (length k) < 2 ^ 32).
  { unfold denotes in Hd. destruct (Z.leb_spec n (Z.of_nat (length key))); [|discriminate]. injection Hd as <-. split; [apply bytes_firstn, Hk|].
    rewrite firstn_length. lia. }
  assert (Tok : N.of_nat (length t) < 2 ^ 32).
  { unfold denotes in Hdt. destruct (Z.leb_spec (unsigned_of m) (Z.of_nat (length text))); [|discriminate]. injection Hdt as <-.
    rewrite firstn_length. unfold unsigned_of in *. destruct (Z.ltb_spec m 0); lia. }
  destruct Kok as [Bk0 Lk0]. destruct (key_length a k Bk0 Lk0) as [Lk Bk]. pose proof (bounds a) as (B1 & B2 & B3 & B4).
  destruct (hstep_ok None None (HReset false (code_of a) (Some key) n) (0, None)
             (Some (HReady a (hmac_key a k) (Absorbing a (xor_pad 0x36 (hmac_key a k)))))) as (h1 & E1 & R1); [exact I|exact Hk| |].
  { cbn [hmac_step]. rewrite algorithm_code, Hd, (proj2 (Z.ltb_lt _ _)) by exact Hn. reflexivity. }
  destruct (hstep_ok _ _ (HInput false (Some text) m) (0, None) (Some (HReady a (hmac_key a k) (Absorbing a (xor_pad 0x36 (hmac_key a k) ++ t)))) R1) as (h2 & E2 & R2); [exact Ht| |].
  { cbn [hmac_step]. rewrite Hdt, (proj2 (Z.leb_le _ _)), (proj2 (Z.ltb_lt _ _)) by lia. cbn [andb hash_step].
    destruct t as [|y t]; [rewrite app_nil_r; reflexivity|]. unfold fitsb. rewrite (proj2 (N.ltb_lt _ _)); [reflexivity|].
    assert (2 ^ 64 <= 2 ^ (2 * word_size a)) by (apply N.pow_le_mono_r; destruct a; cbn; lia). rewrite app_length, xor_pad_length. lia. }
  destruct (hstep_ok _ _ (HResult false true) (0, Some (hmac_spec a k (bits_of_bytes t)))
              (Some (HReady a (hmac_key a k) (Finished a (hmac_spec a k (bits_of_bytes t))))) R2) as (h3 & E3 & R3); [exact I| |].
  { cbn [hmac_step hash_step negb]. unfold hmac_spec. rewrite bits_of_bytes_app. reflexivity. }
  unfold hmac. cbn [hstep] in E1, E2, E3.
  destruct (hmacReset None (code_of a) (Some key) n) as [[c1 x1]|]; cbn [obind fst snd] in *; [|discriminate].
  injection E1 as -> <-. cbn [N.eqb obind] in *.
  destruct (hmacInput x1 (Some text) m) as [[c2 x2]|]; cbn [obind fst snd] in *; [|discriminate]. injection E2 as -> <-. cbn [N.eqb obind] in *.
  destruct (hmacResult x2 true) as [[[c3 d3] x3]|]; cbn [obind fst snd] in *; [|discriminate]. injection E3 as -> -> _. reflexivity.
Qed.

Lemma hmac_spec_ok a k t : bytes_ok k -> N.of_nat (length k) < 2 ^ 32 -> bytes_ok t -> N.of_nat (length t) < 2 ^ 32 ->
  length (hmac_spec a k (bits_of_bytes t)) = digest_size a /\ bytes_ok (hmac_spec a k (bits_of_bytes t)).
Proof.
  intros Hk Lk Ht Lt. destruct (key_length a k Hk Lk) as [L1 L2]. pose proof (bounds a) as (B1 & B2 & B3 & B4). unfold hmac_spec. rewrite <- !bits_of_bytes_app.
  assert (Bip : bytes_ok (xor_pad 0x36 (hmac_key a k) ++ t)) by (apply Forall_app; split; [apply xor_pad_ok; [reflexivity|exact L2]|exact Ht]).
  assert (Fip : fits a (xor_pad 0x36 (hmac_key a k) ++ t)).
  { unfold fits. assert (2 ^ 64 <= 2 ^ (2 * word_size a)) by (apply N.pow_le_mono_r; destruct a; cbn; lia). rewrite app_length, xor_pad_length. lia. }
  destruct (digest_ok a _ Bip Fip) as [D1 D2]. apply digest_ok.
  - apply Forall_app. split; [apply xor_pad_ok; [reflexivity|exact L2]|exact D2].
  - apply fits_small. rewrite app_length, xor_pad_length, D1. lia.
Qed.
Lemma hmac_spec_length a k t : bytes_ok k -> N.of_nat (length k) < 2 ^ 32 -> bytes_ok t -> N.of_nat (length t) < 2 ^ 32 ->
  length (hmac_spec a k (bits_of_bytes t)) = digest_size a.
Proof. apply hmac_spec_ok. Qed.

(* What the functions asking for sizes answer: those of the algorithm (in bits: eight times its octets). *)
Theorem usha_sizes w a : algorithm_of w = Some a ->
  USHAHashSize w = digest_size a /\ USHAHashSizeBits w = (8 * digest_size a)%nat /\ USHABlockSize w = block_bytes a.
Proof.
  intros H. destruct (which_sizes w a H) as (B & D & _). split; [exact D|]. split; [|exact B].
  revert H. unfold algorithm_of, USHAHashSizeBits. repeat (let x := fresh in destruct w as [|w]; try discriminate); 
  repeat match goal with |- context [match ?p with _ => _ end] => destruct p; try discriminate end; intros E; injection E as <-; reflexivity.
Qed.
