(* HMACSHA256_ComputeHash: what it leaves in the buffer. *)
From Coq Require Import ZArith.
From Verif Require Import Base Refine Sha_Spec Sha_Model Sha_History Sha_Props Hmac_Model Hmac_Props.
From Verif Require Import Buffer_Model Buffer_Spec Buffer_Proofs.
Open Scope N_scope.

(* the 32 bytes of mac over the start of the content, which has grown by 32 bytes *)
Definition overlay (c : option (list (option N))) (mac : list N) : list (option N) :=
  map Some mac ++ skipn 32 (bytes_of c ++ repeat None 32).

Lemma overlay_empty c mac : bytes_of c = [] -> overlay c mac = map Some mac.
Proof. intros H. unfold overlay. rewrite H. apply app_nil_r. Qed.

Lemma to_int_range n : (- 2 ^ 31 <= to_int n < 2 ^ 31)%Z.
Proof.
  unfold to_int. pose proof (N.mod_lt n (2 ^ 32)). destruct (Z.ltb_spec (Z.of_N (n mod 2 ^ 32)) (2 ^ 31)); cbn in *; lia.
Qed.
Lemma to_int_le n : (to_int n <= Z.of_N n)%Z.
Proof.
  unfold to_int. pose proof (N.mod_le n (2 ^ 32) ltac:(discriminate)). pose proof (N.mod_lt n (2 ^ 32) ltac:(discriminate)).
  assert (H1 : (Z.of_N (n mod 2 ^ 32) < 2 ^ 32)%Z) by lia.
  destruct (Z.ltb_spec (Z.of_N (n mod 2 ^ 32)) (2 ^ 31)); lia.
Qed.
Lemma to_int_small n : n < 2 ^ 31 -> to_int n = Z.of_N n.
Proof.
  intros H. unfold to_int. rewrite N.mod_small by lia. destruct (Z.ltb_spec (Z.of_N n) (2 ^ 31)); lia.
Qed.
Lemma to_int_large n : 2 ^ 31 <= n < 2 ^ 32 -> (to_int n < 0)%Z.
Proof.
  intros H. unfold to_int. rewrite N.mod_small by lia. destruct (Z.ltb_spec (Z.of_N n) (2 ^ 31)); lia.
Qed.
Lemma to_int_unsigned n : unsigned_of (to_int n) = Z.of_N (n mod 2 ^ 32).
Proof.
  unfold to_int, unsigned_of. pose proof (N.mod_lt n (2 ^ 32)).
  destruct (Z.ltb_spec (Z.of_N (n mod 2 ^ 32)) (2 ^ 31)).
  - destruct (Z.ltb_spec (Z.of_N (n mod 2 ^ 32)) 0); lia.
  - destruct (Z.ltb_spec (Z.of_N (n mod 2 ^ 32) - 2 ^ 32) 0); cbn in *; lia.
Qed.

Lemma denotes_prefix l n : n <= lenN l -> denotes (Some l) (Z.of_N n) = Some (firstn (N.to_nat n) l).
Proof. unfold denotes, lenN. intros H. rewrite (proj2 (Z.leb_le _ _)) by lia. do 2 f_equal. lia. Qed.

Lemma upd_again {A} (l : list A) : forall i x y, upd (upd l i x) i y = upd l i y.
Proof. induction l as [|z l IH]; intros [|i] x y; cbn; auto. f_equal. apply IH. Qed.

(* The general statement: whatever the lengths, the key is k, its first (int)keyLen bytes (none if
   that is negative), and the payload t is its first payloadLen mod 2^32 bytes. *)
Lemma compute_hash_general st sp key payload i c o : brepresents st sp -> blive sp i = Some c ->
  bytes_ok key -> bytes_ok payload -> key <> [] -> payload <> [] -> lenN (bytes_of c) + 32 < two64 ->
  let k := firstn (Z.to_nat (to_int (lenN key))) key in
  let t := firstn (N.to_nat (lenN payload mod 2 ^ 32)) payload in
  let mac := hmac_spec Sha256 k (bits_of_bytes t) in
  exists r st' o', HMACSHA256_ComputeHash st (Some key) (lenN key) (Some payload) (lenN payload) (Some i) o = Some ((r, st'), o') /\
    ((r = HMACSHA256_OK /\ brepresents st' (upd sp i (Some (Some (overlay c mac))))) \/
     (r = HMACSHA256_ERROR /\ brepresents st' sp /\ In false o)).
Proof.
  intros R L Hk Hp Nk Np Hsz k t mac. unfold HMACSHA256_ComputeHash.
  assert (Z1 : (lenN key =? 0) = false) by (apply N.eqb_neq; unfold lenN; destruct key; [congruence|cbn; lia]).
  assert (Z2 : (lenN payload =? 0) = false) by (apply N.eqb_neq; unfold lenN; destruct payload; [congruence|cbn; lia]).
  rewrite Z1, Z2. cbn [orb].
  destruct (buffer_simulate st sp (BEnlarge (Some i) 32) o R) as (m & Hm & Hsim). cbn [bsp_step] in Hsim. rewrite L in Hsim.
  cbn [N.eqb] in Hsim. rewrite (proj2 (N.ltb_lt _ _) Hsz) in Hsim. unfold bassign in Hsim.
  change (bstep st (BEnlarge (Some i) 32)) with (BUFFER_enlarge st (Some i) 32) in Hsim.
  assert (Hkey : denotes (Some key) (to_int (lenN key)) = Some k).
  { unfold denotes. assert (H : (to_int (lenN key) <= Z.of_nat (length key))%Z).
    { pose proof (to_int_le (lenN key)). unfold lenN in *. lia. }
    rewrite (proj2 (Z.leb_le _ _) H). reflexivity. }
  assert (Hpay : denotes (Some payload) (unsigned_of (to_int (lenN payload))) = Some t).
  { rewrite to_int_unsigned. apply denotes_prefix, N.mod_le. discriminate. }
  destruct m.
  - destruct (Hsim _ _ eq_refl) as (st1 & o1 & used & E & R1 & _). unfold bind. rewrite E. unfold lift at 1.
    rewrite (hmac_ints Sha256 key _ payload _ k t Hk (proj2 (to_int_range _)) Hkey Hp (to_int_range _) Hpay : hmac 2 _ _ _ _ = _).
    cbn [snd fst]. fold mac. assert (Lm : length mac = 32%nat).
    { apply (hmac_spec_length Sha256).
      - apply bytes_firstn, Hk.
      - unfold k. rewrite firstn_length. pose proof (to_int_range (lenN key)). lia.
      - apply bytes_firstn, Hp.
      - unfold t. rewrite firstn_length. pose proof (N.mod_lt (lenN payload) (2 ^ 32)). lia. }
    clearbody mac.
    set (c1 := bytes_of c ++ repeat None (N.to_nat 32)) in *.
    assert (L1 : blive (upd sp i (Some (Some c1))) i = Some (Some c1)).
    { unfold blive. rewrite upd_same; [reflexivity|]. apply nth_error_Some. unfold blive in L. destruct (nth_error sp i); congruence. }
    destruct (brep_get st1 _ i _ R1 L1) as (b & Eb & Hb). unfold write_start. rewrite Eb. destruct Hb as (Hb1 & Hb2 & Hb3). rewrite Hb1.
    assert (Lc : (32 <= length c1)%nat) by (unfold c1; rewrite app_length, repeat_length; lia).
    pose proof (store_all_prefix mac c1 ltac:(lia)) as Es. rewrite Lm in Es. rewrite Es. unfold lift, ret.
    eexists _, _, _. split; [reflexivity|]. left. split; [reflexivity|].
    assert (E2 : upd sp i (Some (Some (overlay c mac))) = upd (upd sp i (Some (Some c1))) i (Some (Some (overlay c mac)))).
    { symmetry. apply upd_again. }
    rewrite E2. apply brep_set; [exact R1|]. cbn [bwf buffer size]. split; [reflexivity|]. rewrite Hb2.
    assert (E3 : lenN (overlay c mac) = lenN c1).
    { unfold overlay, lenN. change (bytes_of c ++ repeat None 32) with c1. rewrite app_length, map_length, skipn_length, Lm. lia. }
    rewrite E3. split; [reflexivity|]. exact Hb3.
  - destruct (Hsim _ _ eq_refl) as (st1 & o1 & used & E & R1 & Eo & Hf). unfold bind. rewrite E. unfold ret.
    eexists _, _, _. split; [reflexivity|]. right. split; [reflexivity|]. split; [exact R1|]. apply Hm. reflexivity.
Qed.

(* C47, for keys and payloads of less than 2^31 bytes and an empty buffer: the 32 bytes of
   HMAC-SHA256; memory may run out, and then the buffer is as before *)
Theorem hmacsha256_partial st sp key payload i c o : brepresents st sp -> blive sp i = Some c -> bytes_of c = [] ->
  bytes_ok key -> bytes_ok payload -> key <> [] -> payload <> [] -> lenN key < 2 ^ 31 -> lenN payload < 2 ^ 31 ->
  exists r st' o', HMACSHA256_ComputeHash st (Some key) (lenN key) (Some payload) (lenN payload) (Some i) o = Some ((r, st'), o') /\
    ((r = HMACSHA256_OK /\ brepresents st' (upd sp i (Some (Some (map Some (hmac_spec Sha256 key (bits_of_bytes payload))))))) \/
     (r = HMACSHA256_ERROR /\ brepresents st' sp /\ In false o)).
Proof.
  intros R L Hc Hk Hp Nk Np Lk Lp.
  destruct (compute_hash_general st sp key payload i c o R L Hk Hp Nk Np) as (r & st' & o' & E & H); [rewrite Hc; reflexivity|].
  assert (Ek : firstn (Z.to_nat (to_int (lenN key))) key = key).
  { rewrite to_int_small by assumption. unfold lenN. replace (Z.to_nat (Z.of_N (N.of_nat (length key)))) with (length key) by lia. apply firstn_all. }
  assert (Ep : firstn (N.to_nat (lenN payload mod 2 ^ 32)) payload = payload).
  { rewrite N.mod_small by lia. unfold lenN. rewrite Nat2N.id. apply firstn_all. }
  rewrite Ek, Ep in H. exists r, st', o'. split; [exact E|]. rewrite overlay_empty in H by exact Hc. exact H.
Qed.

(* C47: NULL or empty arguments change nothing *)
Theorem hmacsha256_invalid st key keyLen payload payloadLen hash o :
  key = None \/ keyLen = 0 \/ payload = None \/ payloadLen = 0 \/ hash = None ->
  HMACSHA256_ComputeHash st key keyLen payload payloadLen hash o = Some ((HMACSHA256_INVALID_ARG, st), o).
Proof.
  unfold HMACSHA256_ComputeHash. intros H. destruct key as [k|], payload as [p|], hash as [i|]; try reflexivity.
  destruct (N.eqb_spec keyLen 0) as [|H1]; [reflexivity|]. destruct (N.eqb_spec payloadLen 0) as [|H2]; [reflexivity|].
  destruct H as [H|[H|[H|[H|H]]]]; congruence.
Qed.

(* C47 fails for a buffer that is not empty: the old content is overwritten in part, and what is
   in the buffer is not the 32 bytes *)
Theorem hmacsha256_nonempty_refuted : exists key payload (st st' : buffers) sp old content o',
  brepresents st sp /\ blive sp 0 = Some (Some old) /\
  HMACSHA256_ComputeHash st (Some key) (lenN key) (Some payload) (lenN payload) (Some 0%nat) [] = Some ((HMACSHA256_OK, st'), o') /\
  brepresents st' [Some (Some content)] /\
  content <> map Some (hmac_spec Sha256 key (bits_of_bytes payload)) /\
  content <> old ++ map Some (hmac_spec Sha256 key (bits_of_bytes payload)).
Proof.
  set (old := map Some (repeat 7 33)).
  assert (R : brepresents [Some {| buffer := PBlock old; size := 33 |}] [Some (Some old)]) by (repeat constructor).
  assert (H1 : bytes_ok [1]) by repeat constructor. assert (H2 : bytes_ok [2]) by repeat constructor.
  assert (Hsz : lenN (bytes_of (Some old)) + 32 < two64) by reflexivity.
  assert (Lm : length (hmac_spec Sha256 [1] (bits_of_bytes [2])) = 32%nat).
  { apply (hmac_spec_length Sha256 [1] [2]); [exact H1| |exact H2|]; cbn [length]; lia. }
  pose proof (compute_hash_general _ _ [1] [2] 0 (Some old) [] R eq_refl H1 H2 ltac:(discriminate) ltac:(discriminate) Hsz) as G. cbv zeta in G.
  replace (firstn (Z.to_nat (to_int (lenN [1]))) [1]) with [1] in G by reflexivity.
  replace (firstn (N.to_nat (lenN [2] mod 2 ^ 32)) [2]) with [2] in G by reflexivity.
  exists [1], [2], [Some {| buffer := PBlock old; size := 33 |}].
  generalize dependent (hmac_spec Sha256 [1] (bits_of_bytes [2])). intros mac Lm G.
  destruct G as (r & st' & o' & E & H).
  destruct H as [[-> H]|(_ & _ & [])].
  exists st', [Some (Some old)], old, (overlay (Some old) mac), o'.
  split; [exact R|]. split; [reflexivity|]. split; [exact E|]. split; [exact H|]. split.
  - intros K. apply (f_equal (@length _)) in K. unfold overlay in K. rewrite app_length, !map_length, skipn_length, Lm in K.
    cbn in K. lia.
  - intros K. assert (K1 : nth_error (old ++ map Some mac) 64 = nth_error (map Some mac) 31) by (rewrite nth_error_app2; [reflexivity|cbn; lia]).
    rewrite <- K in K1. unfold overlay in K1. rewrite nth_error_app2, map_length, Lm, nth_error_map in K1 by (rewrite map_length, Lm; lia).
    destruct (nth_error mac 31) as [x|] eqn:Ex; [cbn in K1; congruence|].
    apply nth_error_None in Ex. lia.
Qed.


(* C47 fails for keys of 2^31 bytes and more: (int)keyLen is negative and the code is computed
   with the empty key, whatever the key is *)
Theorem hmacsha256_long_key_ignored st sp key payload i c o : brepresents st sp -> blive sp i = Some c -> bytes_of c = [] ->
  bytes_ok key -> bytes_ok payload -> payload <> [] -> lenN payload < 2 ^ 31 -> 2 ^ 31 <= lenN key < 2 ^ 32 ->
  exists r st' o', HMACSHA256_ComputeHash st (Some key) (lenN key) (Some payload) (lenN payload) (Some i) o = Some ((r, st'), o') /\
    ((r = HMACSHA256_OK /\ brepresents st' (upd sp i (Some (Some (map Some (hmac_spec Sha256 [] (bits_of_bytes payload))))))) \/
     (r = HMACSHA256_ERROR /\ brepresents st' sp /\ In false o)).
Proof.
  intros R L Hc Hk Hp Np Lp Lk. assert (Nk : key <> []) by (intros ->; destruct Lk as [Lk _]; apply Lk; reflexivity).
  destruct (compute_hash_general st sp key payload i c o R L Hk Hp Nk Np) as (r & st' & o' & E & H); [rewrite Hc; reflexivity|].
  assert (Ek : firstn (Z.to_nat (to_int (lenN key))) key = []).
  { pose proof (to_int_large _ Lk). replace (Z.to_nat (to_int (lenN key))) with 0%nat by lia. reflexivity. }
  assert (Ep : firstn (N.to_nat (lenN payload mod 2 ^ 32)) payload = payload).
  { rewrite N.mod_small by lia. unfold lenN. rewrite Nat2N.id. apply firstn_all. }
  rewrite Ek, Ep in H. exists r, st', o'. split; [exact E|]. rewrite overlay_empty in H by exact Hc. exact H.
Qed.

(* ... and a payload of 2^32 bytes or more is cut to its length modulo 2^32: 2^32 + n bytes and
   their first n give the same code *)
Theorem hmacsha256_long_payload_cut st sp key payload i c o : brepresents st sp -> blive sp i = Some c -> bytes_of c = [] ->
  bytes_ok key -> bytes_ok payload -> key <> [] -> lenN key < 2 ^ 31 -> payload <> [] ->
  exists r st' o', HMACSHA256_ComputeHash st (Some key) (lenN key) (Some payload) (lenN payload) (Some i) o = Some ((r, st'), o') /\
    ((r = HMACSHA256_OK /\ brepresents st' (upd sp i (Some (Some (map Some
         (hmac_spec Sha256 key (bits_of_bytes (firstn (N.to_nat (lenN payload mod 2 ^ 32)) payload)))))))) \/
     (r = HMACSHA256_ERROR /\ brepresents st' sp /\ In false o)).
Proof.
  intros R L Hc Hk Hp Nk Lk Np.
  destruct (compute_hash_general st sp key payload i c o R L Hk Hp Nk Np) as (r & st' & o' & E & H); [rewrite Hc; reflexivity|].
  assert (Ek : firstn (Z.to_nat (to_int (lenN key))) key = key).
  { rewrite to_int_small by assumption. unfold lenN. replace (Z.to_nat (Z.of_N (N.of_nat (length key)))) with (length key) by lia. apply firstn_all. }
  rewrite Ek in H. exists r, st', o'. split; [exact E|]. rewrite overlay_empty in H by exact Hc. exact H.
Qed.

(** * Examples *)
Example hmacsha256_example : let st := [Some {| buffer := PNull; size := 0 |}] in let sp := [Some None] in
  brepresents st sp /\ blive sp 0 = Some None /\ bytes_ok (str "key") /\ bytes_ok (str "text") /\ lenN (str "key") < 2 ^ 31.
Proof. cbv zeta. repeat split; repeat constructor. Qed.
