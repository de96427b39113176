(* The USHA functions compute FIPS 180-2, for any chunking, any final bits, any history. *)
From Verif Require Import Base Sha_Spec Sha_Model Sha_Words Sha_Compress Sha_Padding Sha_Stream Sha_History.
Open Scope N_scope.
#[local] Arguments Block_Size : simpl never.
#[local] Arguments variant_for : simpl never.

(** * The contexts *)

Definition repr (a : algorithm) (c : context) (s : hash_state) : Prop :=
  match s with
  | Absorbing a' m => a' = a /\ absorbing a c m
  | Finished a' d => a' = a /\ finished a c d
  | Broken a' e fin => a' = a /\ Corrupted c = e /\ e <> 0 /\ Computed c = fin
  | BadParam => False
  end.

Definition wrepr (u : option usha) (s : option hash_state) : Prop :=
  match u, s with
  | None, None => True
  | Some x, Some BadParam => algorithm_of (whichSha x) = None
  | Some x, Some s' => exists a c, algorithm_of (whichSha x) = Some a /\ uctx x = Some c /\ repr a c s'
  | _, _ => False
  end.

Lemma variant_of_alg w : variant_of w = option_map variant_for (algorithm_of w).
Proof. destruct w as [|p]; [reflexivity|]. repeat (destruct p; try reflexivity). Qed.

Lemma reset_ok a : absorbing a (sha_reset (variant_for a)) [].
Proof.
  pose proof (sizes a) as (H1 & H2 & H3 & H4). constructor; try reflexivity.
  - exists [], []. split; [reflexivity|]. split; [cbn; lia|]. constructor.
    + constructor.
    + cbn. lia.
    + constructor.
    + apply H0_ok.
    + reflexivity.
    + exists (fresh (Block_Size (variant_for a))). split; [reflexivity|]. rewrite fresh_length. cbn. lia.
  - unfold small. cbn [sha_reset Length_Low Length_High]. split; destruct a; reflexivity.
Qed.

Lemma final_byte b n : b < 256 -> (1 <= n < 8)%nat ->
  exists mask mark, nth_error masks n = Some mask /\ nth_error markbit n = Some mark /\
    let pad := N.lor (N.land b mask) mark in
    bits_of 8 pad = firstn n (bits_of 8 b) ++ true :: repeat false (7 - n) /\ pad < 256.
Proof.
  intros Hb Hn. destruct n as [|[|[|[|[|[|[|[|n]]]]]]]]; try lia; cbn [masks markbit nth_error];
    eexists _, _; (split; [reflexivity|]); (split; [reflexivity|]); cbv zeta;
    (split; [cbn [bits_of firstn app repeat Nat.sub]; rewrite !N.lor_spec, !N.land_spec; vm_compute N.testbit at 1;
             cbn; rewrite ?andb_true_r, ?andb_false_r, ?orb_false_r, ?orb_true_r; reflexivity
            |apply (Sha_Words.lt_pow2_land 8); rewrite N.land_lor_distr_l, <- N.land_assoc; reflexivity]).
Qed.

Lemma fits_spec a m : fitsb a (8 * N.of_nat (length m)) = true <-> fits a m.
Proof. unfold fitsb, fits. apply N.ltb_lt. Qed.

Lemma sha_input_ok a c s x : repr a c s -> op_ok (UInput false x) ->
  exists code s' c', hash_step (Some s) (UInput false x) = Some ((code, None), Some s') /\
    sha_input (variant_for a) (Some c) x = Some (code, Some c') /\ repr a c' s'.
Proof.
  intros Hr Hb. destruct x as [k|[|x l]].
  - exists (if k =? 0 then shaSuccess else shaNull), s, c. destruct k as [|k].
    + destruct s; cbn in *; auto; tauto.
    + destruct s; cbn in *; auto; tauto.
  - exists shaSuccess, s, c. destruct s; cbn in *; auto; tauto.
  - cbn [sha_input hash_step op_ok] in *. generalize dependent (x :: l). intros l' Hb.
    destruct s as [a' m|a' d|a' e fin|]; cbn [repr] in Hr; try tauto; destruct Hr as [-> Hr].
    + rewrite (s_computed _ _ _ Hr), (s_corrupted _ _ _ Hr), N.eqb_refl. cbn [negb].
      destruct (input_loop_ok a l' c m Hr Hb) as (c' & E & H1 & H2). rewrite E. cbn [obind].
      eexists _, _, c'. split; [reflexivity|]. split; [reflexivity|].
      destruct (fitsb a (8 * N.of_nat (length (m ++ l')))) eqn:F.
      * split; [reflexivity|]. apply H1, fits_spec, F.
      * destruct H2 as [H2 H3]; [rewrite <- fits_spec; congruence|]. repeat split; auto. lia.
    + destruct Hr as (H1 & H2 & H3). rewrite H1.
      eexists _, _, _. split; [reflexivity|]. split; [reflexivity|]. repeat split; auto. discriminate.
    + destruct Hr as (H1 & H2 & H3). rewrite H3. destruct fin.
      * eexists _, _, _. split; [reflexivity|]. split; [reflexivity|]. repeat split; auto. discriminate.
      * rewrite H1. destruct (N.eqb_spec e 0); [congruence|]. cbn [negb].
        eexists _, _, _. split; [reflexivity|]. split; [reflexivity|]. repeat split; auto.
Qed.

Lemma firstn_bits n b : (n <= 8)%nat -> length (firstn n (bits_of 8 b)) = n.
Proof. intros H. rewrite firstn_length, bits_of_length. lia. Qed.

Lemma sha_finalbits_ok a c s b n : repr a c s -> b < 256 ->
  exists code s' c', hash_step (Some s) (UFinalBits false b n) = Some ((code, None), Some s') /\
    sha_finalbits (variant_for a) (Some c) b n = Some (code, Some c') /\ repr a c' s'.
Proof.
  intros Hr Hb. unfold sha_finalbits, hash_step. destruct (N.eqb_spec n 0) as [->|Hn].
  { exists shaSuccess, s, c. destruct s; cbn in *; auto; tauto. }
  rewrite orb_false_r.
  destruct s as [a' m|a' d|a' e fin|]; cbn [repr] in Hr; try tauto; destruct Hr as [-> Hr].
  - rewrite (s_computed _ _ _ Hr), (s_corrupted _ _ _ Hr), N.eqb_refl. cbn [negb orb].
    destruct (N.leb_spec 8 n) as [H8|H8].
    + eexists _, _, _. split; [reflexivity|]. split; [reflexivity|]. repeat split; auto; [discriminate|]. cbn. apply (s_computed _ _ _ Hr).
    + destruct (final_byte b (N.to_nat n) Hb ltac:(lia)) as (mask & mark & E1 & E2 & E3 & E4). rewrite E1, E2. cbn [obind].
      destruct Hr as [(full & rest & -> & Hlr & Hbuf) Hs Ht Hc Hk].
      destruct (AddLength_ok a c n Hs) as (Hs2 & Hok & Hover). { destruct a; cbn in *; lia. }
      assert (Hbuf2 : buffered a (AddLength (variant_for a) c n) full rest) by (eapply buffered_same; [..|exact Hbuf]; reflexivity).
      pose proof (firstn_bits (N.to_nat n) b ltac:(lia)) as Hfl.
      destruct (Finalize_ok a _ full rest (firstn (N.to_nat n) (bits_of 8 b)) (N.lor (N.land b mask) mark) Hbuf2 Hlr) as (c' & E & F1 & F2 & F3); auto.
      { lia. } { rewrite Hfl. exact E3. }
      rewrite E. cbn [obind]. eexists _, _, c'. split; [reflexivity|]. split; [reflexivity|]. rewrite Ht in Hok, Hover.
      unfold fitsb. destruct (N.ltb_spec (8 * N.of_nat (length (concat full ++ rest)) + n) (2 ^ (2 * word_size a))) as [L|L].
      * destruct (Hok L) as [T K]. split; [reflexivity|]. split; [exact F1|]. split; [congruence|]. apply F3. rewrite T, Hfl. lia.
      * specialize (Hover L). repeat split; auto; [congruence|lia].
  - destruct Hr as (H1 & H2 & H3). rewrite H1. cbn [orb].
    eexists _, _, _. split; [reflexivity|]. split; [reflexivity|]. repeat split; auto. discriminate.
  - destruct Hr as (H1 & H2 & H3). rewrite H3. destruct fin; cbn [orb].
    + eexists _, _, _. split; [reflexivity|]. split; [reflexivity|]. repeat split; auto. discriminate.
    + destruct (8 <=? n).
      * eexists _, _, _. split; [reflexivity|]. split; [reflexivity|]. repeat split; auto. discriminate.
      * rewrite H1. destruct (N.eqb_spec e 0); [congruence|]. cbn [negb].
        eexists _, _, _. split; [reflexivity|]. split; [reflexivity|]. repeat split; auto.
Qed.

Lemma sha_result_ok a c s room : repr a c s ->
  exists code out s' c', hash_step (Some s) (UResult false room) = Some ((code, out), Some s') /\
    sha_result (variant_for a) (Some c) room = Some (code, out, Some c') /\ repr a c' s'.
Proof.
  intros Hr. unfold sha_result, hash_step. destruct room; cbn [negb].
  2:{ destruct s; cbn [repr] in Hr; try tauto; eexists _, _, _, c; (split; [reflexivity|]); (split; [reflexivity|]); exact Hr. }
  destruct s as [a' m|a' d|a' e fin|]; cbn [repr] in Hr; try tauto; destruct Hr as [-> Hr].
  - rewrite (s_computed _ _ _ Hr), (s_corrupted _ _ _ Hr), N.eqb_refl. cbn [negb].
    destruct Hr as [(full & rest & -> & Hlr & Hbuf) Hs Ht Hc Hk].
    destruct (Finalize_ok a c full rest [] 0x80 Hbuf Hlr) as (c' & E & F1 & F2 & F3); auto; try reflexivity.
    { cbn. lia. }
    rewrite E. cbn [obind]. rewrite app_nil_r in F3. rewrite F3 by (rewrite Ht; cbn [length]; lia). cbn [obind].
    eexists _, _, _, c'. split; [reflexivity|]. split; [reflexivity|]. split; [reflexivity|].
    split; [exact F1|]. split; [congruence|]. apply F3. rewrite Ht. cbn [length]. lia.
  - destruct Hr as (H1 & H2 & H3). rewrite H2, N.eqb_refl, H1. cbn [negb obind]. rewrite H3. cbn [obind].
    eexists _, _, _, c. split; [reflexivity|]. split; [reflexivity|]. repeat split; auto.
  - destruct Hr as (H1 & H2 & H3). rewrite H1. destruct (N.eqb_spec e 0); [congruence|]. cbn [negb].
    eexists _, _, _, c. split; [reflexivity|]. split; [reflexivity|]. repeat split; auto.
Qed.

(* one call *)
Lemma wrepr_some x s a c : s <> BadParam -> algorithm_of (whichSha x) = Some a -> uctx x = Some c -> repr a c s -> wrepr (Some x) (Some s).
Proof. intros Hs Ha Hc Hr. destruct s; try congruence; cbn [wrepr]; eauto. Qed.
Lemma repr_not_bad a c s : repr a c s -> s <> BadParam.
Proof. destruct s; cbn; congruence || tauto. Qed.

Lemma ustep_ok u s op r s' : wrepr u s -> op_ok op -> hash_step s op = Some (r, s') ->
  exists u', ustep u op = Some (r, u') /\ wrepr u' s'.
Proof.
  intros Hw Hop Hs.
  assert (Hnull : forall r0, Some (r0, s) = Some (r, s') -> exists u', Some (r0, u) = Some (r, u') /\ wrepr u' s').
  { intros r0 H. injection H as <- <-. eauto. }
  assert (Hreset : forall which, hash_step s (UReset false which) = Some (r, s') -> exists u', Some (USHAReset u which) = Some (r, u') /\ wrepr u' s').
  { intros which H. cbn [hash_step] in H. unfold USHAReset. rewrite variant_of_alg.
    destruct (algorithm_of which) as [a|] eqn:Ea; injection H as <- <-; cbn [option_map].
    + eexists. split; [reflexivity|]. exists a, (sha_reset (variant_for a)). split; [exact Ea|]. split; [reflexivity|]. split; [reflexivity|]. apply reset_ok.
    + eexists. split; [reflexivity|]. exact Ea. }
  destruct op as [[] which|[] x|[] b n|[] room]; cbn [ustep]; auto.
  all: destruct u as [x0|], s as [s0|]; cbn [wrepr] in Hw; try tauto; try discriminate.
  all: rewrite variant_of_alg.
  all: assert (Hcase : s0 = BadParam /\ algorithm_of (whichSha x0) = None \/
                       exists a c, algorithm_of (whichSha x0) = Some a /\ uctx x0 = Some c /\ repr a c s0)
         by (destruct s0; auto).
  all: clear Hw; destruct Hcase as [[-> Ha]|(a & c & Ha & Hc & Hr)]; rewrite Ha; cbn [option_map].
  all: try (injection Hs as <- <-; eexists; split; [reflexivity|exact Ha]).
  all: rewrite Hc.
  - destruct (sha_input_ok a c s0 x Hr Hop) as (code & s1 & c1 & E1 & E2 & E3). rewrite E1 in Hs. injection Hs as <- <-.
    rewrite E2. cbn [obind fst snd]. eexists. split; [reflexivity|]. apply (wrepr_some _ s1 a c1); [exact (repr_not_bad _ _ _ E3)|exact Ha|reflexivity|exact E3].
  - destruct (sha_finalbits_ok a c s0 b n Hr Hop) as (code & s1 & c1 & E1 & E2 & E3). rewrite E1 in Hs. injection Hs as <- <-.
    rewrite E2. cbn [obind fst snd]. eexists. split; [reflexivity|]. apply (wrepr_some _ s1 a c1); [exact (repr_not_bad _ _ _ E3)|exact Ha|reflexivity|exact E3].
  - destruct (sha_result_ok a c s0 room Hr) as (code & out & s1 & c1 & E1 & E2 & E3). rewrite E1 in Hs. injection Hs as <- <-.
    rewrite E2. cbn [obind fst snd]. eexists. split; [reflexivity|]. apply (wrepr_some _ s1 a c1); [exact (repr_not_bad _ _ _ E3)|exact Ha|reflexivity|exact E3].
Qed.

(* C44: every history of calls on a context gives exactly what the specification says; the
   specification leaves open only a call on a context that was never reset *)
Theorem usha_history ops rs s' : Forall op_ok ops -> hash_run None ops = Some (rs, s') ->
  exists u', urun None ops = Some (rs, u').
Proof.
  intros Hok. enough (G : forall u s, wrepr u s -> forall rs s', hash_run s ops = Some (rs, s') -> exists u', urun u ops = Some (rs, u') /\ wrepr u' s').
  { intros H. destruct (G None None I rs s' H) as (u' & E & _). eauto. }
  clear rs s'. induction Hok as [|op ops Hop Hok IH]; intros u s Hw rs s' H; cbn [hash_run urun] in *.
  - injection H as <- <-. eauto.
  - destruct (hash_step s op) as [[r s1]|] eqn:Es; [|discriminate].
    destruct (hash_run s1 ops) as [[rs1 s2]|] eqn:Er; [|discriminate]. injection H as <- <-.
    destruct (ustep_ok u s op r s1 Hw Hop Es) as (u1 & E1 & Hw1). rewrite E1. cbn [obind fst snd].
    destruct (IH u1 s1 Hw1 _ _ Er) as (u2 & E2 & Hw2). rewrite E2. cbn [obind fst snd]. eauto.
Qed.

(** * Corollaries *)

(* the USHA code of an algorithm (sha.h:67-69) *)
Definition code_of (a : algorithm) : N := match a with Sha1 => 0 | Sha224 => 1 | Sha256 => 2 | Sha384 => 3 | Sha512 => 4 end.
Lemma algorithm_code a : algorithm_of (code_of a) = Some a.
Proof. destruct a; reflexivity. Qed.

Lemma hash_run_app s ops1 ops2 : hash_run s (ops1 ++ ops2) =
  match hash_run s ops1 with
  | Some (r1, s1) => match hash_run s1 ops2 with Some (r2, s2) => Some (r1 ++ r2, s2) | None => None end
  | None => None
  end.
Proof.
  revert s. induction ops1 as [|op ops1 IH]; intros s; cbn [app hash_run].
  - destruct (hash_run s ops2) as [[r2 s2]|]; reflexivity.
  - destruct (hash_step s op) as [[r s1]|]; [|reflexivity]. rewrite IH. destruct (hash_run s1 ops1) as [[r1 s2]|]; [|reflexivity].
    destruct (hash_run s2 ops2) as [[r2 s3]|]; reflexivity.
Qed.

Definition done : ures := (shaSuccess, None).
Lemma inputs_run a : forall chunks m, 8 * N.of_nat (length (m ++ concat chunks)) < 2 ^ (2 * word_size a) ->
  hash_run (Some (Absorbing a m)) (map (fun c => UInput false (inr c)) chunks) = Some (map (fun _ => done) chunks, Some (Absorbing a (m ++ concat chunks))).
Proof.
  induction chunks as [|c chunks IH]; intros m H; cbn [map hash_run concat]; [rewrite app_nil_r; reflexivity|].
  cbn [concat] in H. destruct c as [|x c].
  - cbn [hash_step app]. rewrite IH by exact H. reflexivity.
  - cbn [hash_step]. unfold fitsb. rewrite (proj2 (N.ltb_lt _ _)) by (rewrite !app_length in *; lia).
    rewrite IH by (rewrite <- app_assoc; exact H). rewrite <- app_assoc. reflexivity.
Qed.

(* C42: whatever the message and however it is cut into pieces (empty ones included), the digest
   is that of FIPS 180-2, and every later Result gives it again *)
Theorem usha_digest a chunks again : Forall bytes_ok chunks -> hashable a (bits_of_bytes (concat chunks)) ->
  exists u', urun None (UReset false (code_of a) :: map (fun c => UInput false (inr c)) chunks ++ repeat (UResult false true) (S again))
    = Some (done :: map (fun _ => done) chunks ++ repeat (shaSuccess, Some (digest a (bits_of_bytes (concat chunks)))) (S again), u').
Proof.
  intros Hb Hh. eapply usha_history.
  - constructor; [exact I|]. apply Forall_app. split.
    + apply Forall_map. exact Hb.
    + apply Forall_forall. intros x Hx. apply repeat_spec in Hx. subst. exact I.
  - unfold hashable in Hh. rewrite bits_of_bytes_length in Hh.
    cbn [hash_run hash_step]. rewrite algorithm_code, hash_run_app, inputs_run by (cbn [app]; lia). cbn [app repeat hash_run hash_step negb].
    set (d := digest a _).
    assert (E : forall n, hash_run (Some (Finished a d)) (repeat (UResult false true) n) = Some (repeat (shaSuccess, Some d) n, Some (Finished a d))).
    { induction n as [|n IH]; [reflexivity|]. cbn [repeat hash_run hash_step negb]. rewrite IH. reflexivity. }
    rewrite E. reflexivity.
Qed.

(* C43: the same with up to seven final bits, the high-order bits of a byte *)
Theorem usha_final_bits a chunks b n : Forall bytes_ok chunks -> b < 256 -> (1 <= n < 8)%nat ->
  let m := bits_of_bytes (concat chunks) ++ firstn n (bits_of 8 b) in hashable a m ->
  exists u', urun None (UReset false (code_of a) :: map (fun c => UInput false (inr c)) chunks ++ [UFinalBits false b (N.of_nat n); UResult false true])
    = Some (done :: map (fun _ => done) chunks ++ [done; (shaSuccess, Some (digest a m))], u').
Proof.
  intros Hb Hbb Hn m Hh. eapply usha_history.
  - constructor; [exact I|]. apply Forall_app. split.
    + apply Forall_map. exact Hb.
    + repeat constructor. exact Hbb.
  - unfold hashable in Hh. subst m. rewrite app_length, bits_of_bytes_length, firstn_bits in Hh by lia.
    cbn [hash_run hash_step]. rewrite algorithm_code, hash_run_app, inputs_run by (cbn [app]; lia). cbn [app hash_run hash_step].
    rewrite (proj2 (N.eqb_neq _ _)), (proj2 (N.leb_gt _ _)) by lia. unfold fitsb. rewrite (proj2 (N.ltb_lt _ _)) by lia.
    rewrite Nat2N.id. cbn [hash_step negb]. reflexivity.
Qed.

(* C44: input after the result is an error, and the context stays in error until it is reset *)
Theorem usha_input_after_result a chunks x l n : Forall bytes_ok chunks -> bytes_ok (x :: l) -> hashable a (bits_of_bytes (concat chunks)) ->
  exists u', urun None (UReset false (code_of a) :: map (fun c => UInput false (inr c)) chunks ++
                        UResult false true :: UInput false (inr (x :: l)) :: repeat (UResult false true) n)
    = Some (done :: map (fun _ => done) chunks ++ (shaSuccess, Some (digest a (bits_of_bytes (concat chunks)))) ::
            (shaStateError, None) :: repeat (shaStateError, None) n, u').
Proof.
  intros Hb Hl Hh. eapply usha_history.
  - constructor; [exact I|]. apply Forall_app. split; [apply Forall_map; exact Hb|]. constructor; [exact I|]. constructor; [exact Hl|].
    apply Forall_forall. intros y Hy. apply repeat_spec in Hy. subst. exact I.
  - unfold hashable in Hh. rewrite bits_of_bytes_length in Hh.
    cbn [hash_run hash_step]. rewrite algorithm_code, hash_run_app, inputs_run by (cbn [app]; lia). cbn [app hash_run hash_step negb].
    assert (E : forall n, hash_run (Some (Broken a shaStateError true)) (repeat (UResult false true) n) =
                          Some (repeat (shaStateError, None) n, Some (Broken a shaStateError true))).
    { clear. induction n as [|n IH]; [reflexivity|]. cbn [repeat hash_run hash_step negb]. rewrite IH. reflexivity. }
    rewrite E. reflexivity.
Qed.

(* C72: a message too long for the standard is never hashed; but what says so is the code for a
   NULL pointer (1), not shaInputTooLong (2), and the call that made it too long succeeds *)
Theorem usha_too_long_refuted a chunks : Forall bytes_ok chunks -> ~ hashable a (bits_of_bytes (concat chunks)) ->
  exists rs u', urun None (UReset false (code_of a) :: map (fun c => UInput false (inr c)) chunks ++ [UResult false true]) = Some (rs, u') /\
  last rs done = (shaNull, None).
Proof.
  intros Hb Hh.
  assert (G : forall chunks m, fits a m -> ~ fits a (m ++ concat chunks) ->
    exists rs1, hash_run (Some (Absorbing a m)) (map (fun c => UInput false (inr c)) chunks) = Some (rs1, Some (Broken a 1 false))).
  { clear. induction chunks as [|c chunks IH]; intros m Hm Hf; cbn [concat map hash_run] in *; [rewrite app_nil_r in Hf; contradiction|].
    destruct c as [|x c]; cbn [hash_step].
    - cbn [app] in Hf. destruct (IH m Hm Hf) as (rs1 & ->). eauto.
    - rewrite app_assoc in Hf. destruct (fitsb a _) eqn:F.
      + apply fits_spec in F. destruct (IH _ F Hf) as (rs1 & ->). eauto.
      + assert (K : forall chunks, exists rs1, hash_run (Some (Broken a 1 false)) (map (fun c => UInput false (inr c)) chunks) = Some (rs1, Some (Broken a 1 false))).
        { clear. induction chunks as [|[|y d] chunks [rs1 IH]]; cbn [map hash_run hash_step]; [eauto|rewrite IH; eauto|rewrite IH; eauto]. }
        destruct (K chunks) as (rs1 & ->). eauto. }
  destruct (G chunks []) as (rs1 & E1).
  { unfold fits. cbn. destruct a; reflexivity. }
  { unfold hashable in Hh. rewrite bits_of_bytes_length in Hh. unfold fits. cbn [app]. lia. }
  destruct (usha_history (UReset false (code_of a) :: map (fun c => UInput false (inr c)) chunks ++ [UResult false true])
              (done :: rs1 ++ [(shaNull, None)]) (Some (Broken a 1 false))) as (u2 & E2).
  { constructor; [exact I|]. apply Forall_app. split; [apply Forall_map; exact Hb|repeat constructor]. }
  { cbn [hash_run hash_step]. rewrite algorithm_code, hash_run_app, E1. reflexivity. }
  exists (done :: rs1 ++ [(shaNull, None)]), u2. split; [exact E2|]. change (done :: rs1 ++ [(shaNull, None)]) with ((done :: rs1) ++ [(shaNull, None)]). apply last_last.
Qed.

Lemma too_long_exists a : exists chunks, Forall bytes_ok chunks /\ ~ hashable a (bits_of_bytes (concat chunks)).
Proof.
  exists [repeat 0 (N.to_nat (2 ^ (2 * word_size a)))]. split.
  - repeat constructor. apply Forall_forall. intros x Hx. apply repeat_spec in Hx. subst. reflexivity.
  - unfold hashable. cbn [concat]. rewrite app_nil_r, bits_of_bytes_length, repeat_length. lia.
Qed.

(** * Examples *)
Example digest_example : Forall bytes_ok [str "a"; []; str "bc"] /\ hashable Sha256 (bits_of_bytes (concat [str "a"; []; str "bc"])).
Proof. split; [repeat constructor|reflexivity]. Qed.

(* FIPS 180-2, A.1, B.1 and C.1: the digests of "abc", by running the model *)
Fixpoint same (l1 l2 : list N) : bool := match l1, l2 with [], [] => true | x :: l1, y :: l2 => (x =? y) && same l1 l2 | _, _ => false end.
Lemma same_eq l1 : forall l2, same l1 l2 = true -> l1 = l2.
Proof.
  induction l1 as [|x l1 IH]; intros [|y l2] H; cbn in H; try discriminate; [reflexivity|].
  apply andb_prop in H as [H1 H2]. apply N.eqb_eq in H1. subst. f_equal. auto.
Qed.
Definition hash_of (which : N) (l : list N) : list N :=
  match urun None [UReset false which; UInput false (inr l); UResult false true] with Some ([_; _; (_, Some y)], _) => y | _ => [] end.
Lemma hash_of_ok a l : bytes_ok l -> hashable a (bits_of_bytes l) -> hash_of (code_of a) l = digest a (bits_of_bytes l).
Proof.
  intros Hl Hh. destruct (usha_digest a [l] 0) as (u' & E); [constructor; auto|cbn [concat]; rewrite app_nil_r; exact Hh|].
  cbn [map app repeat concat] in E. rewrite app_nil_r in E. unfold hash_of. rewrite E. reflexivity.
Qed.
Example sha1_abc : digest Sha1 (bits_of_bytes (str "abc")) = concat (map (be_bytes 4) [0xA9993E36; 0x4706816A; 0xBA3E2571; 0x7850C26C; 0x9CD0D89D]).
Proof. rewrite <- hash_of_ok by (repeat constructor). apply same_eq. vm_compute. reflexivity. Qed.
Example sha256_abc : digest Sha256 (bits_of_bytes (str "abc")) =
  concat (map (be_bytes 4) [0xba7816bf; 0x8f01cfea; 0x414140de; 0x5dae2223; 0xb00361a3; 0x96177a9c; 0xb410ff61; 0xf20015ad]).
Proof. rewrite <- hash_of_ok by (repeat constructor). apply same_eq. vm_compute. reflexivity. Qed.
Example sha512_abc : digest Sha512 (bits_of_bytes (str "abc")) =
  concat (map (be_bytes 8) [0xddaf35a193617aba; 0xcc417349ae204131; 0x12e6fa4e89a97ea2; 0x0a9eeee64b55d39a;
                            0x2192992a274fc1a8; 0x36ba3c23a3feebbd; 0x454d4423643ce80e; 0x2a9ac94fa54ca49f]).
Proof. rewrite <- hash_of_ok by (repeat constructor). apply same_eq. vm_compute. reflexivity. Qed.
