(* ProcessMessageBlock of the model is the compression function of FIPS 180-2. *)
From Verif Require Import Base Sha_Spec Sha_Model Sha_Words.
Open Scope N_scope.

Lemma or_step a b k j : b < 256 -> k = 8 + j -> N.lor (N.shiftl a k) (N.shiftl b j) = N.shiftl (256 * a + b) j.
Proof.
  intros Hb ->. rewrite <- N.shiftl_shiftl, <- N.shiftl_lor. f_equal.
  rewrite lor_shift_add by exact Hb. change (2 ^ 8) with 256. lia.
Qed.
Lemma or_last a b : b < 256 -> N.lor (N.shiftl a 8) b = 256 * a + b.
Proof. intros Hb. rewrite lor_shift_add by exact Hb. change (2 ^ 8) with 256. lia. Qed.

Lemma nth_concat n : forall (bl : list (list N)) i j, Forall (fun b => length b = n) bl -> (i < length bl)%nat -> (j < n)%nat ->
  nth (i * n + j) (concat bl) 0 = nth j (nth i bl []) 0.
Proof.
  induction bl as [|b bl IH]; intros i j Hl Hi Hj; cbn in Hi; [lia|]. inversion Hl as [|? ? Hb Hl']; subst. cbn [concat].
  destruct i as [|i].
  - cbn. apply app_nth1. exact Hj.
  - rewrite app_nth2 by nia. replace (S i * length b + j - length b)%nat with (i * length b + j)%nat by nia.
    cbn [nth]. apply IH; auto. lia.
Qed.

Lemma get_concat n bl i j : Forall (fun b => length b = n) bl -> (i < length bl)%nat -> (j < n)%nat ->
  get (filled (concat bl)) (i * n + j) = Some (nth j (nth i bl []) 0).
Proof.
  intros Hl Hi Hj. rewrite get_filled'; [rewrite (nth_concat n) by auto; reflexivity|].
  rewrite (concat_length_n n) by exact Hl. nia.
Qed.

Lemma nth_bytes bl n i : bytes_ok (concat bl) -> Forall (fun b => length b = n) bl -> (i < length bl)%nat ->
  bytes_ok (nth i bl []) /\ length (nth i bl []) = n.
Proof.
  intros Hb Hl Hi. pose proof (nth_In bl [] Hi) as Hin. split.
  - apply Forall_forall. intros x Hx. unfold bytes_ok in Hb. rewrite Forall_forall in Hb. apply Hb. apply in_concat. eauto.
  - rewrite Forall_forall in Hl. auto.
Qed.

Ltac bytes_lt :=
  repeat match goal with H : bytes_ok (_ :: _) |- _ => inversion H; clear H; subst end;
  repeat match goal with H : Forall byte_ok (_ :: _) |- _ => inversion H; clear H; subst end;
  unfold byte_ok in *.

Lemma load32_ok bl i : Forall (fun b => length b = 4%nat) bl -> bytes_ok (concat bl) -> (i < length bl)%nat ->
  load32 (filled (concat bl)) (i * 4) = Some (nth i (map be bl) 0).
Proof.
  intros Hl Hb Hi. unfold load32. rewrite <- (Nat.add_0_r (i * 4)) at 1.
  rewrite !(get_concat 4) by (auto; lia). cbn [obind].
  rewrite (nth_indep (map be bl) 0 (be [])) by (rewrite map_length; exact Hi). rewrite map_nth.
  destruct (nth_bytes bl 4 i Hb Hl Hi) as [Hy Hn]. destruct (nth i bl []) as [|a [|b [|c [|d [|]]]]]; try discriminate.
  cbn [nth]. bytes_lt. rewrite (or_step a b 24 16) by (auto; lia). rewrite (or_step _ c 16 8) by (auto; lia).
  rewrite or_last by auto. reflexivity.
Qed.
Lemma load64_ok bl i : Forall (fun b => length b = 8%nat) bl -> bytes_ok (concat bl) -> (i < length bl)%nat ->
  load64 (filled (concat bl)) (i * 8) = Some (nth i (map be bl) 0).
Proof.
  intros Hl Hb Hi. unfold load64. rewrite <- (Nat.add_0_r (i * 8)) at 1.
  rewrite !(get_concat 8) by (auto; lia). cbn [obind].
  rewrite (nth_indep (map be bl) 0 (be [])) by (rewrite map_length; exact Hi). rewrite map_nth.
  destruct (nth_bytes bl 8 i Hb Hl Hi) as [Hy Hn].
  destruct (nth i bl []) as [|a [|b [|c [|d [|e [|f [|g [|h [|]]]]]]]]]; try discriminate.
  cbn [nth]. bytes_lt. rewrite (or_step a b 56 48) by (auto; lia). rewrite (or_step _ c 48 40) by (auto; lia).
  rewrite (or_step _ d 40 32) by (auto; lia). rewrite (or_step _ e 32 24) by (auto; lia).
  rewrite (or_step _ f 24 16) by (auto; lia). rewrite (or_step _ g 16 8) by (auto; lia).
  rewrite or_last by auto. reflexivity.
Qed.

Lemma be_lt l : bytes_ok l -> be l < 2 ^ (8 * N.of_nat (length l)).
Proof.
  unfold bytes_ok. induction l as [|b l IH] using rev_ind; intros H; [reflexivity|].
  apply Forall_app in H as [H1 H2]. inversion H2 as [|? ? Hb]; subst. unfold be. rewrite fold_left_app. fold (be l). cbn [fold_left].
  specialize (IH H1). rewrite app_length, Nat2N.inj_add. cbn [length].
  replace (8 * (N.of_nat (length l) + N.of_nat 1)) with (8 + 8 * N.of_nat (length l)) by lia.
  rewrite N.pow_add_r. change (2 ^ 8) with 256. unfold byte_ok in Hb. lia.
Qed.
Lemma block_words_lt n l : (0 < n)%nat -> length l = (16 * n)%nat -> bytes_ok l ->
  Forall (fun x => x < 2 ^ (8 * N.of_nat n)) (block_words n l) /\ length (block_words n l) = 16%nat.
Proof.
  intros Hn Hl Hb. destruct (exact_pieces n 16 l Hl) as (bl & -> & Hf & Hk). unfold block_words.
  rewrite split_concat by auto. split; [|rewrite map_length; exact Hk].
  apply Forall_map, Forall_forall. intros b Hi. rewrite Forall_forall in Hf. rewrite <- (Hf b Hi). apply be_lt.
  apply Forall_forall. intros x Hx. unfold bytes_ok in Hb. rewrite Forall_forall in Hb. apply Hb. apply in_concat. eauto.
Qed.

Lemma back_get ws r k : (0 < k <= length ws)%nat -> get (filled ws ++ r) (length ws - k) = Some (back ws k).
Proof. intros H. rewrite get_filled by lia. reflexivity. Qed.
Lemma back_P (P : N -> Prop) ws k : (0 < k <= length ws)%nat -> Forall P ws -> P (back ws k).
Proof. intros H HP. rewrite Forall_forall in HP. apply HP. apply nth_In. lia. Qed.

Lemma forall_nth_error {A} (P : A -> Prop) l i x : Forall P l -> nth_error l i = Some x -> P x.
Proof. intros H E. rewrite Forall_forall in H. apply H. eapply nth_error_In; eauto. Qed.

(** * SHA-1 *)

Lemma sha1_w_ok ws r : (16 <= length ws)%nat -> Forall (fun x => x < 2 ^ 32) ws ->
  sha1_w (length ws) (filled ws ++ fresh r) = Some (sha1_next ws) /\ sha1_next ws < 2 ^ 32.
Proof.
  intros H HP. unfold sha1_w. rewrite !back_get by lia. cbn [obind]. unfold sha1_next.
  assert (Hx : N.lxor (N.lxor (N.lxor (back ws 3) (back ws 8)) (back ws 14)) (back ws 16) < 2 ^ 32).
  { repeat apply lxor_lt; apply (back_P (fun x => x < 2 ^ 32)); auto; lia. }
  rewrite rotl_ok by (try exact Hx; lia). split; [reflexivity|]. apply rotr_lt; [lia|exact Hx].
Qed.

Definition list5 (v : vars5) : list N := [A1 v; B1 v; C1 v; D1 v; E1 v].

Lemma sha1_step_ok f k t wt v : Forall (fun x => x < 2 ^ 32) (list5 v) ->
  (f (B1 v) (C1 v) (D1 v) = sha1_f t (B1 v) (C1 v) (D1 v)) -> k = sha1_k t ->
  list5 (sha1_step f k wt v) = sha1_round (list5 v) (t, wt) /\ Forall (fun x => x < 2 ^ 32) (list5 (sha1_step f k wt v)).
Proof.
  intros HP Hf ->. unfold list5 in *. inversion HP as [|? ? Ha HP1]; subst. inversion HP1 as [|? ? Hb HP2]; subst.
  inversion HP2 as [|? ? Hc HP3]; subst. inversion HP3 as [|? ? Hd HP4]; subst. inversion HP4 as [|? ? He HP5]; subst.
  cbn [sha1_step A1 B1 C1 D1 E1 sha1_round fst snd]. rewrite Hf, add5_ok, !rotl_ok by (auto; lia). rewrite addw_swap.
  split; [reflexivity|]. repeat constructor; auto; [apply addw_lt | apply rotr_lt; [lia|exact Hb]].
Qed.


(* the rounds, by index *)
Lemma combine_seq (ws : list N) : combine (seq 0 (length ws)) ws = map (fun i => (i, nth i ws 0)) (seq 0 (length ws)).
Proof.
  enough (H : forall ws pre, combine (seq (length pre) (length ws)) ws = map (fun i => (i, nth i (pre ++ ws) 0)) (seq (length pre) (length ws)))
    by apply (H ws []).
  clear ws. induction ws as [|w ws IH]; intros pre; [reflexivity|]. cbn [length seq combine map].
  rewrite app_nth2, Nat.sub_diag by lia. cbn [nth]. f_equal.
  specialize (IH (pre ++ [w])). rewrite app_length in IH. cbn [length] in IH. rewrite Nat.add_1_r in IH. rewrite IH.
  rewrite <- app_assoc. reflexivity.
Qed.
Definition rounds1 (ws : list N) (l : list nat) (s : list N) : list N := fold_left (fun s i => sha1_round s (i, nth i ws 0)) l s.
Lemma rounds1_app ws l1 l2 s : rounds1 ws (l1 ++ l2) s = rounds1 ws l2 (rounds1 ws l1 s).
Proof. apply fold_left_app. Qed.
Lemma rounds1_ok ws s : fold_left sha1_round (combine (seq 0 (length ws)) ws) s = rounds1 ws (seq 0 (length ws)) s.
Proof.
  rewrite combine_seq. unfold rounds1. generalize (seq 0 (length ws)). intros l. revert s. induction l as [|i l IH]; intros s; [reflexivity|].
  cbn. apply IH.
Qed.

Lemma sha1_loop_ok f k ws post n : forall t v, (t + n <= length ws)%nat ->
  (forall i x y z, (t <= i < t + n)%nat -> x < 2 ^ 32 -> f x y z = sha1_f i x y z) ->
  (forall i, (t <= i < t + n)%nat -> k = sha1_k i) ->
  Forall (fun x => x < 2 ^ 32) (list5 v) ->
  exists v', sha1_loop f k (filled ws ++ post) n t v = Some v' /\
    list5 v' = rounds1 ws (seq t n) (list5 v) /\ Forall (fun x => x < 2 ^ 32) (list5 v').
Proof.
  induction n as [|n IH]; intros t v Ht Hf Hk HP; cbn [sha1_loop seq]; [eauto|].
  rewrite get_filled by lia. cbn [obind].
  assert (Hb : B1 v < 2 ^ 32) by (inversion HP as [|? ? ? HP1]; inversion HP1; auto).
  destruct (sha1_step_ok f k t (nth t ws 0) v HP) as [E HP'].
  { apply Hf; [lia|exact Hb]. }
  { apply Hk. lia. }
  change (rounds1 ws (t :: seq (S t) n) (list5 v)) with (rounds1 ws (seq (S t) n) (sha1_round (list5 v) (t, nth t ws 0))).
  rewrite <- E. apply IH; auto; try lia.
  - intros. apply Hf; [lia|assumption].
  - intros. apply Hk. lia.
Qed.

Lemma sha1_consts : forall i, (i < 80)%nat ->
  sha1_k i = (if (i <? 20)%nat then 0x5A827999 else if (i <? 40)%nat then 0x6ED9EBA1 else if (i <? 60)%nat then 0x8F1BBCDC else 0xCA62C1D6).
Proof.
  intros i Hi. unfold sha1_k. destruct (i <? 20)%nat; [vm_compute; reflexivity|]. destruct (i <? 40)%nat; [vm_compute; reflexivity|].
  destruct (i <? 60)%nat; vm_compute; reflexivity.
Qed.
Ltac cases_t i := destruct (Nat.ltb_spec i 20); destruct (Nat.ltb_spec i 40); destruct (Nat.ltb_spec i 60); try lia.

Lemma add_states_lt w : forall h s, Forall (fun x => x < 2 ^ w) (add_states w h s).
Proof. intros h s. unfold add_states. apply Forall_map, Forall_forall. intros x _. apply addw_lt. Qed.

Theorem sha1_process_ok h l : length h = 5%nat -> Forall (fun x => x < 2 ^ 32) h -> length l = 64%nat -> bytes_ok l ->
  SHA1ProcessMessageBlock h (filled l) = Some (sha1_compress h (block_words 4 l)) /\
  Forall (fun x => x < 2 ^ 32) (sha1_compress h (block_words 4 l)) /\ length (sha1_compress h (block_words 4 l)) = 5%nat.
Proof.
  intros Hh HP Hl Hb. destruct (block_words_lt 4 l) as [Hw Hw16]; [lia|exact Hl|exact Hb|].
  change (2 ^ (8 * N.of_nat 4)) with (2 ^ 32) in Hw.
  destruct (exact_pieces 4 16 l Hl) as (bl & -> & Hf & Hk).
  unfold block_words in *. rewrite split_concat in * by (auto; lia). set (m := map be bl) in *.
  unfold SHA1ProcessMessageBlock.
  pose proof (fill_load (fun t => load32 (filled (concat bl)) (t * 4)) m [] 64) as F1.
  rewrite Hw16 in F1. cbn [length filled map app] in F1. change (16 + 64)%nat with 80%nat in F1.
  rewrite F1; clear F1. 2:{ intros i Hi. rewrite Nat.add_0_l. apply load32_ok; auto. lia. }
  cbn [obind]. destruct (fill_extend (fun x => x < 2 ^ 32) sha1_w sha1_next 64 m 0) as [F2 Hx]; auto.
  { lia. } { apply sha1_w_ok. }
  rewrite Nat.add_0_r, Hw16 in F2. fold (filled m). rewrite F2. cbn [obind]. clear F2.
  pose proof (extend_length sha1_next 64 m) as Hxl. rewrite Hw16 in Hxl. change (64 + 16)%nat with 80%nat in Hxl.
  unfold sha1_compress. set (ws := extend sha1_next 64 m) in *.
  destruct h as [|h0 [|h1 [|h2 [|h3 [|h4 [|]]]]]]; try discriminate Hh. clear Hh.
  set (v0 := {| A1 := h0; B1 := h1; C1 := h2; D1 := h3; E1 := h4 |}).
  change [h0; h1; h2; h3; h4] with (list5 v0) in HP.
  destruct (sha1_loop_ok (SHA_Ch 32) 0x5A827999 ws (fresh 0) 20 0 v0) as (v1 & L1 & R1 & P1); [lia| | |exact HP|].
  { intros i x y z Hi Hxx. unfold sha1_f. cases_t i. apply ch_ok. exact Hxx. }
  { intros i Hi. rewrite sha1_consts by lia. cases_t i. }
  rewrite L1. cbn [obind].
  destruct (sha1_loop_ok SHA_Parity 0x6ED9EBA1 ws (fresh 0) 20 20 v1) as (v2 & L2 & R2 & P2); [lia| | |exact P1|].
  { intros i x y z Hi Hxx. unfold sha1_f. cases_t i. reflexivity. }
  { intros i Hi. rewrite sha1_consts by lia. cases_t i. }
  rewrite L2. cbn [obind].
  destruct (sha1_loop_ok SHA_Maj 0x8F1BBCDC ws (fresh 0) 20 40 v2) as (v3 & L3 & R3 & P3); [lia| | |exact P2|].
  { intros i x y z Hi Hxx. unfold sha1_f. cases_t i. reflexivity. }
  { intros i Hi. rewrite sha1_consts by lia. cases_t i. }
  rewrite L3. cbn [obind].
  destruct (sha1_loop_ok SHA_Parity 0xCA62C1D6 ws (fresh 0) 20 60 v3) as (v4 & L4 & R4 & P4); [lia| | |exact P3|].
  { intros i x y z Hi Hxx. unfold sha1_f. cases_t i. reflexivity. }
  { intros i Hi. rewrite sha1_consts by lia. cases_t i. }
  rewrite L4. cbn [obind]. clear L1 L2 L3 L4.
  rewrite <- Hxl at 1 2 3. rewrite !rounds1_ok, Hxl.
  change (seq 0 80) with (seq 0 20 ++ seq 20 20 ++ seq 40 20 ++ seq 60 20). rewrite !rounds1_app.
  change [h0; h1; h2; h3; h4] with (list5 v0).
  rewrite <- R1, <- R2, <- R3, <- R4. split; [|split; [apply add_states_lt|reflexivity]].
  unfold list5, add_states. cbn [combine map fst snd A1 B1 C1 D1 E1 v0]. rewrite !add2_ok. reflexivity.
Qed.

(** * SHA-2 *)

Record agree (p : params) (q : sha2) : Prop := {
  ag_w : wbits p = word q; ag_w8 : word q = 8 * N.of_nat (stride p); ag_s : (0 < stride p)%nat;
  ag_n : nrounds p = rounds q; ag_n16 : (16 <= rounds q)%nat; ag_K : K p = sha2_k q; ag_Kn : length (K p) = rounds q;
  ag_load : forall bl i, Forall (fun b => length b = stride p) bl -> bytes_ok (concat bl) -> (i < length bl)%nat ->
     load p (filled (concat bl)) (i * stride p) = Some (nth i (map be bl) 0);
  ag_S0 : forall x, x < 2 ^ word q -> SIGMA0 p x = big_sigma (word q) (big0 q) x;
  ag_S1 : forall x, x < 2 ^ word q -> SIGMA1 p x = big_sigma (word q) (big1 q) x;
  ag_s0 : forall x, x < 2 ^ word q -> sigma0 p x = small_sigma (word q) (small0 q) x;
  ag_s1 : forall x, x < 2 ^ word q -> sigma1 p x = small_sigma (word q) (small1 q) x }.

Lemma agree32 : agree params32 sha2_32.
Proof.
  constructor; [reflexivity|reflexivity|cbn; lia|reflexivity|cbn; lia|symmetry; apply K256_ok|reflexivity|apply load32_ok| | | |].
  - intros x Hx. cbn in *. rewrite !rotr_ok by (try exact Hx; lia). reflexivity.
  - intros x Hx. cbn in *. rewrite !rotr_ok by (try exact Hx; lia). reflexivity.
  - intros x Hx. cbn in *. rewrite !rotr_ok by (try exact Hx; lia). unfold SHA_SHR, shr. rewrite N.shiftr_div_pow2. reflexivity.
  - intros x Hx. cbn in *. rewrite !rotr_ok by (try exact Hx; lia). unfold SHA_SHR, shr. rewrite N.shiftr_div_pow2. reflexivity.
Qed.
Lemma agree64 : agree params64 sha2_64.
Proof.
  constructor; [reflexivity|reflexivity|cbn; lia|reflexivity|cbn; lia|symmetry; apply K512_ok|reflexivity|apply load64_ok| | | |].
  - intros x Hx. cbn in *. rewrite !rotr_ok by (try exact Hx; lia). reflexivity.
  - intros x Hx. cbn in *. rewrite !rotr_ok by (try exact Hx; lia). reflexivity.
  - intros x Hx. cbn in *. rewrite !rotr_ok by (try exact Hx; lia). unfold SHA_SHR, shr. rewrite N.shiftr_div_pow2. reflexivity.
  - intros x Hx. cbn in *. rewrite !rotr_ok by (try exact Hx; lia). unfold SHA_SHR, shr. rewrite N.shiftr_div_pow2. reflexivity.
Qed.

Definition list8 (v : vars8) : list N := [vA v; vB v; vC v; vD v; vE v; vF v; vG v; vH v].

Section Sha2.
Variables (p : params) (q : sha2).
Hypothesis AG : agree p q.
Let word_ok (x : N) : Prop := x < 2 ^ word q.

Lemma sha2_w_ok ws r : (16 <= length ws)%nat -> Forall word_ok ws ->
  sha2_w p (length ws) (filled ws ++ fresh r) = Some (sha2_next q ws) /\ word_ok (sha2_next q ws).
Proof.
  intros H HP. unfold sha2_w. rewrite !back_get by lia. cbn [obind]. unfold sha2_next.
  rewrite (ag_w _ _ AG), (ag_s0 _ _ AG), (ag_s1 _ _ AG) by (apply (back_P word_ok); auto; lia). rewrite add4_ok.
  split; [reflexivity|]. apply addw_lt.
Qed.

Lemma sha2_step_ok kt wt v : Forall word_ok (list8 v) ->
  list8 (sha2_step p kt wt v) = sha2_round q (list8 v) (kt, wt) /\ Forall word_ok (list8 (sha2_step p kt wt v)).
Proof.
  intros HP. unfold list8 in *.
  repeat match goal with HP : Forall _ (_ :: _) |- _ => inversion HP; clear HP; subst end.
  cbn [sha2_step vA vB vC vD vE vF vG vH sha2_round fst snd]. rewrite (ag_w _ _ AG), (ag_S0 _ _ AG), (ag_S1 _ _ AG), !ch_ok by assumption.
  rewrite !(add5_ok _ (vH v)), !add2_ok. split; [reflexivity|]. repeat constructor; auto; apply addw_lt.
Qed.

Definition rounds2 (ks ws : list N) (l : list nat) (s : list N) : list N :=
  fold_left (fun s i => sha2_round q s (nth i ks 0, nth i ws 0)) l s.
Lemma combine_nth_seq : forall (ks ws : list N), length ks = length ws ->
  combine ks ws = map (fun i => (nth i ks 0, nth i ws 0)) (seq 0 (length ws)).
Proof.
  induction ks as [|k ks IH]; intros [|w ws] H; cbn in H; try discriminate; [reflexivity|].
  cbn [combine length seq map nth]. f_equal. rewrite <- seq_shift, map_map. apply IH. lia.
Qed.
Lemma rounds2_ok ks ws s : length ks = length ws -> fold_left (sha2_round q) (combine ks ws) s = rounds2 ks ws (seq 0 (length ws)) s.
Proof.
  intros H. rewrite combine_nth_seq by exact H. unfold rounds2. generalize (seq 0 (length ws)). intros l. revert s.
  induction l as [|i l IH]; intros s; [reflexivity|]. cbn [map fold_left]. apply IH.
Qed.

Lemma sha2_loop_ok ws post n : length ws = length (K p) -> forall t v, (t + n <= length ws)%nat -> Forall word_ok (list8 v) ->
  exists v', sha2_loop p (filled ws ++ post) n t v = Some v' /\
    list8 v' = rounds2 (K p) ws (seq t n) (list8 v) /\ Forall word_ok (list8 v').
Proof.
  intros HK. induction n as [|n IH]; intros t v Ht HP; cbn [sha2_loop seq]; [eauto|].
  rewrite (nth_error_nth' (K p) 0) by lia. rewrite get_filled by lia. cbn [obind].
  destruct (sha2_step_ok (nth t (K p) 0) (nth t ws 0) v HP) as [E HP'].
  change (rounds2 (K p) ws (t :: seq (S t) n) (list8 v))
    with (rounds2 (K p) ws (seq (S t) n) (sha2_round q (list8 v) (nth t (K p) 0, nth t ws 0))).
  rewrite <- E. apply IH; auto; lia.
Qed.

Theorem sha2_process_ok h l : length h = 8%nat -> Forall word_ok h -> length l = (16 * stride p)%nat -> bytes_ok l ->
  sha2_process p h (filled l) = Some (sha2_compress q h (block_words (stride p) l)) /\
  Forall word_ok (sha2_compress q h (block_words (stride p) l)) /\
  length (sha2_compress q h (block_words (stride p) l)) = 8%nat.
Proof.
  intros Hh HP Hl Hb. pose proof (ag_s _ _ AG) as Hs. pose proof (ag_n16 _ _ AG) as Hn16. pose proof (ag_n _ _ AG) as Hn.
  pose proof (ag_Kn _ _ AG) as HKn.
  destruct (block_words_lt (stride p) l) as [Hw Hw16]; [exact Hs|exact Hl|exact Hb|].
  rewrite <- (ag_w8 _ _ AG) in Hw. fold word_ok in Hw.
  destruct (exact_pieces (stride p) 16 l Hl) as (bl & -> & Hf & Hk).
  unfold block_words in *. rewrite split_concat in * by (auto; lia). set (m := map be bl) in *.
  unfold sha2_process.
  pose proof (fill_load (fun t => load p (filled (concat bl)) (t * stride p)) m [] (nrounds p - 16)) as F1.
  rewrite Hw16 in F1. cbn [length filled map app] in F1. replace (16 + (nrounds p - 16))%nat with (nrounds p) in F1 by lia.
  rewrite F1; clear F1. 2:{ intros i Hi. rewrite Nat.add_0_l. apply (ag_load _ _ AG); auto. lia. }
  cbn [obind]. destruct (fill_extend word_ok (sha2_w p) (sha2_next q) (nrounds p - 16) m 0) as [F2 Hx]; auto.
  { lia. } { apply sha2_w_ok. }
  rewrite Nat.add_0_r, Hw16 in F2. fold (filled m). rewrite F2. cbn [obind]. clear F2.
  pose proof (extend_length (sha2_next q) (nrounds p - 16) m) as Hxl. rewrite Hw16 in Hxl.
  replace (nrounds p - 16 + 16)%nat with (rounds q) in Hxl by lia.
  unfold sha2_compress. rewrite <- Hn. set (ws := extend (sha2_next q) (nrounds p - 16) m) in *.
  destruct h as [|h0 [|h1 [|h2 [|h3 [|h4 [|h5 [|h6 [|h7 [|]]]]]]]]]; try discriminate Hh. clear Hh.
  set (v0 := {| vA := h0; vB := h1; vC := h2; vD := h3; vE := h4; vF := h5; vG := h6; vH := h7 |}).
  change [h0; h1; h2; h3; h4; h5; h6; h7] with (list8 v0) in HP.
  destruct (sha2_loop_ok ws (fresh 0) (nrounds p)) with (t := 0%nat) (v := v0) as (v1 & L1 & R1 & P1); [lia|lia|exact HP|].
  rewrite L1. cbn [obind]. rewrite <- (ag_K _ _ AG), rounds2_ok by lia.
  rewrite Hxl, <- Hn. change [h0; h1; h2; h3; h4; h5; h6; h7] with (list8 v0). rewrite <- R1.
  split; [|split; [apply add_states_lt|reflexivity]].
  unfold list8, add_states. cbn [combine map fst snd vA vB vC vD vE vF vG vH v0].
  rewrite !(ag_w _ _ AG), !add2_ok. reflexivity.
Qed.
End Sha2.

(** * The five functions *)

Definition state_len (a : algorithm) : nat := match a with Sha1 => 5 | _ => 8 end%nat.

Theorem process_ok a h l : length h = state_len a -> Forall (fun x => x < 2 ^ word_size a) h ->
  length l = Block_Size (variant_for a) -> bytes_ok l ->
  let h' := compress a h (block_words (wbytes (variant_for a)) l) in
  process (variant_for a) h (filled l) = Some h' /\ length h' = state_len a /\ Forall (fun x => x < 2 ^ word_size a) h'.
Proof.
  intros Hh HP Hl Hb h'. subst h'. destruct a.
  - destruct (sha1_process_ok h l Hh HP Hl Hb) as (H1 & H2 & H3). exact (conj H1 (conj H3 H2)).
  - destruct (sha2_process_ok _ _ agree32 h l Hh HP Hl Hb) as (H1 & H2 & H3). exact (conj H1 (conj H3 H2)).
  - destruct (sha2_process_ok _ _ agree32 h l Hh HP Hl Hb) as (H1 & H2 & H3). exact (conj H1 (conj H3 H2)).
  - destruct (sha2_process_ok _ _ agree64 h l Hh HP Hl Hb) as (H1 & H2 & H3). exact (conj H1 (conj H3 H2)).
  - destruct (sha2_process_ok _ _ agree64 h l Hh HP Hl Hb) as (H1 & H2 & H3). exact (conj H1 (conj H3 H2)).
Qed.
