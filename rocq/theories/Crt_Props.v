(* Theorems about src/crt_abstractions.c: C14, C15. *)
From Verif Require Import Base Strings_Model Strings_Proofs Crt_Model Crt_Spec Crt_Proofs.
Open Scope N_scope.

(** * C14: copies stay within the stated size *)

(* In all of these b is the memory at the destination, at least [size] bytes long;
   [skipn size b' = skipn size b] says nothing at or beyond size was written, and
   [ctext b' = Some t] that the destination reads as the C string t. *)

Theorem strcpy_s_correct_partial : forall b size src,
  (0 < size <= length b)%nat -> cstr_ok src ->
  exists r b', strcpy_s (Some b) size (Some src) = Some (r, Some b') /\
    skipn size b' = skipn size b /\
    if (length src <? size)%nat then r = EOK /\ ctext b' = Some src
    else r = EERANGE /\ ctext b' = Some [].
Proof.
  intros b size src Hs Ht. unfold strcpy_s.
  replace (size =? 0)%nat with false by lia.
  destruct (Nat.ltb_spec (length src) size) as [H|H].
  - replace (size <? length src + 1)%nat with false by lia.
    assert (Hl : length (src ++ [0]) = (length src + 1)%nat) by (rewrite app_length; reflexivity).
    rewrite store_all_prefix by lia. eexists _, _. split; [reflexivity|].
    split; [|split; [reflexivity|apply ctext_written, Ht]].
    eapply store_all_keeps_beyond; [apply store_all_prefix; lia|]. lia.
  - replace (size <? length src + 1)%nat with true by lia.
    destruct (store_some b 0 0) as [b' E]; [lia|]. rewrite E. eexists _, _. split; [reflexivity|].
    split; [eapply store_keeps_beyond; [exact E|lia]|]. split; [reflexivity|]. eapply store0_text, E.
Qed.

Lemma copy_n b n src size : (n <= length src)%nat -> (n < size <= length b)%nat -> cstr_ok src ->
  exists b', match store_all b 0 (strncpy_bytes src n) with
             | None => None | Some b1 => store b1 n 0 end = Some b' /\
    skipn size b' = skipn size b /\ ctext b' = Some (firstn n src).
Proof.
  intros Hn Hs Ht.
  assert (E : strncpy_bytes src n = firstn n src).
  { unfold strncpy_bytes. replace (n - length src)%nat with 0%nat by lia. apply app_nil_r. }
  rewrite E.
  assert (Hl : length (firstn n src) = n) by (rewrite firstn_length; lia).
  destruct (write_text_term b (firstn n src) (length b - n - 1)) as [room W]; [lia|].
  rewrite Hl in W. rewrite W. eexists. split; [reflexivity|].
  destruct (store_all b 0 (firstn n src)) as [b1|] eqn:E1; [|discriminate].
  split; [|apply ctext_written, cstr_firstn, Ht].
  rewrite (store_keeps_beyond _ _ _ _ size W) by lia.
  eapply store_all_keeps_beyond; [exact E1|]. lia.
Qed.

(* maxCount = Some m: the first m characters, or failure; None (_TRUNCATE): as many
   as fit, STRUNCATE if that is not all. *)
Theorem strncpy_s_correct : forall b size src maxCount,
  (0 < size <= length b)%nat -> cstr_ok src ->
  exists r b', strncpy_s (Some b) size (Some src) maxCount = Some (r, Some b') /\
    skipn size b' = skipn size b /\
    match maxCount with
    | Some m =>
        let wanted := firstn m src in
        if (length wanted <? size)%nat then r = EOK /\ ctext b' = Some wanted
        else r = EERANGE /\ ctext b' = Some []
    | None =>
        ctext b' = Some (firstn (size - 1) src) /\
        r = if (length src <? size)%nat then EOK else ESTRUNCATE
    end.
Proof.
  intros b size src mc Hs Ht. unfold strncpy_s.
  replace (size =? 0)%nat with false by lia.
  destruct mc as [m|].
  - cbv zeta. set (n := if (m <? length src)%nat then m else length src).
    assert (Hn : (n <= length src)%nat) by (unfold n; destruct (Nat.ltb_spec m (length src)); lia).
    assert (Ew : firstn m src = firstn n src /\ length (firstn m src) = n).
    { unfold n. destruct (copyn_len m src) as [E1 E2]. rewrite <- E1, E2. auto. }
    destruct Ew as [-> ->].
    destruct (Nat.ltb_spec n size) as [H|H].
    + replace (size <? n + 1)%nat with false by lia.
      destruct (copy_n b n src size Hn ltac:(lia) Ht) as (b' & E & K & C).
      destruct (store_all b 0 (strncpy_bytes src n)) as [b1|]; [|discriminate]. rewrite E.
      eexists _, _. split; [reflexivity|]. auto.
    + replace (size <? n + 1)%nat with true by lia.
      destruct (store_some b 0 0) as [b' E]; [lia|]. rewrite E. eexists _, _. split; [reflexivity|].
      split; [eapply store_keeps_beyond; [exact E|lia]|]. split; [reflexivity|]. eapply store0_text, E.
  - destruct (Nat.ltb_spec (length src) size) as [H|H].
    + replace (size <? length src + 1)%nat with false by lia.
      destruct (copy_n b (length src) src size ltac:(lia) ltac:(lia) Ht) as (b' & E & K & C).
      destruct (store_all b 0 (strncpy_bytes src (length src))) as [b1|]; [|discriminate]. rewrite E.
      eexists _, _. split; [reflexivity|]. split; [exact K|]. split; [|reflexivity].
      rewrite C, firstn_all, firstn_all2 by lia. reflexivity.
    + replace (size <? length src + 1)%nat with true by lia.
      destruct (copy_n b (size - 1) src size ltac:(lia) ltac:(lia) Ht) as (b' & E & K & C).
      destruct (store_all b 0 (strncpy_bytes src (size - 1))) as [b1|]; [|discriminate]. rewrite E.
      eexists _, _. split; [reflexivity|]. auto.
Qed.

Lemma scan0_text b : forall n t, ctext (firstn n b) = Some t -> scan0 b n = Some (length t) /\
  (length t < n)%nat /\ exists room, b = filled (t ++ [0]) ++ room.
Proof.
  induction b as [|c b IH]; intros n t H.
  - rewrite firstn_nil in H. discriminate.
  - destruct n as [|n]; [discriminate|]. cbn in H. destruct c as [c|]; [|discriminate].
    cbn [scan0]. destruct (N.eqb_spec c 0) as [->|Hc].
    + injection H as <-. split; [reflexivity|]. split; [cbn; lia|]. exists b. reflexivity.
    + destruct (ctext (firstn n b)) as [r|] eqn:E; [|discriminate]. injection H as <-.
      destruct (IH n r E) as (E1 & E2 & room & ->). rewrite E1. split; [reflexivity|].
      split; [cbn; lia|]. exists room. reflexivity.
Qed.

Theorem strcat_s_correct_partial : forall b size old src,
  (0 < size <= length b)%nat -> ctext (firstn size b) = Some old -> cstr_ok old -> cstr_ok src ->
  exists r b', strcat_s (Some b) size (Some src) = Some (r, Some b') /\
    skipn size b' = skipn size b /\
    if (length (old ++ src) <? size)%nat then r = EOK /\ ctext b' = Some (old ++ src)
    else r = EERANGE /\ ctext b' = Some [].
Proof.
  intros b size old src Hs Hold Ho Ht. unfold strcat_s.
  replace (size =? 0)%nat with false by lia.
  destruct (scan0_text b size old Hold) as (E1 & Hlt & room & Eb). rewrite E1.
  replace (size =? length old)%nat with false by lia.
  set (w := strncpy_bytes src (size - length old)).
  assert (Hw : length w = (size - length old)%nat).
  { unfold w, strncpy_bytes. rewrite app_length, firstn_length, repeat_length. lia. }
  destruct (store_all_some w b (length old)) as [b1 E2]; [lia|]. rewrite E2.
  assert (K1 : skipn size b1 = skipn size b) by (eapply store_all_keeps_beyond; [exact E2|lia]).
  rewrite (store_all_nth _ _ _ _ (size - 1)%nat E2).
  replace ((length old <=? size - 1)%nat && (size - 1 <? length old + length w)%nat) with true by lia.
  rewrite app_length.
  destruct (Nat.ltb_spec (length old + length src) size) as [H|H].
  - assert (Ew : w = src ++ repeat 0 (size - length old - length src)).
    { unfold w, strncpy_bytes. rewrite firstn_all2 by lia. reflexivity. }
    assert (En : nth_error w (size - 1 - length old) = Some 0).
    { rewrite Ew, nth_error_app2 by lia.
      assert (R : forall k i, (i < k)%nat -> nth_error (repeat 0 k) i = Some 0).
      { induction k as [|k IHk]; intros [|i] Hi; cbn; try lia; [reflexivity|]. apply IHk. lia. }
      apply R. lia. }
    rewrite En. cbn [option_map]. change (0 =? 0) with true. cbv iota.
    eexists _, _. split; [reflexivity|]. split; [exact K1|]. split; [reflexivity|].
    assert (Eb1 : b1 = filled ((old ++ src) ++ [0]) ++ skipn (length old + length src + 1) b1).
    { rewrite <- (firstn_skipn (length old + length src + 1) b1) at 1. f_equal.
      apply nth_error_ext. intros j.
      assert (F : forall (l : block) k i, nth_error (firstn k l) i = if (i <? k)%nat then nth_error l i else None).
      { induction l as [|x l IHl]; intros k i.
        - rewrite firstn_nil. destruct i; cbn [nth_error]; destruct (_ <? k)%nat; reflexivity.
        - destruct k as [|k]; [destruct i; reflexivity|]. destruct i as [|i]; [reflexivity|].
          cbn [firstn nth_error]. rewrite IHl. reflexivity. }
      rewrite F, (store_all_nth _ _ _ _ j E2). unfold filled. rewrite nth_error_map.
      destruct (Nat.ltb_spec j (length old + length src + 1)) as [Hj|Hj].
      - destruct (Nat.leb_spec (length old) j) as [Hj2|Hj2].
        + replace (j <? length old + length w)%nat with true by lia. cbn [andb]. f_equal.
          rewrite <- app_assoc, nth_error_app2 by lia. rewrite Ew.
          destruct (Nat.lt_ge_cases (j - length old) (length src)) as [H3|H3].
          * rewrite !nth_error_app1 by lia. reflexivity.
          * rewrite !nth_error_app2 by lia. replace (j - length old - length src)%nat with 0%nat by lia.
            destruct (size - length old - length src)%nat as [|k] eqn:Ek; [lia|reflexivity].
        + cbn [andb]. rewrite Eb. rewrite nth_error_app1 by (rewrite filled_length, app_length; cbn; lia).
          unfold filled. rewrite nth_error_map. f_equal. rewrite <- app_assoc, !nth_error_app1 by lia. reflexivity.
      - symmetry. assert (X : nth_error ((old ++ src) ++ [0]) j = None).
        { apply nth_error_None. rewrite !app_length. cbn. lia. }
        rewrite X. reflexivity. }
    rewrite Eb1. apply ctext_written. apply Forall_app. auto.
  - assert (En : exists c, nth_error w (size - 1 - length old) = Some c /\ c <> 0).
    { unfold w, strncpy_bytes. rewrite nth_error_app1 by (rewrite firstn_length; lia).
      destruct (nth_error (firstn (size - length old) src) (size - 1 - length old)) as [c|] eqn:En.
      - exists c. split; [reflexivity|]. apply nth_error_In in En.
        pose proof (cstr_firstn (size - length old) src Ht) as Hf. unfold cstr_ok in Hf.
        rewrite Forall_forall in Hf. specialize (Hf c En). unfold char_ok in Hf. lia.
      - apply nth_error_None in En. rewrite firstn_length in En. lia. }
    destruct En as (c & -> & Hc). cbn [option_map]. destruct (N.eqb_spec c 0); [congruence|].
    destruct (store_some b1 0 0) as [b2 E3]; [rewrite (store_all_length _ _ _ _ E2); lia|]. rewrite E3.
    eexists _, _. split; [reflexivity|]. split; [|split; [reflexivity|eapply store0_text, E3]].
    rewrite (store_keeps_beyond _ _ _ _ size E3) by lia. exact K1.
Qed.

(* An unterminated destination is refused and left alone. *)
Theorem strcat_s_unterminated : forall b size l src,
  (0 < size)%nat -> firstn size b = filled l -> length l = size -> Forall (fun c => c <> 0) l ->
  strcat_s (Some b) size (Some src) = Some (EEINVAL, Some b).
Proof.
  intros b size l src Hs Hb Hl Hn. unfold strcat_s. replace (size =? 0)%nat with false by lia.
  assert (E : scan0 b size = Some size).
  { clear Hs. revert b l Hb Hl Hn. induction size as [|n IH]; intros b l Hb Hl Hn; [destruct b; reflexivity|].
    destruct l as [|c l]; [discriminate|]. destruct b as [|x b]; [discriminate|]. cbn in Hb.
    injection Hb as -> Hb. inversion Hn as [|? ? Hc Hn']; subst. cbn [scan0].
    destruct (N.eqb_spec c 0); [congruence|].
    injection Hl as Hl. rewrite (IH b l); [reflexivity|exact Hb|exact Hl|exact Hn']. }
  rewrite E, Nat.eqb_refl. reflexivity.
Qed.

(* NULL arguments: EINVAL; a NULL source empties the destination. *)
Theorem copies_null : forall b size src m,
  (0 < length b)%nat ->
  (strcpy_s None size src = Some (EEINVAL, None) /\ strncpy_s None size src m = Some (EEINVAL, None)
   /\ strcat_s None size src = Some (EEINVAL, None)) /\
  (exists b', store b 0 0 = Some b' /\ ctext b' = Some [] /\
     strcpy_s (Some b) size None = Some (EEINVAL, Some b') /\
     strncpy_s (Some b) size None m = Some (EEINVAL, Some b') /\
     strcat_s (Some b) size None = Some (EEINVAL, Some b')).
Proof.
  intros b size src m Hb. split; [repeat split|]. destruct (store_some b 0 0 Hb) as [b' E].
  exists b'. split; [exact E|]. split; [eapply store0_text, E|].
  unfold strcpy_s, strncpy_s, strcat_s. rewrite E. auto.
Qed.

(* sprintf_s, for whatever text the format produces: the text or an empty string. *)
Theorem sprintf_s_correct : forall b size txt,
  (0 < size <= length b)%nat -> cstr_ok txt ->
  exists r b', sprintf_s (Some b) size true (Some txt) = Some (r, Some b') /\
    skipn size b' = skipn size b /\
    if (length txt <? size)%nat then r = Some (length txt) /\ ctext b' = Some txt
    else r = None /\ ctext b' = Some [].
Proof.
  intros b size txt Hs Ht. unfold sprintf_s, vsnprintf_writes.
  replace (size =? 0)%nat with false by lia.
  set (w := firstn (size - 1) txt ++ [0]).
  assert (Hw : (length w <= size)%nat) by (unfold w; rewrite app_length, firstn_length; cbn; lia).
  rewrite store_all_prefix by lia.
  assert (K : skipn size (filled w ++ skipn (length w) b) = skipn size b).
  { eapply store_all_keeps_beyond; [apply store_all_prefix; lia|lia]. }
  destruct (Nat.ltb_spec (length txt) size) as [H|H].
  - replace (size <=? length txt)%nat with false by lia. eexists _, _. split; [reflexivity|].
    split; [exact K|]. split; [reflexivity|]. unfold w. rewrite firstn_all2 by lia.
    apply ctext_written, Ht.
  - replace (size <=? length txt)%nat with true by lia.
    destruct (store_some (filled w ++ skipn (length w) b) 0 0) as [b2 E].
    { rewrite app_length, filled_length. unfold w. rewrite app_length. cbn. lia. }
    rewrite E. eexists _, _. split; [reflexivity|].
    split; [rewrite (store_keeps_beyond _ _ _ _ size E) by lia; exact K|].
    split; [reflexivity|eapply store0_text, E].
Qed.

Theorem mallocAndStrcpy_s_correct : forall src o, cstr_ok src ->
  (exists o', mallocAndStrcpy_s true (Some src) o = Some ((EENOMEM, Some None), o') /\ In false o) \/
  (exists o', mallocAndStrcpy_s true (Some src) o
              = Some ((EOK, Some (Some (filled (src ++ [0])))), o')).
Proof.
  intros src o Ht. unfold mallocAndStrcpy_s, bind.
  destruct (alloc_spec o) as (ok & o' & used & E & Ho & Hf). rewrite E. destruct ok.
  - right. exists o'.
    unfold strcpy_s. replace (length src + 1 =? 0)%nat with false by lia.
    rewrite Nat.ltb_irrefl. rewrite write_fresh. reflexivity.
  - left. exists o'. split; [reflexivity|]. rewrite Ho. apply in_or_app. left. auto.
Qed.

(* With a destination size of 0 the property fails: strcpy_s and strcat_s (and a too
   long sprintf_s) still write one byte, whatever is there. *)
Theorem copies_size_zero_refuted : forall c b src txt,
  strcpy_s (Some (c :: b)) 0 (Some src) = Some (EERANGE, Some (Some 0 :: b)) /\
  strcat_s (Some (c :: b)) 0 (Some src) = Some (EERANGE, Some (Some 0 :: b)) /\
  sprintf_s (Some (c :: b)) 0 true (Some txt) = Some (None, Some (Some 0 :: b)) /\
  strcpy_s (Some []) 0 (Some src) = None.
Proof. intros. repeat split. Qed.

(** * C15: integers to text *)

(* Every number has exactly one shortest decimal numeral. *)
Theorem decimal_exists_unique : forall v, exists ds, decimal v ds /\ forall ds', decimal v ds' -> ds' = ds.
Proof.
  intros v. destruct (lsd_exists v) as [l Hl]. exists (rev l). split; [apply lsd_decimal, Hl|].
  intros ds' H. apply decimal_lsd in H. rewrite (lsd_unique _ _ _ Hl H). symmetry. apply rev_involutive.
Qed.

(* For every value, every buffer and every stated size: success exactly when the
   numeral and its terminator fit, and then the buffer reads as the numeral;
   nothing at or beyond the stated size is written. *)
Theorem unsignedIntToString_correct : forall b size v ds,
  (size <= length b)%nat -> v < 2 ^ 32 -> decimal v ds ->
  exists r b', unsignedIntToString (Some b) size v = Some (r, Some b') /\
    skipn size b' = skipn size b /\
    (if (length ds <? size)%nat then r = true /\ ctext b' = Some ds else r = false).
Proof.
  intros b size v ds Hs _ Hd. unfold unsignedIntToString.
  destruct (Nat.lt_ge_cases size 2) as [H2|H2].
  - exists false, b. unfold uintToString. replace (size <? 2)%nat with true by lia.
    split; [reflexivity|]. split; [reflexivity|].
    assert (1 <= length ds)%nat by (destruct Hd as (_ & _ & Hz); destruct ds; [contradiction|cbn; lia]).
    replace (length ds <? size)%nat with false by lia. reflexivity.
  - destruct (to_string_ok b size v ds ltac:(lia) Hd) as (r & b' & E & K & _ & R).
    exists r, b'. auto.
Qed.

Theorem size_tToString_correct : forall b size v ds,
  (size <= length b)%nat -> v < 2 ^ 64 -> decimal v ds ->
  exists r b', size_tToString (Some b) size v = Some (r, Some b') /\
    skipn size b' = skipn size b /\
    (if (length ds <? size)%nat then r = true /\ ctext b' = Some ds else r = false).
Proof.
  intros b size v ds Hs _ Hd. unfold size_tToString.
  destruct (Nat.lt_ge_cases size 2) as [H2|H2].
  - exists false, b. unfold uintToString. replace (size <? 2)%nat with true by lia.
    split; [reflexivity|]. split; [reflexivity|].
    assert (1 <= length ds)%nat by (destruct Hd as (_ & _ & Hz); destruct ds; [contradiction|cbn; lia]).
    replace (length ds <? size)%nat with false by lia. reflexivity.
  - destruct (to_string_ok b size v ds ltac:(lia) Hd) as (r & b' & E & K & _ & R).
    exists r, b'. auto.
Qed.

(* 64-bit values need at most 20 digits, so the 32-byte buffers used elsewhere in the
   library always suffice. *)
Lemma lsd_len k : forall v l, lsd v l -> v < 10 ^ N.of_nat (S k) -> (length l <= S k)%nat.
Proof.
  induction k as [|k IH]; intros v l H Hv.
  - change (10 ^ N.of_nat 1) with 10 in Hv. inversion H; subst; [cbn; lia|lia].
  - inversion H as [|? l' Hv' Hl']; subst; [cbn; lia|]. cbn.
    assert (v / 10 < 10 ^ N.of_nat (S k)).
    { replace (N.of_nat (S (S k))) with (N.succ (N.of_nat (S k))) in Hv by lia.
      rewrite N.pow_succ_r' in Hv. apply N.div_lt_upper_bound; [lia|exact Hv]. }
    specialize (IH _ _ Hl' H0). lia.
Qed.
Theorem decimal_64bit_length : forall v ds, v < 2 ^ 64 -> decimal v ds -> (length ds <= 20)%nat.
Proof.
  intros v ds Hv Hd. apply decimal_lsd in Hd. rewrite <- rev_length.
  apply (lsd_len 19 v); [exact Hd|]. eapply N.lt_trans; [exact Hv|]. reflexivity.
Qed.

(** * The hypotheses are met *)
Example strcpy_demo : strcpy_s (Some (fresh 4)) 4 (Some (str "abc"))
  = Some (EOK, Some (filled (str "abc" ++ [0]))).
Proof. reflexivity. Qed.
Example strcat_demo : strcat_s (Some (filled (str "ab" ++ [0]) ++ fresh 5)) 6 (Some (str "cd"))
  = Some (EOK, Some (filled (str "abcd" ++ [0; 0]) ++ fresh 2)).
Proof. reflexivity. Qed.
Example strncpy_demo : strncpy_s (Some (fresh 4)) 3 (Some (str "abcd")) None
  = Some (ESTRUNCATE, Some (filled (str "ab" ++ [0]) ++ fresh 1)).
Proof. reflexivity. Qed.
Example uint_demo : unsignedIntToString (Some (fresh 11)) 11 4294967295
  = Some (true, Some (filled (str "4294967295" ++ [0]))).
Proof. reflexivity. Qed.
Example uint_demo_small : unsignedIntToString (Some (fresh 4)) 4 1207
  = Some (false, Some (filled (str "702") ++ fresh 1)).
Proof. reflexivity. Qed.

Print Assumptions strcat_s_correct_partial.
Print Assumptions size_tToString_correct.
