(* Theorems about src/strings.c: C07-C11. *)
From Verif Require Import Base Refine Strings_Model Strings_Spec Strings_Proofs Json_Spec.
Open Scope N_scope.

(** * C07: a history of STRING calls behaves like the same history on texts *)

(* For every history of calls, every way memory allocations succeed or fail (o):
   there is an assignment ms of "memory was available" to the calls, blaming only
   allocations that did fail, such that, unless some call breaks a documented
   precondition, the history runs without undefined behaviour, returns what the
   text specification returns, and ends with every live handle holding its text. *)
Theorem strings_refine_texts : forall (ops : list sop) (o : oracle),
  exists ms, length ms = length ops /\ (In false ms -> In false o) /\
    forall rs sp, srun sp_step [] ops ms = Some (rs, sp) ->
    exists st o', run sstep [] ops o = Some ((rs, st), o') /\ represents st sp.
Proof.
  intros ops o. apply (refinement sstep sp_step represents strings_simulate). constructor.
Qed.

(* With memory available throughout there is no choice left: the results are those
   of the specification with every call succeeding. *)
Theorem strings_refine_texts_no_failure : forall (ops : list sop) (o : oracle) rs sp,
  ~ In false o ->
  srun sp_step [] ops (repeat true (length ops)) = Some (rs, sp) ->
  exists st o', run sstep [] ops o = Some ((rs, st), o') /\ represents st sp.
Proof.
  intros ops o rs sp Ho H. destruct (strings_refine_texts ops o) as (ms & Hl & Hf & Hr).
  assert (E : ms = repeat true (length ops)).
  { rewrite <- Hl. clear - Hf Ho. induction ms as [|[|] ms IH]; cbn.
    - reflexivity.
    - f_equal. apply IH. intros H. apply Hf. right. exact H.
    - exfalso. apply Ho, Hf. left. reflexivity. }
  subst ms. apply Hr, H.
Qed.

(* A call changes at most the handle it is asked to change: every other handle
   keeps its memory, byte for byte. *)
Definition target (op : sop) : option nat :=
  match op with
  | SConcat h _ | SConcatS h _ | SCopy h _ | SCopyN h _ _ | SQuote h | SEmpty h | SDelete h => h
  | _ => None
  end.

Lemma new_string_frame st mk o r st' o' : new_string st mk o = Some ((r, st'), o') ->
  (r = RH None /\ st' = st) \/ (exists b, r = RH (Some (length st)) /\ st' = st ++ [Some b]).
Proof.
  unfold new_string, bind. destruct (allocs 2 o) as [[[|] o1]|]; [| |discriminate].
  - destruct mk as [b|]; cbn; [|discriminate]. intros H. injection H as <- <- <-.
    right. exists b. split; reflexivity.
  - intros H. injection H as <- <- <-. left. auto.
Qed.

Lemma mutate_frame st h mk o r st' o' : mutate st h mk o = Some ((r, st'), o') ->
  (r = RI false /\ st' = st) \/ (exists b, r = RI true /\ st' = setb st h b).
Proof.
  unfold mutate, bind. destruct (alloc o) as [[[|] o1]|]; [| |discriminate].
  - destruct mk as [b|]; cbn; [|discriminate]. intros H. injection H as <- <- <-.
    right. exists b. split; reflexivity.
  - intros H. injection H as <- <- <-. left. auto.
Qed.

Lemma sstep_cases st op o r st' o' : sstep st op o = Some ((r, st'), o') ->
  st' = st
  \/ (exists b, r = RH (Some (length st)) /\ st' = st ++ [Some b])
  \/ (exists h b, target op = Some h /\ r = RI true /\ st' = upd st h b).
Proof.
  assert (N : forall mk o, new_string st mk o = Some (r, st', o') ->
     st' = st \/ (exists b, r = RH (Some (length st)) /\ st' = st ++ [Some b])
     \/ (exists h b, target op = Some h /\ r = RI true /\ st' = upd st h b)).
  { intros mk o0 H. destruct (new_string_frame _ _ _ _ _ _ H) as [[_ ->]|H1]; auto. }
  assert (Mu : forall i mk o, target op = Some i -> mutate st i mk o = Some (r, st', o') ->
     st' = st \/ (exists b, r = RH (Some (length st)) /\ st' = st ++ [Some b])
     \/ (exists h b, target op = Some h /\ r = RI true /\ st' = upd st h b)).
  { intros i mk o0 Ht H. destruct (mutate_frame _ _ _ _ _ _ _ H) as [[_ ->]|(b & -> & ->)]; auto.
    right. right. exists i, (Some b). auto. }
  assert (Q : forall x, ret x o = Some ((r, st'), o') -> snd x = st -> st' = st).
  { intros x H <-. injection H as -> _. reflexivity. }
  destruct op; cbn [sstep target] in *.
  - apply N.
  - destruct h as [i|]; cbn; [|intros H; injection H as <- <- <-; auto].
    unfold bind, lift. destruct (getb st i); [|discriminate]. apply N.
  - unfold STRING_construct, bind, lift. destruct (read_arg st a) as [[t|]|]; [apply N| |discriminate].
    intros H. injection H as <- <- <-; auto.
  - unfold STRING_construct_n, bind, lift. destruct (read_arg st a) as [[t|]|]; [| |discriminate].
    + destruct (length t <? n)%nat; [intros H; injection H as <- <- <-; auto|apply N].
    + intros H. injection H as <- <- <-; auto.
  - destruct m as [b|]; cbn; [|intros H; injection H as <- <- <-; auto].
    unfold bind. destruct (alloc o) as [[[|] o1]|]; [| |discriminate]; intros H; injection H as <- <- <-; eauto.
  - unfold STRING_new_quoted, bind, lift. destruct (read_arg st a) as [[t|]|]; [apply N| |discriminate].
    intros H. injection H as <- <- <-; auto.
  - unfold STRING_new_JSON, bind, lift. destruct (read_arg st a) as [[t|]|]; [| |discriminate].
    + destruct (json_count t) as [[nc ne]|]; [apply N|intros H; injection H as <- <- <-; auto].
    + intros H. injection H as <- <- <-; auto.
  - destruct h as [i|]; cbn; [|intros H; injection H as <- <- <-; auto].
    destruct a as [|s|h k]; [intros H; injection H as <- <- <-; auto| |];
    unfold bind at 1, lift at 1; (destruct (getb st i) as [b|]; [|discriminate]);
    unfold bind at 1, lift at 1; (destruct (ctext b) as [t|]; [|discriminate]);
    unfold bind at 1, lift at 1;
    (destruct (read_arg st _) as [[t2|]|]; [|intros H; injection H as <- <- <-; auto|discriminate]);
    apply Mu; reflexivity.
  - destruct h1 as [i|]; cbn; [|intros H; injection H as <- <- <-; auto].
    destruct h2 as [j|]; cbn; [|intros H; injection H as <- <- <-; auto].
    unfold bind at 1, lift at 1; (destruct (getb st i) as [b|]; [|discriminate]);
    unfold bind at 1, lift at 1; (destruct (ctext b) as [t|]; [|discriminate]).
    unfold bind at 1, lift at 1; (destruct (getb st j) as [b2|]; [|discriminate]);
    unfold bind at 1, lift at 1; (destruct (ctext b2) as [t2|]; [|discriminate]).
    apply Mu; reflexivity.
  - destruct h as [i|]; cbn [STRING_copy]; [|intros H; injection H as <- <- <-; auto].
    destruct a as [|s|h k]; [intros H; injection H as <- <- <-; auto| |];
    unfold bind at 1, lift at 1; (destruct (getb st i) as [b|]; [|discriminate]).
    + unfold bind at 1, lift at 1.
      destruct (read_arg st _) as [[t2|]|]; [|intros H; injection H as <- <- <-; auto|discriminate].
      apply Mu; reflexivity.
    + destruct k as [|k]; [destruct (h =? i)%nat; [intros H; injection H as <- <- <-; auto|]|];
      unfold bind at 1, lift at 1;
      (destruct (read_arg st _) as [[t2|]|]; [|intros H; injection H as <- <- <-; auto|discriminate]);
      apply Mu; reflexivity.
  - destruct h as [i|]; cbn [STRING_copy_n]; [|intros H; injection H as <- <- <-; auto].
    destruct a as [|s|h k]; [intros H; injection H as <- <- <-; auto| |];
    unfold bind at 1, lift at 1; (destruct (getb st i) as [b|]; [|discriminate]);
    unfold bind at 1, lift at 1;
    (destruct (read_arg st _) as [[t2|]|]; [|intros H; injection H as <- <- <-; auto|discriminate]);
    apply Mu; reflexivity.
  - destruct h as [i|]; cbn [STRING_quote]; [|intros H; injection H as <- <- <-; auto].
    unfold bind at 1, lift at 1; (destruct (getb st i) as [b|]; [|discriminate]).
    unfold bind at 1, lift at 1; (destruct (ctext b) as [t|]; [|discriminate]).
    apply Mu; reflexivity.
  - destruct h as [i|]; cbn [STRING_empty]; [|intros H; injection H as <- <- <-; auto].
    unfold bind at 1, lift at 1; (destruct (getb st i) as [b|]; [|discriminate]).
    apply Mu; reflexivity.
  - destruct h as [i|]; cbn [STRING_delete]; [|intros H; injection H as <- <- <-; auto].
    unfold bind at 1, lift at 1; (destruct (getb st i) as [b|]; [|discriminate]).
    intros H; injection H as <- <- <-. right. right. exists i, None. auto.
  - destruct h as [i|]; cbn [STRING_c_str]; [|intros H; injection H as <- <- <-; auto].
    unfold bind, lift; (destruct (getb st i) as [b|]; [|discriminate]);
    (destruct (ctext b) as [t|]; [|discriminate]). intros H; injection H as <- <- <-; auto.
  - destruct h as [i|]; cbn [STRING_length]; [|intros H; injection H as <- <- <-; auto].
    unfold bind, lift; (destruct (getb st i) as [b|]; [|discriminate]);
    (destruct (ctext b) as [t|]; [|discriminate]). intros H; injection H as <- <- <-; auto.
  - destruct h1 as [i|], h2 as [j|]; cbn [STRING_compare];
      try (intros H; injection H as <- <- <-; auto).
    unfold bind, lift; (destruct (getb st i) as [b|]; [|discriminate]);
    (destruct (ctext b) as [t|]; [|discriminate]);
    (destruct (getb st j) as [b2|]; [|discriminate]);
    (destruct (ctext b2) as [t2|]; [|discriminate]). intros H; injection H as <- <- <-; auto.
Qed.

Theorem strings_other_handles_untouched : forall st op o r st' o' j,
  sstep st op o = Some ((r, st'), o') ->
  (j < length st)%nat -> target op <> Some j ->
  nth_error st' j = nth_error st j.
Proof.
  intros st op o r st' o' j H Hj Ht.
  destruct (sstep_cases _ _ _ _ _ _ H) as [->|[(b & _ & ->)|(h & b & Hh & _ & ->)]].
  - reflexivity.
  - apply nth_error_app1, Hj.
  - apply upd_other. congruence.
Qed.

(** * C08: a call that reports failure changed nothing *)

(* Whatever the state, the call and the allocation failures: if the call returns a
   nonzero int or a NULL handle, the memory of all strings is as before. *)
Theorem strings_failure_changes_nothing : forall st op o r st' o',
  sstep st op o = Some ((r, st'), o') ->
  r = RI false \/ r = RH None ->
  st' = st.
Proof.
  intros st op o r st' o' H Hr.
  destruct (sstep_cases _ _ _ _ _ _ H) as [->|[(b & -> & _)|(h & b & _ & -> & _)]].
  - reflexivity.
  - destruct Hr; discriminate.
  - destruct Hr; discriminate.
Qed.

(* Whatever allocation fails, a call within its preconditions does not run into
   undefined behaviour. *)
Theorem strings_defined_under_alloc_failure : forall st sp op o,
  represents st sp ->
  (forall m, sp_step sp op m <> None) ->
  exists r st' sp' o', sstep st op o = Some ((r, st'), o') /\ represents st' sp'
                       /\ ((r = RI false \/ r = RH None) -> sp' = sp).
Proof.
  intros st sp op o R Hp. destruct (strings_simulate st sp op o R) as (m & _ & H).
  destruct (sp_step sp op m) as [[r sp']|] eqn:E; [|destruct (Hp m E)].
  destruct (H r sp' eq_refl) as (st' & o' & used & Es & R' & _).
  exists r, st', sp', o'. split; [exact Es|]. split; [exact R'|].
  intros Hr. assert (Es' : st' = st) by (eapply strings_failure_changes_nothing; eauto). subst st'.
  (* the texts represented by a memory are unique *)
  clear - R R'. unfold represents in *. revert sp' R'. induction R as [|ob ot st sp Hp R IH]; intros sp' R'.
  - inversion R'. reflexivity.
  - inversion R' as [|ob' ot' st1 sp1 Hp' R1]; subst. f_equal; [|apply IH, R1].
    destruct ob as [b|], ot as [t|], ot' as [t'|]; try contradiction; try reflexivity.
    assert (E1 : ctext b = Some t) by (apply wf_ctext; exact Hp).
    assert (E2 : ctext b = Some t') by (apply wf_ctext; exact Hp'). congruence.
Qed.

(** * C09: STRING_new_JSON *)

(* Every ASCII text: the call yields a JSON string literal that any JSON reader
   reads back as exactly that text; any byte >= 128: NULL. *)
Theorem new_JSON_reads_back : forall st sp t o,
  represents st sp -> cstr_ok t -> ~ In false o ->
  exists r st' o', sstep st (SJSON (CText t)) o = Some ((r, st'), o') /\
    if forallb (fun c => c <? 128) t
    then exists lit, r = RH (Some (length st)) /\ represents st' (sp ++ [Some lit]) /\
         json_string lit = Some (t, [])
    else r = RH None /\ st' = st.
Proof.
  intros st sp t o R Ht Ho. pose proof (proj2 (cstr_okb_ok t) Ht) as Hb.
  destruct (strings_simulate st sp (SJSON (CText t)) o R) as (m & Hm & H).
  destruct m; [|exfalso; auto]. cbn [sp_step denote] in H. rewrite Hb in H.
  change (forallb (fun c => c <? 128) t) with (ascii_text t).
  destruct (ascii_text t) eqn:Ea.
  - cbn in H. destruct (H _ _ eq_refl) as (st' & o' & used & E & R' & _).
    exists (RH (Some (length sp))), st', o'. split; [exact E|]. exists (json_literal t).
    rewrite (rep_len _ _ R). split; [reflexivity|]. split; [exact R'|].
    pose proof (json_literal_reads t [] Ht Ea) as J. rewrite app_nil_r in J. exact J.
  - destruct (H _ _ eq_refl) as (st' & o' & used & E & R' & _).
    exists (RH None), st', o'. split; [exact E|]. split; [reflexivity|].
    eapply strings_failure_changes_nothing; [exact E|right; reflexivity].
Qed.

(* The literal is delimited: a reader finds its end whatever follows it. *)
Theorem json_literal_reads_back : forall t k, cstr_ok t -> ascii_text t = true ->
  json_string (json_literal t ++ k) = Some (t, k).
Proof. exact json_literal_reads. Qed.

(** * C10: appending a string to itself *)

(* STRING_concat_with_STRING(h, h) is undefined for every text. *)
Theorem concat_self_undefined_refuted : forall st sp h t o,
  represents st sp -> live sp h = Some t -> ~ In false o ->
  sstep st (SConcatS (Some h) (Some h)) o = None.
Proof.
  intros st sp h t o R L Ho. destruct (rep_get _ _ _ _ R L) as (b & Hb & W).
  cbn [sstep]. unfold STRING_concat_with_STRING.
  rewrite Hb, bind_lift, (wf_ctext _ _ W), !bind_lift, (wf_ctext _ _ W), bind_lift. unfold mutate, bind.
  destruct o as [|[|] o]; cbn; [rewrite Nat.eqb_refl; reflexivity..|].
  destruct Ho. left. reflexivity.
Qed.

(* What happens with a memcpy that copies bytes in ascending order: nothing is left
   that terminates the string. *)
Fixpoint copy_ascending (b : block) (src dst n : nat) : option block :=
  match n with
  | O => Some b
  | S k => match nth_error b src with
           | Some (Some v) => match store b dst v with
                              | Some b' => copy_ascending b' (S src) (S dst) k
                              | None => None
                              end
           | _ => None
           end
  end.

Lemma ctext_none b : Forall (fun c => match c with Some v => v <> 0 | None => True end) b ->
  ctext b = None.
Proof.
  induction 1 as [|c b Hc H IH]; [reflexivity|]. cbn. destruct c as [v|]; [|reflexivity].
  destruct (N.eqb_spec v 0) as [->|_]; [congruence|]. rewrite IH. reflexivity.
Qed.

(* Everything before dst nonzero: copying n bytes keeps that true before dst+n. *)
Lemma copy_ascending_nonzero n : forall pre post src b',
  Forall (fun c : cell => exists v, c = Some v /\ v <> 0) pre ->
  (src < length pre)%nat -> length post = n ->
  copy_ascending (pre ++ post) src (length pre) n = Some b' ->
  Forall (fun c : cell => exists v, c = Some v /\ v <> 0) b'.
Proof.
  induction n as [|n IH]; intros pre post src b' Hp Hs Hl H.
  - destruct post; [|discriminate]. rewrite app_nil_r in H. injection H as <-. exact Hp.
  - destruct post as [|c post]; [discriminate|]. cbn [copy_ascending] in H.
    rewrite nth_error_app1 in H by exact Hs.
    destruct (nth_error pre src) as [[v|]|] eqn:E; try discriminate.
    rewrite store_app in H.
    assert (Hv : v <> 0).
    { apply nth_error_In in E. rewrite Forall_forall in Hp. destruct (Hp _ E) as (w & Hw & Hn).
      congruence. }
    change (Some v :: post) with ([Some v] ++ post) in H. rewrite app_assoc in H.
    eapply (IH (pre ++ [Some v]) post (S src) b').
    + apply Forall_app. split; [exact Hp|]. constructor; [exists v; auto|constructor].
    + rewrite app_length. cbn. lia.
    + cbn in Hl. lia.
    + rewrite app_length. cbn [length]. rewrite Nat.add_1_r. exact H.
Qed.

Theorem concat_self_loses_terminator_refuted : forall t b room b',
  cstr_ok t -> t <> [] -> b = filled (t ++ [0]) ++ room ->
  copy_ascending (realloc b (length t + length t + 1)) 0 (length t) (length t + 1) = Some b' ->
  ctext b' = None.
Proof.
  intros t b room b' Ht Hne Hb H. apply ctext_none.
  assert (W : wf b t) by (split; [exact Ht|exists room; exact Hb]).
  rewrite <- Nat.add_assoc in H. destruct (realloc_keeps b t (length t + 1) W) as (mid & E & Hl).
  rewrite E in H.
  assert (X : Forall (fun c : cell => exists v, c = Some v /\ v <> 0) b').
  { eapply (copy_ascending_nonzero (length t + 1) (filled t) mid 0); [| | |].
    - apply Forall_forall. intros c Hc. unfold filled in Hc. apply in_map_iff in Hc.
      destruct Hc as (v & <- & Hin). exists v. split; [reflexivity|].
      unfold cstr_ok in Ht. rewrite Forall_forall in Ht. specialize (Ht v Hin). unfold char_ok in Ht. lia.
    - rewrite filled_length. destruct t; [congruence|cbn; lia].
    - exact Hl.
    - rewrite filled_length. exact H. }
  eapply Forall_impl; [|exact X]. intros c (v & -> & Hv). exact Hv.
Qed.

(* ... and such a copy does happen. *)
Example concat_self_example :
  copy_ascending (realloc (filled (str "ab" ++ [0])) 5) 0 2 3 = Some (filled (str "ababa")).
Proof. reflexivity. Qed.

(** * C11: STRING_compare *)

Lemma strcmp_eq a b : strcmp a b = 0%Z <-> a = b.
Proof.
  revert b; induction a as [|x a IH]; intros [|y b]; cbn; try (split; [discriminate|discriminate]).
  - split; reflexivity.
  - destruct (N.ltb_spec x y) as [H|H]; [split; [discriminate|intros E; injection E; lia]|].
    destruct (N.ltb_spec y x) as [H'|H']; [split; [discriminate|intros E; injection E; lia]|].
    assert (x = y) by lia. subst y. rewrite IH. split; [intros ->; reflexivity|intros E; injection E; auto].
Qed.

Lemma strcmp_lt a b : (strcmp a b < 0)%Z <-> lex_lt a b.
Proof.
  revert b; induction a as [|x a IH]; intros [|y b]; cbn.
  - split; [lia|]. intros [(y & t & E)|(p & x & y & s & t & E & _)]; [discriminate|].
    destruct p; discriminate.
  - split; [|lia]. intros _. left. exists y, b. reflexivity.
  - split; [lia|]. intros [(z & t & E)|(p & u & v & s & t & _ & E & _)]; [discriminate|].
    destruct p; discriminate.
  - destruct (N.ltb_spec x y) as [H|H].
    { split; [|lia]. intros _. right. exists [], x, y, a, b. auto. }
    destruct (N.ltb_spec y x) as [H'|H'].
    { split; [lia|]. intros [(z & t & E)|(p & u & v & s & t & E1 & E2 & L)].
      - cbn in E. injection E as E _. lia.
      - destruct p as [|w p]; cbn in E1, E2; injection E1 as -> _; injection E2 as -> _; lia. }
    assert (x = y) by lia. subst y. rewrite IH. split.
    + intros [(z & t & ->)|(p & u & v & s & t & -> & -> & L)].
      * left. exists z, t. reflexivity.
      * right. exists (x :: p), u, v, s, t. auto.
    + intros [(z & t & E)|(p & u & v & s & t & E1 & E2 & L)].
      * cbn in E. injection E as ->. left. exists z, t. reflexivity.
      * destruct p as [|w p]; cbn in E1, E2.
        { injection E1 as -> _. injection E2 as -> _. lia. }
        injection E1 as -> ->. injection E2 as ->. right. exists p, u, v, s, t. auto.
Qed.

Lemma strcmp_anti a b : strcmp b a = (- strcmp a b)%Z.
Proof.
  revert b; induction a as [|x a IH]; intros [|y b]; cbn; try reflexivity.
  destruct (N.ltb_spec x y), (N.ltb_spec y x); try lia; try reflexivity; auto.
Qed.

(* The sign returned for two live strings is that of the lexicographic order of
   their texts by unsigned byte value; zero exactly when the texts are equal. *)
Theorem compare_orders_texts : forall st sp h1 h2 t1 t2 o,
  represents st sp -> live sp h1 = Some t1 -> live sp h2 = Some t2 ->
  exists z, sstep st (SCompare (Some h1) (Some h2)) o = Some ((RZ z, st), o) /\
    (z = 0%Z <-> t1 = t2) /\ ((z < 0)%Z <-> lex_lt t1 t2) /\ ((z > 0)%Z <-> lex_lt t2 t1).
Proof.
  intros st sp h1 h2 t1 t2 o R L1 L2. exists (strcmp t1 t2).
  destruct (rep_get _ _ _ _ R L1) as (b1 & Hb1 & W1).
  destruct (rep_get _ _ _ _ R L2) as (b2 & Hb2 & W2).
  split.
  { cbn [sstep]. unfold STRING_compare.
    rewrite Hb1, bind_lift, (wf_ctext _ _ W1), bind_lift, Hb2, bind_lift, (wf_ctext _ _ W2), bind_lift.
    reflexivity. }
  split; [apply strcmp_eq|]. split; [apply strcmp_lt|].
  rewrite <- (strcmp_lt t2 t1), (strcmp_anti t1 t2). lia.
Qed.

(* The relation is a strict total order (so sorting and searching work). *)
Theorem compare_total_order :
  (forall a, ~ lex_lt a a) /\
  (forall a b c, lex_lt a b -> lex_lt b c -> lex_lt a c) /\
  (forall a b, lex_lt a b \/ a = b \/ lex_lt b a).
Proof.
  split; [|split].
  - intros a H. apply strcmp_lt in H. rewrite (proj2 (strcmp_eq a a) eq_refl) in H. lia.
  - intros a b c. rewrite <- !strcmp_lt. revert b c.
    induction a as [|x a IH]; intros [|y b] [|z c]; cbn; try lia.
    destruct (N.ltb_spec x y), (N.ltb_spec y x), (N.ltb_spec y z), (N.ltb_spec z y),
      (N.ltb_spec x z), (N.ltb_spec z x); try lia; eauto.
  - intros a b. rewrite <- !strcmp_lt, (strcmp_anti a b), <- (strcmp_eq a b). lia.
Qed.

(* Missing handles: two NULLs are equal, NULL sorts after any string. *)
Theorem compare_null : forall st i o,
  sstep st (SCompare None None) o = Some ((RZ 0, st), o) /\
  sstep st (SCompare None (Some i)) o = Some ((RZ 1, st), o) /\
  sstep st (SCompare (Some i) None) o = Some ((RZ (-1), st), o).
Proof. intros. repeat split. Qed.

(** * The hypotheses are met *)

(* Two strings, one failing append, an append that works, a quote, a comparison. *)
Definition demo : list sop :=
  [SConstruct (CText (str "ab")); SConstruct (CText (str "cd"));
   SConcatS (Some 0%nat) (Some 1%nat); SConcatS (Some 0%nat) (Some 1%nat);
   SQuote (Some 0%nat); SCompare (Some 0%nat) (Some 1%nat); SDelete (Some 1%nat);
   SCStr (Some 0%nat)].
Example demo_model :
  run sstep [] demo [true; true; true; true; false]
  = Some (([RH (Some 0%nat); RH (Some 1%nat); RI false; RI true; RI true; RZ (-1); RI true;
           RT (Some (str """abcd"""))],
          [Some (filled (str """abcd""" ++ [0])); None]), []).
Proof. reflexivity. Qed.
Example demo_spec :
  srun sp_step [] demo [true; true; false; true; true; true; true; true]
  = Some ([RH (Some 0%nat); RH (Some 1%nat); RI false; RI true; RI true; RZ (-1); RI true;
           RT (Some (str """abcd"""))], [Some (str """abcd"""); None]).
Proof. reflexivity. Qed.
Example demo_json :
  json_string (json_literal (1 :: str "a""/\")) = Some (1 :: str "a""/\", []).
Proof. reflexivity. Qed.
Example demo_live : represents [Some (filled (str "ab" ++ [0]))] [Some (str "ab")]
  /\ live [Some (str "ab")] 0 = Some (str "ab").
Proof.
  split; [|reflexivity]. constructor; [|constructor]. split; [|exists []; reflexivity].
  apply cstr_okb_ok. reflexivity.
Qed.

Print Assumptions strings_refine_texts.
Print Assumptions new_JSON_reads_back.
Print Assumptions compare_orders_texts.
