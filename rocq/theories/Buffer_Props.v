(* Theorems about src/buffer.c: C16-C18. *)
From Verif Require Import Base Refine Buffer_Model Buffer_Spec Buffer_Proofs.
Open Scope N_scope.

(** * C16: a history of BUFFER calls behaves like the same history on byte sequences *)

(* For every history and every way allocations succeed or fail (o): for some
   assignment ms of "memory was available" to the calls, blaming only allocations
   that did fail, and unless a call breaks a precondition, the history runs without
   undefined behaviour, returns what the specification returns (lengths, contents,
   success) and ends with every live handle holding its byte sequence. *)
Theorem buffers_refine_sequences : forall (ops : list bop) (o : oracle),
  exists ms, length ms = length ops /\ (In false ms -> In false o) /\
    forall rs sp, srun bsp_step [] ops ms = Some (rs, sp) ->
    exists st o', run bstep [] ops o = Some ((rs, st), o') /\ brepresents st sp.
Proof.
  intros ops o. apply (refinement bstep bsp_step brepresents buffer_simulate). constructor.
Qed.

Theorem buffers_refine_sequences_no_failure : forall (ops : list bop) (o : oracle) rs sp,
  ~ In false o ->
  srun bsp_step [] ops (repeat true (length ops)) = Some (rs, sp) ->
  exists st o', run bstep [] ops o = Some ((rs, st), o') /\ brepresents st sp.
Proof.
  intros ops o rs sp Ho H. destruct (buffers_refine_sequences ops o) as (ms & Hl & Hf & Hr).
  assert (E : ms = repeat true (length ops)).
  { rewrite <- Hl. clear - Hf Ho. induction ms as [|[|] ms IH]; cbn.
    - reflexivity.
    - f_equal. apply IH. intros H. apply Hf. right. exact H.
    - exfalso. apply Ho, Hf. left. reflexivity. }
  subst ms. apply Hr, H.
Qed.

(* The handle a call may change. *)
Definition btarget (op : bop) : option nat :=
  match op with
  | BDelete h | BBuild h _ _ | BPreBuild h _ | BUnbuild h | BEnlarge h _ => h
  | BAppend h _ | BPrepend h _ => h
  | BPoke h _ _ => Some h
  | _ => None
  end.

Lemma bstep_cases st op o r st' o' : bstep st op o = Some ((r, st'), o') ->
  st' = st
  \/ (exists b, r = BRH (Some (length st)) /\ st' = st ++ [Some b])
  \/ (exists h b, btarget op = Some h /\ st' = upd st h b).
Proof.
  destruct op; cbn [bstep btarget];
    unfold BUFFER_new, BUFFER_create, BUFFER_delete, BUFFER_build, BUFFER_pre_build,
     BUFFER_content, BUFFER_u_char, BUFFER_unbuild, BUFFER_enlarge, BUFFER_size, BUFFER_length,
     BUFFER_append, BUFFER_prepend, BUFFER_clone, client_poke, bpush, bset, realloc_ptr, bind, lift, undef, ret;
    intros H; crunch H; try (injection H as <- <- <-); subst; eauto 8.
Qed.

(* Every other handle keeps its storage, byte for byte, and its length. *)
Theorem buffers_other_handles_untouched : forall st op o r st' o' h,
  bstep st op o = Some ((r, st'), o') ->
  btarget op <> Some h -> (h < length st)%nat -> nth_error st' h = nth_error st h.
Proof.
  intros st op o r st' o' h H Ht Hh. destruct (bstep_cases _ _ _ _ _ _ H) as [->|[(b & _ & ->)|(i & b & E & ->)]].
  - reflexivity.
  - apply nth_error_app1, Hh.
  - apply upd_other. intros ->. apply Ht, E.
Qed.

(* A history: create two buffers, append, prepend with a clone, enlarge, poke. *)
Example buffers_history :
  srun bsp_step []
    [BCreate (BSBytes [1;2;3]) 3; BCreate (BSBytes [9]) 1; BAppend (Some 0%nat) (Some 1%nat);
     BClone (Some 0%nat); BPrepend (Some 1%nat) (Some 2%nat); BEnlarge (Some 1%nat) 2; BPoke 1 5 7;
     BUChar (Some 1%nat); BLength (Some 1%nat); BUChar (Some 0%nat); BDelete (Some 0%nat); BUChar (Some 2%nat)]
    (repeat true 12) =
  Some ([BRH (Some 0%nat); BRH (Some 1%nat); BRI true; BRH (Some 2%nat); BRI true; BRI true; BRI true;
         BRP (Some [Some 1; Some 2; Some 3; Some 9; Some 9; Some 7; None]); BRN 7;
         BRP (Some [Some 1; Some 2; Some 3; Some 9]); BRI true;
         BRP (Some [Some 1; Some 2; Some 3; Some 9])],
        [None; Some (Some [Some 1; Some 2; Some 3; Some 9; Some 9; Some 7; None]);
         Some (Some [Some 1; Some 2; Some 3; Some 9])]).
Proof. vm_compute. reflexivity. Qed.

(** * C17: failing calls change nothing *)

(* The total size the call asks realloc for, when it does so for existing storage. *)
Definition asked_total (st : buffers) (op : bop) : option N :=
  match op with
  | BEnlarge (Some h) n => match getbuf st h with Some b => Some (size b + n) | None => None end
  | BAppend (Some h1) (Some h2) =>
      match getbuf st h1, getbuf st h2 with
      | Some b1, Some b2 => Some (size b1 + size b2) | _, _ => None
      end
  | _ => None
  end.

Definition failed (r : bret) : Prop := r = BRI false \/ r = BRH None.

(* A call that reports failure leaves every byte of every buffer as it was - in any
   state, well-formed or not, and wherever the allocation failed - unless it is an
   enlarge or append whose total size is a multiple of 2^64 (see C18). *)
Theorem buffers_failure_changes_nothing_partial : forall st op o r st' o',
  bstep st op o = Some ((r, st'), o') -> failed r ->
  (forall t, asked_total st op = Some t -> t mod 2 ^ 64 <> 0) ->
  st' = st.
Proof.
  intros st op o r st' o' H Hf Ha.
  assert (Hb : forall i b, getbuf st i = Some b -> bset st i {| buffer := buffer b; size := size b |} = st).
  { intros i b E. rewrite buf_eta. apply bset_same, E. }
  destruct Hf as [-> | ->];
  (destruct op; cbn [bstep asked_total] in *;
    unfold BUFFER_new, BUFFER_create, BUFFER_delete, BUFFER_build, BUFFER_pre_build,
     BUFFER_content, BUFFER_u_char, BUFFER_unbuild, BUFFER_enlarge, BUFFER_size, BUFFER_length,
     BUFFER_append, BUFFER_prepend, BUFFER_clone, client_poke, bpush, realloc_ptr, bind, lift, undef, ret in H;
    crunch H; inversion H; subst; try reflexivity;
    try discriminate;
    try match goal with
    | E : getbuf ?st ?i = Some ?b, E2 : buffer ?b = _ |- _ => rewrite <- E2; apply (Hb _ _ E)
    | E : getbuf ?st ?i = Some ?b |- _ => apply (Hb _ _ E)
    end).
  all: try (exfalso; match goal with E : (?t =? 0) = true |- _ => apply N.eqb_eq in E; unfold wrap, two64 in E;
     try (eapply Ha; [reflexivity|exact E]) end).
Qed.

(* The exception is real: appending one buffer without bytes to another (both made by
   BUFFER_create with size 0) reports failure but frees the first one's storage, so
   that the BUFFER_delete that must follow frees it a second time. *)
Theorem buffers_failed_append_frees_refuted :
  exists ops st o', run bstep [] ops [] = Some (([BRH (Some 0%nat); BRH (Some 1%nat); BRI false], st), o') /\
    ops = [BCreate (BSBytes [1]) 0; BCreate (BSBytes [1]) 0; BAppend (Some 0%nat) (Some 1%nat)] /\
    (forall o, bstep st (BDelete (Some 0%nat)) o = None).
Proof.
  eexists _, _, _. split; [|split; [reflexivity|]].
  - vm_compute. reflexivity.
  - intros o. vm_compute. reflexivity.
Qed.

(** * C18: size arithmetic *)

Definition storage_is (st : buffers) (h : nat) (l : list (option N)) : Prop :=
  exists b, getbuf st h = Some b /\ buffer b = PBlock l /\ size b = lenN l.

Lemma sim_use st op o r st' o' sp :
  brepresents st sp -> bstep st op o = Some ((r, st'), o') ->
  exists m, forall r0 sp0, bsp_step sp op m = Some (r0, sp0) -> r0 = r /\ brepresents st' sp0.
Proof.
  intros R H. destruct (buffer_simulate st sp op o R) as (m & _ & Hm). exists m.
  intros r0 sp0 E. destruct (Hm r0 sp0 E) as (s' & o'' & used & Es & Ha & _).
  rewrite H in Es. injection Es as <- <- <-. auto.
Qed.

Lemma brep_storage st sp h l : brepresents st sp -> blive sp h = Some (Some l) -> storage_is st h l.
Proof.
  intros R L. destruct (brep_get _ _ _ _ R L) as (b & E & (E1 & E2 & _)). exists b. auto.
Qed.

Lemma blive_lt sp h c : blive sp h = Some c -> (h < length sp)%nat.
Proof.
  unfold blive. destruct (nth_error sp h) eqn:E; [|discriminate]. intros _.
  apply nth_error_Some. congruence.
Qed.

Lemma blive_upd sp h c c' : blive sp h = Some c -> blive (upd sp h (Some c')) h = Some c'.
Proof. intros H. unfold blive. rewrite upd_same by (eapply blive_lt, H). reflexivity. Qed.

(* As long as the sum of the sizes stays below 2^64, a successful call leaves a block
   of exactly that many bytes, the old bytes first (last for prepend), and reports
   the sum as the length. *)
Theorem buffers_sizes_add_partial : forall st sp h c o st' o',
  brepresents st sp -> blive sp h = Some c ->
  (forall n, lenN (bytes_of c) + n < 2 ^ 64 ->
     bstep st (BEnlarge (Some h) n) o = Some ((BRI true, st'), o') ->
     storage_is st' h (bytes_of c ++ repeat None (N.to_nat n))) /\
  (forall h2 l2, blive sp h2 = Some (Some l2) -> 0 < lenN (bytes_of c) + lenN l2 < 2 ^ 64 ->
     bstep st (BAppend (Some h) (Some h2)) o = Some ((BRI true, st'), o') ->
     storage_is st' h (bytes_of c ++ l2)) /\
  (forall h2 l2, blive sp h2 = Some (Some l2) -> lenN (bytes_of c) + lenN l2 < 2 ^ 64 ->
     bstep st (BPrepend (Some h) (Some h2)) o = Some ((BRI true, st'), o') ->
     storage_is st' h (l2 ++ bytes_of c)).
Proof.
  intros st sp h c o st' o' R L. split; [|split].
  - intros n Hn H. destruct (sim_use _ _ _ _ _ _ _ R H) as (m & Hm).
    cbn [bsp_step] in Hm. rewrite L in Hm.
    destruct (N.eqb_spec n 0) as [->|Hn0]; [destruct (Hm _ _ eq_refl); discriminate|].
    replace (lenN (bytes_of c) + n <? two64) with true in Hm by (unfold two64 in *; lia).
    destruct m; cbn in Hm; destruct (Hm _ _ eq_refl) as [E Ha]; [|discriminate].
    eapply brep_storage; [exact Ha|]. eapply blive_upd, L.
  - intros h2 l2 L2 Hn H. destruct (sim_use _ _ _ _ _ _ _ R H) as (m & Hm).
    cbn [bsp_step] in Hm. rewrite L, L2 in Hm.
    destruct (Nat.eqb_spec h h2) as [->|Hne]; [destruct (Hm _ _ eq_refl); discriminate|].
    destruct c as [l1|]; [|destruct (Hm _ _ eq_refl); discriminate]. cbn [bytes_of] in *.
    replace ((0 <? lenN l1 + lenN l2) && (lenN l1 + lenN l2 <? two64)) with true in Hm by (unfold two64 in *; lia).
    destruct m; cbn in Hm; destruct (Hm _ _ eq_refl) as [E Ha]; [|discriminate].
    eapply brep_storage; [exact Ha|]. eapply blive_upd, L.
  - intros h2 l2 L2 Hn H. destruct (sim_use _ _ _ _ _ _ _ R H) as (m & Hm).
    cbn [bsp_step] in Hm. rewrite L, L2 in Hm.
    destruct (Nat.eqb_spec h h2) as [->|Hne]; [destruct (Hm _ _ eq_refl); discriminate|].
    destruct c as [l1|]; [|destruct (Hm _ _ eq_refl); discriminate]. cbn [bytes_of] in *.
    replace (lenN l1 + lenN l2 <? two64) with true in Hm by (unfold two64 in *; lia).
    destruct m; cbn in Hm; destruct (Hm _ _ eq_refl) as [E Ha]; [|discriminate].
    eapply brep_storage; [exact Ha|]. eapply blive_upd, L.
Qed.

(* Otherwise the sum wraps.  For every buffer holding the bytes l and every k below
   its length, enlarging by 2^64 - k succeeds, and k bytes are LOST: the block and
   the reported length shrink to length l - k. *)
Theorem buffers_enlarge_wraps_refuted : forall st sp h l k,
  brepresents st sp -> blive sp h = Some (Some l) -> 0 < k < lenN l ->
  exists st' o', bstep st (BEnlarge (Some h) (2 ^ 64 - k)) [] = Some ((BRI true, st'), o') /\
    storage_is st' h (firstn (length l - N.to_nat k) l).
Proof.
  intros st sp h l k R L Hk. destruct (brep_get _ _ _ _ R L) as (b & Eb & Ep & Es & Hl).
  assert (Hw : wrap (size b + (2 ^ 64 - k)) = lenN l - k).
  { unfold wrap, two64 in *. rewrite Es.
    replace (lenN l + (2 ^ 64 - k)) with (lenN l - k + 1 * 2 ^ 64) by lia.
    rewrite N.mod_add by lia. apply N.mod_small. lia. }
  cbn [bstep]. unfold BUFFER_enlarge. replace (2 ^ 64 - k =? 0) with false by (unfold two64 in *; lia).
  rewrite Eb, bind_lift_some, Hw, Ep. unfold realloc_ptr. replace (lenN l - k =? 0) with false by lia.
  eexists _, _. split; [reflexivity|].
  assert (Hh : (h < length st)%nat).
  { rewrite (brep_len _ _ R). eapply blive_lt, L. }
  eexists. split; [unfold getbuf, bset; rewrite upd_same by exact Hh; reflexivity|].
  cbn [buffer size]. split.
  - f_equal. replace (N.to_nat (lenN l - k) - length l)%nat with 0%nat by (unfold lenN; lia).
    unfold fresh. cbn [repeat]. rewrite app_nil_r. f_equal. unfold lenN. lia.
  - unfold lenN in *. rewrite firstn_length. lia.
Qed.

(* And by 2^64 - length exactly: the call reports failure, the bytes are gone, and
   every further use of the buffer (delete included) is undefined. *)
Theorem buffers_enlarge_to_zero_refuted : forall st sp h l,
  brepresents st sp -> blive sp h = Some (Some l) -> 0 < lenN l ->
  exists st' o', bstep st (BEnlarge (Some h) (2 ^ 64 - lenN l)) [] = Some ((BRI false, st'), o') /\
    (forall o, bstep st' (BDelete (Some h)) o = None) /\
    (forall o, bstep st' (BUChar (Some h)) o = None).
Proof.
  intros st sp h l R L Hk. destruct (brep_get _ _ _ _ R L) as (b & Eb & Ep & Es & Hl).
  assert (Hw : wrap (size b + (2 ^ 64 - lenN l)) = 0).
  { unfold wrap, two64 in *. rewrite Es.
    replace (lenN l + (2 ^ 64 - lenN l)) with (0 + 1 * 2 ^ 64) by lia.
    rewrite N.mod_add by lia. reflexivity. }
  cbn [bstep]. unfold BUFFER_enlarge. replace (2 ^ 64 - lenN l =? 0) with false by (unfold two64 in *; lia).
  rewrite Eb, bind_lift_some, Hw, Ep. cbn [realloc_ptr N.eqb].
  assert (Hh : (h < length st)%nat).
  { rewrite (brep_len _ _ R). eapply blive_lt, L. }
  eexists _, _. split; [reflexivity|].
  split; intros o; unfold BUFFER_delete, BUFFER_u_char, getbuf, bset, bind, lift; rewrite upd_same by exact Hh;
    reflexivity.
Qed.

Example buffers_wrap_concrete :
  run bstep [] [BCreate (BSBytes [1;2;3]) 3; BEnlarge (Some 0%nat) (2 ^ 64 - 1); BLength (Some 0%nat)] [] =
  Some (([BRH (Some 0%nat); BRI true; BRN 2], [Some {| buffer := PBlock [Some 1; Some 2]; size := 2 |}]), []).
Proof. vm_compute. reflexivity. Qed.

Print Assumptions buffers_refine_sequences.
Print Assumptions buffers_enlarge_wraps_refuted.
