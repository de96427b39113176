(* Theorems about src/vector.c: C23-C25. *)
From Verif Require Import Base Refine Vector_Model Vector_Spec Vector_Proofs.
Open Scope N_scope.

(** * C23: a history of VECTOR calls behaves like the same history on arrays *)

(* For every history and allocation pattern: unless a call breaks a precondition (or
   the shrinking realloc of an erase fails), no undefined behaviour, the results are
   those of the array specification, and every vector holds exactly its elements.
   Missing from C23: histories in which the realloc that shrinks the storage after an
   erase fails; see vectors_erase_shrink_refuted. *)
Theorem vectors_refine_arrays_partial : forall (ops : list vop) (o : oracle),
  exists ms, length ms = length ops /\ (In false ms -> In false o) /\
    forall rs sp, srun vsp_step [] ops ms = Some (rs, sp) ->
    exists st o', run vstep [] ops o = Some ((rs, st), o') /\ vrepresents st sp.
Proof.
  intros ops o. apply (refinement vstep vsp_step vrepresents vector_simulate). constructor.
Qed.

Theorem vectors_refine_arrays_no_failure : forall (ops : list vop) (o : oracle) rs sp,
  ~ In false o ->
  srun vsp_step [] ops (repeat true (length ops)) = Some (rs, sp) ->
  exists st o', run vstep [] ops o = Some ((rs, st), o') /\ vrepresents st sp.
Proof.
  intros ops o rs sp Ho H. destruct (vectors_refine_arrays_partial ops o) as (ms & Hl & Hf & Hr).
  apply Hr. rewrite (no_failure_ms ms o Hf Ho), Hl. exact H.
Qed.

(* The vector a call may change; reads change nothing. *)
Definition vtarget (op : vop) : option nat :=
  match op with
  | VDestroy h | VPush h _ _ | VErase h _ _ | VClear h => h
  | VSet h _ _ => Some h
  | _ => None
  end.

Lemma vstep_cases st op o r st' o' : vstep st op o = Some ((r, st'), o') ->
  st' = st
  \/ (exists v, r = VRH (Some (length st)) /\ st' = st ++ [Some v])
  \/ (exists h v, vtarget op = Some h /\ st' = upd st h v).
Proof.
  destruct op; cbn [vstep vtarget];
    unfold VECTOR_create, VECTOR_destroy, VECTOR_push_back, VECTOR_erase, VECTOR_clear, VECTOR_element,
     VECTOR_front, VECTOR_back, VECTOR_find_if, VECTOR_size, client_get, client_set, vset, realloc_ptr,
     bind, lift, undef, ret;
    intros H; crunch H; try (injection H as <- <- <-); subst; eauto 8.
Qed.

Theorem vectors_other_handles_untouched : forall st op o r st' o' h,
  vstep st op o = Some ((r, st'), o') ->
  vtarget op <> Some h -> (h < length st)%nat -> nth_error st' h = nth_error st h.
Proof.
  intros st op o r st' o' h H Ht Hh. destruct (vstep_cases _ _ _ _ _ _ H) as [->|[(b & _ & ->)|(i & b & E & ->)]].
  - reflexivity.
  - apply nth_error_app1, Hh.
  - apply upd_other. intros ->. apply Ht, E.
Qed.

(* sizes that do not wrap to 0: then a failed push_back leaves everything as it was *)
Theorem vectors_push_failure_atomic : forall st sp h s n o st' o' a,
  vrepresents st sp -> vlive sp h = Some a -> v_es a * (vlen a + n) < 2 ^ 64 ->
  vstep st (VPush (Some h) s n) o = Some ((VRI false, st'), o') -> st' = st.
Proof.
  intros st sp h s n o st' o' a R L Hn H. change (2 ^ 64) with two64 in Hn. destruct (vrep_get _ _ _ _ R L) as (v & Ev & W).
  pose proof W as (Ees & Hes & Hc & Hm & Hs & Est).
  cbn [vstep] in H. unfold VECTOR_push_back in H.
  destruct (vsrc_null s || (n =? 0)) eqn:E0; [cbn in H; injection H as <- <-; reflexivity|].
  rewrite Ev, bind_lift_some in H. cbv zeta in H. unfold realloc_ptr in H. rewrite Est in H.
  rewrite Hc, Ees in H. rewrite !(wrap_small (v_es a * _)) in H by lia.
  rewrite wrap_small in H by lia.
  destruct (v_elems a) as [|e t] eqn:El.
  - unfold bind, lift, ret in H. crunch H; injection H as <- <-; subst;
      rewrite <- Est, <- Hc, <- Ees, vec_eta; apply vset_same, Ev.
  - assert (Hp : 0 < v_es a * n) by (apply N.mul_pos_pos; lia).
    replace (v_es a * vlen a + v_es a * n =? 0) with false in H by lia.
    unfold bind, lift, ret in H. crunch H; injection H as <- <-; subst;
      change (e ++ concat t) with (concat (e :: t)); rewrite <- Est, <- Hc, <- Ees, vec_eta; apply vset_same, Ev.
Qed.

(* A history with three-byte elements. *)
Example vectors_history :
  srun vsp_step []
    [VCreate 3; VPush (Some 0%nat) (VSBytes [1;2;3;4;5;6]) 2; VPush (Some 0%nat) (VSBytes [7;8;9]) 1;
     VFindIf (Some 0%nat) (Some (fun e => match e with 4 :: _ => true | _ => false end)) true;
     VErase (Some 0%nat) (VAt 3) 1; VGet 0 0; VGet 0 1; VBack (Some 0%nat); VSize (Some 0%nat);
     VClear (Some 0%nat); VFront (Some 0%nat); VDestroy (Some 0%nat)] (repeat true 12) =
  Some ([VRH (Some 0%nat); VRI true; VRI true; VRP (VAt 3); VRU; VRB (Some [1;2;3]); VRB (Some [7;8;9]);
         VRP (VAt 3); VRN 2; VRU; VRP VNull; VRU], [None]).
Proof. reflexivity. Qed.

(* C23 fails when the realloc that shrinks the storage fails: for EVERY vector and every
   erase of n >= 1 elements from i that leaves at least one, the remaining elements are
   lost: the storage is gone while VECTOR_size still reports the remaining number, and
   VECTOR_front reports an empty vector. *)
Theorem vectors_erase_shrink_refuted : forall st sp h a i n,
  vrepresents st sp -> vlive sp h = Some a -> 0 < n -> i + n <= vlen a -> n < vlen a ->
  exists st', vstep st (VErase (Some h) (VAt (v_es a * i)) n) [false] = Some ((VRU, st'), []) /\
    vstep st' (VSize (Some h)) [] = Some ((VRN (vlen a - n), st'), []) /\
    vstep st' (VFront (Some h)) [] = Some ((VRP VNull, st'), []) /\
    (forall k, 0 < k < vlen a - n -> vstep st' (VGet h k) [] = None).
Proof.
  intros st sp h a i n R L Hn Hi Hr. destruct (vrep_get _ _ _ _ R L) as (v & Ev & W).
  pose proof W as (Ees & Hes & Hc & Hm & Hs & Est).
  cbn [vstep]. unfold VECTOR_erase. replace (n =? 0) with false by lia.
  rewrite Ev, bind_lift_some, (vwf_nonempty v a W) by lia.
  rewrite (vwf_wrap v a n W) by lia. rewrite Hc, (vwf_wrap v a (vlen a) W) by lia. cbv zeta.
  set (blk := filled (concat (v_elems a))).
  assert (Hb : N.of_nat (length blk) = v_es a * vlen a).
  { unfold blk. rewrite filled_length. apply vlen_mul, Hs. }
  assert (Hle : v_es a * (i + n) <= v_es a * vlen a) by (apply N.mul_le_mono_l; lia).
  rewrite (wrap_small (v_es a * i + v_es a * n)) by lia.
  set (k := vlen a - (i + n)).
  assert (Hmul : v_es a * vlen a = v_es a * i + v_es a * n + v_es a * k) by (replace (vlen a) with (i + n + k) at 1 by lia; lia).
  replace (v_es a * vlen a + two64 - (v_es a * i + v_es a * n)) with (v_es a * k + 1 * two64) by lia.
  assert (Hw : wrap (v_es a * k + 1 * two64) = v_es a * k).
  { unfold wrap. rewrite N.mod_add by discriminate. apply N.mod_small. lia. }
  rewrite Hw.
  assert (Hmv : exists c', memmove_in blk (v_es a * i) (v_es a * i + v_es a * n) (v_es a * k) = Some c').
  { unfold memmove_in, memcpy_to. destruct (v_es a * k =? 0); [eauto|].
    replace ((v_es a * i + v_es a * k <=? N.of_nat (length blk)) &&
             (v_es a * i + v_es a * n + v_es a * k <=? N.of_nat (length blk))) with true by lia.
    rewrite firstn_length, skipn_length.
    match goal with |- context [(?x <=? ?y)%nat] => replace (x <=? y)%nat with true by lia end. eauto. }
  destruct Hmv as (c' & ->). rewrite bind_lift_some.
  assert (Hcnt : wrap (vlen a + two64 - n) = vlen a - n).
  { unfold wrap. replace (vlen a + two64 - n) with (vlen a - n + 1 * two64) by lia.
    rewrite N.mod_add by discriminate. apply N.mod_small.
    assert (1 * vlen a <= v_es a * vlen a) by (apply N.mul_le_mono_r; lia). lia. }
  rewrite Hcnt. replace (vlen a - n =? 0) with false by lia.
  assert (Hpos : 0 < v_es a * (vlen a - n)) by (apply N.mul_pos_pos; lia).
  rewrite (vwf_wrap v a (vlen a - n) W) by lia. unfold realloc_ptr.
  replace (v_es a * (vlen a - n) =? 0) with false by lia.
  assert (Hh : (h < length st)%nat).
  { unfold getvec in Ev. destruct (nth_error st h) eqn:E; [|discriminate]. apply nth_error_Some. congruence. }
  eexists. split; [reflexivity|].
  unfold VECTOR_size, VECTOR_front, client_get, getvec, vset, bind, lift. rewrite upd_same by exact Hh.
  cbn [storage count elementSize fst vaddr]. split; [reflexivity|]. split; [reflexivity|].
  intros j Hj. unfold element_ptr. cbn [count elementSize]. replace (j <=? vlen a - n) with true by lia.
  unfold vaddr. cbn [storage]. rewrite (vwf_wrap v a j W) by lia.
  assert (0 < v_es a * j) by (apply N.mul_pos_pos; lia).
  replace (v_es a * j =? 0) with false by lia. reflexivity.
Qed.

Example vectors_erase_shrink_concrete :
  option_map fst (run vstep []
    [VCreate 1; VPush (Some 0%nat) (VSBytes [1;2;3]) 3; VErase (Some 0%nat) (VAt 0) 1;
     VSize (Some 0%nat); VGet 0 0] [true; true; false]) =
  Some ([VRH (Some 0%nat); VRI true; VRU; VRN 2; VRB None],
        [Some {| storage := PNull; count := 2; elementSize := 1 |}]).
Proof. vm_compute. reflexivity. Qed.

(* With element size 0 (accepted by VECTOR_create) the second push_back frees the
   storage, reports failure and leaves a dangling pointer: clear or destroy is a
   double free. *)
Theorem vectors_zero_size_refuted : forall s1 s2 n1 n2 l1 l2 o,
  s1 = VSBytes l1 -> s2 = VSBytes l2 -> 0 < n1 -> 0 < n2 -> ~ In false o ->
  exists st o',
  run vstep [] [VCreate 0; VPush (Some 0%nat) s1 n1; VPush (Some 0%nat) s2 n2] o =
    Some (([VRH (Some 0%nat); VRI true; VRI false], st), o') /\
  (forall o2, vstep st (VDestroy (Some 0%nat)) o2 = None) /\
  (forall o2, vstep st (VClear (Some 0%nat)) o2 = None).
Proof.
  intros s1 s2 n1 n2 l1 l2 o -> -> H1 H2 Ho.
  assert (Ha : forall o, ~ In false o -> exists o', alloc o = Some (true, o') /\ ~ In false o').
  { intros [|b t] H; cbn; [eauto|]. destruct b; [|exfalso; apply H; left; reflexivity].
    exists t. split; [reflexivity|]. intros Hx. apply H. right. exact Hx. }
  destruct (Ha o Ho) as (o1 & E1 & Ho1). destruct (Ha o1 Ho1) as (o2 & E2 & Ho2).
  cbn [run vstep]. unfold VECTOR_create, VECTOR_push_back, bind at 1 2. rewrite E1. cbn [ret fst snd app length].
  replace (n1 =? 0) with false by lia. replace (n2 =? 0) with false by lia. cbn [vsrc_null orb].
  unfold bind, lift, getvec. cbn [nth_error]. unfold realloc_ptr. cbn [elementSize count storage].
  rewrite !N.mul_0_l. unfold bind. rewrite E2. cbn.
  eexists _, _. split; [reflexivity|]. split; reflexivity.
Qed.

(** * C24: element access *)

(* Inside the vector, and beyond the index count, the accessors do what C24 says. *)
Theorem vectors_access_partial : forall st sp h a o,
  vrepresents st sp -> vlive sp h = Some a ->
  (forall i, i < vlen a -> vstep st (VElement (Some h) i) o = Some ((VRP (VAt (v_es a * i)), st), o) /\
     exists e, nth_error (v_elems a) (N.to_nat i) = Some e /\ vstep st (VGet h i) o = Some ((VRB (Some e), st), o)) /\
  (forall i, vlen a < i -> vstep st (VElement (Some h) i) o = Some ((VRP VNull, st), o)) /\
  (vlen a = 0 -> vstep st (VFront (Some h)) o = Some ((VRP VNull, st), o)) /\
  (0 < vlen a -> vstep st (VFront (Some h)) o = Some ((VRP (VAt 0), st), o)
     /\ vstep st (VBack (Some h)) o = Some ((VRP (VAt (v_es a * (vlen a - 1))), st), o)).
Proof.
  intros st sp h a o R L. destruct (vrep_get _ _ _ _ R L) as (v & Ev & W).
  pose proof W as (Ees & Hes & Hc & Hm & Hs & Est).
  cbn [vstep]. unfold VECTOR_element, VECTOR_front, VECTOR_back, client_get. rewrite Ev, !bind_lift_some.
  split; [|split; [|split]].
  - intros i Hi. rewrite bind_lift_some, (vwf_element v a i W) by lia. replace (i <? vlen a) with true by lia.
    split; [reflexivity|]. destruct (nth_error (v_elems a) (N.to_nat i)) as [e|] eqn:E.
    + exists e. split; [reflexivity|]. rewrite bind_lift_some, (vwf_element v a i W) by lia. replace (i <? vlen a) with true by lia. unfold vptr_to. rewrite (vwf_read v a i e W E). reflexivity.
    + apply nth_error_None in E. unfold vlen in Hi. lia.
  - intros i Hi. rewrite bind_lift_some, (vwf_element v a i W) by lia. replace (i <? vlen a) with false by lia. reflexivity.
  - intros Hz. unfold vaddr. rewrite (vwf_empty v a W Hz). reflexivity.
  - intros Hz. unfold vaddr. rewrite (vwf_nonempty v a W Hz). split; [reflexivity|].
    assert (Hw : wrap (count v + two64 - 1) = vlen a - 1).
    { unfold wrap. rewrite Hc. replace (vlen a + two64 - 1) with (vlen a - 1 + 1 * two64) by lia.
      rewrite N.mod_add by discriminate. apply N.mod_small.
      assert (1 * vlen a <= v_es a * vlen a) by (apply N.mul_le_mono_r; lia). lia. }
    rewrite Hw, (vwf_wrap v a (vlen a - 1) W) by lia. reflexivity.
Qed.

(* But the index equal to the size is accepted: for every non-empty vector the call
   returns a pointer just past the storage, and reading an element there is undefined. *)
Theorem vectors_element_at_size_refuted : forall st sp h a o,
  vrepresents st sp -> vlive sp h = Some a -> 0 < vlen a ->
  vstep st (VElement (Some h) (vlen a)) o = Some ((VRP (VAt (v_es a * vlen a)), st), o) /\
  vstep st (VGet h (vlen a)) o = None.
Proof.
  intros st sp h a o R L Hz. destruct (vrep_get _ _ _ _ R L) as (v & Ev & W).
  pose proof W as (Ees & Hes & Hc & Hm & Hs & Est).
  cbn [vstep]. unfold VECTOR_element, client_get. rewrite Ev, !bind_lift_some. unfold element_ptr, vaddr.
  rewrite Hc, N.leb_refl, (vwf_nonempty v a W Hz), (vwf_wrap v a (vlen a) W) by lia.
  split; [reflexivity|]. unfold vread. rewrite (vwf_nonempty v a W Hz), filled_length, vlen_mul by exact Hs.
  replace (v_es a * vlen a + elementSize v <=? v_es a * vlen a) with false by lia. reflexivity.
Qed.

(* and the back of an empty vector is not NULL but a wild address. *)
Theorem vectors_back_empty_refuted : forall st sp h a o,
  vrepresents st sp -> vlive sp h = Some a -> vlen a = 0 ->
  vstep st (VBack (Some h)) o = Some ((VRP VWild, st), o).
Proof.
  intros st sp h a o R L Hz. destruct (vrep_get _ _ _ _ R L) as (v & Ev & W).
  pose proof W as (Ees & Hes & Hc & Hm & Hs & Est).
  cbn [vstep]. unfold VECTOR_back. rewrite Ev, bind_lift_some. unfold vaddr. rewrite (vwf_empty v a W Hz).
  rewrite Hc, Hz, Ees.
  assert (Hw : wrap (v_es a * wrap (0 + two64 - 1)) <> 0).
  { replace (wrap (0 + two64 - 1)) with (two64 - 1) by reflexivity.
    unfold wrap. replace (v_es a * (two64 - 1)) with (two64 - v_es a + (v_es a - 1) * two64)
      by (assert (Ht : two64 = 18446744073709551616) by reflexivity; rewrite Ht in *; lia).
    rewrite N.mod_add by discriminate. rewrite N.mod_small by lia. lia. }
  apply N.eqb_neq in Hw. rewrite Hw. reflexivity.
Qed.

Example vectors_access_concrete :
  option_map fst (run vstep [] [VCreate 2; VBack (Some 0%nat); VPush (Some 0%nat) (VSBytes [1;2]) 1;
     VElement (Some 0%nat) 0; VElement (Some 0%nat) 1; VElement (Some 0%nat) 2] []) =
  Some ([VRH (Some 0%nat); VRP VWild; VRI true; VRP (VAt 0); VRP (VAt 2); VRP VNull],
        [Some {| storage := PBlock [Some 1; Some 2]; count := 1; elementSize := 2 |}]).
Proof. vm_compute. reflexivity. Qed.

(** * C25: VECTOR_erase *)

(* In range, exactly the n elements from i are removed, in the storage and in the
   count, and no memory outside the storage is touched (the call is defined). *)
Theorem vectors_erase_in_range_partial : forall st sp h a i n o,
  vrepresents st sp -> vlive sp h = Some a -> i + n <= vlen a -> 0 < n -> ~ In false o ->
  exists st' o', vstep st (VErase (Some h) (VAt (v_es a * i)) n) o = Some ((VRU, st'), o') /\
    vrepresents st' (upd sp h (Some {| v_es := v_es a;
      v_elems := firstn (N.to_nat i) (v_elems a) ++ skipn (N.to_nat (i + n)) (v_elems a) |})).
Proof.
  intros st sp h a i n o R L Hi Hn Ho. destruct (vrep_get _ _ _ _ R L) as (v & Ev & W).
  pose proof W as (Ees & Hes & _).
  destruct (vector_simulate st sp (VErase (Some h) (VAt (v_es a * i)) n) o R) as (m & Hf & Hm).
  assert (m = true) by (destruct m; [reflexivity|exfalso; auto]). subst m.
  cbn [vsp_step] in Hm. replace (n =? 0) with false in Hm by lia. rewrite L in Hm.
  assert (Ed : v_es a * i / v_es a = i) by (rewrite N.mul_comm; apply N.div_mul; lia).
  rewrite Ed, N.eqb_refl in Hm. replace (i + n <=? vlen a) with true in Hm by lia.
  destruct (Hm _ _ eq_refl) as (st' & o' & used & E & Ha & _). exists st', o'. split; [exact E|exact Ha].
Qed.

(* A number of elements that runs past the end is not rejected: memmove is asked to
   copy about 2^64 bytes, which is undefined, for every such call. *)
Theorem vectors_erase_out_of_range_refuted : forall st sp h a i n o,
  vrepresents st sp -> vlive sp h = Some a -> i < vlen a -> vlen a < i + n -> v_es a * (i + n) < 2 ^ 64 ->
  vstep st (VErase (Some h) (VAt (v_es a * i)) n) o = None.
Proof.
  intros st sp h a i n o R L Hi Hn Hw. change (2 ^ 64) with two64 in Hw.
  destruct (vrep_get _ _ _ _ R L) as (v & Ev & W).
  pose proof W as (Ees & Hes & Hc & Hm & Hs & Est).
  cbn [vstep]. unfold VECTOR_erase. replace (n =? 0) with false by lia.
  rewrite Ev, bind_lift_some, (vwf_nonempty v a W) by lia. cbv zeta.
  rewrite Hc, (vwf_wrap v a (vlen a) W) by lia. rewrite Ees, (wrap_small (v_es a * n)) by lia.
  rewrite (wrap_small (v_es a * i + v_es a * n)) by lia.
  assert (Hd : v_es a * (vlen a + 1) <= v_es a * (i + n)) by (apply N.mul_le_mono_l; lia).
  assert (Hwl : wrap (v_es a * vlen a + two64 - (v_es a * i + v_es a * n)) =
                v_es a * vlen a + two64 - (v_es a * i + v_es a * n)) by (apply wrap_small; lia).
  rewrite Hwl. unfold memmove_in. rewrite filled_length, vlen_mul by exact Hs.
  match goal with |- context [?x =? 0] => replace (x =? 0) with false by lia end.
  match goal with |- context [?x && ?y] => replace (x && y) with false by lia end.
  reflexivity.
Qed.

Example vectors_erase_out_of_range_concrete :
  option_map fst (run vstep [] [VCreate 4; VPush (Some 0%nat) (VSBytes [1;2;3;4]) 1; VErase (Some 0%nat) (VAt 0) 2] [])
  = None.
Proof. vm_compute. reflexivity. Qed.

Print Assumptions vectors_refine_arrays_partial.
Print Assumptions vectors_erase_shrink_refuted.
Print Assumptions vectors_erase_out_of_range_refuted.
