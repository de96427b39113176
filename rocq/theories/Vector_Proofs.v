(* Proofs about the model of src/vector.c. *)
From Verif Require Import Base Refine Vector_Model Vector_Spec.
Open Scope N_scope.

(** * Concatenations of equal-size pieces *)

Lemma sized_length k l : sized k l -> length (concat l) = (k * length l)%nat.
Proof. induction 1 as [|e l He Hl IH]; cbn [concat length]; [lia|]. rewrite app_length, He, IH. lia. Qed.

Lemma sized_firstn k l n : sized k l -> firstn (k * n) (concat l) = concat (firstn n l).
Proof.
  intros H. revert n; induction H as [|e l He Hl IH]; intros [|n]; cbn [concat firstn].
  - apply firstn_nil.
  - apply firstn_nil.
  - rewrite Nat.mul_0_r. reflexivity.
  - rewrite firstn_app, He. replace (k * S n - k)%nat with (k * n)%nat by lia.
    rewrite IH, firstn_all2 by lia. reflexivity.
Qed.

Lemma sized_skipn k l n : sized k l -> skipn (k * n) (concat l) = concat (skipn n l).
Proof.
  intros H. revert n; induction H as [|e l He Hl IH]; intros [|n]; cbn [concat skipn].
  - apply skipn_nil.
  - apply skipn_nil.
  - rewrite Nat.mul_0_r. reflexivity.
  - rewrite skipn_app, He. replace (k * S n - k)%nat with (k * n)%nat by lia.
    rewrite IH, skipn_all2 by lia. reflexivity.
Qed.

Lemma sized_sub_l k l n : sized k l -> sized k (firstn n l).
Proof. intros H. unfold sized in *. rewrite <- (firstn_skipn n l), Forall_app in H. tauto. Qed.
Lemma sized_sub_r k l n : sized k l -> sized k (skipn n l).
Proof. intros H. unfold sized in *. rewrite <- (firstn_skipn n l), Forall_app in H. tauto. Qed.
Lemma sized_app k a b : sized k a -> sized k b -> sized k (a ++ b).
Proof. intros. apply Forall_app. auto. Qed.
Lemma sized_upd k l i e : sized k l -> length e = k -> sized k (upd l i e).
Proof.
  intros H He. revert i; induction H as [|x l Hx Hl IH]; intros [|i]; cbn; constructor; auto; try exact Hl; apply IH.
Qed.
Lemma sized_nth k l i e : sized k l -> nth_error l i = Some e -> length e = k.
Proof. intros H E. unfold sized in H. rewrite Forall_forall in H. apply H. eapply nth_error_In, E. Qed.

Lemma pieces_sized k n l : (k * n <= length l)%nat -> sized k (pieces k n l).
Proof.
  revert l; induction n as [|n IH]; intros l H; cbn; constructor.
  - rewrite firstn_length. lia.
  - apply IH. rewrite skipn_length. lia.
Qed.
Lemma pieces_length k n l : length (pieces k n l) = n.
Proof. revert l; induction n as [|n IH]; intros l; cbn; auto. Qed.
Lemma pieces_concat k n l : concat (pieces k n l) = firstn (k * n) l.
Proof.
  revert l; induction n as [|n IH]; intros l; cbn [pieces concat].
  - rewrite Nat.mul_0_r. reflexivity.
  - rewrite IH. replace (k * S n)%nat with (k + k * n)%nat by lia.
    rewrite <- (firstn_skipn k l) at 3. rewrite firstn_app.
    destruct (Nat.le_gt_cases k (length l)) as [H|H].
    + rewrite firstn_length, Nat.min_l by lia. rewrite (firstn_all2 (n := k + k * n)) by (rewrite firstn_length; lia).
      f_equal. f_equal. lia.
    + rewrite (skipn_all2 l) by lia. rewrite !firstn_nil. rewrite (firstn_all2 (n := k + k * n)) by (rewrite firstn_length; lia).
      reflexivity.
Qed.

Lemma nth_split k l i e : sized k l -> nth_error l i = Some e ->
  firstn k (skipn (k * i) (concat l)) = e.
Proof.
  intros H E. rewrite (sized_skipn k l i H). destruct (nth_error_split l i E) as (a & b & -> & Hi).
  rewrite skipn_app, <- Hi, skipn_all, Nat.sub_diag. cbn [skipn app concat].
  rewrite firstn_app. assert (Hk : length e = k).
  { eapply sized_nth; [exact H|]. exact E. }
  rewrite Hk, Nat.sub_diag. cbn [firstn]. rewrite app_nil_r, firstn_all2 by lia. reflexivity.
Qed.

Lemma upd_split {A} (l : list A) i x : (i < length l)%nat -> upd l i x = firstn i l ++ x :: skipn (S i) l.
Proof.
  revert i; induction l as [|a l IH]; intros [|i] H; cbn in *; try lia; [reflexivity|].
  f_equal. apply IH. lia.
Qed.

Lemma defined_filled l : defined_bytes (filled l) = Some l.
Proof.
  induction l as [|a l IH]; [reflexivity|].
  change (match defined_bytes (filled l) with Some l' => Some (a :: l') | None => None end = Some (a :: l)).
  rewrite IH. reflexivity.
Qed.

Lemma filled_firstn n l : firstn n (filled l) = filled (firstn n l).
Proof. apply firstn_map. Qed.
Lemma filled_skipn n l : skipn n (filled l) = filled (skipn n l).
Proof. apply skipn_map. Qed.
Lemma filled_app a b : filled (a ++ b) = filled a ++ filled b.
Proof. apply map_app. Qed.

(** * The abstraction *)

Lemma vrep_len st sp : vrepresents st sp -> length st = length sp.
Proof. induction 1; cbn; congruence. Qed.

Lemma vrep_get st sp h a : vrepresents st sp -> vlive sp h = Some a ->
  exists v, getvec st h = Some v /\ vwf v a.
Proof.
  intros R L. unfold vlive in L. destruct (nth_error sp h) as [[c'|]|] eqn:E; try discriminate.
  injection L as ->. destruct (Forall2_nth_error _ _ _ _ _ R E) as (x & Hx & Hp).
  destruct x as [v|]; [|contradiction]. exists v. unfold getvec. rewrite Hx. auto.
Qed.

Lemma vrep_set st sp h v a : vrepresents st sp -> vwf v a -> vrepresents (vset st h v) (upd sp h (Some a)).
Proof. intros R W. apply Forall2_upd; [exact R|exact W]. Qed.

Lemma vset_same st h v : getvec st h = Some v -> vset st h v = st.
Proof.
  intros H. unfold vset. apply nth_error_upd_self. unfold getvec in H.
  destruct (nth_error st h) as [[b'|]|]; congruence.
Qed.

Lemma vlen_mul a : sized (N.to_nat (v_es a)) (v_elems a) ->
  N.of_nat (length (concat (v_elems a))) = v_es a * vlen a.
Proof. intros H. rewrite (sized_length _ _ H). unfold vlen. lia. Qed.

Lemma vwf_wrap v a i : vwf v a -> i <= vlen a -> wrap (elementSize v * i) = v_es a * i.
Proof.
  intros (-> & Hes & _ & Hm & _) Hi. apply wrap_small.
  apply N.le_lt_trans with (v_es a * vlen a); [apply N.mul_le_mono_l, Hi|exact Hm].
Qed.

Lemma vwf_nonempty v a : vwf v a -> 0 < vlen a -> storage v = PBlock (filled (concat (v_elems a))).
Proof.
  intros (_ & _ & _ & _ & _ & ->) H. unfold vlen in H. destruct (v_elems a); [cbn in H; lia|reflexivity].
Qed.
Lemma vwf_empty v a : vwf v a -> vlen a = 0 -> storage v = PNull.
Proof.
  intros (_ & _ & _ & _ & _ & ->) H. unfold vlen in H. destruct (v_elems a); [reflexivity|cbn in H; lia].
Qed.

Lemma vwf_element v a i : vwf v a -> (i = vlen a -> i = 0) ->
  element_ptr v i = if i <? vlen a then vptr_to a i else VNull.
Proof.
  intros W Hi. pose proof W as (Ees & Hes & Hc & Hm & Hs & Est). unfold element_ptr. rewrite Hc.
  destruct (N.ltb_spec i (vlen a)) as [H|H].
  - replace (i <=? vlen a) with true by lia. unfold vaddr. rewrite (vwf_nonempty v a W) by lia.
    rewrite (vwf_wrap v a i W) by lia. reflexivity.
  - destruct (N.leb_spec i (vlen a)) as [H'|H']; [|reflexivity].
    assert (E : i = vlen a) by lia. specialize (Hi E). unfold vaddr. rewrite (vwf_empty v a W) by lia.
    rewrite Hi, N.mul_0_r. reflexivity.
Qed.

Lemma vwf_read v a i e : vwf v a -> nth_error (v_elems a) (N.to_nat i) = Some e ->
  vread v (v_es a * i) (elementSize v) = Some e.
Proof.
  intros W E. pose proof W as (Ees & Hes & Hc & Hm & Hs & Est).
  assert (Hi : (N.to_nat i < length (v_elems a))%nat) by (apply nth_error_Some; congruence).
  unfold vread. rewrite (vwf_nonempty v a W) by (unfold vlen; lia). rewrite filled_length, vlen_mul by exact Hs.
  assert (Hle : v_es a * (i + 1) <= v_es a * vlen a) by (apply N.mul_le_mono_l; unfold vlen; lia).
  replace (v_es a * i + elementSize v <=? v_es a * vlen a) with true by (rewrite Ees; lia).
  rewrite filled_skipn, filled_firstn, defined_filled. f_equal.
  rewrite Ees. replace (N.to_nat (v_es a * i)) with (N.to_nat (v_es a) * N.to_nat i)%nat by lia.
  apply nth_split; assumption.
Qed.

Lemma find_ok v a f : vwf v a -> forall l i, (exists pre, v_elems a = pre ++ l /\ N.to_nat i = length pre) ->
  find_loop v f i (length l) =
  Some (match first_index f l with Some k => vptr_to a (i + k) | None => VNull end).
Proof.
  intros W. pose proof W as (Ees & Hes & Hc & Hm & Hs & Est).
  induction l as [|e l IH]; intros i (pre & Hp & Hi); cbn [find_loop length first_index]; [reflexivity|].
  assert (Hl : i < vlen a) by (unfold vlen; rewrite Hp, app_length; cbn; lia).
  rewrite (vwf_wrap v a i W) by lia. rewrite (vwf_read v a i e W).
  2:{ rewrite Hp, Hi, nth_error_app2, Nat.sub_diag by lia. reflexivity. }
  destruct (f e).
  - unfold vaddr. rewrite (vwf_nonempty v a W) by lia. unfold vptr_to. rewrite N.add_0_r. reflexivity.
  - rewrite (IH (i + 1)).
    + destruct (first_index f l) as [k|]; [|reflexivity]. do 2 f_equal. lia.
    + exists (pre ++ [e]). rewrite <- app_assoc, app_length. cbn. split; [exact Hp|lia].
Qed.

Lemma vrep_src st sp s n l : vrepresents st sp -> vdenote sp s n = Some l -> 0 < n ->
  vread_src st s (N.to_nat n) = Some (filled (firstn (N.to_nat n) l)) /\ n <= N.of_nat (length l).
Proof.
  intros R D Hn. destruct s as [|l0|h k]; cbn in *; [discriminate| |].
  - destruct (N.leb_spec n (N.of_nat (length l0))) as [H|H]; [|discriminate]. injection D as <-.
    replace (N.to_nat n <=? length l0)%nat with true by lia. rewrite filled_firstn. split; [reflexivity|exact H].
  - destruct (vlive sp h) as [a|] eqn:L; try discriminate.
    destruct (vrep_get _ _ _ _ R L) as (v & -> & W).
    destruct (N.leb_spec n (N.of_nat (length (skipn k (concat (v_elems a)))))) as [H|H]; [|discriminate].
    injection D as <-. split; [|exact H].
    rewrite skipn_length in H. rewrite (vwf_nonempty v a W).
    + rewrite filled_length. replace (k + N.to_nat n <=? length (concat (v_elems a)))%nat with true by lia.
      rewrite filled_skipn, filled_firstn. reflexivity.
    + unfold vlen. destruct (v_elems a); cbn in *; lia.
Qed.

Lemma vwf_put v a l es : elementSize v = v_es a -> 0 < v_es a < two64 ->
  count v = N.of_nat (length l) -> v_es a * count v < two64 ->
  sized (N.to_nat (v_es a)) l ->
  storage v = match l with [] => PNull | _ => PBlock (filled (concat l)) end ->
  es = v_es a -> vwf v {| v_es := es; v_elems := l |}.
Proof. intros He Hz Hc Hm Hs Ht ->. unfold vwf, vlen. cbn. rewrite <- Hc. repeat split; auto; lia. Qed.

Lemma vec_eta v : {| storage := storage v; count := count v; elementSize := elementSize v |} = v.
Proof. destruct v; reflexivity. Qed.

Lemma vector_simulate : simulates vstep vsp_step vrepresents.
Proof.
  intros st sp op o R. change (sim1 vrepresents (vstep st op) (fun m => vsp_step sp op m) o).
  destruct op as [es|h|h s n|h p n|h|h i|h|h|h pred value|h|h i|h i l]; cbn [vstep].
  - (* create *)
    cbn [vsp_step]. destruct ((0 <? es) && (es <? two64)) eqn:Ez; [|snone; reflexivity].
    apply sim1_alloc. intros m r sp' Hg. destruct m; injection Hg as <- <-; eexists;
      (split; [rewrite ?(vrep_len _ _ R); reflexivity|]); [|exact R].
    apply Forall2_app; [exact R|]. constructor; [|constructor].
    apply andb_true_iff in Ez. unfold vwf, vlen. cbn. rewrite N.mul_0_r.
    repeat split; try lia. constructor.
  - (* destroy *)
    destruct h as [h|]; cbn [vsp_step VECTOR_destroy]; [|same R].
    destruct (vlive sp h) as [a|] eqn:L; [|snone; reflexivity].
    destruct (vrep_get _ _ _ _ R L) as (v & -> & W). rewrite bind_lift_some. unfold internal_VECTOR_clear.
    assert (Ef : free_ptr (storage v) = Some tt).
    { destruct W as (_ & _ & _ & _ & _ & ->). destruct (v_elems a); reflexivity. }
    rewrite Ef, bind_lift_some. sret. injection Hg as <- <-. eexists. split; [reflexivity|].
    apply Forall2_upd; [exact R|exact I].
  - (* push_back *)
    destruct h as [h|]; cbn [vsp_step VECTOR_push_back]; [|same R].
    destruct (vsrc_null s || (n =? 0)) eqn:En; [same R|].
    replace (lies_inside s h) with (vsrc_aliases s h) by (unfold vsrc_aliases, lies_inside; destruct s as [| |g ?]; try reflexivity; destruct (Nat.eqb_spec g h), (Nat.eq_dec g h); congruence).
    destruct (vsrc_aliases s h) eqn:Ea; [snone; reflexivity|].
    destruct (vlive sp h) as [a|] eqn:L; [|snone; reflexivity].
    destruct (N.ltb_spec (v_es a * (vlen a + n)) two64) as [Hn|Hn]; [|snone; reflexivity].
    destruct (vdenote sp s (v_es a * n)) as [l|] eqn:D; [|snone; reflexivity].
    destruct (vrep_get _ _ _ _ R L) as (v & Ev & W). rewrite Ev, bind_lift_some.
    pose proof W as (Ees & Hes & Hc & Hm & Hs & Est).
    assert (Hn0 : 0 < n) by lia.
    assert (Hp : 0 < v_es a * n) by (apply N.mul_pos_pos; lia).
    destruct (vrep_src _ _ _ _ _ R D Hp) as [Er Hl].
    rewrite Hc, (vwf_wrap v a (vlen a) W) by lia.
    assert (Ew : wrap (elementSize v * n) = v_es a * n) by (rewrite Ees; apply wrap_small; lia).
    rewrite Ew. cbv zeta. rewrite (wrap_small (v_es a * vlen a + v_es a * n)) by lia.
    set (blk := filled (concat (v_elems a))).
    assert (Hb : length blk = N.to_nat (v_es a * vlen a)).
    { unfold blk. rewrite filled_length. rewrite <- vlen_mul by exact Hs. lia. }
    assert (E : realloc_ptr (storage v) (v_es a * vlen a + v_es a * n) =
      bind alloc (fun ok => ret (if ok then Some (PBlock (blk ++ fresh (N.to_nat (v_es a * n)))) else None, storage v))).
    { unfold realloc_ptr. destruct (N.eq_dec (vlen a) 0) as [Hz|Hz].
      - rewrite (vwf_empty v a W Hz). unfold blk. rewrite Hz, N.mul_0_r, N.add_0_l.
        assert (Hnil : v_elems a = []) by (unfold vlen in Hz; destruct (v_elems a); [reflexivity|cbn in Hz; lia]).
        rewrite Hnil. reflexivity.
      - rewrite (vwf_nonempty v a W) by lia. fold blk.
        replace (v_es a * vlen a + v_es a * n =? 0) with false by lia.
        rewrite firstn_all2 by lia. rewrite Hb.
        replace (N.to_nat (v_es a * vlen a + v_es a * n) - N.to_nat (v_es a * vlen a))%nat
          with (N.to_nat (v_es a * n)) by lia. reflexivity. }
    rewrite E. apply sim1_assoc, sim1_alloc. intros m r sp' Hg. rewrite bind_ret.
    destruct m; injection Hg as <- <-.
    + rewrite Er, bind_lift_some. rewrite <- Hb.
      rewrite memcpy_tail.
      2:{ rewrite fresh_length, filled_length, firstn_length. lia. }
      rewrite bind_lift_some. eexists. split; [reflexivity|]. apply vrep_set; [exact R|].
      rewrite wrap_small by (assert (1 * (vlen a + n) <= v_es a * (vlen a + n)) by (apply N.mul_le_mono_r; lia); lia).
      eapply vwf_put; cbn [elementSize count storage]; try reflexivity; try assumption.
      * rewrite app_length, pieces_length. unfold vlen. lia.
      * apply sized_app; [exact Hs|]. apply pieces_sized. lia.
      * rewrite concat_app, pieces_concat, filled_app. fold blk.
        replace (N.to_nat (v_es a) * N.to_nat n)%nat with (N.to_nat (v_es a * n)) by lia.
        destruct (v_elems a ++ pieces (N.to_nat (v_es a)) (N.to_nat n) l) eqn:Ex; [|reflexivity].
        apply (f_equal (@length _)) in Ex. rewrite app_length, pieces_length in Ex. cbn in Ex. lia.
    + rewrite <- Hc, vec_eta, (vset_same _ _ _ Ev). eexists. split; [reflexivity|exact R].
  - (* erase *)
    destruct h as [h|]; cbn [vsp_step VECTOR_erase]; [|same R].
    destruct p as [|off|]; [same R| |].
    2:{ destruct (N.eqb_spec n 0) as [->|Hn0]; [same R|snone; reflexivity]. }
    destruct (N.eqb_spec n 0) as [->|Hn0]; [same R|].
    destruct (vlive sp h) as [a|] eqn:L; [|snone; reflexivity].
    destruct ((off =? v_es a * (off / v_es a)) && (off / v_es a + n <=? vlen a)) eqn:Eoff; [|snone; reflexivity].
    set (i := off / v_es a) in *. apply andb_true_iff in Eoff. destruct Eoff as [Eoff Hr].
    apply N.eqb_eq in Eoff. apply N.leb_le in Hr. cbn [andb]. rewrite Eoff.
    destruct (vrep_get _ _ _ _ R L) as (v & Ev & W). rewrite Ev, bind_lift_some.
    pose proof W as (Ees & Hes & Hc & Hm & Hs & Est).
    rewrite (vwf_nonempty v a W) by lia. set (blk := filled (concat (v_elems a))).
    assert (Hb : length blk = N.to_nat (v_es a * vlen a)).
    { unfold blk. rewrite filled_length. rewrite <- vlen_mul by exact Hs. lia. }
    rewrite (vwf_wrap v a n W) by lia. rewrite Hc, (vwf_wrap v a (vlen a) W) by lia. cbv zeta.
    set (k := vlen a - (i + n)).
    assert (Ek : vlen a = i + n + k) by (unfold k; lia).
    assert (Hmul : v_es a * vlen a = v_es a * i + v_es a * n + v_es a * k) by (rewrite Ek; lia).
    rewrite (wrap_small (v_es a * i + v_es a * n)) by lia.
    replace (v_es a * vlen a + two64 - (v_es a * i + v_es a * n)) with (v_es a * k + 1 * two64) by lia.
    assert (Hw : wrap (v_es a * k + 1 * two64) = v_es a * k).
    { unfold wrap. rewrite N.mod_add by discriminate. apply N.mod_small. lia. }
    rewrite Hw.
    assert (Hmv : memmove_in blk (v_es a * i) (v_es a * i + v_es a * n) (v_es a * k) =
      Some (firstn (N.to_nat (v_es a * i)) blk ++ skipn (N.to_nat (v_es a * (i + n))) blk
            ++ skipn (N.to_nat (v_es a * (i + k))) blk)).
    { unfold memmove_in. destruct (N.eqb_spec (v_es a * k) 0) as [Hz|Hz].
      - assert (Hk0 : k = 0) by (apply N.mul_eq_0 in Hz; lia).
        rewrite skipn_all2 by lia. cbn [app]. rewrite Hk0, N.add_0_r, firstn_skipn. reflexivity.
      - replace ((v_es a * i + v_es a * k <=? N.of_nat (length blk)) &&
                 (v_es a * i + v_es a * n + v_es a * k <=? N.of_nat (length blk))) with true by lia.
        assert (El : length (firstn (N.to_nat (v_es a * k)) (skipn (N.to_nat (v_es a * i + v_es a * n)) blk))
                     = N.to_nat (v_es a * k)) by (rewrite firstn_length, skipn_length; lia).
        unfold memcpy_to. rewrite El.
        replace (N.to_nat (v_es a * i) + N.to_nat (v_es a * k) <=? length blk)%nat with true by lia.
        f_equal. f_equal.
        rewrite (firstn_all2 (n := N.to_nat (v_es a * k))) by (rewrite skipn_length; lia).
        f_equal; f_equal; lia. }
    rewrite Hmv, bind_lift_some.
    set (nl := firstn (N.to_nat i) (v_elems a) ++ skipn (N.to_nat (i + n)) (v_elems a)).
    assert (Hsn : sized (N.to_nat (v_es a)) nl) by (apply sized_app; [apply sized_sub_l|apply sized_sub_r]; exact Hs).
    assert (Hnl : N.of_nat (length nl) = i + k).
    { unfold nl. rewrite app_length, firstn_length, skipn_length. unfold vlen in *. lia. }
    assert (Hbn : firstn (N.to_nat (v_es a * i)) blk ++ skipn (N.to_nat (v_es a * (i + n))) blk = filled (concat nl)).
    { unfold blk, nl. rewrite concat_app, filled_app.
      replace (N.to_nat (v_es a * i)) with (N.to_nat (v_es a) * N.to_nat i)%nat by lia.
      replace (N.to_nat (v_es a * (i + n))) with (N.to_nat (v_es a) * N.to_nat (i + n))%nat by lia.
      rewrite filled_firstn, filled_skipn, sized_firstn, sized_skipn by exact Hs. reflexivity. }
    rewrite app_assoc, Hbn.
    assert (Hcnt : wrap (vlen a + two64 - n) = i + k).
    { unfold wrap. replace (vlen a + two64 - n) with (i + k + 1 * two64) by lia.
      rewrite N.mod_add by discriminate. apply N.mod_small.
      assert (1 * vlen a <= v_es a * vlen a) by (apply N.mul_le_mono_r; lia). lia. }
    rewrite Hcnt.
    destruct (N.eqb_spec (i + k) 0) as [Hz|Hz].
    + sret. injection Hg as <- <-. eexists. split; [reflexivity|]. apply vrep_set; [exact R|].
      fold nl. eapply vwf_put; cbn [elementSize count storage]; try reflexivity; try assumption; try lia.
      destruct nl; [reflexivity|cbn in Hnl; lia].
    + assert (Hpos : 0 < v_es a * (i + k)) by (apply N.mul_pos_pos; lia).
      assert (Hik : v_es a * (i + k) <= v_es a * vlen a) by (apply N.mul_le_mono_l; lia).
      rewrite (vwf_wrap v a (i + k) W) by lia. unfold realloc_ptr.
      replace (v_es a * (i + k) =? 0) with false by lia.
      apply sim1_assoc, sim1_alloc. intros m r sp' Hg. rewrite bind_ret. cbn [fst].
      destruct m; [|discriminate]. injection Hg as <- <-. eexists. split; [reflexivity|].
      apply vrep_set; [exact R|]. fold nl.
      eapply vwf_put; cbn [elementSize count storage]; try reflexivity; try assumption; try lia.
      assert (Hfl : length (filled (concat nl)) = N.to_nat (v_es a * (i + k))).
      { rewrite filled_length, (sized_length _ _ Hsn). lia. }
      destruct nl as [|e t] eqn:Enl; [cbn in Hnl; lia|].
      f_equal. rewrite <- Enl in *. rewrite firstn_app, firstn_all2 by lia.
      rewrite Hfl, Nat.sub_diag. cbn [firstn]. rewrite app_nil_r.
      rewrite app_length, Hfl.
      replace (N.to_nat (v_es a * (i + k)) - _)%nat with 0%nat by lia.
      cbn [fresh repeat]. apply app_nil_r.
  - (* clear *)
    destruct h as [h|]; cbn [vsp_step VECTOR_clear]; [|same R].
    destruct (vlive sp h) as [a|] eqn:L; [|snone; reflexivity].
    destruct (vrep_get _ _ _ _ R L) as (v & -> & W). rewrite bind_lift_some. unfold internal_VECTOR_clear.
    pose proof W as (Ees & Hes & Hc & Hm & Hs & Est).
    assert (Ef : free_ptr (storage v) = Some tt).
    { rewrite Est. destruct (v_elems a); reflexivity. }
    rewrite Ef, bind_lift_some. sret. injection Hg as <- <-. eexists. split; [reflexivity|].
    apply vrep_set; [exact R|].
    eapply vwf_put; cbn [elementSize count storage]; try reflexivity; try assumption; try lia. constructor.
  - (* element *)
    destruct h as [h|]; cbn [vsp_step VECTOR_element]; [|same R].
    destruct (vlive sp h) as [a|] eqn:L; [|snone; reflexivity].
    destruct (vrep_get _ _ _ _ R L) as (v & -> & W). rewrite bind_lift_some.
    destruct ((i =? vlen a) && negb (i =? 0)) eqn:Ei.
    { replace (i <? vlen a) with false by lia. snone. reflexivity. }
    rewrite (vwf_element v a i W) by lia.
    destruct (i <? vlen a); same R.
  - (* front *)
    destruct h as [h|]; cbn [vsp_step VECTOR_front]; [|same R].
    destruct (vlive sp h) as [a|] eqn:L; [|snone; reflexivity].
    destruct (vrep_get _ _ _ _ R L) as (v & -> & W). rewrite bind_lift_some. unfold vaddr.
    destruct (N.eqb_spec (vlen a) 0) as [Hz|Hz].
    + rewrite (vwf_empty v a W Hz). same R.
    + rewrite (vwf_nonempty v a W) by lia. unfold vptr_to. rewrite N.mul_0_r. same R.
  - (* back *)
    destruct h as [h|]; cbn [vsp_step VECTOR_back]; [|same R].
    destruct (vlive sp h) as [a|] eqn:L; [|snone; reflexivity].
    destruct (vrep_get _ _ _ _ R L) as (v & -> & W). rewrite bind_lift_some.
    destruct (N.eqb_spec (vlen a) 0) as [Hz|Hz]; [snone; reflexivity|].
    pose proof W as (Ees & Hes & Hc & Hm & Hs & Est). rewrite Hc.
    assert (Hw : wrap (vlen a + two64 - 1) = vlen a - 1).
    { unfold wrap. replace (vlen a + two64 - 1) with (vlen a - 1 + 1 * two64) by lia.
      rewrite N.mod_add by discriminate. apply N.mod_small.
      assert (1 * vlen a <= v_es a * vlen a) by (apply N.mul_le_mono_r; lia). lia. }
    rewrite Hw, (vwf_wrap v a (vlen a - 1) W) by lia. unfold vaddr. rewrite (vwf_nonempty v a W) by lia. same R.
  - (* find_if *)
    destruct h as [h|]; cbn [vsp_step VECTOR_find_if]; [|same R].
    destruct pred as [f|]; [|same R]. destruct value; [|same R].
    destruct (vlive sp h) as [a|] eqn:L; [|snone; reflexivity].
    destruct (vrep_get _ _ _ _ R L) as (v & -> & W). rewrite bind_lift_some.
    pose proof W as (Ees & Hes & Hc & Hm & Hs & Est). rewrite Hc. unfold vlen. rewrite Nat2N.id.
    rewrite (find_ok v a f W (v_elems a) 0) by (exists []; split; reflexivity).
    rewrite bind_lift_some. destruct (first_index f (v_elems a)) as [k|]; rewrite ?N.add_0_l; same R.
  - (* size *)
    destruct h as [h|]; cbn [vsp_step VECTOR_size]; [|same R].
    destruct (vlive sp h) as [a|] eqn:L; [|snone; reflexivity].
    destruct (vrep_get _ _ _ _ R L) as (v & -> & W). rewrite bind_lift_some.
    pose proof W as (Ees & Hes & Hc & _). rewrite Hc. same R.
  - (* get *)
    cbn [vsp_step]. unfold client_get. destruct (vlive sp h) as [a|] eqn:L; [|snone; reflexivity].
    destruct (vrep_get _ _ _ _ R L) as (v & -> & W). rewrite bind_lift_some.
    destruct ((i =? vlen a) && negb (i =? 0)) eqn:Ei; [snone; reflexivity|].
    rewrite (vwf_element v a i W) by lia.
    destruct (N.ltb_spec i (vlen a)) as [H|H].
    + destruct (nth_error (v_elems a) (N.to_nat i)) as [e|] eqn:Ee.
      2:{ apply nth_error_None in Ee. unfold vlen in H. lia. }
      cbn [vptr_to]. unfold vptr_to. rewrite (vwf_read v a i e W Ee), bind_lift_some. same R.
    + replace (nth_error (v_elems a) (N.to_nat i)) with (@None (list N)).
      2:{ symmetry. apply nth_error_None. unfold vlen in H. lia. }
      same R.
  - (* set *)
    cbn [vsp_step]. unfold client_set. destruct (vlive sp h) as [a|] eqn:L; [|snone; reflexivity].
    destruct (vrep_get _ _ _ _ R L) as (v & Ev & W). rewrite Ev, bind_lift_some.
    destruct ((i =? vlen a) && negb (i =? 0)) eqn:Ei; [snone; reflexivity|].
    rewrite (vwf_element v a i W) by lia.
    destruct (N.ltb_spec i (vlen a)) as [H|H]; [|same R].
    destruct (N.eqb_spec (N.of_nat (length l)) (v_es a)) as [Hl|Hl]; [|snone; reflexivity].
    unfold vptr_to. pose proof W as (Ees & Hes & Hc & Hm & Hs & Est).
    rewrite (vwf_nonempty v a W) by lia.
    assert (Hle : v_es a * (i + 1) <= v_es a * vlen a) by (apply N.mul_le_mono_l; lia).
    unfold memcpy_to. rewrite !filled_length. pose proof (vlen_mul a Hs) as Hv.
    replace (N.to_nat (v_es a * i) + length l <=? length (concat (v_elems a)))%nat with true by lia.
    rewrite bind_lift_some. sret. injection Hg as <- <-. eexists. split; [reflexivity|].
    apply vrep_set; [exact R|].
    assert (Hi : (N.to_nat i < length (v_elems a))%nat) by (unfold vlen in H; lia).
    eapply vwf_put; cbn [elementSize count storage]; try reflexivity; try assumption.
    + rewrite upd_length. exact Hc.
    + rewrite Hc. exact Hm.
    + apply sized_upd; [exact Hs|lia].
    + rewrite (upd_split _ _ _ Hi).
      destruct (firstn (N.to_nat i) (v_elems a) ++ l :: skipn (S (N.to_nat i)) (v_elems a)) eqn:Ex.
      { apply (f_equal (@length _)) in Ex. rewrite app_length in Ex. cbn in Ex. lia. }
      rewrite <- Ex. f_equal. rewrite concat_app. cbn [concat]. rewrite !filled_app, filled_firstn, filled_skipn.
      replace (N.to_nat (v_es a * i)) with (N.to_nat (v_es a) * N.to_nat i)%nat by lia.
      replace (N.to_nat (v_es a) * N.to_nat i + length l)%nat with (N.to_nat (v_es a) * S (N.to_nat i))%nat by lia.
      rewrite sized_firstn, sized_skipn by exact Hs. reflexivity.
Qed.
