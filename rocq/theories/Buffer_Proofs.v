(* Proofs about the model of src/buffer.c. *)
From Verif Require Import Base Refine Buffer_Model Buffer_Spec.
Open Scope N_scope.

Definition bwf (b : BUFFER) (c : option block) : Prop :=
  match c with
  | None => buffer b = PNull /\ size b = 0
  | Some l => buffer b = PBlock l /\ size b = lenN l /\ lenN l < two64
  end.

Lemma brep_get st sp h c : brepresents st sp -> blive sp h = Some c ->
  exists b, getbuf st h = Some b /\ bwf b c.
Proof.
  intros R L. unfold blive in L. destruct (nth_error sp h) as [[c'|]|] eqn:E; try discriminate.
  injection L as ->. destruct (Forall2_nth_error _ _ _ _ _ R E) as (x & Hx & Hp).
  destruct x as [b|]; [|contradiction]. exists b. unfold getbuf. rewrite Hx.
  split; [reflexivity|]. destruct c as [l|]; exact Hp.
Qed.

Lemma brep_len st sp : brepresents st sp -> length st = length sp.
Proof. induction 1; cbn; congruence. Qed.

Lemma brep_push st sp b c : brepresents st sp -> bwf b c -> brepresents (st ++ [Some b]) (sp ++ [Some c]).
Proof.
  intros R W. apply Forall2_app; [exact R|]. constructor; [|constructor]. destruct c; exact W.
Qed.

Lemma brep_set st sp h b c : brepresents st sp -> bwf b c -> brepresents (bset st h b) (upd sp h (Some c)).
Proof. intros R W. apply Forall2_upd; [exact R|]. destruct c; exact W. Qed.

Lemma brep_src st sp s n l : brepresents st sp -> bdenote sp s n = Some l ->
  read_src st s (N.to_nat n) = Some l /\ length l = N.to_nat n.
Proof.
  intros R D. destruct s as [|l0|h k]; cbn in *.
  - destruct (N.eqb_spec n 0) as [->|]; [|discriminate]. injection D as <-. split; reflexivity.
  - destruct (N.leb_spec n (lenN l0)) as [H|H]; [|discriminate]. injection D as <-. unfold lenN in H.
    replace (N.to_nat n <=? length l0)%nat with true by lia. unfold filled. rewrite firstn_map.
    split; [reflexivity|]. rewrite map_length, firstn_length. lia.
  - destruct (blive sp h) as [[l0|]|] eqn:L; try discriminate.
    destruct (brep_get _ _ _ _ R L) as (b & -> & (-> & _)).
    destruct (N.leb_spec (N.of_nat k + n) (lenN l0)) as [H|H]; [|discriminate]. injection D as <-.
    unfold lenN in H. replace (k + N.to_nat n <=? length l0)%nat with true by lia.
    split; [reflexivity|]. rewrite firstn_length, skipn_length. lia.
Qed.

Lemma lenN_nat {A} (l : list A) : N.to_nat (lenN l) = length l.
Proof. unfold lenN. lia. Qed.

Lemma bset_same st h b : getbuf st h = Some b -> bset st h b = st.
Proof.
  intros H. unfold bset. apply nth_error_upd_self. unfold getbuf in H.
  destruct (nth_error st h) as [[b'|]|]; congruence.
Qed.

Lemma buf_eta b : {| buffer := buffer b; size := size b |} = b.
Proof. destruct b; reflexivity. Qed.

(* realloc to a nonzero size of a live buffer's storage *)
Lemma realloc_cases c (b : BUFFER) n : bwf b c -> 0 < n ->
  realloc_ptr (buffer b) n =
  bind alloc (fun ok => ret (if ok then Some (PBlock (firstn (N.to_nat n) (bytes_of c)
        ++ fresh (N.to_nat n - length (bytes_of c)))) else None, buffer b)).
Proof.
  intros W Hn. destruct c as [l|]; cbn in W.
  - destruct W as (-> & _). unfold realloc_ptr. replace (n =? 0) with false by lia. reflexivity.
  - destruct W as (-> & _). unfold realloc_ptr. cbn [bytes_of length]. rewrite firstn_nil, Nat.sub_0_r. reflexivity.
Qed.

Ltac sret := apply sim1_ret; intros r sp' Hg; cbv beta in Hg.
Ltac snone := apply sim1_none.

Lemma buffer_simulate : simulates bstep bsp_step brepresents.
Proof.
  intros st sp op o R. change (sim1 brepresents (bstep st op) (fun m => bsp_step sp op m) o).
  destruct op as [|s n|h|h s n|h n|h|h|h n|h|h1 h2|h1 h2|h|h|h|h i v]; cbn [bstep].
  - (* new *)
    apply sim1_alloc. intros [|] r sp' Hg; cbn in Hg; injection Hg as <- <-; eexists;
      (split; [unfold bpush; rewrite ?(brep_len _ _ R); reflexivity|]).
    + cbn. apply brep_push; [exact R|]. split; reflexivity.
    + exact R.
  - (* create *)
    assert (E : is_null s = true \/ is_null s = false /\
       (forall m, bsp_step sp (BCreate s n) m = if n <? two64 then
          match bdenote sp s n with Some l => bcreate sp m (Some l) | None => None end else None)).
    { destruct s; [left; reflexivity|right..]; split; reflexivity. }
    destruct E as [E|[E Eg]].
    + destruct s; try discriminate. sret. cbn in Hg. injection Hg as <- <-.
      eexists. split; [reflexivity|exact R].
    + unfold BUFFER_create. rewrite E.
      destruct (N.ltb_spec n two64) as [Hn|Hn]; [|snone; rewrite Eg; reflexivity].
      destruct (bdenote sp s n) as [l|] eqn:D; [|snone; rewrite Eg; reflexivity].
      destruct (brep_src _ _ _ _ _ R D) as [Er Hl].
      apply sim1_allocs. intros m r sp' Hg. rewrite Eg in Hg. destruct m; cbn in Hg; injection Hg as <- <-.
      * rewrite Er, bind_lift_some, memcpy_all by exact Hl. rewrite bind_lift_some.
        eexists. split; [unfold bpush; rewrite (brep_len _ _ R); reflexivity|].
        apply brep_push; [exact R|]. cbn. unfold lenN. rewrite Hl. split; [reflexivity|]. split; lia.
      * eexists. split; [reflexivity|exact R].
  - (* delete *)
    destruct h as [h|]; cbn [bsp_step BUFFER_delete].
    + destruct (blive sp h) as [c|] eqn:L; [|snone; reflexivity].
      destruct (brep_get _ _ _ _ R L) as (b & -> & W). rewrite bind_lift_some.
      assert (Ef : free_ptr (buffer b) = Some tt) by (destruct c; destruct W as [-> _]; reflexivity).
      rewrite Ef, bind_lift_some. sret. injection Hg as <- <-. eexists. split; [reflexivity|].
      apply Forall2_upd; [exact R|exact I].
    + sret. injection Hg as <- <-. eexists. split; [reflexivity|exact R].
  - (* build *)
    destruct h as [h|]; cbn [bsp_step BUFFER_build].
    2:{ sret. injection Hg as <- <-. eexists. split; [reflexivity|exact R]. }
    destruct (blive sp h) as [c|] eqn:L; [|snone; reflexivity].
    destruct (brep_get _ _ _ _ R L) as (b & Eb & W). rewrite Eb, bind_lift_some.
    destruct (N.eqb_spec n 0) as [->|Hn0].
    { assert (Ef : free_ptr (buffer b) = Some tt) by (destruct c; destruct W as [-> _]; reflexivity).
      rewrite Ef, bind_lift_some. sret. injection Hg as <- <-. eexists. split; [reflexivity|].
      apply (brep_set st sp h _ None); [exact R|split; reflexivity]. }
    destruct (is_null s) eqn:En.
    { sret. injection Hg as <- <-. eexists. split; [reflexivity|exact R]. }
    change (lies_inside s h) with (src_aliases s h). destruct (src_aliases s h) eqn:Ea; [snone; reflexivity|].
    destruct (N.ltb_spec n two64) as [Hn|Hn]; [|snone; reflexivity].
    destruct (bdenote sp s n) as [l|] eqn:D; [|snone; reflexivity].
    destruct (brep_src _ _ _ _ _ R D) as [Er Hl].
    rewrite (realloc_cases c b n W) by lia.
    match goal with |- sim1 _ (bind (bind alloc ?F) ?G) ?g ?o =>
      assert (E : bind (bind alloc F) G o = bind alloc (fun x => bind (F x) G) o)
        by apply bind_assoc;
      cut (sim1 brepresents (bind alloc (fun x => bind (F x) G)) g o);
      [intros (m & Hm & H); exists m; split; [exact Hm|]; rewrite E; exact H|]
    end.
    apply sim1_alloc. intros m r sp' Hg. rewrite bind_ret. destruct m; cbn in Hg; injection Hg as <- <-.
    + rewrite Er, bind_lift_some.
      rewrite memcpy_over by (rewrite app_length, firstn_length, fresh_length, Hl; lia).
      rewrite bind_lift_some. eexists. split; [reflexivity|].
      apply brep_set; [exact R|]. cbn. unfold lenN. rewrite Hl. split; [reflexivity|]. split; lia.
    + rewrite buf_eta, (bset_same _ _ _ Eb). eexists. split; [reflexivity|exact R].
  - (* pre_build *)
    destruct h as [h|]; cbn [bsp_step BUFFER_pre_build].
    2:{ sret. injection Hg as <- <-. eexists. split; [reflexivity|exact R]. }
    destruct (blive sp h) as [c|] eqn:L; [|snone; reflexivity].
    destruct (N.eqb_spec n 0) as [->|Hn0].
    { sret. injection Hg as <- <-. eexists. split; [reflexivity|exact R]. }
    destruct (brep_get _ _ _ _ R L) as (b & Eb & W). rewrite Eb, bind_lift_some.
    destruct c as [l|].
    { destruct W as (-> & _). sret. injection Hg as <- <-. eexists. split; [reflexivity|exact R]. }
    destruct W as (Ep & Ez). rewrite Ep. destruct (N.ltb_spec n two64) as [Hn|Hn]; [|snone; reflexivity].
    apply sim1_alloc. intros m r sp' Hg. destruct m; cbn in Hg; injection Hg as <- <-.
    + eexists. split; [reflexivity|]. apply brep_set; [exact R|]. cbn. unfold lenN.
      rewrite repeat_length. split; [reflexivity|]. split; lia.
    + eexists. split; [reflexivity|]. rewrite <- Ep, buf_eta, (bset_same _ _ _ Eb). exact R.
  - (* content *)
    destruct h as [h|]; cbn [bsp_step BUFFER_content].
    2:{ sret. injection Hg as <- <-. eexists. split; [reflexivity|exact R]. }
    destruct (blive sp h) as [c|] eqn:L; [|snone; reflexivity].
    destruct (brep_get _ _ _ _ R L) as (b & Eb & W). rewrite Eb, bind_lift_some.
    assert (Ec : content_of b = Some c) by (unfold content_of; destruct c; destruct W as [-> _]; reflexivity).
    rewrite Ec, bind_lift_some. sret. injection Hg as <- <-. eexists. split; [reflexivity|exact R].
  - (* unbuild *)
    destruct h as [h|]; cbn [bsp_step BUFFER_unbuild].
    2:{ sret. injection Hg as <- <-. eexists. split; [reflexivity|exact R]. }
    destruct (blive sp h) as [c|] eqn:L; [|snone; reflexivity].
    destruct (brep_get _ _ _ _ R L) as (b & Eb & W). rewrite Eb, bind_lift_some.
    destruct c as [l|]; destruct W as [-> _]; sret; injection Hg as <- <-; eexists; (split; [reflexivity|]).
    + apply (brep_set st sp h _ None); [exact R|split; reflexivity].
    + exact R.
  - (* enlarge *)
    destruct h as [h|]; cbn [bsp_step BUFFER_enlarge].
    2:{ sret. injection Hg as <- <-. eexists. split; [reflexivity|exact R]. }
    destruct (blive sp h) as [c|] eqn:L; [|snone; reflexivity].
    destruct (N.eqb_spec n 0) as [->|Hn0].
    { sret. injection Hg as <- <-. eexists. split; [reflexivity|exact R]. }
    destruct (brep_get _ _ _ _ R L) as (b & Eb & W). rewrite Eb, bind_lift_some.
    destruct (N.ltb_spec (lenN (bytes_of c) + n) two64) as [Hn|Hn]; [|snone; reflexivity].
    assert (Esz : size b = lenN (bytes_of c)) by (destruct c; destruct W as (_ & W); [apply W|exact W]).
    rewrite Esz, wrap_small by exact Hn. rewrite (realloc_cases c b _ W) by lia.
    match goal with |- sim1 _ (bind (bind alloc ?F) ?G) ?g ?o =>
      assert (E : bind (bind alloc F) G o = bind alloc (fun x => bind (F x) G) o)
        by apply bind_assoc;
      cut (sim1 brepresents (bind alloc (fun x => bind (F x) G)) g o);
      [intros (m & Hm & H); exists m; split; [exact Hm|]; rewrite E; exact H|]
    end.
    apply sim1_alloc. intros m r sp' Hg. rewrite bind_ret. destruct m; cbn in Hg; injection Hg as <- <-.
    + eexists. split; [reflexivity|]. apply brep_set; [exact R|].
      rewrite firstn_all2 by (unfold lenN; lia).
      replace (N.to_nat (lenN (bytes_of c) + n) - length (bytes_of c))%nat with (N.to_nat n) by (unfold lenN; lia).
      cbn [bwf buffer size]. split; [reflexivity|]. unfold lenN in *. rewrite app_length, repeat_length. lia.
    + rewrite <- Esz, buf_eta, (bset_same _ _ _ Eb). eexists. split; [reflexivity|exact R].
  - (* size *)
    destruct h as [h|]; cbn [bsp_step BUFFER_size].
    2:{ sret. injection Hg as <- <-. eexists. split; [reflexivity|exact R]. }
    destruct (blive sp h) as [c|] eqn:L; [|snone; reflexivity].
    destruct (brep_get _ _ _ _ R L) as (b & Eb & W). rewrite Eb, bind_lift_some.
    assert (Esz : size b = lenN (bytes_of c)) by (destruct c; destruct W as (_ & W); [apply W|exact W]).
    rewrite Esz. sret. injection Hg as <- <-. eexists. split; [reflexivity|exact R].
  - (* append *)
    destruct h1 as [h1|]; [|sret; injection Hg as <- <-; eexists; (split; [reflexivity|exact R])].
    destruct h2 as [h2|]; [|sret; injection Hg as <- <-; eexists; (split; [reflexivity|exact R])].
    cbn [bsp_step BUFFER_append]. destruct (Nat.eqb_spec h1 h2) as [->|Hne].
    { sret; injection Hg as <- <-; eexists; (split; [reflexivity|exact R]). }
    destruct (blive sp h1) as [c1|] eqn:L1; [|snone; reflexivity].
    destruct (blive sp h2) as [c2|] eqn:L2; [|snone; destruct c1; reflexivity].
    destruct (brep_get _ _ _ _ R L1) as (b1 & Eb1 & W1). rewrite Eb1, bind_lift_some.
    destruct (brep_get _ _ _ _ R L2) as (b2 & Eb2 & W2). rewrite Eb2, bind_lift_some.
    destruct c1 as [l1|]; [|destruct W1 as [-> _]; sret; injection Hg as <- <-; eexists; (split; [reflexivity|exact R])].
    pose proof W1 as (Ep1 & Es1 & Hs1).
    destruct c2 as [l2|]; [|destruct W2 as [-> _]; rewrite Ep1; sret; injection Hg as <- <-; eexists; (split; [reflexivity|exact R])].
    destruct W2 as (Ep2 & Es2 & Hs2).
    destruct ((0 <? lenN l1 + lenN l2) && (lenN l1 + lenN l2 <? two64)) eqn:Hc; [|snone; reflexivity].
    apply andb_true_iff in Hc. destruct Hc as [Hc1 Hc2].
    rewrite Ep2. rewrite Ep1. rewrite <- Ep1 at 1.
    rewrite Es1, Es2, wrap_small by lia.
    assert (Ex : realloc_ptr (buffer b1) (lenN l1 + lenN l2) = bind alloc (fun ok => ret (if ok then
       Some (PBlock (firstn (N.to_nat (lenN l1 + lenN l2)) l1 ++ fresh (N.to_nat (lenN l1 + lenN l2) - length l1)))
       else None, buffer b1))).
    { apply (realloc_cases (Some l1) b1); [exact W1|lia]. }
    rewrite Ex.
    match goal with |- sim1 _ (bind (bind alloc ?F) ?G) ?g ?o =>
      assert (E : bind (bind alloc F) G o = bind alloc (fun x => bind (F x) G) o)
        by apply bind_assoc;
      cut (sim1 brepresents (bind alloc (fun x => bind (F x) G)) g o);
      [intros (m & Hm & H); exists m; split; [exact Hm|]; rewrite E; exact H|]
    end.
    apply sim1_alloc. intros m r sp' Hg. rewrite bind_ret. destruct m; cbn in Hg; injection Hg as <- <-.
    + rewrite !lenN_nat, read_ptr_all, bind_lift_some.
      rewrite firstn_all2 by (unfold lenN; lia).
      rewrite memcpy_tail by (rewrite fresh_length; unfold lenN; lia). rewrite bind_lift_some.
      eexists. split; [reflexivity|]. apply brep_set; [exact R|].
      cbn [bwf buffer size]. split; [reflexivity|]. unfold lenN in *. rewrite app_length. lia.
    + eexists. split; [reflexivity|]. rewrite <- Es1, buf_eta, (bset_same _ _ _ Eb1). exact R.
  - (* prepend *)
    destruct h1 as [h1|]; [|sret; injection Hg as <- <-; eexists; (split; [reflexivity|exact R])].
    destruct h2 as [h2|]; [|sret; injection Hg as <- <-; eexists; (split; [reflexivity|exact R])].
    cbn [bsp_step BUFFER_prepend]. destruct (Nat.eqb_spec h1 h2) as [->|Hne].
    { sret; injection Hg as <- <-; eexists; (split; [reflexivity|exact R]). }
    destruct (blive sp h1) as [c1|] eqn:L1; [|snone; reflexivity].
    destruct (blive sp h2) as [c2|] eqn:L2; [|snone; destruct c1; reflexivity].
    destruct (brep_get _ _ _ _ R L1) as (b1 & Eb1 & W1). rewrite Eb1, bind_lift_some.
    destruct (brep_get _ _ _ _ R L2) as (b2 & Eb2 & W2). rewrite Eb2, bind_lift_some.
    destruct c1 as [l1|]; [|destruct W1 as [-> _]; sret; injection Hg as <- <-; eexists; (split; [reflexivity|exact R])].
    pose proof W1 as (Ep1 & Es1 & Hs1).
    destruct c2 as [l2|]; [|destruct W2 as [-> _]; rewrite Ep1; sret; injection Hg as <- <-; eexists; (split; [reflexivity|exact R])].
    destruct W2 as (Ep2 & Es2 & Hs2).
    destruct (N.ltb_spec (lenN l1 + lenN l2) two64) as [Hc|Hc]; [|snone; reflexivity].
    rewrite Ep1, Ep2, Es1, Es2, wrap_small by lia.
    apply sim1_alloc. intros m r sp' Hg. destruct m; cbn in Hg; injection Hg as <- <-.
    + rewrite !lenN_nat, read_ptr_all, bind_lift_some.
      assert (Em : memcpy_to (fresh (N.to_nat (lenN l1 + lenN l2))) 0 l2 = Some (l2 ++ fresh (length l1))).
      { unfold memcpy_to. rewrite fresh_length. replace (0 + length l2 <=? N.to_nat (lenN l1 + lenN l2))%nat with true by (unfold lenN; lia).
        cbn [firstn app Nat.add]. f_equal. f_equal. unfold fresh.
        replace (N.to_nat (lenN l1 + lenN l2)) with (length l2 + length l1)%nat by (unfold lenN; lia).
        rewrite repeat_app, skipn_app, skipn_all2 by (rewrite repeat_length; lia).
        rewrite repeat_length, Nat.sub_diag. reflexivity. }
      rewrite Em, bind_lift_some, read_ptr_all, bind_lift_some.
      rewrite memcpy_tail by (apply fresh_length). rewrite bind_lift_some. cbn [free_ptr]. rewrite bind_lift_some.
      eexists. split; [reflexivity|]. apply brep_set; [exact R|].
      cbn [bwf buffer size]. split; [reflexivity|]. unfold lenN in *. rewrite app_length. lia.
    + eexists. split; [reflexivity|exact R].
  - (* u_char *)
    destruct h as [h|]; cbn [bsp_step BUFFER_u_char].
    2:{ sret. injection Hg as <- <-. eexists. split; [reflexivity|exact R]. }
    destruct (blive sp h) as [c|] eqn:L; [|snone; reflexivity].
    destruct (brep_get _ _ _ _ R L) as (b & Eb & W). rewrite Eb, bind_lift_some.
    assert (Ec : content_of b = Some c) by (unfold content_of; destruct c; destruct W as [-> _]; reflexivity).
    rewrite Ec, bind_lift_some. sret. injection Hg as <- <-. eexists. split; [reflexivity|exact R].
  - (* length *)
    destruct h as [h|]; cbn [bsp_step BUFFER_length].
    2:{ sret. injection Hg as <- <-. eexists. split; [reflexivity|exact R]. }
    destruct (blive sp h) as [c|] eqn:L; [|snone; reflexivity].
    destruct (brep_get _ _ _ _ R L) as (b & Eb & W). rewrite Eb, bind_lift_some.
    assert (Esz : size b = lenN (bytes_of c)) by (destruct c; destruct W as (_ & W); [apply W|exact W]).
    rewrite Esz. sret. injection Hg as <- <-. eexists. split; [reflexivity|exact R].
  - (* clone *)
    destruct h as [h|]; cbn [bsp_step BUFFER_clone].
    2:{ sret. injection Hg as <- <-. eexists. split; [reflexivity|exact R]. }
    destruct (blive sp h) as [c|] eqn:L; [|snone; reflexivity].
    destruct (brep_get _ _ _ _ R L) as (b & Eb & W). rewrite Eb, bind_lift_some.
    assert (Esz : size b = lenN (bytes_of c)) by (destruct c; destruct W as (_ & W); [apply W|exact W]).
    assert (Ern : read_ptr (buffer b) (length (bytes_of c)) = Some (bytes_of c)).
    { destruct c as [l|]; destruct W as [-> _]; [apply read_ptr_all|reflexivity]. }
    apply sim1_allocs. intros m r sp' Hg. destruct m; cbn in Hg; injection Hg as <- <-.
    + rewrite Esz, lenN_nat, Ern, bind_lift_some, memcpy_all by reflexivity. rewrite bind_lift_some.
      eexists. split; [unfold bpush; rewrite (brep_len _ _ R); reflexivity|].
      apply brep_push; [exact R|]. cbn [bwf buffer size]. split; [reflexivity|]. split; [reflexivity|].
      destruct c as [l|]; [apply W|]. cbn. unfold lenN. cbn. unfold two64. lia.
    + eexists. split; [reflexivity|exact R].
  - (* poke *)
    cbn [bsp_step]. unfold client_poke.
    destruct (blive sp h) as [[l|]|] eqn:L; [|snone; reflexivity|snone; reflexivity].
    destruct (Nat.ltb_spec i (length l)) as [Hi|Hi]; [|snone; reflexivity].
    destruct (brep_get _ _ _ _ R L) as (b & Eb & (Ep & Es & Hs)). rewrite Eb, bind_lift_some, Ep.
    assert (Est : store l i v = Some (upd l i (Some v))).
    { clear - Hi. revert i Hi. induction l as [|x l IH]; intros [|i] Hi; cbn in *; try lia; [reflexivity|].
      rewrite IH by lia. reflexivity. }
    rewrite Est, bind_lift_some. sret. injection Hg as <- <-. eexists. split; [reflexivity|].
    apply brep_set; [exact R|]. cbn [bwf buffer size]. unfold lenN in *. rewrite upd_length. auto.
Qed.
