(* Theorems about src/constbuffer.c: C34. *)
From Verif Require Import Base Refine Buffer_Model Buffer_Spec Buffer_Proofs Refcount_Model.
From Verif Require Import ConstBuffer_Model ConstBuffer_Spec.
Open Scope N_scope.

Definition cbwf (c : CONSTBUFFER) (x : list (option N) * N) : Prop :=
  cb_size c = lenN (fst x) /\ cb_count c = snd x /\ 0 < snd x < 2 ^ 32 /\
  (cb_buffer c = PBlock (fst x) \/ fst x = [] /\ cb_buffer c = PNull).

Lemma cbrep_get st sp h x : cbrepresents st sp -> cblive sp h = Some x ->
  exists c, getcb st h = Some c /\ cbwf c x.
Proof.
  intros [_ R] L. unfold cblive in L. destruct (nth_error (const_contents sp) h) as [[x'|]|] eqn:E; try discriminate.
  injection L as ->. destruct (Forall2_nth_error _ _ _ _ _ R E) as (y & Hy & Hp).
  destruct y as [c|]; destruct x as [l k]; [|contradiction]. exists c. unfold getcb. rewrite Hy.
  split; [reflexivity|exact Hp].
Qed.

Lemma cbrep_len st sp : cbrepresents st sp -> length (cbs st) = length (const_contents sp).
Proof. intros [_ R]. induction R; cbn; congruence. Qed.

Lemma cbrep_push st sp c x : cbrepresents st sp -> cbwf c x ->
  cbrepresents (with_cbs st (cbs st ++ [Some c]))
    {| buf_contents := buf_contents sp; const_contents := const_contents sp ++ [Some x] |}.
Proof.
  intros [R1 R2] W. split; [exact R1|]. apply Forall2_app; [exact R2|]. constructor; [|constructor].
  destruct x. exact W.
Qed.

Lemma cbrep_set st sp h c x : cbrepresents st sp -> cbwf c x ->
  cbrepresents (with_cbs st (upd (cbs st) h (Some c))) (cbput sp h (Some x)).
Proof. intros [R1 R2] W. split; [exact R1|]. apply Forall2_upd; [exact R2|]. destruct x. exact W. Qed.

Lemma cbread c x : cbwf c x -> read_ptr (cb_buffer c) (length (fst x)) = Some (fst x).
Proof.
  intros (_ & _ & _ & [->|[-> ->]]); [apply read_ptr_all|reflexivity].
Qed.

(* the copying constructor, given that the source has the n bytes l *)
Lemma create_internal_sim st sp src n l o :
  cbrepresents st sp -> n < two64 -> (n <> 0 -> src (N.to_nat n) = Some l) -> length l = N.to_nat n ->
  sim1 cbrepresents (CONSTBUFFER_Create_Internal st src n) (fun m => Some (cbpush sp m l)) o.
Proof.
  intros R Hn Hs Hl. apply sim1_yields. unfold CONSTBUFFER_Create_Internal. apply yields_balloc.
  intros [|]; cbn [negb andb].
  2:{ apply yields_ret. cbn. intros r sp' H. injection H as <- <-. split; [reflexivity|exact R]. }
  destruct (N.eqb_spec n 0) as [->|Hn0].
  { apply yields_ret. cbn. intros r sp' H. injection H as <- <-.
    rewrite (cbrep_len _ _ R). split; [reflexivity|]. apply cbrep_push; [exact R|].
    destruct l; [|discriminate]. repeat split; try reflexivity. right. split; reflexivity. }
  apply yields_balloc. intros [|]; cbn [negb andb].
  2:{ apply yields_ret. cbn. intros r sp' H. injection H as <- <-. split; [reflexivity|exact R]. }
  rewrite (Hs Hn0), bind_lift_some, memcpy_all by exact Hl. rewrite bind_lift_some.
  apply yields_ret. cbn. intros r sp' H. injection H as <- <-.
  rewrite (cbrep_len _ _ R). split; [reflexivity|]. apply cbrep_push; [exact R|].
  repeat split; try reflexivity; cbn; [unfold lenN; lia|]. left. reflexivity.
Qed.

Lemma bwf_len b c : bwf b c -> size b = lenN (bytes_of c) /\ lenN (bytes_of c) < two64.
Proof.
  destruct c as [l|]; cbn.
  - intros (_ & H & H'). auto.
  - intros (_ & ->). split; reflexivity.
Qed.

Lemma constbuffer_simulate a : simulates (cbstep a) cbsp_step cbrepresents.
Proof.
  intros st sp op o R. change (sim1 cbrepresents (cbstep a st op) (fun m => cbsp_step sp op m) o).
  destruct op as [s n|h|h|h|h|op]; cbn [cbstep cbsp_step].
  - unfold CONSTBUFFER_Create. destruct (is_null s && negb (n =? 0)) eqn:En; [same R|].
    destruct (N.ltb_spec n two64) as [Hn|Hn]; [|snone; reflexivity].
    destruct (N.eqb_spec n 0) as [->|Hn0].
    + apply create_internal_sim; [exact R|exact Hn| |reflexivity]. intros H; contradiction.
    + destruct (bdenote (buf_contents sp) s n) as [l|] eqn:D; [|snone; reflexivity].
      destruct (brep_src _ _ _ _ _ (proj1 R) D) as [Er Hl].
      apply create_internal_sim; [exact R|exact Hn| |exact Hl]. intros _. exact Er.
  - destruct h as [h|]; cbn [CONSTBUFFER_CreateFromBuffer]; [|same R].
    destruct (blive (buf_contents sp) h) as [c|] eqn:L; [|snone; reflexivity].
    destruct (brep_get _ _ _ _ (proj1 R) L) as (b & Eb & W). destruct (bwf_len _ _ W) as [Ez Hz].
    assert (Ec : content_of b = Some c) by (unfold content_of; destruct c; destruct W as [-> _]; reflexivity).
    unfold BUFFER_u_char, BUFFER_length. rewrite Eb, !bind_lift_some, Ec, bind_lift_some, bind_ret, bind_ret.
    cbn [fst]. rewrite Ez. apply create_internal_sim; [exact R|exact Hz| |rewrite lenN_nat; reflexivity].
    intros H. rewrite lenN_nat. destruct c as [l|]; [|cbn in H; unfold lenN in H; cbn in H; lia].
    cbn [bytes_of]. rewrite Nat.leb_refl, firstn_all. reflexivity.
  - destruct h as [h|]; cbn [CONSTBUFFER_Clone]; [|same R].
    destruct (cblive sp h) as [[l k]|] eqn:L; [|snone; reflexivity].
    destruct (cbrep_get _ _ _ _ R L) as (c & Ec & W). rewrite Ec, bind_lift_some.
    destruct (N.ltb_spec (k + 1) (2 ^ 32)) as [Hk|Hk]; [|snone; reflexivity].
    sret. injection Hg as <- <-. eexists. split; [reflexivity|]. apply cbrep_set; [exact R|].
    destruct W as (W1 & W2 & W3 & W4). cbn in *. repeat split; cbn; try assumption; try lia.
    unfold inc_ref. rewrite W2. apply N.mod_small. exact Hk.
  - destruct h as [h|]; cbn [CONSTBUFFER_GetContent]; [|same R].
    destruct (cblive sp h) as [[l k]|] eqn:L; [|snone; reflexivity].
    destruct (cbrep_get _ _ _ _ R L) as (c & Ec & W). rewrite Ec, bind_lift_some.
    pose proof (cbread _ _ W) as Er. destruct W as (W1 & _). cbn [fst] in *.
    rewrite W1, lenN_nat, Er, bind_lift_some. same R.
  - destruct h as [h|]; cbn [CONSTBUFFER_Destroy]; [|same R].
    destruct (cblive sp h) as [[l k]|] eqn:L; [|snone; reflexivity].
    destruct (cbrep_get _ _ _ _ R L) as (c & Ec & W). rewrite Ec, bind_lift_some.
    destruct W as (W1 & W2 & W3 & W4). cbn [fst snd] in *.
    assert (Ez : dec_hits_zero a (cb_count c) = (k =? 1)).
    { rewrite W2. destruct a; cbn; [reflexivity|]. unfold dec_ref, two32.
      destruct (N.eqb_spec k 1) as [->|Hk]; [reflexivity|].
      replace (k + (2 ^ 32 - 1)) with (k - 1 + 1 * 2 ^ 32) by lia.
      rewrite N.mod_add by discriminate. rewrite N.mod_small by lia. lia. }
    rewrite Ez. destruct (N.eqb_spec k 1) as [->|Hk].
    + replace (free_ptr (cb_buffer c)) with (Some tt) by (destruct W4 as [->|[_ ->]]; reflexivity).
      rewrite bind_lift_some. sret. injection Hg as <- <-. eexists. split; [reflexivity|].
      destruct R as [R1 R2]. split; [exact R1|]. apply Forall2_upd; [exact R2|exact I].
    + sret. injection Hg as <- <-. eexists. split; [reflexivity|]. apply cbrep_set; [exact R|].
      repeat split; cbn; try assumption; try lia. rewrite W2. unfold dec_ref, two32.
      replace (k + (2 ^ 32 - 1)) with (k - 1 + 1 * 2 ^ 32) by lia.
      rewrite N.mod_add by discriminate. apply N.mod_small. lia.
  - destruct R as [R1 R2]. destruct (buffer_simulate (bufs st) (buf_contents sp) op o R1) as (m & Hf & Hm).
    exists m. split; [exact Hf|]. intros r sp' Hg.
    destruct (bsp_step (buf_contents sp) op m) as [[r0 b]|]; [|discriminate]. injection Hg as <- <-.
    destruct (Hm r0 b eq_refl) as (s' & o' & used & Es & Ha & Ho & Hu).
    exists {| bufs := s'; cbs := cbs st |}, o', used. unfold bind. rewrite Es. cbn.
    repeat split; auto.
Qed.

(** * C34: a history of CONSTBUFFER and BUFFER calls behaves like byte sequences *)

Definition cbempty : cbstate := {| bufs := []; cbs := [] |}.
Definition cbempty_contents : cbcontents := {| buf_contents := []; const_contents := [] |}.

Theorem constbuffers_refine_sequences : forall a (ops : list cbop) (o : oracle),
  exists ms, length ms = length ops /\ (In false ms -> In false o) /\
    forall rs sp, srun cbsp_step cbempty_contents ops ms = Some (rs, sp) ->
    exists st o', run (cbstep a) cbempty ops o = Some ((rs, st), o') /\ cbrepresents st sp.
Proof.
  intros a ops o. apply (refinement _ _ cbrepresents (constbuffer_simulate a)). split; constructor.
Qed.

Theorem constbuffers_refine_sequences_no_failure : forall a (ops : list cbop) (o : oracle) rs sp,
  ~ In false o ->
  srun cbsp_step cbempty_contents ops (repeat true (length ops)) = Some (rs, sp) ->
  exists st o', run (cbstep a) cbempty ops o = Some ((rs, st), o') /\ cbrepresents st sp.
Proof.
  intros a ops o rs sp Ho H. destruct (constbuffers_refine_sequences a ops o) as (ms & Hl & Hf & Hr).
  apply Hr. rewrite (no_failure_ms ms o Hf Ho), Hl. exact H.
Qed.

(* The bytes never change while the handle is valid, whatever is called in between -
   including writing to, enlarging and deleting the BUFFER they were copied from. *)
Definition destroys (h : nat) (op : cbop) : bool :=
  match op with CBDestroy (Some i) => (i =? h)%nat | _ => false end.
Definition clones (h : nat) (op : cbop) : bool :=
  match op with CBClone (Some i) => (i =? h)%nat | _ => false end.

Lemma cbstep_shape a st op o r st' o' : cbstep a st op o = Some ((r, st'), o') ->
  cbs st' = cbs st
  \/ (exists c, cbs st' = cbs st ++ [c])
  \/ (exists h c, op = CBClone (Some h) /\ getcb st h = Some c /\
        cbs st' = upd (cbs st) h (Some {| cb_buffer := cb_buffer c; cb_size := cb_size c; cb_count := inc_ref (cb_count c) |}))
  \/ (exists h c, op = CBDestroy (Some h) /\ getcb st h = Some c /\
        ((dec_hits_zero a (cb_count c) = true /\ cbs st' = upd (cbs st) h None) \/
         (dec_hits_zero a (cb_count c) = false /\
          cbs st' = upd (cbs st) h (Some {| cb_buffer := cb_buffer c; cb_size := cb_size c; cb_count := dec_ref (cb_count c) |})))).
Proof.
  destruct op; cbn [cbstep].
  1,2: unfold CONSTBUFFER_Create, CONSTBUFFER_CreateFromBuffer, CONSTBUFFER_Create_Internal, BUFFER_u_char, BUFFER_length,
     bind, lift, undef, ret;
    intros H; crunch H; try (injection H as <- <- <-); subst; cbn; eauto 8.
  4: { unfold bind. intros H. destruct (bstep (bufs st) op o) as [[[x b] o1]|]; [|discriminate].
       injection H as <- <- <-. left. reflexivity. }
  all: unfold CONSTBUFFER_Clone, CONSTBUFFER_GetContent, CONSTBUFFER_Destroy, bind, lift, undef, ret;
    intros H; crunch H; try (injection H as <- <- <-); subst; cbn; eauto 12.
Qed.

(* On the model alone: over any history that starts from any state, a valid constant
   buffer that the history neither clones beyond 2^32-1 references nor destroys as often
   as it was cloned keeps the very block and size it had. *)
Theorem constbuffer_content_immutable : forall a ops st o rs st' o' h c,
  run (cbstep a) st ops o = Some ((rs, st'), o') ->
  getcb st h = Some c -> 
  (length (filter (destroys h) ops) < N.to_nat (cb_count c))%nat ->
  cb_count c + N.of_nat (length (filter (clones h) ops)) < 2 ^ 32 ->
  exists c', getcb st' h = Some c' /\ cb_buffer c' = cb_buffer c /\ cb_size c' = cb_size c /\
    cb_count c' = cb_count c + N.of_nat (length (filter (clones h) ops)) - N.of_nat (length (filter (destroys h) ops)).
Proof.
  intros a. induction ops as [|op t IH]; intros st o rs st' o' h c H G Hd Hc.
  { injection H as <- <- <-. exists c. cbn. repeat split; auto. lia. }
  cbn [run] in H. unfold bind in H at 1. destruct (cbstep a st op o) as [[[r st1] o1]|] eqn:E; [|discriminate].
  cbn [fst snd] in H. unfold bind in H. destruct (run (cbstep a) st1 t o1) as [[[rs1 st2] o2]|] eqn:E2; [|discriminate].
  cbn in H. injection H as <- <- <-.
  assert (Hlt : (h < length (cbs st))%nat).
  { unfold getcb in G. apply nth_error_Some. destruct (nth_error (cbs st) h); congruence. }
  assert (S : exists c1, getcb st1 h = Some c1 /\ cb_buffer c1 = cb_buffer c /\ cb_size c1 = cb_size c /\
     cb_count c1 = cb_count c + (if clones h op then 1 else 0) - (if destroys h op then 1 else 0)).
  { cbn [filter] in Hd, Hc.
    destruct (cbstep_shape _ _ _ _ _ _ _ E) as [Es|[(x & Es)|[(i & x & Eop & Gx & Es)|(i & x & Eop & Gx & Es)]]].
    - exists c. unfold getcb. rewrite Es. split; [exact G|]. repeat split.
      destruct (clones h op) eqn:Eq1; [|destruct (destroys h op) eqn:Eq2; [|lia]].
      + destruct op as [| |[i|]| | |]; cbn in Eq1; try discriminate. apply Nat.eqb_eq in Eq1. subst i.
        cbn [cbstep CONSTBUFFER_Clone] in E. rewrite G in E. injection E as <- <- <-. cbn in Es.
        unfold getcb in G. rewrite <- Es in G. rewrite upd_same in G by exact Hlt.
        injection G as G. apply (f_equal cb_count) in G. cbn in G. cbn [length] in Hc.
        unfold inc_ref, two32 in G. rewrite N.mod_small in G; lia.
      + destruct op as [| | | |[i|]|]; cbn in Eq2; try discriminate. apply Nat.eqb_eq in Eq2. subst i.
        cbn [cbstep CONSTBUFFER_Destroy] in E. rewrite G, bind_lift_some in E.
        cbn [length] in Hd.
        destruct (dec_hits_zero a (cb_count c)).
        * unfold bind, lift in E. destruct (free_ptr (cb_buffer c)); [|discriminate].
          injection E as <- <- <-. cbn in Es. unfold getcb in G. rewrite <- Es in G.
          rewrite upd_same in G by exact Hlt. discriminate.
        * injection E as <- <- <-. cbn in Es. unfold getcb in G. rewrite <- Es in G.
          rewrite upd_same in G by exact Hlt. injection G as G. apply (f_equal cb_count) in G. cbn in G.
          unfold dec_ref, two32 in G.
          replace (cb_count c + (2 ^ 32 - 1)) with (cb_count c - 1 + 1 * 2 ^ 32) in G by lia.
          rewrite N.mod_add in G by discriminate. rewrite N.mod_small in G by lia. lia.
    - exists c. unfold getcb. rewrite Es, nth_error_app1 by exact Hlt. split; [exact G|]. repeat split.
      destruct op as [| |[i|]| |[i|]|]; cbn [clones destroys]; try lia; exfalso.
      + cbn [cbstep CONSTBUFFER_Clone] in E. unfold bind, lift in E. destruct (getcb st i); [|discriminate].
        injection E as <- <- <-. cbn in Es. apply (f_equal (@length _)) in Es. rewrite upd_length, app_length in Es. cbn in Es. lia.
      + cbn [cbstep CONSTBUFFER_Destroy] in E. unfold bind, lift, ret in E. crunch E; injection E as <- <- <-;
        cbn in Es; apply (f_equal (@length _)) in Es; rewrite upd_length, app_length in Es; cbn in Es; lia.
    - subst op. cbn [clones destroys] in *. destruct (Nat.eqb_spec i h) as [->|Hne].
      + rewrite G in Gx. injection Gx as <-. eexists. unfold getcb. rewrite Es, upd_same by exact Hlt.
        split; [reflexivity|]. cbn [cb_buffer cb_size cb_count]. repeat split. cbn [length] in Hc.
        unfold inc_ref, two32. rewrite N.mod_small; lia.
      + exists c. unfold getcb. rewrite Es, upd_other by congruence. split; [exact G|]. repeat split. lia.
    - subst op. cbn [clones destroys] in *. destruct (Nat.eqb_spec i h) as [->|Hne].
      + rewrite G in Gx. injection Gx as <-. cbn [length] in Hd.
        assert (Ez : dec_ref (cb_count c) = cb_count c - 1).
        { unfold dec_ref, two32.
          replace (cb_count c + (2 ^ 32 - 1)) with (cb_count c - 1 + 1 * 2 ^ 32) by lia.
          rewrite N.mod_add by discriminate. apply N.mod_small. lia. }
        destruct Es as [[Hz _]|[_ Es]].
        { destruct a; cbn in Hz; [|rewrite Ez in Hz]; lia. }
        eexists. unfold getcb. rewrite Es, upd_same by exact Hlt.
        split; [reflexivity|]. cbn [cb_buffer cb_size cb_count]. rewrite Ez. repeat split. lia.
      + exists c. unfold getcb. destruct Es as [[_ Es]|[_ Es]]; rewrite Es, upd_other by congruence;
        (split; [exact G|]; repeat split; lia). }
  destruct S as (c1 & G1 & B1 & Z1 & C1). cbn [filter] in Hd, Hc |- *.
  assert (Hx : clones h op && destroys h op = false) by (destruct op as [| |[i|]| |[i|]|]; cbn; try reflexivity; apply andb_false_r).
  destruct (IH st1 o1 rs1 st2 o2 h c1 E2 G1) as (c' & G' & B' & Z' & C').
  - rewrite C1. destruct (clones h op), (destroys h op); cbn in Hx; try discriminate; cbn [length] in *; lia.
  - rewrite C1. destruct (clones h op), (destroys h op); cbn in Hx; try discriminate; cbn [length] in *; lia.
  - exists c'. split; [exact G'|]. split; [congruence|]. split; [congruence|]. rewrite C', C1.
    destruct (clones h op), (destroys h op); cbn in Hx; try discriminate; cbn [length] in *; lia.
Qed.

(* When memory runs out nothing is created and nothing changes. *)
Theorem constbuffer_create_atomic : forall a st op o st' o',
  (exists s n, op = CBCreate s n) \/ (exists h, op = CBCreateFromBuffer h) ->
  cbstep a st op o = Some ((CBH None, st'), o') -> st' = st.
Proof.
  intros a st op o st' o' [(s & n & ->)|(h & ->)]; cbn [cbstep];
  unfold CONSTBUFFER_Create, CONSTBUFFER_CreateFromBuffer, CONSTBUFFER_Create_Internal, BUFFER_u_char, BUFFER_length,
     bind, lift, undef, ret; intros H; crunch H; try (injection H as <- <-); subst; try reflexivity; discriminate.
Qed.

(* A history that meets the hypotheses: a constant copy of a BUFFER outlives changes to,
   and the deletion of, that BUFFER. *)
Example constbuffer_history :
  srun cbsp_step cbempty_contents
    [CBBuf (BCreate (BSBytes (str "abc")) 3); CBCreateFromBuffer (Some 0%nat); CBBuf (BPoke 0 1 (ch "X"));
     CBGetContent (Some 0%nat); CBClone (Some 0%nat); CBBuf (BDelete (Some 0%nat)); CBDestroy (Some 0%nat);
     CBGetContent (Some 0%nat); CBCreate BSNull 0; CBGetContent (Some 1%nat); CBDestroy (Some 0%nat)]
    (repeat true 11)
  = Some ([CBB (BRH (Some 0%nat)); CBH (Some 0%nat); CBB (BRI true); CBC (Some (map Some (str "abc"), 3));
           CBH (Some 0%nat); CBB (BRI true); CBU; CBC (Some (map Some (str "abc"), 3)); CBH (Some 1%nat);
           CBC (Some ([], 0)); CBU],
          {| buf_contents := [None]; const_contents := [None; Some ([], 1)] |}).
Proof. reflexivity. Qed.
