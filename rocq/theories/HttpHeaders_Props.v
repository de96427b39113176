(* Theorems about src/httpheaders.c: C36, C37, C38, C70. *)
From Verif Require Import Base Refine Map_Model Map_Spec Map_Proofs Map_Props.
From Verif Require Import HttpHeaders_Model HttpHeaders_Spec HttpHeaders_Proofs.
Open Scope N_scope.
#[local] Arguments is_lws : simpl never.

Definition hempty : hstate := {| hmaps := []; hdrs := [] |}.

Lemma hempty_rep : hrepresents hempty [].
Proof.
  exists []. split; [constructor|]. split; [constructor|]. intros i j m H. unfold gethdr in H. cbn in H.
  destruct i; discriminate.
Qed.

(** * C37: a history of header calls behaves like the same history on lists of pairs *)

Theorem headers_refine_lists : forall (ops : list hop) (o : oracle),
  exists ms, length ms = length ops /\ (In false ms -> In false o) /\
    forall rs sp, srun hsp_step [] ops ms = Some (rs, sp) ->
    exists st o', run hstep_merged hempty ops o = Some ((rs, st), o') /\ hrepresents st sp.
Proof. intros ops o. apply (refinement _ _ hrepresents headers_simulate), hempty_rep. Qed.

Theorem headers_refine_lists_no_failure : forall (ops : list hop) (o : oracle) rs sp,
  ~ In false o ->
  srun hsp_step [] ops (repeat true (length ops)) = Some (rs, sp) ->
  exists st o', run hstep_merged hempty ops o = Some ((rs, st), o') /\ hrepresents st sp.
Proof.
  intros ops o rs sp Ho H. destruct (headers_refine_lists ops o) as (ms & Hl & Hf & Hr).
  apply Hr. rewrite (no_failure_ms ms o Hf Ho), Hl. exact H.
Qed.

(* merge_codes only identifies the two out-of-memory codes: success, wrong arguments and
   every returned text are reported exactly. *)
Theorem merge_codes_exact : forall r, merge_codes r = r \/ r = HRC HTTP_HEADERS_ALLOC_FAILED.
Proof. intros [| [] | | | |]; cbn; auto. Qed.

(* What the specification's successful Add and Replace do. *)
Lemma names_replaced n v l : map fst (replace_value n v l) = map fst l.
Proof.
  unfold replace_value. rewrite map_map. apply map_ext. intros [k x]. cbn. destruct (teq k n); reflexivity.
Qed.

Lemma hlive_upd sp h l : (h < length sp)%nat -> hlive (upd sp h (Some l)) h = Some l.
Proof. intros H. unfold hlive. rewrite upd_same by exact H. reflexivity. Qed.

Theorem spec_put_effect : forall sp h n v vt rep sp', hdenote sp v = Some (Some vt) ->
  hsp_put sp (Some h) (Some n) v rep true = Some (HRC HTTP_HEADERS_OK, sp') ->
  exists l l', hlive sp h = Some l /\ hlive sp' h = Some l' /\
    lookup n l' = Some (match lookup n l with
                        | Some old => if rep then trim vt else old ++ str ", " ++ trim vt
                        | None => trim vt
                        end) /\
    (forall n', n' <> n -> lookup n' l' = lookup n' l) /\
    map fst l' = map fst l ++ (match lookup n l with Some _ => [] | None => [n] end) /\
    (forall h', h' <> h -> nth_error sp' h' = nth_error sp h').
Proof.
  intros sp h n v vt rep sp' D H.
  assert (E : exists l, hlive sp h = Some l /\
     exists l', sp' = upd sp h (Some l') /\
       l' = match lookup n l with
            | None => l ++ [(n, trim vt)]
            | Some old => replace_value n (if rep then trim vt else old ++ str ", " ++ trim vt) l
            end).
  { unfold hsp_put in H. destruct v as [|s|h2 i2]; [discriminate D| |];
    (destruct (cstr_okb n); cbn [negb] in H; [|discriminate H];
     destruct (legal_name n); cbn [negb] in H; [|discriminate H];
     destruct (hlive sp h) as [l|]; [|discriminate H]; rewrite D in H; exists l; split; [reflexivity|];
     destruct (lookup n l) as [old|]; unfold hset in H;
     [destruct rep; [destruct (own_header _ _ _ _) in H; [discriminate H|]|]|];
     injection H as <-; eexists; split; reflexivity). }
  destruct E as (l & L & l' & -> & El). exists l, l'. split; [exact L|].
  assert (Hh : (h < length sp)%nat) by (unfold hlive in L; apply nth_error_Some; destruct (nth_error sp h); congruence).
  split; [apply hlive_upd, Hh|]. destruct (lookup n l) as [old|] eqn:Eo; subst l'.
  - assert (Hn : lookup n l <> None) by congruence.
    split; [rewrite spec_update_lookup by exact Hn; rewrite teq_refl; destruct rep; reflexivity|].
    split; [intros n' Hne; rewrite spec_update_lookup by exact Hn;
            replace (teq n n') with false by (symmetry; apply teq_neq; congruence); reflexivity|].
    split; [rewrite names_replaced, app_nil_r; reflexivity|]. intros h' Hne. apply upd_other. congruence.
  - split; [rewrite spec_insert_lookup by exact Eo; rewrite teq_refl; reflexivity|].
    split; [intros n' Hne; rewrite spec_insert_lookup by exact Eo;
            replace (teq n n') with false by (symmetry; apply teq_neq; congruence); reflexivity|].
    split; [rewrite map_app; reflexivity|]. intros h' Hne. apply upd_other. congruence.
Qed.

(** * C36: stored names are legal, stored values trimmed *)

Lemma hrep_dead st sp ms h : hrep_with st sp ms -> hlive sp h = None -> gethdr st h = None.
Proof.
  intros (_ & R & _) L. unfold hlive, gethdr in *. revert h L. induction R as [|x y l1 l2 H R IH]; intros [|h] L; cbn in *; auto.
  destruct x, y; try reflexivity; try contradiction. discriminate.
Qed.

Lemma hrep_nocarg st sp ms v : hrep_with st sp ms -> hdenote sp v = None -> read_harg st v = None.
Proof.
  intros H D. destruct v as [|s|h i]; cbn [hdenote read_harg] in *; [discriminate| |].
  - destruct (cstr_okb s); [discriminate|reflexivity].
  - destruct (hlive sp h) as [l|] eqn:L; [|rewrite (hrep_dead _ _ _ _ H L); reflexivity].
    destruct (hrep_get _ _ _ _ _ H L) as (m & -> & Lm & _).
    pose proof (mrep_read (hmaps st) ms (MValOf m i) (proj1 H)) as E. rewrite E.
    cbn [mdenote]. rewrite Lm. cbn [a_pairs]. destruct (nth_error l i); [discriminate|reflexivity].
Qed.

(* every call that returns leaves a state that is a state of headers *)
Lemma hstep_did st sp op o r st' o' : hrepresents st sp -> hstep st op o = Some ((r, st'), o') ->
  exists sp', hrepresents st' sp'.
Proof.
  intros HR H.
  assert (Hm : hstep_merged st op o = Some ((merge_codes r, st'), o')) by (unfold hstep_merged, bind; rewrite H; reflexivity).
  destruct (simulates_use _ _ _ headers_simulate _ _ _ _ _ _ _ HR Hm) as (m & _ & Hs).
  destruct (hsp_step sp op m) as [[r0 sp0]|] eqn:E; [destruct (Hs _ _ eq_refl); eauto|].
  clear Hs Hm. destruct HR as (ms & HR). change (hrep_with st sp ms) in HR.
  (* the specification promises nothing: a dead handle, a bad pointer, or the own value *)
  assert (Put : forall h n v rep, hsp_put sp h n v rep m = None ->
     headers_ReplaceHeaderNameValuePair st h n v rep o = Some ((r, st'), o') -> exists sp', hrepresents st' sp').
  { clear E H op. intros h n v rep E H. unfold hsp_put in E. unfold headers_ReplaceHeaderNameValuePair in H.
    destruct h as [h|]; [|discriminate E]. destruct n as [n|]; [|discriminate E].
    assert (Ev : v <> HNull) by (intros ->; discriminate E).
    assert (H' : (if negb (cstr_okb n) then undef
      else if negb (forallb name_char n) then ret (HRC HTTP_HEADERS_INVALID_ARG, st)
      else
        (m <- lift (gethdr st h) ;;
         e <- Map_GetValueFromKey (hmaps st) (Some m) (MStr n) ;;
         va <- lift (read_harg st v) ;;
         match va with
         | None => undef
         | Some (vt, arg) =>
             arg' <- lift (skipped vt arg) ;;
             match negb rep, fst e with
             | true, MRS (Some old) =>
                 ok <- alloc ;;
                 if negb ok then ret (HRC HTTP_HEADERS_ALLOC_FAILED, st)
                 else
                   nv <- lift (join3 old (str ", ") (skip_lws vt)) ;;
                   x <- Map_AddOrUpdate (hmaps st) (Some m) (MStr n) (MStr nv) ;;
                   ret (HRC (if map_ok (fst x) then HTTP_HEADERS_OK else HTTP_HEADERS_ERROR), with_maps st (snd x))
             | _, _ =>
                 x <- Map_AddOrUpdate (hmaps st) (Some m) (MStr n) arg' ;;
                 ret (HRC (if map_ok (fst x) then HTTP_HEADERS_OK else HTTP_HEADERS_ALLOC_FAILED), with_maps st (snd x))
             end
         end)%m) o = Some ((r, st'), o')) by (destruct v; [congruence|exact H|exact H]).
    assert (E' : (if negb (cstr_okb n) then None
      else if negb (legal_name n) then Some (HRC HTTP_HEADERS_INVALID_ARG, sp)
      else match hlive sp h, hdenote sp v with
           | Some l, Some (Some v') =>
               match lookup n l with
               | None => Some (hset sp h (l ++ [(n, trim v')]) m)
               | Some old =>
                   if rep then
                     if own_header sp h n v then None
                     else Some (hset sp h (replace_value n (trim v') l) m)
                   else Some (hset sp h (replace_value n (old ++ str ", " ++ trim v') l) m)
               end
           | _, _ => None
           end) = None) by (destruct v; [congruence|exact E|exact E]).
    clear H E. rename H' into H. rename E' into E.
    destruct (cstr_okb n) eqn:Ecn; cbn [negb] in *; [|discriminate].
    rewrite name_char_legal in H. destruct (legal_name n); cbn [negb] in *; [|discriminate].
    destruct (hlive sp h) as [l|] eqn:L; [|rewrite (hrep_dead _ _ _ _ HR L) in H; discriminate H].
    destruct (hrep_get _ _ _ _ _ HR L) as (mm & G & Lm & Fl). rewrite G, bind_lift_some in H.
    apply bind_inv in H. destruct H as (e & o1 & Ee & H).
    assert (Hee : e = (MRS (lookup n l), hmaps st) /\ o1 = o).
    { destruct (getvalue_eval (hmaps st) ms mm _ n (proj1 HR) Lm (proj1 (cstr_okb_ok _) Ecn)) as [E2|E2];
      rewrite E2 in Ee; cbn in Ee; injection Ee as <- <-; auto. }
    destruct Hee as [-> ->]. cbn [fst] in H.
    destruct (hdenote sp v) as [[vt|]|] eqn:D.
    - destruct (hrep_harg _ _ _ _ _ HR D) as (a & a' & Er & Esk & Na & Da & Cv & Own).
      rewrite Er, bind_lift_some, Esk, bind_lift_some in H.
      destruct (lookup n l) as [old|] eqn:El; [|discriminate]. destruct rep; [|discriminate]. cbn [negb] in H.
      destruct (own_header sp h n v) eqn:Eo; [|discriminate]. rewrite (Own _ _ _ G) in Eo.
      apply bind_inv in H. destruct H as (x & o2 & Ex & H). injection H as <- <- <-. destruct x as [rx mp].
      change (mstep (hmaps st) (MAddOrUpdate (Some mm) (MStr n) a') o = Some ((rx, mp), o2)) in Ex.
      destruct (mstep_did _ _ _ _ _ _ _ (proj1 HR) Ex) as (ms' & R' & [(b & Es)|[(_ & ->)|(_ & h0 & a0 & Et & La & Ep & _)]]).
      + cbn [msp_step mnull] in Es. rewrite Na in Es. cbn [orb] in Es. rewrite Lm in Es. cbn [mdenote] in Es.
        rewrite Ecn, Da in Es. cbn [refused a_filter a_pairs] in Es. rewrite El, Eo in Es. discriminate.
      + exists sp. eapply hrep_intro. cbn [snd]. eapply (hrep_grow st sp ms ms); eauto.
      + cbn [mtarget] in Et. injection Et as <-. rewrite Lm in La. injection La as <-. cbn in Ep. subst l. discriminate.
    - exfalso. destruct v as [|s|h2 i2]; cbn in D; [congruence|destruct (cstr_okb s); discriminate|].
      destruct (hlive sp h2) as [l2|]; [|discriminate]. destruct (nth_error l2 i2); discriminate.
    - rewrite (hrep_nocarg _ _ _ _ HR D) in H. discriminate. }
  destruct op as [|h|h n v|h n v|h n|h out|h i out|h]; cbn [hsp_step hstep] in *.
  - discriminate.
  - destruct h as [h|]; [|discriminate]. destruct (hlive sp h) eqn:L; [discriminate|]. cbn in H.
    rewrite (hrep_dead _ _ _ _ HR L) in H. discriminate.
  - eapply Put; eassumption.
  - eapply Put; eassumption.
  - destruct h as [h|], n as [n|]; try discriminate. cbn [HTTPHeaders_FindHeaderValue] in H. destruct (cstr_okb n) eqn:Ec.
    + destruct (hlive sp h) eqn:L; [discriminate|]. rewrite (hrep_dead _ _ _ _ HR L) in H. discriminate.
    + unfold bind, lift in H. destruct (gethdr st h); [|discriminate]. cbn [Map_GetValueFromKey mnull] in H. unfold bind, lift in H.
      destruct (getmap (hmaps st) n0); [|discriminate]. cbn [read_marg] in H. rewrite Ec in H. discriminate.
  - destruct h as [h|]; [|discriminate]. destruct out; cbn [negb] in *; [|discriminate].
    destruct (hlive sp h) eqn:L; [discriminate|]. cbn in H. rewrite (hrep_dead _ _ _ _ HR L) in H. discriminate.
  - destruct h as [h|]; [|discriminate]. destruct out; cbn [negb] in *; [|discriminate].
    destruct (hlive sp h) as [l|] eqn:L; [destruct (nth_error l i) as [[? ?]|]; discriminate|].
    cbn in H. rewrite (hrep_dead _ _ _ _ HR L) in H. discriminate.
  - destruct h as [h|]; [|discriminate]. destruct (hlive sp h) eqn:L; [discriminate|]. cbn in H.
    rewrite (hrep_dead _ _ _ _ HR L) in H. unfold bind, alloc in H. destruct o as [|[|] o0]; cbn in H; try discriminate.
    injection H as <- <- <-. exists sp. eapply hrep_intro, HR.
Qed.

Lemma hrun_did : forall ops st sp o rs st' o', hrepresents st sp -> run hstep st ops o = Some ((rs, st'), o') ->
  exists sp', hrepresents st' sp'.
Proof.
  induction ops as [|op t IH]; intros st sp o rs st' o' R H; cbn in H.
  - injection H as <- <- <-. eauto.
  - apply bind_inv in H. destruct H as ([r st1] & o1 & E & H). apply bind_inv in H.
    destruct H as ([rs1 st2] & o2 & E2 & H). cbn in *. injection H as <- <- <-.
    destruct (hstep_did _ _ _ _ _ _ _ R E) as (sp1 & R1). eapply IH; eassumption.
Qed.

(* Whatever was called before (hempty is the state in which no headers exist), a header
   line that HTTPHeaders_GetHeader produces is a legal name, ": ", and a value that does
   not begin with white space.  The name may be empty: see the next theorem. *)
Theorem headers_legal_partial : forall ops o rs st o1 h i o2 t st' o3,
  run hstep hempty ops o = Some ((rs, st), o1) ->
  hstep st (HGet (Some h) i true) o2 = Some ((HRT t, st'), o3) ->
  exists name value, t = name ++ str ": " ++ value /\
    Forall (fun c => 33 <= c <= 126 /\ c <> ch ":") name /\
    cstr_ok value /\
    (forall c rest, value = c :: rest -> ~ In c [32; 9; 13; 10]) /\
    hstep st (HFind (Some h) (Some name)) o2 = Some ((HRS (Some value), st), o2).
Proof.
  intros ops o rs st o1 h i o2 t st' o3 Hr H. destruct (hrun_did _ _ _ _ _ _ _ hempty_rep Hr) as (sp & ms & HR).
  change (hrep_with st sp ms) in HR. cbn [hstep HTTPHeaders_GetHeader negb] in H.
  destruct (hlive sp h) as [l|] eqn:L; [|rewrite (hrep_dead _ _ _ _ HR L) in H; discriminate].
  destruct (hrep_get _ _ _ _ _ HR L) as (m & G & Lm & Fl). rewrite G, bind_lift_some in H.
  unfold bind at 1 in H. rewrite (internals_eval _ _ _ _ _ (proj1 HR) Lm) in H. cbn [fst snd a_pairs] in H.
  destruct (length (map fst l) <=? i)%nat; [discriminate|].
  apply bind_inv in H. destruct H as (ok & o4 & _ & H). destruct ok; cbn [negb] in H; [|discriminate].
  rewrite !nth_error_map in H. destruct (nth_error l i) as [[n v]|] eqn:Ei; [|discriminate].
  cbn [option_map fst snd] in H. rewrite !bind_lift_some in H.
  pose proof (mrep_get _ _ _ _ (proj1 HR) Lm) as (mm & Em & W). pose proof W as (_ & _ & _ & _ & Hd & Wc). cbn in Wc, Hd.
  assert (Hc : cstr_ok n /\ cstr_ok v) by (rewrite Forall_forall in Wc; apply (Wc (n, v)); eapply nth_error_In, Ei).
  rewrite join3_eq in H; [|apply Hc|apply cstr_okb_ok; reflexivity|apply Hc]. rewrite bind_lift_some in H.
  injection H as <- <- <-. exists n, v. split; [reflexivity|].
  assert (Hl : legal_name n = true /\ trim v = v) by (rewrite Forall_forall in Fl; apply (Fl (n, v)); eapply nth_error_In, Ei).
  destruct Hl as [Hn Ht]. split.
  { unfold legal_name in Hn. rewrite forallb_forall in Hn. apply Forall_forall. intros c Hcin. specialize (Hn c Hcin).
    change (ch ":") with 58. lia. }
  split; [apply Hc|]. split.
  { intros c rest -> Hin. cbn in Ht. assert (El : is_lws c = true).
    { unfold is_lws. apply existsb_exists. exists c. split; [exact Hin|apply N.eqb_refl]. }
    rewrite El in Ht. assert (Hlen : forall s, (length (trim s) <= length s)%nat).
    { induction s as [|x s IH]; cbn; [lia|]. destruct (is_lws x); cbn; lia. }
    specialize (Hlen rest). rewrite Ht in Hlen. cbn in Hlen. lia. }
  cbn [hstep HTTPHeaders_FindHeaderValue]. rewrite G, bind_lift_some. unfold bind.
  destruct (getvalue_eval (hmaps st) ms m _ n (proj1 HR) Lm (proj1 Hc)) as [E|E]; rewrite E; cbn [ret fst a_pairs].
  all: enough (El : lookup n l = Some v) by (rewrite El; reflexivity);
    pose proof (lookup_pos n l) as Hp; rewrite (pos_nodup (map fst l) n i Hd) in Hp by (rewrite nth_error_map, Ei; reflexivity);
    destruct (lookup n l); [congruence|contradiction].
Qed.

(* results without an out-of-memory code are the exact results *)
Lemma unmerge : forall ops st o rs st' o', run hstep_merged st ops o = Some ((rs, st'), o') ->
  ~ In (HRC HTTP_HEADERS_ERROR) rs -> run hstep st ops o = Some ((rs, st'), o').
Proof.
  induction ops as [|op t IH]; intros st o rs st' o' H Hn; cbn [run] in *; [exact H|].
  apply bind_inv in H. destruct H as ([r st1] & o1 & E & H). apply bind_inv in H.
  destruct H as ([rs1 st2] & o2 & E2 & H). cbn [fst snd] in *. injection H as <- <- <-.
  unfold hstep_merged in E. apply bind_inv in E. destruct E as ([r0 st0] & o0 & E & Em). cbn in Em. injection Em as <- <- <-.
  unfold bind. rewrite E. cbn [fst snd]. rewrite (IH _ _ _ _ _ E2) by (intros Hi; apply Hn; right; exact Hi).
  cbn. destruct (merge_codes_exact r0) as [->| ->]; [reflexivity|]. exfalso. apply Hn. left. reflexivity.
Qed.

Theorem headers_empty_name_refuted : forall v, cstr_ok v -> trim v = v ->
  exists st o', run hstep hempty [HAlloc; HAdd (Some 0%nat) (Some []) (HStr v); HGet (Some 0%nat) 0 true] [] =
    Some (([HRH (Some 0%nat); HRC HTTP_HEADERS_OK; HRT (str ": " ++ v)], st), o').
Proof.
  intros v Cv Tv. pose proof (proj2 (cstr_okb_ok _) Cv) as Ev.
  destruct (headers_refine_lists_no_failure [HAlloc; HAdd (Some 0%nat) (Some []) (HStr v); HGet (Some 0%nat) 0 true] []
     [HRH (Some 0%nat); HRC HTTP_HEADERS_OK; HRT (str ": " ++ v)] [Some [([], v)]]) as (st & o' & Hr & _).
  - auto.
  - cbn -[trim cstr_okb str]. rewrite Ev. cbn -[trim str]. rewrite Tv. reflexivity.
  - exists st, o'. apply unmerge; [exact Hr|]. cbn. intuition discriminate.
Qed.

(** * C38: values can inject header lines *)

(* For every legal name, every value a and every further line b: the value "a CR LF b" is
   accepted and GetHeader produces both lines.  C38 is false of the code. *)
Theorem headers_injection_refuted : forall n a b, cstr_ok n -> legal_name n = true -> a <> [] -> trim a = a ->
  cstr_ok a -> cstr_ok b ->
  exists st o', run hstep hempty
     [HAlloc; HAdd (Some 0%nat) (Some n) (HStr (a ++ [13; 10] ++ b)); HGet (Some 0%nat) 0 true] [] =
    Some (([HRH (Some 0%nat); HRC HTTP_HEADERS_OK; HRT (n ++ str ": " ++ a ++ [13; 10] ++ b)], st), o').
Proof.
  intros n a b Cn Ln Ha Ta Ca Cb.
  assert (Cv : cstr_ok (a ++ [13; 10] ++ b)).
  { apply Forall_app. split; [exact Ca|]. constructor; [unfold char_ok; lia|]. constructor; [unfold char_ok; lia|exact Cb]. }
  assert (Tv : trim (a ++ [13; 10] ++ b) = a ++ [13; 10] ++ b).
  { destruct a as [|c a]; [congruence|]. cbn in *. destruct (is_lws c) eqn:E; [|reflexivity].
    assert (Hlen : forall s, (length (trim s) <= length s)%nat).
    { induction s as [|x s IH]; cbn; [lia|]. destruct (is_lws x); cbn; lia. }
    specialize (Hlen a). rewrite Ta in Hlen. cbn in Hlen. lia. }
  set (v := a ++ [13; 10] ++ b) in *. clearbody v.
  pose proof (proj2 (cstr_okb_ok _) Cv) as Ev. pose proof (proj2 (cstr_okb_ok _) Cn) as En.
  destruct (headers_refine_lists_no_failure [HAlloc; HAdd (Some 0%nat) (Some n) (HStr v); HGet (Some 0%nat) 0 true] []
     [HRH (Some 0%nat); HRC HTTP_HEADERS_OK; HRT (n ++ str ": " ++ v)] [Some [(n, v)]]) as (st & o' & Hr & _).
  - auto.
  - cbn -[trim cstr_okb str legal_name]. rewrite En, Ln, Ev. cbn -[trim str]. rewrite Tv. reflexivity.
  - exists st, o'. apply unmerge; [exact Hr|]. cbn. intuition discriminate.
Qed.

(** * C70: replacing a header by its own current value *)

(* After any history: a header shown as "name: value" by GetHeader, whose stored value is
   then passed (as the pointer FindHeaderValue returned) to ReplaceHeaderNameValuePair under
   the same name, is read after the reallocation of that very string whenever the
   reallocation succeeds: undefined behaviour, always. *)
Theorem headers_replace_own_value_refuted : forall ops o rs st o1 h i o2 n v st' o3,
  run hstep hempty ops o = Some ((rs, st), o1) ->
  hstep st (HGet (Some h) i true) o2 = Some ((HRT (n ++ str ": " ++ v), st'), o3) ->
  Forall (fun c => c <> ch ":") n ->
  forall o4, ~ In false o4 -> hstep st (HReplace (Some h) (Some n) (HValOf h i)) o4 = None.
Proof.
  intros ops o rs st o1 h i o2 n v st' o3 Hr H Hcol o4 Ho4.
  destruct (hrun_did _ _ _ _ _ _ _ hempty_rep Hr) as (sp & ms & HR).
  change (hrep_with st sp ms) in HR. cbn [hstep HTTPHeaders_GetHeader negb] in H.
  destruct (hlive sp h) as [l|] eqn:L; [|rewrite (hrep_dead _ _ _ _ HR L) in H; discriminate].
  destruct (hrep_get _ _ _ _ _ HR L) as (m & G & Lm & Fl). rewrite G, bind_lift_some in H.
  unfold bind at 1 in H. rewrite (internals_eval _ _ _ _ _ (proj1 HR) Lm) in H. cbn [fst snd a_pairs] in H.
  destruct (length (map fst l) <=? i)%nat; [discriminate|].
  apply bind_inv in H. destruct H as (ok & o5 & _ & H). destruct ok; cbn [negb] in H; [|discriminate].
  rewrite !nth_error_map in H. destruct (nth_error l i) as [[n0 v0]|] eqn:Ei; [|discriminate].
  cbn [option_map fst snd] in H. rewrite !bind_lift_some in H.
  pose proof (mrep_get _ _ _ _ (proj1 HR) Lm) as (mm & Em & W). pose proof W as (Hmc & Hmf & _ & Hmv & Hd & Wc). cbn in Wc, Hd, Hmf, Hmc.
  assert (Hc : cstr_ok n0 /\ cstr_ok v0) by (rewrite Forall_forall in Wc; apply (Wc (n0, v0)); eapply nth_error_In, Ei).
  rewrite join3_eq in H; [|apply Hc|apply cstr_okb_ok; reflexivity|apply Hc]. rewrite bind_lift_some in H.
  assert (Hl : legal_name n0 = true /\ trim v0 = v0) by (rewrite Forall_forall in Fl; apply (Fl (n0, v0)); eapply nth_error_In, Ei).
  injection H as Ht _ _. destruct Hl as [Ln Tv].
  assert (E : n0 = n).
  { assert (Hcol0 : Forall (fun c => c <> ch ":") n0).
    { unfold legal_name in Ln. rewrite forallb_forall in Ln. apply Forall_forall. intros c Hcin. specialize (Ln c Hcin).
      change (ch ":") with 58. lia. }
    clear - Ht Hcol Hcol0. revert n Ht Hcol. induction Hcol0 as [|c n0 Hc0 Hn0 IH]; intros n Ht Hcol.
    - destruct Hcol as [|c n Hc Hn]; [reflexivity|]. cbn in Ht. injection Ht as Ht _. change (ch ":") with 58 in Hc.
      exfalso. apply Hc. symmetry. exact Ht.
    - destruct Hcol as [|c' n Hc Hn].
      + cbn in Ht. injection Ht as Ht _. exfalso. apply Hc0. exact Ht.
      + cbn in Ht. injection Ht as -> Ht. f_equal. apply IH; assumption. }
  subst n0. pose proof (proj2 (cstr_okb_ok _) (proj1 Hc)) as En.
  unfold hstep, HTTPHeaders_ReplaceHeaderNameValuePair, headers_ReplaceHeaderNameValuePair.
  rewrite En. cbn [negb]. rewrite name_char_legal, Ln. cbn [negb]. rewrite G, bind_lift_some.
  unfold bind at 1. destruct (getvalue_eval (hmaps st) ms m _ n (proj1 HR) Lm (proj1 Hc)) as [E|E]; rewrite E; cbn [ret]; clear E.
  all: cbn [read_harg fst]; rewrite G;
    assert (Dm : mdenote ms (MValOf m i) = Some (Some v0)) by (cbn; rewrite Lm; cbn; rewrite Ei; reflexivity);
    rewrite (mrep_read _ _ _ (proj1 HR)), Dm, bind_lift_some; cbn [skipped]; rewrite skip_trim, Tv, Nat.eqb_refl, bind_lift_some;
    assert (Eu : Map_AddOrUpdate (hmaps st) (Some m) (MStr n) (MValOf m i) o4 = None);
    [|unfold bind; destruct (lookup n (a_pairs {| a_pairs := l; a_filter := None |})); rewrite Eu; reflexivity
     || (cbn [Map_AddOrUpdate mnull orb]; rewrite Em, bind_lift_some;
        rewrite (mrep_read _ _ _ (proj1 HR)), bind_lift_some)].
  all: cbn [Map_AddOrUpdate mnull orb]; rewrite Em, bind_lift_some;
    replace (read_marg (hmaps st) (MStr n)) with (Some (Some n)) by (cbn [read_marg]; rewrite En; reflexivity);
    rewrite bind_lift_some, (mrep_read _ _ _ (proj1 HR)), Dm, bind_lift_some;
    unfold rejects; rewrite Hmf, (mwf_findKey _ _ _ W), bind_lift_some; cbn [a_pairs];
    rewrite (pos_nodup (map fst l) n i Hd) by (rewrite nth_error_map, Ei; reflexivity);
    destruct (mwf_strs _ _ W) as [_ Hvs]; specialize (Hvs i v0); cbn [Nat.add a_pairs] in Hvs;
    rewrite Hvs by (rewrite nth_error_map, Ei; reflexivity); rewrite bind_lift_some;
    unfold bind, alloc; destruct o4 as [|[|] o4]; [| |exfalso; apply Ho4; left; reflexivity];
    cbn [is_value_at]; rewrite !Nat.eqb_refl; reflexivity.
Qed.

(* Histories that meet the hypotheses. *)
Example headers_history :
  srun hsp_step []
    [HAlloc; HAdd (Some 0%nat) (Some (str "Accept")) (HStr (str "  text")); HAdd (Some 0%nat) (Some (str "Host")) (HStr (str "h"));
     HAdd (Some 0%nat) (Some (str "Accept")) (HStr (str "html")); HClone (Some 0%nat);
     HReplace (Some 0%nat) (Some (str "Host")) (HValOf 0 0); HAdd (Some 0%nat) (Some (str "a b")) (HStr (str "x"));
     HGet (Some 0%nat) 0 true; HGet (Some 0%nat) 1 true; HCount (Some 0%nat) true; HGet (Some 1%nat) 1 true; HFree (Some 0%nat)]
    (repeat true 12)
  = Some ([HRH (Some 0%nat); HRC HTTP_HEADERS_OK; HRC HTTP_HEADERS_OK; HRC HTTP_HEADERS_OK; HRH (Some 1%nat);
           HRC HTTP_HEADERS_OK; HRC HTTP_HEADERS_INVALID_ARG; HRT (str "Accept: text, html");
           HRT (str "Host: text, html"); HRN 2; HRT (str "Host: h"); HRU],
          [None; Some [(str "Accept", str "text, html"); (str "Host", str "h")]]).
Proof. reflexivity. Qed.

(* C184: the names and values stored. *)
Theorem headers_stored_legal : forall ops o rs st o1 h i o2 t st' o3,
  run hstep hempty ops o = Some ((rs, st), o1) ->
  hstep st (HGet (Some h) i true) o2 = Some ((HRT t, st'), o3) ->
  exists name value, t = name ++ str ": " ++ value /\
    Forall (fun c => 33 <= c <= 126 /\ c <> ch ":") name /\
    cstr_ok value /\
    (forall c rest, value = c :: rest -> ~ In c [32; 9; 13; 10]) /\
    hstep st (HFind (Some h) (Some name)) o2 = Some ((HRS (Some value), st), o2).
Proof. exact headers_legal_partial. Qed.
