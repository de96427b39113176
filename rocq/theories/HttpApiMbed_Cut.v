(* C108: a chunked response of which the end is missing is never reported as success. *)
From Verif Require Import Base Map_Model HttpHeaders_Spec HttpApiMbed_Model HttpApiMbed_Spec HttpApiMbed_Read HttpApiMbed_Scan HttpApiMbed_Reply HttpApiMbed_Props HttpApiMbed_Any HttpApiMbed_Sound HttpApiMbed_Body HttpApiMbed_Safety.
Local Open Scope Z_scope.

(** * Lines are where they are *)

Lemma one_split (x y a b : list N) : ~ In 13%N x -> ~ In 13%N y -> x ++ CRLF ++ a = y ++ CRLF ++ b -> x = y /\ a = b.
Proof.
  revert y. induction x as [|c x IH]; intros [|d y] NX NY E; cbn in E.
  - injection E as ->. auto.
  - injection E as <- _. exfalso. apply NY. now left.
  - injection E as -> _. exfalso. apply NX. now left.
  - injection E as <- E. destruct (IH y) as (-> & ->); auto; intros X; [apply NX|apply NY]; now right.
Qed.

Lemma same_lines : forall fs lines last p payload,
  Forall (fun f => ~ In 58%N (fst f) /\ line_ok (field_line f)) fs -> good_lines lines -> raw_line last -> c_text last = [] ->
  lines_of lines ++ last ++ CRLF ++ p = lines_bytes fs ++ CRLF ++ payload ->
  lines = map field_line fs /\ p = payload.
Proof.
  unfold lines_of, lines_bytes.
  induction fs as [|f fs IH]; intros lines last p payload FO GL RL CL E.
  - destruct lines as [|l lines].
    + cbn [map concat app] in E. apply (one_split last []) in E; [|apply RL|intros []]. destruct E as (-> & ->). auto.
    + exfalso. inversion GL as [|? ? (RX & CX) _]; subst. cbn [map concat] in E. rewrite <- !app_assoc in E.
      apply (one_split l []) in E; [|apply RX|intros []]. destruct E as (-> & _). now apply CX.
  - inversion FO as [|? ? (_ & LK & L0 & _) FO']; subst. cbn [map concat] in E. rewrite <- !app_assoc in E.
    destruct lines as [|l lines].
    + exfalso. cbn [map concat app] in E. apply one_split in E; [|apply RL|exact LK]. destruct E as (-> & _).
      rewrite c_text_plain in CL by exact L0. destruct (field_line_nonempty f) as (c & t & X). congruence.
    + inversion GL as [|? ? (RX & CX) GL']; subst. cbn [map concat] in E. rewrite <- !app_assoc in E.
      apply one_split in E; [|apply RX|exact LK]. destruct E as (-> & E).
      destruct (IH lines last p payload FO' GL' RL CL E) as (-> & ->). auto.
Qed.

(** * A field that says chunked is understood *)

Lemma line_chunked f len ch len' ch' : ~ In 58%N (fst f) -> says_chunked f -> line_says (field_line f) len ch len' ch' -> ch' = true.
Proof.
  intros NC (SC & sp & v & Ev & Sp & Cv) L. destruct f as (n, x). cbn [fst snd] in *.
  apply (proj1 (ci_encoding _)) in SC.
  assert (length n = 17%nat) as L17. { rewrite <- (map_length lower), SC. reflexivity. }
  assert (firstn 18 (field_line (n, x)) = n ++ str ":") as F18.
  { unfold field_line. cbn [fst snd]. rewrite firstn_app, L17. rewrite firstn_all2 by lia. reflexivity. }
  assert (skipn 18 (field_line (n, x)) = x) as S18.
  { unfold field_line. cbn [fst snd]. rewrite skipn_app, L17. rewrite skipn_all2 by lia. reflexivity. }
  inversion L as [v' rest X Y|sp' v' X Y Z V|X Y]; subst.
  - exfalso. unfold same_ci in X. apply (f_equal (hd 0%N)) in X.
    destruct n as [|c n]; [cbn in L17; lia|]. cbn in X. cbn in SC. injection SC as SC _. unfold lower in SC. unfold small in X. rewrite SC in X. vm_compute in X. discriminate X.
  - reflexivity.
  - exfalso. apply Y. split.
    + rewrite F18. unfold same_ci. rewrite map_app. change (map small n) with (map lower n). rewrite SC. reflexivity.
    + rewrite S18. exists sp, v. auto.
Qed.
Lemma line_stays l len len' ch' : line_says l len true len' ch' -> ch' = true.
Proof. intros L. inversion L; reflexivity. Qed.
Lemma lines_stay ls : forall len len' ch', lines_say ls len true len' ch' -> ch' = true.
Proof.
  induction ls as [|l ls IH]; intros len len' ch' L; inversion L as [|? ? ? ? ? ? ? ? L1 L2]; subst; [reflexivity|].
  apply line_stays in L1. subst. eauto.
Qed.
Lemma lines_chunked fs : Forall (fun f => ~ In 58%N (fst f) /\ line_ok (field_line f)) fs -> (exists f, In f fs /\ says_chunked f) ->
  forall len ch len' ch', lines_say (map field_line fs) len ch len' ch' -> ch' = true.
Proof.
  induction 1 as [|f fs (NC & LK & L0 & _) FO IH]; intros (g & IN & SC) len ch len' ch' L; [destruct IN|].
  cbn [map] in L. inversion L as [|? ? ? ? ? ? ? ? L1 L2]; subst. rewrite c_text_plain in L1 by exact L0.
  destruct IN as [<-|IN].
  - apply line_chunked in L1; auto. subst. eapply lines_stay. exact L2.
  - eapply IH; eauto.
Qed.

(** * The chunks *)

Definition unsuccessful {A} (o : outcome A) : Prop := match o with Ret _ _ => False | Undef _ => False | _ => True end.

Lemma split_data (d d' a b : list N) : length d = length d' -> d ++ a = d' ++ b -> d = d' /\ a = b.
Proof.
  revert d'. induction d as [|c d IH]; intros [|c' d'] L E; cbn in L; try lia; [auto|].
  cbn in E. injection E as -> E. destruct (IH d') as (-> & ->); auto.
Qed.

Lemma cut_chunks : forall cs fuel r before last w q,
  Forall good_chunk cs -> size_line_ok (fst last) (snd last) -> numeral 16 (fst last) = 0 ->
  w_in w ++ q = payload_bytes (Chunked cs last) -> q <> [] ->
  no_errors w -> memory w -> Z.of_nat (length (before ++ concat (map snd cs))) < 2147483648 ->
  (r_body r = true -> holds before (w_body w)) ->
  unsuccessful (chunks_loop fuel r (Z.of_nat (length before)) HTTPAPI_OK w).
Proof.
  induction cs as [|((s, e), d) cs IH]; intros fuel r before (ls, le) w q GC SL SZ I Q NE M B P; (destruct fuel as [|fuel]; [exact Logic.I|]); cbn [chunks_loop fst snd] in *.
  - destruct (a_line_any w) as [(w1 & E)|(l & rest & I1 & RL & E)]; [erewrite bind_fail by exact E; exact Logic.I|].
    erewrite bind_ret by exact E. erewrite bind_ret by (eapply buf_text_any; reflexivity).
    cbn [payload_bytes map concat app] in I. rewrite I1, <- !app_assoc in I. rewrite (app_assoc ls le) in I.
    assert (line_ok (ls ++ le)) as LL by apply SL.
    apply one_split in I; [|apply RL|apply LL]. destruct I as (-> & IR).
    rewrite c_text_plain by apply LL. rewrite scan_x_ok by exact SL. rewrite SZ. change (Z.min 0 4294967295) with 0. cbn zeta.
    erewrite bind_ret by reflexivity. change (0 =? 0) with true. cbn iota.
    set (w1 := set_lens _ _).
    assert (exists a b t, w_buf w1 = a :: b :: t /\ a <> 13%N /\ b <> 10%N) as (a & b & t & BU & A13 & B10).
    { subst w1. cbn [w_buf rd set_in set_sched set_buf set_lens]. destruct SL as (N0 & HX & (NC & _) & _ & NL).
      destruct ls as [|a ls]; [congruence|]. cbn [app].
      assert (a <> 13%N) as A13 by (intros ->; apply NC; now left).
      destruct (ls ++ le) as [|b t] eqn:X; cbn [app]; do 3 eexists; (split; [reflexivity|]); (split; [exact A13|]).
      - discriminate.
      - intros ->. destruct ls as [|b' ls]; cbn [app] in X.
        + subst le. apply NL. now left.
        + injection X as -> _. inversion HX as [|? ? _ HX']; subst. inversion HX' as [|? ? Hb _]; subst. unfold is_hex in Hb. lia. }
    assert (no_errors w1) as NE1 by (apply forall_skipn; exact NE).
    destruct (crlf_any w1 a b t NE1 BU) as (e & data & rest' & s & buf & I2 & FS & E2 & C).
    erewrite bind_ret by exact E2. destruct e; [destruct (r_body r); exact Logic.I|]. exfalso.
    destruct (C eq_refl) as [->|(_ & _ & X)]; [|congruence]. cbn [w_in w1 rd set_in set_sched set_buf set_lens] in I2. rewrite I2 in IR.
    rewrite <- app_assoc in IR. change CRLF with (CRLF ++ []) in IR at 2. apply app_inv_head in IR. apply app_eq_nil in IR. tauto.
  - inversion GC as [|? ? GCH GC']; subst. unfold good_chunk in GCH. destruct GCH as (SO & ND & NS & BD).
    destruct (a_line_any w) as [(w1 & E)|(l & rest & I1 & RL & E)]; [erewrite bind_fail by exact E; exact Logic.I|].
    erewrite bind_ret by exact E. erewrite bind_ret by (eapply buf_text_any; reflexivity).
    assert (rest ++ q = d ++ CRLF ++ payload_bytes (Chunked cs (ls, le)) /\ l = s ++ e) as (IR & ->).
    { assert (l ++ CRLF ++ rest ++ q = (s ++ e) ++ CRLF ++ d ++ CRLF ++ payload_bytes (Chunked cs (ls, le))) as X.
      { rewrite I1 in I. rewrite <- !app_assoc in I. rewrite I. cbn [payload_bytes map concat chunk_bytes]. rewrite <- !app_assoc. reflexivity. }
      apply one_split in X; [tauto|apply RL|apply SO]. }
    assert (line_ok (s ++ e)) as LL by apply SO.
    rewrite c_text_plain by apply LL. rewrite scan_x_ok by exact SO. rewrite NS.
    assert (0 < Z.of_nat (length d)) as LD by (destruct d; [congruence|cbn; lia]).
    replace (Z.min (Z.of_nat (length d)) 4294967295) with (Z.of_nat (length d)) by lia.
    erewrite bind_ret by reflexivity. destruct (Z.eqb_spec (Z.of_nat (length d)) 0); [lia|].
    set (w1 := set_lens _ _).
    assert (no_errors w1) as NE1 by (apply forall_skipn; exact NE).
    assert (2 <= length (w_buf w1))%nat as BL1.
    { subst w1. cbn [w_buf rd set_in set_sched set_buf set_lens]. rewrite !app_length. cbn. destruct SO as (N0 & _). destruct s; [congruence|cbn; lia]. }
    rewrite !app_length in B. cbn [map concat snd] in B. rewrite app_length in B.
    assert (r_body r = true -> holds before (w_body w1) /\ Z.of_nat (length before) + Z.of_nat (length d) < 4294967296) as B1.
    { intros RB. split; [exact (P RB)|lia]. }
    destruct (chunk_data r before (Z.of_nat (length d)) w1 NE1 M ltac:(lia) B1 BL1) as (data & w2 & E2 & I2 & LDA & NE2 & M2 & EOF & K2 & LE2 & BL2 & BO2).
    erewrite bind_ret by exact E2.
    destruct (w_buf w2) as [|a [|b t] ] eqn:BU2; [cbn in BL2; lia|cbn in BL2; lia|].
    destruct (crlf_any w2 a b t NE2 BU2) as (ee & de & rest' & sc & buf & I3 & FS & E3 & C).
    erewrite bind_ret by exact E3. destruct ee; [exact Logic.I|]. specialize (C eq_refl).
    assert (forall size, w_sched w2 = [] \/ sc = [] -> unsuccessful (chunks_loop fuel r size HTTPAPI_OK (rd rest' sc buf w2))) as OVER.
    { intros size CL. assert (w_sched (rd rest' sc buf w2) = []) as CL'.
      { destruct CL as [CL|CL]; [eapply closed_crlf; [exact CL|exact E3]|exact CL]. }
      destruct (closed_chunks fuel r size HTTPAPI_OK _ CL') as [(c & w4 & ->)| ->]; exact Logic.I. }
    destruct EOF as [EOF|EOF]; [|now apply OVER; left]. destruct C as [->|(-> & _)]; [|now apply OVER; right]. clear OVER.
    cbn [w_in w1 rd set_in set_sched set_buf set_lens] in I2. rewrite I2, I3, <- !app_assoc in IR.
    apply split_data in IR; [|lia]. destruct IR as (-> & IR). apply app_inv_head in IR.
    rewrite size32_small by lia. rewrite <- Nat2Z.inj_add, <- app_length.
    eapply IH; eauto; try assumption.
    + rewrite !app_length. lia.
    + intros RB. rewrite RB in BO2. cbn [w_body rd set_in set_sched set_buf]. rewrite BO2.
      replace (Z.to_nat (Z.of_nat (length d)) - length d)%nat with 0%nat by lia. cbn [repeat]. rewrite app_nil_r.
      unfold holds. destruct (before ++ d) eqn:X; [|reflexivity]. apply app_eq_nil in X. destruct X; congruence.
Qed.

(** * The whole response *)

Lemma cut_response rp cs last r w q : well_formed rp -> rp_payload rp = Chunked cs last ->
  w_in w ++ q = reply_bytes rp -> q <> [] ->
  no_errors w -> memory w -> w_lens w = [] -> (r_body r = true -> w_body w = None) ->
  unsuccessful (read_response r w).
Proof.
  intros WF PL I Q NE M LE B. unfold read_response, read_status.
  destruct (a_line_any w) as [(w1 & E)|(first & rest & I1 & RF & E)].
  { erewrite bind_fail by (erewrite bind_fail by exact E; reflexivity). exact Logic.I. }
  destruct (scan_status (c_text first)) as [v|] eqn:SS.
  2:{ erewrite bind_fail. 2:{ erewrite bind_ret by exact E. erewrite bind_ret by (eapply buf_text_any; reflexivity). rewrite SS. reflexivity. }
      exact Logic.I. }
  set (w1 := rd _ _ _ w) in E.
  set (w2 := if r_status r then set_status (Some (size32 v)) w1 else w1).
  erewrite bind_ret.
  2:{ erewrite bind_ret by exact E. erewrite bind_ret by (eapply buf_text_any; reflexivity). rewrite SS.
      instantiate (1 := w2). instantiate (1 := tt). subst w2. destruct (r_status r); reflexivity. }
  assert (w_in w2 = rest /\ no_errors w2 /\ memory w2 /\ w_lens w2 = [] /\ w_body w2 = w_body w) as (I2 & NE2 & M2 & LE2 & BO2).
  { subst w2 w1. split; [destruct (r_status r); reflexivity|]. split; [unfold no_errors; destruct (r_status r); apply forall_skipn; exact NE|].
    split; [unfold memory; destruct (r_status r); exact M|]. destruct (r_status r); auto. }
  clearbody w2. clear E w1 SS.
  unfold read_headers at 1.
  destruct (a_line_any w2) as [(w3 & E)|(x & rest' & I3 & RX & E)].
  { erewrite bind_fail by (erewrite bind_fail by exact E; reflexivity). exact Logic.I. }
  set (w3 := rd _ _ _ w2) in E.
  destruct (headers_loop_any (S (length (w_in w3))) r 0 false w3 x (skipn (S (length x)) (w_buf w2)))
    as [(c & w4 & E4)|(lines & last' & len & ch & fs & w4 & E4 & X & GL & RL & CL & LS & FO & NE4 & M4 & NL4 & L0 & IL & C4 & R4)].
  - reflexivity.
  - exact RX.
  - apply forall_skipn. exact NE2.
  - exact M2.
  - cbn. rewrite LE2. constructor.
  - lia.
  - now left.
  - lia.
  - erewrite bind_fail.
    2:{ erewrite bind_ret by exact E. erewrite bind_ret by reflexivity. exact E4. }
    exact Logic.I.
  - erewrite bind_ret.
    2:{ erewrite bind_ret by exact E. erewrite bind_ret by reflexivity. exact E4. }
    cbn [fst snd]. destruct C4 as (BO4 & _).
    cbn [w_in rd set_in w3] in X. cbn [w_body w3 rd set_in set_sched set_buf] in BO4.
    assert (lines_of lines ++ last' ++ CRLF ++ w_in w4 ++ q = lines_bytes (rp_fields rp) ++ CRLF ++ payload_bytes (Chunked cs last)) as XX.
    { unfold reply_bytes in I. rewrite PL in I. rewrite I1 in I. rewrite <- !app_assoc in I.
      apply one_split in I; [|apply RF|apply (wf_status _ WF)]. destruct I as (_ & I). fold (lines_bytes (rp_fields rp)) in I.
      rewrite <- I, <- I2, I3. rewrite <- !app_assoc. rewrite (app_assoc x), (app_assoc (x ++ CRLF)).
      rewrite <- (app_assoc x), X, <- !app_assoc. reflexivity. }
    apply same_lines in XX; [|apply (wf_fields _ WF)|exact GL|exact RL|exact CL]. destruct XX as (-> & IP).
    pose proof (wf_payload _ WF) as WP. rewrite PL in WP. destruct last as (ls, le). destruct WP as (HC & GC & SL & SZ).
    assert (ch = true) as -> by (eapply lines_chunked; [apply (wf_fields _ WF)|exact HC|exact LS]).
    unfold read_chunked_body. erewrite bind_ret by reflexivity.
    apply (cut_chunks cs (S (length (w_in w4))) r [] (ls, le) w4 q); auto.
    + pose proof (wf_total _ WF) as T. unfold reply_data in T. rewrite PL in T. exact T.
    + intros RB. cbn. rewrite BO4, BO2. now apply B.
Qed.

(* However the bytes before the cut arrive. *)
Theorem truncated_chunked_partial : forall h r w rp cs last q,
  well_formed rp -> rp_payload rp = Chunked cs last ->
  w_in w ++ q = reply_bytes rp -> q <> [] ->
  no_errors w -> memory w -> (r_body r = true -> w_body w = None) ->
  exists res w', HTTPAPI_ExecuteRequest h r w = Returns res w' /\ res <> HTTPAPI_OK.
Proof.
  intros h r w rp cs last q WF PL I Q NE M B. unfold HTTPAPI_ExecuteRequest.
  pose proof (request_ends h r w) as EN. unfold HTTPAPI_ExecuteRequest in EN.
  destruct (call_splits h r w) as [(c & w1 & X)|(w1 & X & (I1 & SC & R & BO & ST & LE & M1))].
  - rewrite X. exists c, w1. split; [reflexivity|]. intros ->. now apply fail_code in X.
  - pose proof (cut_response rp cs last r w1 q WF PL) as G. unfold no_errors in *. rewrite I1, SC, LE, BO in G.
    specialize (G I Q NE (M1 M) eq_refl B). rewrite <- X in G.
    destruct (execute h r w) as [res w'|c w'|w'|] eqn:EX; cbn in G; try contradiction.
    + exists c, w'. split; [reflexivity|]. intros ->. now apply fail_code in EX.
Qed.
