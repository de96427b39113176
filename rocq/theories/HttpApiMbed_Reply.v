(* A well-formed reply is read as what it says, however it is cut in pieces. *)
From Verif Require Import Base Map_Model HttpHeaders_Spec HttpApiMbed_Model HttpApiMbed_Spec HttpApiMbed_Read HttpApiMbed_Scan.
Local Open Scope Z_scope.

(** * What reading does not touch *)

Definition steady (w w' : world) : Prop :=
  w_out w' = w_out w /\ w_sends w' = w_sends w /\ w_lib w' = w_lib w /\ w_c0 w' = w_c0 w /\ w_con w' = w_con w.
Lemma steady_refl w : steady w w.
Proof. repeat split. Qed.
Lemma steady_trans a b c : steady a b -> steady b c -> steady a c.
Proof. unfold steady. intros (?&?&?&?&?) (?&?&?&?&?). repeat split; congruence. Qed.

Definition took (n : nat) (w w' : world) : Prop :=
  exists m, (m <= n)%nat /\ w_sched w' = skipn m (w_sched w).
Lemma took_trans n m a b c : took n a b -> took m b c -> took (n + m) a c.
Proof.
  intros (i & Hi & E) (j & Hj & F). exists (j + i)%nat. split; [lia|]. now rewrite F, E, skipn_more.
Qed.
Lemma took_more n m a b : took n a b -> (n <= m)%nat -> took m a b.
Proof. intros (i & Hi & E) L. exists i. split; [lia|exact E]. Qed.
Lemma arrives_took bs bs' n w w' : arrives bs w -> took n w w' -> (length bs' + n <= length bs)%nat -> arrives bs' w'.
Proof.
  intros (F & L) (i & Hi & E) B. unfold arrives. rewrite E, skipn_length. split; [now apply forall_skipn|lia].
Qed.
Lemma arrives_less bs bs' w : arrives bs w -> (length bs' <= length bs)%nat -> arrives bs' w.
Proof. intros (F & L) B. split; [exact F|lia]. Qed.

(** * The status line *)

Lemma read_status_ok r rp w rest : well_formed rp ->
  w_in w = status_line rp ++ CRLF ++ rest -> arrives (status_line rp ++ CRLF) w ->
  exists w', read_status r w = Ret tt w' /\ w_in w' = rest /\ took (length (status_line rp ++ CRLF)) w w' /\
    steady w w' /\ w_alloc w' = w_alloc w /\ w_resp w' = w_resp w /\ w_body w' = w_body w /\ w_ptr w' = w_ptr w /\
    w_status w' = (if r_status r then Some (numeral 10 (rp_code rp)) else w_status w).
Proof.
  intros WF I A. unfold read_status.
  erewrite bind_ret by (apply a_line_ok; [exact I|apply (wf_status _ WF)|exact A]).
  erewrite bind_ret by (eapply buf_text_ok; [reflexivity|apply (wf_status _ WF)]).
  rewrite (scan_status_ok rp (wf_major _ WF) (wf_minor _ WF) (wf_code _ WF)).
  pose proof (wf_code_small _ WF) as B.
  assert (0 <= numeral 10 (rp_code rp)) as NN.
  { apply numeral_nonneg; [lia|]. eapply Forall_impl; [|apply (wf_code _ WF)]. intros; now apply dec_nonneg. }
  replace (Z.min 2147483647 (numeral 10 (rp_code rp))) with (numeral 10 (rp_code rp)) by lia.
  rewrite size32_small by lia.
  destruct (r_status r); eexists; (split; [reflexivity|]).
  all: split; [reflexivity|]; split; [eexists; split; [|reflexivity]; rewrite app_length; cbn; lia|].
  all: repeat split; reflexivity.
Qed.

(** * Header fields *)

Lemma framing_ok f len ch w :
  ~ In 58%N (fst f) ->
  (same_ci (fst f) (str "Content-Length") -> exists n, says_length f n /\ n < 2147483648) ->
  exists len' ch' lens, framing (field_line f) len ch w = Ret (len', ch') (set_lens lens w) /\
    (says_length f len' \/ (~ same_ci (fst f) (str "Content-Length") /\ len' = len)) /\
    (ch' = true <-> ch = true \/ says_chunked f).
Proof.
  destruct f as (fn, fv). unfold says_chunked, says_length. cbn [fst snd].
  intros NC CL. unfold framing, field_line. cbn [fst snd].
  change (str "content-length:") with (str "content-length" ++ [58%N]).
  change (str "transfer-encoding:") with (str "transfer-encoding" ++ [58%N]).
  assert (~ In 58%N (str "content-length")) as NC1 by (intros X; vm_compute in X; intuition discriminate).
  assert (~ In 58%N (str "transfer-encoding")) as NC2 by (intros X; vm_compute in X; intuition discriminate).
  rewrite !prefix_ci_field by assumption.
  destruct (text_eqb (map lower fn) (str "content-length")) eqn:E.
  - apply text_eqb_iff in E.
    assert (same_ci fn (str "Content-Length")) as SC by (apply (proj2 (ci_length _)); assumption).
    destruct (CL SC) as (n & (SN & sp & v & Ev & Sp & Dv & Nv) & B).
    assert (length fn = 14%nat) as L14. { rewrite <- (map_length lower), E. reflexivity. }
    assert (skipn 15 (fn ++ str ":" ++ fv) = fv) as SK.
    { rewrite skipn_app, L14. rewrite skipn_all2 by lia. reflexivity. }
    rewrite SK, scan_d_skip, Ev. rewrite <- (app_nil_r (sp ++ v)), <- app_assoc.
    rewrite (scan_d_ok sp v []) by auto.
    assert (0 <= numeral 10 v).
    { apply numeral_nonneg; [lia|]. eapply Forall_impl; [|apply Dv]. intros; now apply dec_nonneg. }
    replace (Z.min 2147483647 (numeral 10 v)) with n by lia. rewrite size32_small by lia.
    exists n, ch, (n :: w_lens w). split; [reflexivity|]. split.
    + left. split; [exact SN|]. exists sp, v. rewrite ?app_nil_r; auto.
    + split; [now left|]. intros [?|(X & _)]; [assumption|].
      exfalso. apply (proj1 (ci_encoding _)) in X. rewrite E in X. discriminate X.
  - assert (~ same_ci fn (str "Content-Length")) as NS.
    { intros X. apply (proj1 (ci_length _)) in X. rewrite X in E. discriminate E. }
    assert (w = set_lens (w_lens w) w) as W by (destruct w; reflexivity).
    destruct (text_eqb (map lower fn) (str "transfer-encoding")) eqn:T.
    + apply text_eqb_iff in T.
      assert (length fn = 17%nat) as L17. { rewrite <- (map_length lower), T. reflexivity. }
      assert (skipn 18 (fn ++ str ":" ++ fv) = fv) as SK.
      { rewrite skipn_app, L17. rewrite skipn_all2 by lia. reflexivity. }
      rewrite SK.
      assert (text_eqb (map lower (skip_spaces fv)) (str "chunked") = true <-> (same_ci fn (str "Transfer-Encoding") /\ exists sp v, fv = sp ++ v /\ Forall is_space sp /\ same_ci v (str "chunked"))) as G.
      { rewrite text_eqb_iff. split.
        - intros X. split; [apply (proj2 (ci_encoding _)); assumption|].
          destruct (skip_spaces_spec fv) as (sp & Es & Fs & _).
          exists sp, (skip_spaces fv). split; [exact Es|]. split; [exact Fs|].
          apply (proj2 (ci_chunked _)); assumption.
        - intros (_ & sp & v & Ev & Sp & Cv). rewrite Ev, skip_spaces_app by exact Sp.
          apply (proj1 (ci_chunked _)) in Cv.
          destruct v as [|c v]; [discriminate Cv|]. rewrite skip_spaces_none; [exact Cv|].
          cbn [map str] in Cv. injection Cv as Cc _. intros Sc. unfold is_space in Sc.
          assert (lower c = c) as LC. { unfold lower. replace ((65 <=? c) && (c <=? 90))%N with false by (symmetry; lia). reflexivity. }
          rewrite LC in Cc. rewrite Cc in Sc. change (Base.ch "c"%char) with 99%N in Sc. lia. }
      destruct (text_eqb (map lower (skip_spaces fv)) (str "chunked")) eqn:K.
      * exists len, true, (w_lens w). rewrite <- W. split; [reflexivity|]. split; [auto|]. split; [|reflexivity]. intros _. right. now apply G.
      * exists len, ch, (w_lens w). rewrite <- W. split; [reflexivity|]. split; [auto|].
        split; [auto|]. intros [?|X]; [assumption|]. apply G in X. congruence.
    + exists len, ch, (w_lens w). rewrite <- W. split; [reflexivity|]. split; [auto|].
      split; [auto|]. intros [?|(X & _)]; [assumption|].
      exfalso. apply (proj1 (ci_encoding _)) in X. rewrite X in T. discriminate T.
Qed.

Definition lines_bytes (fs : list (text * text)) : list N := concat (map (fun f => field_line f ++ CRLF) fs).
(* what is still to be read when the line of the first field is in buf *)
Definition tail_bytes (fs : list (text * text)) : list N :=
  match fs with [] => [] | _ :: fs => lines_bytes fs ++ CRLF end.
Definition head_line (fs : list (text * text)) : text := match fs with [] => [] | f :: _ => field_line f end.

Lemma field_line_nonempty f : exists c t, field_line f = c :: t.
Proof. unfold field_line. destruct (fst f) as [|c n]; cbn; eauto. Qed.

Definition fields_ok (fs : list (text * text)) : Prop :=
  Forall (fun f => ~ In 58%N (fst f) /\ line_ok (field_line f)) fs /\
  (forall f, In f fs -> same_ci (fst f) (str "Content-Length") -> exists n, says_length f n /\ n < 2147483648).

Lemma headers_loop_ok : forall fs fuel r len ch w rest junk,
  fields_ok fs -> w_buf w = head_line fs ++ 0%N :: junk -> w_in w = tail_bytes fs ++ rest ->
  arrives (tail_bytes fs) w -> memory w -> (length fs < fuel)%nat ->
  exists len' ch' w', headers_loop fuel r len ch w = Ret (len', ch') w' /\
    w_in w' = rest /\ took (length (tail_bytes fs)) w w' /\ steady w w' /\ memory w' /\
    w_resp w' = (if r_response r then headers_after fs (w_resp w) else w_resp w) /\
    w_body w' = w_body w /\ w_ptr w' = w_ptr w /\ w_status w' = w_status w /\
    (ch' = true <-> ch = true \/ exists f, In f fs /\ says_chunked f) /\
    ((exists f, In f fs /\ says_length f len') \/
     (len' = len /\ forall f, In f fs -> ~ same_ci (fst f) (str "Content-Length"))).
Proof.
  induction fs as [|f fs IH]; intros fuel r len ch w rest junk (FO & FL) B I A M FU.
  - destruct fuel as [|fuel]; [cbn in FU; lia|]. cbn [headers_loop].
    erewrite bind_ret by (eapply buf_text_ok; [exact B|intros []]).
    exists len, ch, w. split; [reflexivity|]. split; [exact I|]. split; [exists 0%nat; split; [lia|reflexivity]|].
    split; [apply steady_refl|]. split; [exact M|]. split; [cbn; now destruct (r_response r)|].
    repeat (split; [reflexivity|]). split.
    + split; [auto|]. intros [?|(? & [] & _)]. assumption.
    + right. split; [reflexivity|]. intros ? [].
  - destruct fuel as [|fuel]; [cbn in FU; lia|]. cbn [headers_loop].
    inversion FO as [|? ? (NC & LO) FO']; subst.
    erewrite bind_ret by (eapply buf_text_ok; [exact B|apply LO]).
    destruct (field_line_nonempty f) as (c0 & t0 & E0). cbn [head_line]. rewrite E0, <- E0.
    destruct (framing_ok f len ch w NC (FL f (or_introl eq_refl))) as (l1 & h1 & lens & Efr & G1 & G2).
    erewrite bind_ret by exact Efr. cbn [fst snd].
    (* add_header *)
    assert (exists w1, add_header r (field_line f) (set_lens lens w) = Ret tt w1 /\
              w_in w1 = w_in w /\ w_sched w1 = w_sched w /\ steady w w1 /\ memory w1 /\
              w_resp w1 = (if r_response r then put (w_resp w) (fst f) (snd f) true else w_resp w) /\
              w_body w1 = w_body w /\ w_ptr w1 = w_ptr w /\ w_status w1 = w_status w) as (w1 & E1 & I1 & S1 & ST1 & M1 & R1 & B1 & P1 & C1).
    { unfold add_header, field_line. rewrite colon_app by exact NC. destruct (r_response r).
      - unfold memory in M. unfold allocates. destruct (w_alloc w) as [|b bs] eqn:EA.
        + eexists. split; [unfold bind; cbn [w_alloc set_lens]; rewrite EA; reflexivity|].
          repeat split; try reflexivity. unfold memory. cbn. rewrite EA. constructor.
        + inversion M as [|? ? Hb Hbs]; subst. eexists. split; [unfold bind; cbn [w_alloc set_lens]; rewrite EA; reflexivity|].
          repeat split; try reflexivity. exact Hbs.
      - eexists. split; [reflexivity|]. repeat split; try reflexivity. exact M. }
    erewrite bind_ret by exact E1.
    (* the next line *)
    assert (w_in w1 = head_line fs ++ CRLF ++ tail_bytes fs ++ rest) as I2.
    { rewrite I1, I. destruct fs as [|g fs]; [reflexivity|]. cbn [tail_bytes head_line]. unfold lines_bytes. cbn [map concat].
      rewrite <- !app_assoc. reflexivity. }
    assert (length (tail_bytes (f :: fs)) = (length (head_line fs ++ CRLF) + length (tail_bytes fs)))%nat as LT.
    { destruct fs as [|g fs]; [reflexivity|]. cbn [tail_bytes head_line]. unfold lines_bytes. cbn [map concat].
      rewrite !app_length. lia. }
    assert (arrives (tail_bytes (f :: fs)) w1) as A1. { unfold arrives. rewrite S1. exact A. }
    erewrite bind_ret.
    2:{ apply a_line_ok; [exact I2| |].
        - destruct fs as [|g fs]; [repeat split; [intros []|intros []]|]. inversion FO' as [|? ? (_ & X) _]; subst. exact X.
        - eapply arrives_less; [exact A1|]. rewrite LT. lia. }
    set (w2 := rd _ _ _ w1).
    assert (took (length (head_line fs ++ CRLF)) w1 w2) as T2.
    { eexists. split; [|reflexivity]. rewrite app_length. cbn. lia. }
    destruct (IH fuel r l1 h1 w2 rest (skipn (S (length (head_line fs))) (w_buf w1))) as (len' & ch' & w' & E & I' & T' & ST' & M' & R' & B' & P' & C' & G1' & G2').
    + split; [exact FO'|]. intros g Ig. apply FL. now right.
    + reflexivity.
    + reflexivity.
    + eapply arrives_took; [exact A1|exact T2|]. lia.
    + exact M1.
    + cbn in FU. lia.
    + exists len', ch', w'. split; [exact E|]. split; [exact I'|]. split.
      { destruct T' as (i & Hi & Ei). destruct T2 as (j & Hj & Ej). exists (i + j)%nat. split; [lia|].
        rewrite Ei, Ej, S1. now rewrite skipn_more. }
      split; [eapply steady_trans; [exact ST1|exact ST']|]. split; [exact M'|]. split.
      { rewrite R'. subst w2. cbn [w_resp rd set_in set_sched set_buf]. rewrite R1. destruct (r_response r); reflexivity. }
      split; [rewrite B'; exact B1|]. split; [rewrite P'; exact P1|]. split; [rewrite C'; exact C1|]. split.
      * rewrite G1', G2. split.
        -- intros [ [?|?]|(g & ? & ?)]; [auto|right; exists f; split; [now left|assumption]|right; exists g; split; [now right|assumption] ].
        -- intros [?|(g & [<-|Ig] & ?)]; [auto|auto|right; exists g; auto].
      * destruct G2' as [(g & Ig & Sg)|(-> & N)].
        -- left. exists g. split; [now right|exact Sg].
        -- destruct G1 as [Sf|(Nf & ->)].
           ++ left. exists f. split; [now left|exact Sf].
           ++ right. split; [reflexivity|]. intros g [<-|Ig]; [exact Nf|now apply N].
Qed.

Lemma lines_bytes_length fs : (length fs <= length (lines_bytes fs))%nat.
Proof.
  unfold lines_bytes. induction fs as [|f fs IH]; [cbn; lia|]. cbn [map concat length]. rewrite !app_length. cbn. lia.
Qed.

Lemma read_headers_ok fs r w rest :
  fields_ok fs -> w_in w = lines_bytes fs ++ CRLF ++ rest ->
  arrives (lines_bytes fs ++ CRLF) w -> memory w ->
  exists len' ch' w', read_headers r w = Ret (len', ch') w' /\
    w_in w' = rest /\ took (length (lines_bytes fs ++ CRLF)) w w' /\ steady w w' /\ memory w' /\
    w_resp w' = (if r_response r then headers_after fs (w_resp w) else w_resp w) /\
    w_body w' = w_body w /\ w_ptr w' = w_ptr w /\ w_status w' = w_status w /\
    (ch' = true <-> exists f, In f fs /\ says_chunked f) /\
    ((exists f, In f fs /\ says_length f len') \/
     (len' = 0 /\ forall f, In f fs -> ~ same_ci (fst f) (str "Content-Length"))).
Proof.
  intros FO I A M. unfold read_headers.
  assert (w_in w = head_line fs ++ CRLF ++ tail_bytes fs ++ rest) as I2.
  { rewrite I. destruct fs as [|g fs]; [reflexivity|]. cbn [tail_bytes head_line]. unfold lines_bytes. cbn [map concat].
    rewrite <- !app_assoc. reflexivity. }
  assert (length (lines_bytes fs ++ CRLF) = (length (head_line fs ++ CRLF) + length (tail_bytes fs)))%nat as LT.
  { destruct fs as [|g fs]; [reflexivity|]. cbn [tail_bytes head_line]. unfold lines_bytes. cbn [map concat].
    rewrite !app_length. lia. }
  erewrite bind_ret.
  2:{ apply a_line_ok; [exact I2| |].
      - destruct fs as [|g fs]; [repeat split; [intros []|intros []]|]. destruct FO as (FO & _). inversion FO as [|? ? (_ & X) _]; subst. exact X.
      - eapply arrives_less; [exact A|]. rewrite LT. lia. }
  erewrite bind_ret by reflexivity.
  set (w2 := rd _ _ _ w).
  assert (took (length (head_line fs ++ CRLF)) w w2) as T2.
  { eexists. split; [|reflexivity]. rewrite app_length. cbn. lia. }
  destruct (headers_loop_ok fs (S (length (w_in w2))) r 0 false w2 rest (skipn (S (length (head_line fs))) (w_buf w)))
    as (len' & ch' & w' & E & I' & T' & ST' & M' & R' & B' & P' & C' & G1' & G2').
  - exact FO.
  - reflexivity.
  - reflexivity.
  - eapply arrives_took; [exact A|exact T2|]. lia.
  - exact M.
  - subst w2. cbn [w_in rd set_in]. destruct fs as [|f fs]; cbn [length]; [lia|].
    pose proof (lines_bytes_length fs). cbn [tail_bytes]. rewrite !app_length. cbn. lia.
  - exists len', ch', w'. split; [exact E|]. split; [exact I'|]. split.
    { eapply took_more; [eapply took_trans; [exact T2|exact T']|]. lia. }
    split; [exact ST'|]. split; [exact M'|]. split; [exact R'|]. split; [exact B'|]. split; [exact P'|]. split; [exact C'|].
    split; [|exact G2']. rewrite G1'. split; [intros [?|?]; [discriminate|assumption]|auto].
Qed.

(** * The payload *)

Lemma repeat_overwrite (data : list N) : overwrite (Z.to_nat 0) (map Some data) (repeat None (length data)) = map Some data.
Proof.
  unfold overwrite. change (Z.to_nat 0) with 0%nat. cbn [firstn app Nat.add]. rewrite map_length.
  rewrite skipn_all2 by (rewrite repeat_length; lia). apply app_nil_r.
Qed.

Lemma allocates_ok w : memory w -> exists l, allocates w = Ret true (set_alloc l w) /\ Forall (fun b => b = true) l.
Proof.
  unfold memory, allocates. intros M. destruct (w_alloc w) as [|b bs] eqn:E.
  - exists []. split; [|constructor]. rewrite <- E. destruct w; reflexivity.
  - inversion M; subst. exists bs. auto.
Qed.

Lemma sized_ok r d w rest :
  w_in w = d ++ rest -> arrives d w -> memory w -> Z.of_nat (length d) < 2147483648 ->
  (r_body r = true -> w_body w = None) ->
  exists w', read_sized_body r (Z.of_nat (length d)) w = Ret HTTPAPI_OK w' /\
    w_in w' = rest /\ took (length d) w w' /\ steady w w' /\ w_resp w' = w_resp w /\ w_status w' = w_status w /\
    memory w' /\
    (if r_body r then holds d (w_body w') else w_body w' = w_body w).
Proof.
  intros I A M B P. unfold read_sized_body.
  destruct (Z.eqb_spec (Z.of_nat (length d)) 0) as [E0|N0].
  - destruct d as [|x d]; [|cbn in E0; lia]. exists w. split; [reflexivity|]. split; [exact I|].
    split; [exists 0%nat; split; [lia|reflexivity]|]. repeat split; try assumption. destruct (r_body r); [now apply P|reflexivity].
  - destruct (r_body r).
    + destruct (allocates_ok w M) as (l & El & Fl). unfold pre_build. erewrite bind_ret.
      2:{ erewrite bind_ret by reflexivity. rewrite (P eq_refl).
          destruct (Z.eqb_spec (Z.of_nat (length d)) 0); [lia|].
          erewrite bind_ret by exact El. reflexivity. }
      erewrite bind_ret by reflexivity.
      set (w1 := set_body _ true _).
      destruct (readChunk_ok (ToBody 0) d w1 rest) as (n & Hn & E).
      * exact I.
      * exact A.
      * exact B.
      * cbn [room_for]. eexists. split; [reflexivity|]. rewrite repeat_length. lia.
      * erewrite bind_ret by exact E. destruct (Z.ltb_spec (Z.of_nat (length d)) 0); [lia|].
        eexists. split; [reflexivity|]. cbn [written w_body w1 set_body]. split; [reflexivity|].
        split; [exists n; split; [exact Hn|reflexivity]|]. repeat split; try reflexivity.
        -- exact Fl.
        -- cbn [w_body set_body set_in set_sched]. rewrite Nat2Z.id. change (0 + 0) with 0. rewrite repeat_overwrite.
           destruct d; [cbn in N0; lia|reflexivity].
    + destruct (skipN_ok d w rest I A B) as (n & b & Hn & E).
      erewrite bind_ret by exact E. eexists. split; [reflexivity|]. split; [reflexivity|].
      split; [exists n; split; [exact Hn|reflexivity]|]. repeat split; try reflexivity. exact M.
Qed.

Definition good_chunk (c : text * text * list N) : Prop :=
  let '(s, e, d) := c in
  size_line_ok s e /\ d <> [] /\ numeral 16 s = Z.of_nat (length d) /\ Z.of_nat (length d) < 2147483648.

(* the response buffer while chunks are read: the data so far *)
Lemma chunks_ok : forall cs fuel r before last w rest,
  Forall good_chunk cs -> size_line_ok (fst last) (snd last) -> numeral 16 (fst last) = 0 ->
  w_in w = payload_bytes (Chunked cs last) ++ rest ->
  arrives (payload_bytes (Chunked cs last)) w -> memory w -> (length cs < fuel)%nat ->
  Z.of_nat (length (before ++ concat (map snd cs))) < 2147483648 ->
  (r_body r = true -> holds before (w_body w)) ->
  exists w', chunks_loop fuel r (Z.of_nat (length before)) HTTPAPI_OK w = Ret HTTPAPI_OK w' /\
    w_in w' = rest /\ took (length (payload_bytes (Chunked cs last))) w w' /\ steady w w' /\
    w_resp w' = w_resp w /\ w_status w' = w_status w /\ memory w' /\
    (if r_body r then holds (before ++ concat (map snd cs)) (w_body w') else w_body w' = w_body w).
Proof.
  induction cs as [|((s, e), d) cs IH]; intros fuel r before (ls, le) w rest GC SL SZ I A M FU B P.
  - destruct fuel as [|fuel]; [cbn in FU; lia|]. cbn [chunks_loop fst snd] in *.
    cbn [payload_bytes map concat app] in I, A. rewrite <- !app_assoc in I. rewrite app_assoc in I.
    assert (line_ok (ls ++ le)) as LL by (apply SL).
    erewrite bind_ret by (apply (a_line_ok (ls ++ le) w (CRLF ++ rest)); [exact I|exact LL|eapply arrives_less; [exact A|]; rewrite !app_length; lia]).
    erewrite bind_ret by (eapply buf_text_ok; [reflexivity|apply LL]).
    rewrite scan_x_ok by exact SL. rewrite SZ. change (Z.min 0 4294967295) with 0. cbn zeta.
    erewrite bind_ret by reflexivity. change (0 =? 0) with true. cbn iota.
    set (w1 := set_lens _ _).
    assert (took (length (ls ++ le) + 2) w w1) as T1 by (eexists; split; [|reflexivity]; lia).
    destruct (crlf_ok w1 rest) as (n & Hn & E); [reflexivity|eapply arrives_took; [exact A|exact T1|]; rewrite !app_length; cbn; lia|].
    erewrite bind_ret by exact E. eexists. split; [reflexivity|]. split; [reflexivity|]. split.
    { eapply took_more; [eapply took_trans; [exact T1|exists n; split; [exact Hn|reflexivity]]|].
      cbn [payload_bytes map concat app]. rewrite !app_length. cbn. lia. }
    split; [repeat split|]. split; [reflexivity|]. split; [reflexivity|]. split; [exact M|].
    destruct (r_body r); [|reflexivity]. cbn [map concat]. rewrite app_nil_r. apply P. reflexivity.
  - destruct fuel as [|fuel]; [cbn in FU; lia|]. cbn [chunks_loop].
    inversion GC as [|? ? GCH GC']; subst. unfold good_chunk in GCH. destruct GCH as (SO & ND & NS & BD).
    assert (w_in w = (s ++ e) ++ CRLF ++ d ++ CRLF ++ payload_bytes (Chunked cs (ls, le)) ++ rest) as I1.
    { rewrite I. cbn [payload_bytes map concat chunk_bytes]. rewrite <- !app_assoc. reflexivity. }
    assert (length (payload_bytes (Chunked ((s, e, d) :: cs) (ls, le))) =
            length (s ++ e) + 2 + length d + 2 + length (payload_bytes (Chunked cs (ls, le))))%nat as LP.
    { cbn [payload_bytes map concat chunk_bytes]. rewrite !app_length. cbn. lia. }
    assert (line_ok (s ++ e)) as LL by apply SO.
    erewrite bind_ret by (eapply (a_line_ok (s ++ e) w); [exact I1|exact LL|eapply arrives_less; [exact A|]; rewrite LP, !app_length; cbn; lia]).
    erewrite bind_ret by (eapply buf_text_ok; [reflexivity|apply LL]).
    rewrite scan_x_ok by exact SO. rewrite NS.
    assert (0 < Z.of_nat (length d)) as LD by (destruct d; [congruence|cbn; lia]).
    replace (Z.min (Z.of_nat (length d)) 4294967295) with (Z.of_nat (length d)) by lia.
    erewrite bind_ret by reflexivity.
    destruct (Z.eqb_spec (Z.of_nat (length d)) 0); [lia|].
    set (w1 := set_lens _ _).
    assert (took (length (s ++ e) + 2) w w1) as T1 by (eexists; split; [|reflexivity]; lia).
    assert (w_in w1 = d ++ CRLF ++ payload_bytes (Chunked cs (ls, le)) ++ rest) as I2 by reflexivity.
    assert (arrives d w1) as A1 by (eapply arrives_took; [exact A|exact T1|]; rewrite LP; lia).
    (* the data *)
    assert (exists w2, (if r_body r then
                     b <- enlarge (Z.of_nat (length d)) ;;
                     use_ptr ;;
                     k <- readChunk (ToBody (Z.of_nat (length before))) (Z.of_nat (length d)) ;;
                     if k <? 0 then fail HTTPAPI_READ_DATA_FAILED
                     else ret (if (b : bool) then HTTPAPI_OK else HTTPAPI_ALLOC_FAILED)
                   else
                     k <- skipN (Z.of_nat (length d)) ;;
                     if k <? 0 then fail HTTPAPI_READ_DATA_FAILED else ret HTTPAPI_OK) w1 = Ret HTTPAPI_OK w2 /\
              w_in w2 = CRLF ++ payload_bytes (Chunked cs (ls, le)) ++ rest /\ took (length d) w1 w2 /\
              steady w1 w2 /\ w_resp w2 = w_resp w1 /\ w_status w2 = w_status w1 /\ memory w2 /\
              (if r_body r then w_body w2 = Some (map Some (before ++ d)) else w_body w2 = w_body w1))
      as (w2 & E2 & I3 & T2 & ST2 & R2 & C2 & M2 & BO2).
    { destruct (r_body r).
      - pose (old := match w_body w1 with Some l => l | None => [] end).
        assert (old = map Some before) as EO.
        { subst old. cbn. specialize (P eq_refl). unfold holds in P. destruct before; rewrite P; reflexivity. }
        destruct (allocates_ok w1 M) as (l & El & Fl).
        assert (enlarge (Z.of_nat (length d)) w1 =
                Ret true (set_body (Some (map Some before ++ repeat None (length d))) true (set_alloc l w1))) as EE.
        { unfold enlarge. erewrite bind_ret by reflexivity. fold old. cbn zeta. rewrite EO, map_length.
          rewrite app_length in B. cbn [map concat] in B. rewrite app_length in B. cbn [snd] in B.
          rewrite size32_small by lia.
          destruct (Z.eqb_spec (Z.of_nat (length before) + Z.of_nat (length d)) 0); [lia|].
          erewrite bind_ret by exact El. unfold change, ret, bind. do 4 f_equal.
          rewrite Nat2Z.id. rewrite firstn_all2; [reflexivity|]. rewrite app_length, map_length, repeat_length. lia. }
        erewrite bind_ret by exact EE. erewrite bind_ret by reflexivity.
        set (wb := set_body _ true _).
        rewrite !app_length in B. cbn [map concat] in B. rewrite app_length in B. cbn [snd] in B.
        destruct (readChunk_ok (ToBody (Z.of_nat (length before))) d wb (CRLF ++ payload_bytes (Chunked cs (ls, le)) ++ rest)) as (n2 & Hn & E).
        + reflexivity.
        + exact A1.
        + exact BD.
        + cbn [room_for]. eexists. split; [reflexivity|]. rewrite app_length, map_length, repeat_length. lia.
        + erewrite bind_ret by exact E. destruct (Z.ltb_spec (Z.of_nat (length d)) 0); [lia|].
          eexists. split; [reflexivity|]. split; [reflexivity|].
          split; [exists n2; split; [exact Hn|reflexivity]|]. split; [repeat split|]. split; [reflexivity|]. split; [reflexivity|].
          split; [exact Fl|]. cbn [written w_body wb set_body set_in set_sched].
          rewrite Z.add_0_r, Nat2Z.id. f_equal. unfold overwrite. rewrite firstn_app, map_length, Nat.sub_diag. cbn [firstn].
          rewrite firstn_all2 by (rewrite map_length; lia). rewrite app_nil_r.
          rewrite skipn_all2 by (rewrite app_length, !map_length, repeat_length; lia). rewrite app_nil_r, map_app. reflexivity.
      - destruct (skipN_ok d w1 (CRLF ++ payload_bytes (Chunked cs (ls, le)) ++ rest) I2 A1 BD) as (n2 & b & Hn & E).
        erewrite bind_ret by exact E. destruct (Z.ltb_spec (Z.of_nat (length d)) 0); [lia|].
        eexists. split; [reflexivity|]. split; [reflexivity|].
        split; [exists n2; split; [exact Hn|reflexivity]|]. repeat split; try reflexivity. exact M. }
    erewrite bind_ret by exact E2.
    assert (took (length (s ++ e) + 2 + length d) w w2) as T12 by (eapply took_trans; eassumption).
    destruct (crlf_ok w2 (payload_bytes (Chunked cs (ls, le)) ++ rest)) as (n3 & Hn3 & E3).
    + exact I3.
    + eapply arrives_took; [exact A|exact T12|]. rewrite LP. cbn. lia.
    + erewrite bind_ret by exact E3. cbn iota.
      set (w3 := rd _ _ _ w2).
      assert (took 2 w2 w3) as T3 by (exists n3; split; [exact Hn3|reflexivity]).
      rewrite size32_small.
      2:{ rewrite !app_length in B. cbn [map concat] in B. rewrite app_length in B. cbn [snd] in B. lia. }
      rewrite <- Nat2Z.inj_add, <- app_length.
      destruct (IH fuel r (before ++ d) (ls, le) w3 rest) as (w' & E' & I' & T' & ST' & R' & C' & M' & B').
      * exact GC'.
      * exact SL.
      * exact SZ.
      * reflexivity.
      * eapply arrives_took; [exact A|eapply took_trans; [exact T12|exact T3]|]. rewrite LP. lia.
      * exact M2.
      * cbn in FU. lia.
      * rewrite <- app_assoc. exact B.
      * intros RB. rewrite RB in BO2. subst w3. cbn [w_body rd set_in set_sched set_buf]. rewrite BO2.
        unfold holds. destruct (before ++ d) eqn:X; [|reflexivity].
        exfalso. apply app_eq_nil in X. destruct X as (_ & ->). congruence.
      * exists w'. split; [exact E'|]. split; [exact I'|]. split.
        { eapply took_more; [eapply took_trans; [eapply took_trans; [exact T12|exact T3]|exact T']|]. rewrite LP. lia. }
        split. { eapply steady_trans; [|exact ST']. eapply steady_trans; [|exact ST2]. repeat split. }
        split; [rewrite R'; exact R2|]. split; [rewrite C'; exact C2|]. split; [exact M'|].
        destruct (r_body r).
        -- cbn [map concat snd]. rewrite app_assoc. exact B'.
        -- rewrite B'. exact BO2.
Qed.

(** * The whole reply *)

Lemma says_length_unique f a b : says_length f a -> says_length f b -> a = b.
Proof.
  intros (_ & sp & v & E & S & (NE & D) & <-) (_ & sp' & v' & E' & S' & (NE' & D') & <-).
  assert (v = v') as ->; [|reflexivity].
  rewrite E in E'. clear E.
  assert (forall sp v, Forall is_space sp -> v <> [] -> Forall is_dec v -> skip_spaces (sp ++ v) = v) as G.
  { intros s u Hs Hu Du. rewrite skip_spaces_app by exact Hs. destruct u as [|c u]; [congruence|].
    inversion Du; subst. apply skip_spaces_none. unfold is_dec, is_space in *. lia. }
  rewrite <- (G sp v S NE D), E', (G sp' v' S' NE' D'). reflexivity.
Qed.

Lemma read_response_ok rp r w rest :
  well_formed rp -> w_in w = reply_bytes rp ++ rest -> arrives (reply_bytes rp) w -> memory w ->
  (r_body r = true -> w_body w = None) ->
  exists w', read_response r w = Ret HTTPAPI_OK w' /\
    w_in w' = rest /\ took (length (reply_bytes rp)) w w' /\ steady w w' /\ memory w' /\
    w_resp w' = (if r_response r then headers_after (rp_fields rp) (w_resp w) else w_resp w) /\
    w_status w' = (if r_status r then Some (numeral 10 (rp_code rp)) else w_status w) /\
    (if r_body r then holds (reply_data rp) (w_body w') else w_body w' = w_body w).
Proof.
  intros WF I A M P. unfold read_response.
  assert (w_in w = status_line rp ++ CRLF ++ lines_bytes (rp_fields rp) ++ CRLF ++ payload_bytes (rp_payload rp) ++ rest) as I1.
  { rewrite I. unfold reply_bytes, lines_bytes. rewrite <- !app_assoc. reflexivity. }
  assert (length (reply_bytes rp) = length (status_line rp ++ CRLF) + (length (lines_bytes (rp_fields rp) ++ CRLF)) + length (payload_bytes (rp_payload rp)))%nat as LR.
  { unfold reply_bytes, lines_bytes. rewrite !app_length. lia. }
  destruct (read_status_ok r rp w (lines_bytes (rp_fields rp) ++ CRLF ++ payload_bytes (rp_payload rp) ++ rest) WF I1)
    as (w1 & E1 & I2 & T1 & ST1 & AL1 & R1 & B1 & P1 & C1).
  { eapply arrives_less; [exact A|]. lia. }
  erewrite bind_ret by exact E1.
  destruct (read_headers_ok (rp_fields rp) r w1 (payload_bytes (rp_payload rp) ++ rest)) as
    (len & ch & w2 & E2 & I3 & T2 & ST2 & M2 & R2 & B2 & P2 & C2 & G1 & G2).
  { split; [apply (wf_fields _ WF)|apply (wf_lengths _ WF)]. }
  { exact I2. }
  { eapply arrives_took; [exact A|exact T1|]. lia. }
  { unfold memory. rewrite AL1. exact M. }
  erewrite bind_ret by exact E2. cbn [fst snd].
  assert (took (length (status_line rp ++ CRLF) + length (lines_bytes (rp_fields rp) ++ CRLF)) w w2) as T12 by (eapply took_trans; eassumption).
  assert (arrives (payload_bytes (rp_payload rp)) w2) as A2 by (eapply arrives_took; [exact A|exact T12|]; lia).
  assert (r_body r = true -> w_body w2 = None) as P3 by (intros RB; rewrite B2, B1; now apply P).
  pose proof (wf_payload _ WF) as WP. pose proof (wf_total _ WF) as WT. unfold reply_data in *.
  destruct (rp_payload rp) as [d|cs (ls, le)] eqn:EP.
  - destruct WP as (NoC & LenD & Has).
    assert (ch = false) as ->. { destruct ch; [|reflexivity]. destruct (proj1 G1 eq_refl) as (f & If & Sf). exfalso. eapply NoC; eauto. }
    assert (len = Z.of_nat (length d)) as ->.
    { destruct G2 as [(f & If & Sf)|(-> & N)]; [eapply LenD; eauto|].
      destruct d as [|x d]; [reflexivity|]. destruct Has as (f & n & If & (Sf & _)); [congruence|]. exfalso. eapply N; eauto. }
    destruct (sized_ok r d w2 rest I3 A2 M2 WT P3) as (w' & E & I' & T' & ST' & R' & C' & M' & B').
    exists w'. split; [exact E|]. split; [exact I'|]. split.
    { eapply took_more; [eapply took_trans; [exact T12|exact T']|]. cbn [payload_bytes] in LR. lia. }
    split. { eapply steady_trans; [exact ST1|]. eapply steady_trans; [exact ST2|exact ST']. }
    split; [exact M'|]. split; [rewrite R', R2, R1; reflexivity|]. split; [rewrite C', C2, C1; reflexivity|].
    destruct (r_body r); [exact B'|]. rewrite B', B2, B1. reflexivity.
  - destruct WP as (HasC & GC & SL & SZ).
    assert (ch = true) as -> by (apply G1; exact HasC).
    unfold read_chunked_body. erewrite bind_ret by reflexivity.
    destruct (chunks_ok cs (S (length (w_in w2))) r [] (ls, le) w2 rest) as (w' & E & I' & T' & ST' & R' & C' & M' & B').
    + eapply Forall_impl; [|exact GC]. intros ((s, e), d) X. exact X.
    + exact SL.
    + exact SZ.
    + exact I3.
    + exact A2.
    + exact M2.
    + rewrite I3. cbn [payload_bytes]. rewrite !app_length.
      assert (length cs <= length (concat (map chunk_bytes cs)))%nat as X; [|lia].
      clear. induction cs as [|((s, e), d) cs IH]; [cbn; lia|]. cbn [map concat length chunk_bytes]. rewrite !app_length. cbn. lia.
    + exact WT.
    + intros RB. apply P3. exact RB.
    + exists w'. split; [exact E|]. split; [exact I'|]. split.
      { eapply took_more; [eapply took_trans; [exact T12|exact T']|]. lia. }
      split. { eapply steady_trans; [exact ST1|]. eapply steady_trans; [exact ST2|exact ST']. }
      split; [exact M'|]. split; [rewrite R', R2, R1; reflexivity|]. split; [rewrite C', C2, C1; reflexivity|].
      destruct (r_body r); [exact B'|]. rewrite B', B2, B1. reflexivity.
Qed.
