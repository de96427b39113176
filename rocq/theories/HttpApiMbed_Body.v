(* What the adapter makes of any bytes: bodies and whole responses. *)
From Verif Require Import Base Map_Model HttpHeaders_Spec HttpApiMbed_Model HttpApiMbed_Spec HttpApiMbed_Read HttpApiMbed_Scan HttpApiMbed_Reply HttpApiMbed_Props HttpApiMbed_Any HttpApiMbed_Sound.
Local Open Scope Z_scope.

(** * The announced lengths are only added to *)

Definition total (l : list Z) : Z := fold_right Z.add 0 l.
Definition grows (w w' : world) : Prop := exists more, w_lens w' = more ++ w_lens w /\ natural more.
Lemma grows_refl w : grows w w.
Proof. exists []. split; [reflexivity|constructor]. Qed.
Lemma grows_trans a b c : grows a b -> grows b c -> grows a c.
Proof.
  intros (m & E & F) (m' & E' & F'). exists (m' ++ m). rewrite E', E, app_assoc. split; [reflexivity|]. apply Forall_app. now split.
Qed.
Lemma total_app a b : total (a ++ b) = total a + total b.
Proof. unfold total. induction a as [|x a IH]; cbn [app fold_right]; [lia|]. rewrite IH. lia. Qed.
Lemma total_natural l : natural l -> 0 <= total l.
Proof. induction 1; cbn; [lia|]. unfold total in *. lia. Qed.
Lemma grows_bad w w' : grows w w' -> ~ lengths_ok w -> ~ lengths_ok w'.
Proof.
  intros (m & E & F) N (A & B). apply N. rewrite E in A, B. apply Forall_app in A. split; [apply A|].
  fold (total (m ++ w_lens w)) in B. rewrite total_app in B. apply total_natural in F. unfold total in *. lia.
Qed.
Lemma lengths_dec w : lengths_ok w \/ ~ lengths_ok w.
Proof.
  unfold lengths_ok. destruct (Forall_dec (fun n => n < 2147483648) (fun n => Z_lt_dec n 2147483648) (w_lens w)) as [F|F]; [|right; tauto].
  destruct (Z_lt_dec (fold_right Z.add 0 (w_lens w)) 4294967296); [left; auto|right; tauto].
Qed.

Lemma grows_same w w' : w_lens w' = w_lens w -> grows w w'.
Proof. intros E. exists []. split; [exact E|constructor]. Qed.
Lemma receive_grows n : keeps grows (receive n).
Proof.
  intros w. unfold receive. destruct (w_sched w); [apply grows_same; reflexivity|].
  destruct (n <? 0); [apply grows_same; reflexivity|]. destruct (_ <? 0); [apply grows_same; reflexivity|]. cbn zeta. destruct (_ =? 0); apply grows_same; reflexivity.
Qed.
Lemma store_grows d o bs : keeps grows (store d o bs).
Proof.
  intros w. unfold store. destruct bs; [apply grows_same; reflexivity|]. destruct d.
  - destruct (_ <=? _); apply grows_same; reflexivity.
  - destruct (w_body w); [|apply grows_same; reflexivity]. cbn zeta. destruct (_ <=? _); apply grows_same; reflexivity.
Qed.
Lemma allocates_grows : keeps grows allocates.
Proof. intros w. unfold allocates. destruct (w_alloc w); apply grows_same; reflexivity. Qed.
Lemma buf_text_grows : keeps grows buf_text.
Proof. intros w. unfold buf_text. destruct (c_string_of _); apply grows_same; reflexivity. Qed.
Ltac grows_tac :=
  repeat first [ apply receive_grows | apply store_grows | apply allocates_grows | apply buf_text_grows
               | apply keeps_change; intros ?; apply grows_same; reflexivity
               | frame_step grows_refl grows_trans ].
Lemma line_loop_grows room : forall line c, keeps grows (line_loop room line c).
Proof. induction room as [|room IH]; intros line c; cbn [line_loop]; destruct (c =? 13)%N; grows_tac; try apply IH. Qed.
Lemma readLine_grows : keeps grows readLine.
Proof. unfold readLine. grows_tac. apply line_loop_grows. Qed.
Lemma a_line_grows : keeps grows a_line.
Proof. unfold a_line. apply (keeps_bind _ grows_trans); [apply readLine_grows|intros ?]. grows_tac. Qed.
Lemma chunk_loop_grows fuel : forall d s o, keeps grows (chunk_loop fuel d s o).
Proof.
  induction fuel as [|fuel IH]; intros d s o; cbn [chunk_loop]; [apply keeps_nofuel|].
  destruct (s =? 0); [grows_tac|]. apply (keeps_bind _ grows_trans); [apply receive_grows|intros p].
  apply (keeps_bind _ grows_trans); [apply store_grows|intros _]. cbn zeta. destruct (_ =? 0); [grows_tac|apply IH].
Qed.
Lemma readChunk_grows d n : keeps grows (readChunk d n).
Proof. intros w. apply chunk_loop_grows. Qed.
Lemma skip_loop_grows fuel : forall o n, keeps grows (skip_loop fuel o n).
Proof.
  induction fuel as [|fuel IH]; intros o n; cbn [skip_loop]; [apply keeps_nofuel|].
  destruct (_ <? n); (apply (keeps_bind _ grows_trans); [apply readChunk_grows|intros ?]); grows_tac; apply IH.
Qed.
Lemma skipN_grows n : keeps grows (skipN n).
Proof. apply skip_loop_grows. Qed.
Lemma crlf_missing_grows : keeps grows crlf_missing.
Proof. unfold crlf_missing. apply (keeps_bind _ grows_trans); [apply readChunk_grows|intros ?]. grows_tac. Qed.
Lemma scan_x_nonneg s n : scan_x s = Some n -> 0 <= n.
Proof. intros E. apply scan_x_sound in E. lia. Qed.
Lemma chunks_loop_grows fuel r : forall s c, keeps grows (chunks_loop fuel r s c).
Proof.
  induction fuel as [|fuel IH]; intros s c; cbn [chunks_loop]; [apply keeps_nofuel|].
  apply (keeps_bind _ grows_trans); [apply a_line_grows|intros _].
  apply (keeps_bind _ grows_trans); [apply buf_text_grows|intros t]. destruct (scan_x t) as [n|] eqn:E; [|grows_tac].
  apply scan_x_nonneg in E.
  apply (keeps_bind _ grows_trans); [apply keeps_change; intros w; exists [n]; split; [reflexivity|now repeat constructor]|intros _].
  destruct (_ =? 0).
  - apply (keeps_bind _ grows_trans); [apply crlf_missing_grows|intros e]. grows_tac.
  - apply (keeps_bind _ grows_trans); [|intros res].
    + unfold enlarge, use_ptr. repeat first [apply readChunk_grows | apply skipN_grows | apply allocates_grows
        | apply keeps_change; intros ?; apply grows_same; reflexivity | frame_step grows_refl grows_trans].
    + apply (keeps_bind _ grows_trans); [apply crlf_missing_grows|intros e]. destruct e; [grows_tac|apply IH].
Qed.
Lemma sized_grows r len : keeps grows (read_sized_body r len).
Proof.
  unfold read_sized_body, pre_build, use_ptr.
  repeat first [apply readChunk_grows | apply skipN_grows | apply allocates_grows
        | apply keeps_change; intros ?; apply grows_same; reflexivity | frame_step grows_refl grows_trans].
Qed.

(* A piece of the program starting in [w]: if it succeeds, then with this; undefined only when
   the lengths are too big. *)
Definition means {A} (P : A -> world -> Prop) (o : outcome A) : Prop :=
  match o with
  | Ret a w' => lengths_ok w' -> P a w'
  | Fail _ _ => True
  | Undef w' => ~ lengths_ok w'
  | NoFuel => True
  end.
Lemma means_big {A} (P : A -> world -> Prop) (m : H A) w : keeps grows m -> ~ lengths_ok w -> means P (m w).
Proof.
  intros K N. specialize (K w). unfold means. destruct (m w); auto.
  - intros L. exfalso. eapply grows_bad; eassumption.
  - eapply grows_bad; eassumption.
Qed.

(** * The body with a length *)

Definition kept (w w' : world) : Prop := w_resp w' = w_resp w /\ w_status w' = w_status w.

Lemma sized_any r len w : no_errors w -> memory w -> (r_body r = true -> w_body w = None) ->
  0 <= len -> (len = 0 \/ In len (w_lens w)) ->
  means (fun res w' => res = HTTPAPI_OK /\ exists payload, w_in w = payload ++ w_in w' /\ Z.of_nat (length payload) <= len /\
           kept w w' /\
           if r_body r then filled (map Some payload ++ repeat None (Z.to_nat len - length payload)) (w_body w') else w_body w' = w_body w)
        (read_sized_body r len w).
Proof.
  intros NE M B L0 IL. destruct (lengths_dec w) as [LO|LO]; [|apply means_big; [apply sized_grows|exact LO]].
  assert (len < 2147483648) as LB.
  { destruct IL as [->|IL]; [lia|]. destruct LO as (F & _). rewrite Forall_forall in F. now apply F. }
  unfold read_sized_body. destruct (Z.eqb_spec len 0) as [->|N0].
  - intros _. split; [reflexivity|]. exists []. split; [reflexivity|]. split; [cbn; lia|]. split; [split; reflexivity|].
    destruct (r_body r); [now apply B|reflexivity].
  - destruct (r_body r).
    + destruct (allocates_ok w M) as (l & El & Fl). unfold pre_build. erewrite bind_ret.
      2:{ erewrite bind_ret by reflexivity. rewrite (B eq_refl).
          destruct (Z.eqb_spec len 0); [lia|]. erewrite bind_ret by exact El. reflexivity. }
      erewrite bind_ret by reflexivity.
      set (w1 := set_body _ true _).
      destruct (readChunk_any (ToBody 0) len w1) as (data & rest & s & I & L & FS & EOF & E).
      * exact NE.
      * lia.
      * cbn [room_for]. eexists. split; [reflexivity|]. rewrite repeat_length. lia.
      * erewrite bind_ret by exact E. destruct (Z.ltb_spec (Z.of_nat (length data)) 0); [lia|].
        intros _. split; [reflexivity|]. exists data. split; [exact I|]. split; [exact L|].
        cbn [written w_body w1 set_body]. split; [split; reflexivity|].
        cbn [w_body set_body set_in set_sched]. change (Z.to_nat (0 + 0)) with 0%nat.
        unfold overwrite. cbn [firstn app Nat.add]. rewrite map_length.
        replace (skipn (length data) (repeat (@None N) (Z.to_nat len))) with (repeat (@None N) (Z.to_nat len - length data)).
        2:{ replace (Z.to_nat len) with (length data + (Z.to_nat len - length data))%nat at 2 by lia.
            rewrite repeat_app, skipn_app, repeat_length, Nat.sub_diag. rewrite skipn_all2 by (rewrite repeat_length; lia). reflexivity. }
        unfold filled. destruct (map Some data ++ repeat None (Z.to_nat len - length data)) eqn:X; [|reflexivity].
        exfalso. apply (f_equal (@length _)) in X. rewrite app_length, map_length, repeat_length in X. cbn in X. lia.
    + destruct (skipN_any len w NE) as (data & rest & s & b & I & L & FS & EOF & _ & E); [lia|].
      erewrite bind_ret by exact E. intros _. split; [reflexivity|]. exists data. split; [exact I|]. split; [exact L|].
      split; [split; reflexivity|reflexivity].
Qed.

(** * Chunks *)

Lemma closed_chunk d n w a w' : w_sched w = [] -> readChunk d n w = Ret a w' -> w_sched w' = [].
Proof.
  intros SC E. unfold readChunk in E. rewrite SC in E. cbn [length chunk_loop] in E.
  destruct (n =? 0); [now injection E as _ <-|]. erewrite bind_ret in E by (unfold receive; rewrite SC; reflexivity).
  cbn [fst snd] in E. erewrite bind_ret in E by reflexivity. change (size32 0 =? 0) with true in E. cbn zeta iota in E.
  now injection E as _ <-.
Qed.
Lemma closed_crlf w a w' : w_sched w = [] -> crlf_missing w = Ret a w' -> w_sched w' = [].
Proof.
  intros SC E. unfold crlf_missing, bind in E. destruct (readChunk ToBuf 2 w) as [k w1|c w1|w1|] eqn:E1; try discriminate E.
  apply closed_chunk in E1; [|exact SC]. destruct (k <? 0); [now injection E as _ <-|]. unfold get in E.
  destruct (w_buf w1) as [|x [|y t] ]; try discriminate E. now injection E as _ <-.
Qed.
Lemma closed_chunks fuel r size res w : w_sched w = [] -> (exists c w1, chunks_loop fuel r size res w = Fail c w1) \/ chunks_loop fuel r size res w = NoFuel.
Proof.
  intros SC. destruct fuel as [|fuel]; [now right|]. left. cbn [chunks_loop].
  destruct (a_line_over w SC) as (w1 & E). do 2 eexists. erewrite bind_fail by exact E. reflexivity.
Qed.

Lemma hex_at_nonempty t n : hex_at t n -> t <> [].
Proof.
  intros HX. inversion HX as [sp sg neg ox ds rest ? ? ? D ? ? E]. intros X. apply app_eq_nil in X. destruct X as (_ & X).
  apply app_eq_nil in X. destruct X as (_ & X). apply app_eq_nil in X. destruct X as (_ & X). apply app_eq_nil in X. destruct X as (X & _). now apply D.
Qed.

(* the data of one chunk *)
Lemma chunk_data r before n w : no_errors w -> memory w -> 0 < n < 2147483648 ->
  (r_body r = true -> holds before (w_body w) /\ Z.of_nat (length before) + n < 4294967296) -> (2 <= length (w_buf w))%nat ->
  exists data w2, (if r_body r then
             b <- enlarge n ;;
             use_ptr ;;
             k <- readChunk (ToBody (Z.of_nat (length before))) n ;;
             if k <? 0 then fail HTTPAPI_READ_DATA_FAILED
             else ret (if (b : bool) then HTTPAPI_OK else HTTPAPI_ALLOC_FAILED)
           else
             k <- skipN n ;;
             if k <? 0 then fail HTTPAPI_READ_DATA_FAILED else ret HTTPAPI_OK) w = Ret HTTPAPI_OK w2 /\
    w_in w = data ++ w_in w2 /\ Z.of_nat (length data) <= n /\ no_errors w2 /\ memory w2 /\ (Z.of_nat (length data) = n \/ w_sched w2 = []) /\
    kept w w2 /\ w_lens w2 = w_lens w /\ (2 <= length (w_buf w2))%nat /\
    (if r_body r then w_body w2 = Some (map Some (before ++ data) ++ repeat None (Z.to_nat n - length data)) else w_body w2 = w_body w).
Proof.
  intros NE M NB B BL. destruct (r_body r).
  - destruct (B eq_refl) as (HB & SB).
    pose (old := match w_body w with Some l => l | None => [] end).
    assert (old = map Some before) as EO.
    { subst old. unfold holds in HB. destruct before; rewrite HB; reflexivity. }
    destruct (allocates_ok w M) as (l & El & Fl).
    assert (enlarge n w = Ret true (set_body (Some (map Some before ++ repeat None (Z.to_nat n))) true (set_alloc l w))) as EE.
    { unfold enlarge. erewrite bind_ret by reflexivity. fold old. cbn zeta. rewrite EO, map_length.
      rewrite size32_small by lia.
      destruct (Z.eqb_spec (Z.of_nat (length before) + n) 0); [lia|].
      erewrite bind_ret by exact El. unfold change, ret, bind. do 4 f_equal.
      rewrite firstn_all2; [reflexivity|]. rewrite app_length, map_length, repeat_length. lia. }
    erewrite bind_ret by exact EE. erewrite bind_ret by reflexivity.
    set (wb := set_body _ true _).
    destruct (readChunk_any (ToBody (Z.of_nat (length before))) n wb) as (data & rest & s & I & L & FS & EOF & E).
    + exact NE.
    + lia.
    + cbn [room_for]. eexists. split; [reflexivity|]. rewrite app_length, map_length, repeat_length. lia.
    + erewrite bind_ret by exact E. destruct (Z.ltb_spec (Z.of_nat (length data)) 0); [lia|].
      exists data. eexists. split; [reflexivity|]. split; [exact I|]. split; [exact L|]. split; [exact FS|]. split; [exact Fl|].
      split; [exact EOF|]. split; [split; reflexivity|]. split; [reflexivity|]. split; [exact BL|].
      cbn [written w_body wb set_body set_in set_sched].
      rewrite Z.add_0_r, Nat2Z.id. f_equal. unfold overwrite. rewrite firstn_app, map_length, Nat.sub_diag. cbn [firstn].
      rewrite firstn_all2 by (rewrite map_length; lia). rewrite app_nil_r, map_app, <- app_assoc. do 2 f_equal.
      rewrite skipn_app, map_length, skipn_all2 by (rewrite !map_length; lia). cbn [app].
      rewrite map_length.
      replace (length before + length data - length before)%nat with (length data) by lia.
      replace (Z.to_nat n) with (length data + (Z.to_nat n - length data))%nat at 1 by lia.
      rewrite repeat_app, skipn_app, repeat_length, Nat.sub_diag. rewrite skipn_all2 by (rewrite repeat_length; lia). reflexivity.
  - destruct (skipN_any n w NE) as (data & rest & s & b & I & L & FS & EOF & LB & E); [lia|].
    exists data. eexists. split; [erewrite bind_ret by exact E; destruct (Z.ltb_spec n 0); [lia|reflexivity]|].
    split; [exact I|]. split; [exact L|]. split; [exact FS|]. split; [exact M|]. split; [exact EOF|]. split; [split; reflexivity|].
    split; [reflexivity|]. split; [cbn [w_buf rd set_in set_sched set_buf]; lia|reflexivity].
Qed.

Lemma chunks_any : forall fuel r before size w, no_errors w -> memory w -> natural (w_lens w) ->
  (r_body r = true -> holds before (w_body w) /\ size = Z.of_nat (length before) /\ Z.of_nat (length before) <= total (w_lens w)) ->
  means (fun res w' => res = HTTPAPI_OK /\ exists cut consumed data, w_in w = consumed ++ w_in w' /\ chunks cut consumed data /\
           kept w w' /\
           if r_body r then holds (before ++ data) (w_body w') else w_body w' = w_body w)
        (chunks_loop fuel r size HTTPAPI_OK w).
Proof.
  induction fuel as [|fuel IH]; intros r before size w NE M NL B; [exact I|].
  destruct (lengths_dec w) as [LO|LO]; [|apply means_big; [apply chunks_loop_grows|exact LO]].
  cbn [chunks_loop].
  destruct (a_line_any w) as [(w1 & E)|(l & rest & I1 & RL & E)].
  { erewrite bind_fail by exact E. exact I. }
  erewrite bind_ret by exact E. erewrite bind_ret by (eapply buf_text_any; reflexivity).
  destruct (scan_x (c_text l)) as [n|] eqn:SX; [|exact I].
  apply scan_x_sound in SX. destruct SX as (HX & NB).
  erewrite bind_ret by reflexivity. set (w1 := set_lens _ _).
  assert (l <> []) as LN by (intros ->; now apply hex_at_nonempty in HX).
  assert (w_in w1 = rest) as IN1 by reflexivity.
  assert (no_errors w1) as NE1 by (apply forall_skipn; exact NE).
  assert (memory w1) as M1 by exact M.
  assert (w_lens w1 = n :: w_lens w) as LE1 by reflexivity.
  assert (natural (w_lens w1)) as NL1 by (rewrite LE1; constructor; [lia|exact NL]).
  assert (w_buf w1 = l ++ 0%N :: skipn (S (length l)) (w_buf w)) as BU1 by reflexivity.
  assert (kept w w1) as K1 by (split; reflexivity).
  assert (w_body w1 = w_body w) as BO1 by reflexivity.
  clearbody w1.
  destruct (Z.eqb_spec n 0) as [->|N0].
  - destruct l as [|a l]; [congruence|].
    assert (exists b t, w_buf w1 = a :: b :: t /\ (b = 10%N -> exists l', l = 10%N :: l')) as (b & t & BU & BI).
    { rewrite BU1. destruct l as [|b l]; cbn [app]; [do 2 eexists; split; [reflexivity|intros X; discriminate X]|].
      do 2 eexists. split; [reflexivity|]. intros ->. eauto. }
    destruct (crlf_any w1 a b t NE1 BU) as (e & data & rest' & s & buf & I2 & FS & E2 & C).
    erewrite bind_ret by exact E2. destruct e; [destruct (r_body r); exact I|].
    intros _. split; [reflexivity|]. specialize (C eq_refl).
    destruct C as [->|(_ & C & ->)].
    + exists false, ((a :: l) ++ CRLF ++ CRLF), []. split; [rewrite I1, <- IN1, I2, <- !app_assoc; reflexivity|].
      split; [apply (chunks_end false); [exact RL|exact HX|discriminate]|]. split; [exact K1|].
      cbn [w_body rd set_in set_sched set_buf]. rewrite app_nil_r. destruct (r_body r); [rewrite BO1; apply B; reflexivity|exact BO1].
    + destruct C as [(-> & ->)| ->]; [exfalso; apply RL; now left|].
      exists true, ((a :: l) ++ CRLF ++ [13%N]), []. split; [rewrite I1, <- IN1, I2, <- !app_assoc; reflexivity|].
      destruct (BI eq_refl) as (l' & ->).
      split; [apply (chunks_end true); [exact RL|exact HX|eauto]|]. split; [exact K1|].
      cbn [w_body rd set_in set_sched set_buf]. rewrite app_nil_r. destruct (r_body r); [rewrite BO1; apply B; reflexivity|exact BO1].
  - destruct (lengths_dec w1) as [LO1|LO1].
    2:{ apply means_big; [|exact LO1]. apply (keeps_bind _ grows_trans); [|intros res].
        + unfold enlarge, use_ptr. repeat first [apply readChunk_grows | apply skipN_grows | apply allocates_grows
            | apply keeps_change; intros ?; apply grows_same; reflexivity | frame_step grows_refl grows_trans].
        + apply (keeps_bind _ grows_trans); [apply crlf_missing_grows|intros e]. destruct e; [grows_tac|apply chunks_loop_grows]. }
    destruct LO1 as (LF & LT). rewrite LE1 in LF, LT. pose proof (Forall_inv LF) as NS. cbn beta in NS.
    fold (total (n :: w_lens w)) in LT. change (total (n :: w_lens w)) with (n + total (w_lens w)) in LT.
    assert (r_body r = true -> holds before (w_body w1) /\ Z.of_nat (length before) + n < 4294967296) as B1.
    { intros RB. destruct (B RB) as (HB & _ & SB). rewrite BO1. split; [exact HB|lia]. }
    assert (2 <= length (w_buf w1))%nat as BL1.
    { rewrite BU1, app_length. cbn. destruct l; [congruence|cbn; lia]. }
    assert (exists bs, bs = before /\ (r_body r = true -> size = Z.of_nat (length bs))) as (bs & -> & SZ).
    { exists before. split; [reflexivity|]. apply B. }
    destruct (chunk_data r before n w1 NE1 M1 ltac:(lia) B1 BL1) as (data & w2 & E2 & I2 & LD & NE2 & M2 & EOF & K2 & LE2 & BL2 & BO2).
    erewrite bind_ret.
    2:{ destruct (r_body r); [rewrite (SZ eq_refl)|]; exact E2. }
    destruct (w_buf w2) as [|a [|b t] ] eqn:BU2; [cbn in BL2; lia|cbn in BL2; lia|].
    destruct (crlf_any w2 a b t NE2 BU2) as (e & de & rest' & s & buf & I3 & FS & E3 & C).
    erewrite bind_ret by exact E3. destruct e; [exact I|].
    specialize (C eq_refl).
    (* if the connection was closed, the next size line is missing *)
    assert (w_sched w2 = [] \/ s = [] -> means (fun res w' => res = HTTPAPI_OK /\ exists cut consumed data, w_in w = consumed ++ w_in w' /\ chunks cut consumed data /\
           kept w w' /\ if r_body r then holds (before ++ data) (w_body w') else w_body w' = w_body w) (chunks_loop fuel r (size32 (size + n)) HTTPAPI_OK (rd rest' s buf w2))) as OVER.
    { intros CL. assert (w_sched (rd rest' s buf w2) = []) as CL'.
      { destruct CL as [CL|CL]; [eapply closed_crlf; [exact CL|exact E3]|exact CL]. }
      destruct (closed_chunks fuel r (size32 (size + n)) HTTPAPI_OK _ CL') as [(c & w4 & ->)| ->]; exact I. }
    destruct EOF as [EOF|EOF]; [|now apply OVER; left]. destruct C as [->|(-> & _)]; [|now apply OVER; right]. clear OVER.
    assert (data <> []) as DN by (intros ->; cbn in EOF; lia).
    pose proof (IH r (before ++ data) (size32 (size + n)) (rd rest' s buf w2)) as G.
    assert (means (fun res w' => res = HTTPAPI_OK /\ exists cut consumed data', w_in (rd rest' s buf w2) = consumed ++ w_in w' /\ chunks cut consumed data' /\
           kept (rd rest' s buf w2) w' /\
           if r_body r then holds ((before ++ data) ++ data') (w_body w') else w_body w' = w_body (rd rest' s buf w2))
        (chunks_loop fuel r (size32 (size + n)) HTTPAPI_OK (rd rest' s buf w2))) as G'.
    { apply G.
      - exact FS.
      - exact M2.
      - cbn [w_lens rd set_in set_sched set_buf]. rewrite LE2. exact NL1.
      - intros RB. rewrite RB in BO2. destruct (B RB) as (HB & SB & TB). cbn [w_body w_lens rd set_in set_sched set_buf]. split; [|split].
        + rewrite BO2. replace (Z.to_nat n - length data)%nat with 0%nat by lia. cbn [repeat]. rewrite app_nil_r.
          unfold holds. destruct (before ++ data) eqn:X; [|reflexivity]. apply app_eq_nil in X. destruct X; congruence.
        + rewrite SB, size32_small by lia. rewrite app_length. lia.
        + rewrite LE2, LE1. change (total (n :: w_lens w)) with (n + total (w_lens w)). rewrite app_length. lia. }
    unfold means in *. destruct (chunks_loop fuel r (size32 (size + n)) HTTPAPI_OK (rd rest' s buf w2)) as [res w'|? ?|w'|]; auto.
    intros LO'. destruct (G' LO') as (-> & cut & consumed & data' & IC & CH & K' & BO'). split; [reflexivity|].
    exists cut, (l ++ CRLF ++ data ++ CRLF ++ consumed), (data ++ data'). split.
    { rewrite I1, <- IN1, I2, I3. cbn [w_in rd set_in] in IC. rewrite IC. rewrite <- !app_assoc. reflexivity. }
    split; [apply chunks_more; auto; rewrite EOF; exact HX|]. split.
    { destruct K1 as (? & ?), K2 as (? & ?), K' as (? & ?). cbn in *. split; congruence. }
    destruct (r_body r); [rewrite app_assoc; exact BO'|]. rewrite BO'. cbn. rewrite BO2. exact BO1.
Qed.

(** * The whole response *)

Theorem response_any r w : no_errors w -> memory w -> w_lens w = [] -> (r_body r = true -> w_body w = None) ->
  means (fun res w' => res = HTTPAPI_OK /\ exists bytes code fs content cut, w_in w = bytes ++ w_in w' /\ response bytes code fs content cut /\
           w_status w' = (if r_status r then Some code else w_status w) /\
           w_resp w' = (if r_response r then headers_after fs (w_resp w) else w_resp w) /\
           if r_body r then filled content (w_body w') else w_body w' = w_body w)
        (read_response r w).
Proof.
  intros NE M LE B. unfold read_response, read_status.
  destruct (a_line_any w) as [(w1 & E)|(first & rest & I1 & RF & E)].
  { erewrite bind_fail by (erewrite bind_fail by exact E; reflexivity). exact I. }
  destruct (scan_status (c_text first)) as [v|] eqn:SS.
  2:{ erewrite bind_fail. 2:{ erewrite bind_ret by exact E. erewrite bind_ret by (eapply buf_text_any; reflexivity). rewrite SS. reflexivity. }
      exact I. }
  set (w1 := rd _ _ _ w) in E.
  set (w2 := if r_status r then set_status (Some (size32 v)) w1 else w1).
  erewrite bind_ret.
  2:{ erewrite bind_ret by exact E. erewrite bind_ret by (eapply buf_text_any; reflexivity). rewrite SS.
      instantiate (1 := w2). instantiate (1 := tt). subst w2. destruct (r_status r); reflexivity. }
  apply scan_status_sound in SS.
  assert (w_in w2 = rest /\ no_errors w2 /\ memory w2 /\ w_lens w2 = [] /\ w_body w2 = w_body w /\ w_resp w2 = w_resp w /\
          w_status w2 = if r_status r then Some (size32 v) else w_status w) as (I2 & NE2 & M2 & LE2 & BO2 & R2 & ST2).
  { subst w2 w1. split; [destruct (r_status r); reflexivity|]. split; [unfold no_errors; destruct (r_status r); apply forall_skipn; exact NE|].
    split; [unfold memory; destruct (r_status r); exact M|]. destruct (r_status r); auto. }
  clearbody w2. clear E w1.
  unfold read_headers at 1.
  destruct (a_line_any w2) as [(w3 & E)|(x & rest' & I3 & RX & E)].
  { erewrite bind_fail by (erewrite bind_fail by exact E; reflexivity). exact I. }
  set (w3 := rd _ _ _ w2) in E.
  destruct (headers_loop_any (S (length (w_in w3))) r 0 false w3 x (skipn (S (length x)) (w_buf w2)))
    as [(c & w4 & E4)|(lines & last & len & ch & fs & w4 & E4 & X & GL & RL & CL & LS & FO & NE4 & M4 & NL4 & L0 & IL & C4 & R4)].
  - reflexivity.
  - exact RX.
  - apply forall_skipn. exact NE2.
  - exact M2.
  - cbn. rewrite LE2. constructor.
  - lia.
  - now left.
  - lia.
  - erewrite bind_fail.
    2:{ erewrite bind_ret by exact E. erewrite bind_ret by reflexivity. exact E4. }
    exact I.
  - erewrite bind_ret.
    2:{ erewrite bind_ret by exact E. erewrite bind_ret by reflexivity. exact E4. }
    cbn [fst snd]. destruct C4 as (BO4 & _ & ST4 & _).
    cbn [w_in rd set_in w3] in X. cbn [w_body w_status w_resp w3 rd set_in set_sched set_buf] in BO4, ST4, R4.
    assert (w_in w = first ++ CRLF ++ lines_of lines ++ last ++ CRLF ++ w_in w4) as IN.
    { rewrite I1, <- I2, I3, X. reflexivity. }
    destruct ch.
    + unfold read_chunked_body. erewrite bind_ret by reflexivity.
      pose proof (chunks_any (S (length (w_in w4))) r [] 0 w4 NE4 M4 NL4) as G.
      match type of G with ?P -> _ => assert P as PB end.
      { intros RB. split; [|split; [reflexivity|apply total_natural; exact NL4]]. cbn. rewrite BO4, BO2. now apply B. }
      specialize (G PB). unfold means in *. destruct (chunks_loop _ r 0 HTTPAPI_OK w4) as [res w'|? ?|w'|]; auto.
      intros LO. destruct (G LO) as (-> & cut & consumed & data & IC & CH & (KR & KS) & BO'). split; [reflexivity|].
      exists (first ++ CRLF ++ lines_of lines ++ last ++ CRLF ++ consumed), (v mod 4294967296), fs, (map Some data), cut. split.
      { rewrite IN, IC, <- !app_assoc. reflexivity. }
      split; [apply (a_response _ _ _ _ _ first lines last consumed len true v); eauto|]. split; [rewrite KS, ST4; exact ST2|]. split; [rewrite KR, R4, R2; reflexivity|].
      destruct (r_body r); [|rewrite BO', BO4; exact BO2]. cbn [app] in BO'. unfold holds, filled in *. destruct data; exact BO'.
    + pose proof (sized_any r len w4 NE4 M4) as G.
      match type of G with ?P -> _ => assert P as PB end.
      { intros RB. rewrite BO4, BO2. now apply B. }
      specialize (G PB L0 IL). unfold means in *. destruct (read_sized_body r len w4) as [res w'|? ?|w'|]; auto.
      intros LO. destruct (G LO) as (-> & payload & IC & LP & (KR & KS) & BO'). split; [reflexivity|].
      exists (first ++ CRLF ++ lines_of lines ++ last ++ CRLF ++ payload), (v mod 4294967296), fs,
        (map Some payload ++ repeat None (Z.to_nat len - length payload)), (Z.of_nat (length payload) <? len). split.
      { rewrite IN, IC, <- !app_assoc. reflexivity. }
      split.
      { apply (a_response _ _ _ _ _ first lines last payload len false v); eauto. split; [exact LP|]. split; [reflexivity|]. rewrite Z.ltb_ge. lia. }
      split; [rewrite KS, ST4; exact ST2|]. split; [rewrite KR, R4, R2; reflexivity|].
      destruct (r_body r); [exact BO'|]. rewrite BO', BO4. exact BO2.
Qed.
