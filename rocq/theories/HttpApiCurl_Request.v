(* One request through adapters/httpapi_curl.c, and histories of requests. *)
From Verif Require Import Base Map_Model Map_Spec HttpHeaders_Model HttpHeaders_Spec HttpApiCurl_Model HttpApiCurl_Spec HttpApiCurl_Props.
Local Open Scope N_scope.

(** * Deliveries *)

(* blocks held by the response buffer *)
Definition held (b : rbuffer) : nat := match b with Held _ => 1 | _ => 0 end.
Definition hold (l : list N) : rbuffer := match l with [] => Null | _ => Held l end.

(* The state of the response after the deliveries [dn], when there was no undefined behaviour:
   w0 is the state before, o the answers of the whole request. *)
Definition response_state (rh : bool) (oom : Prop) (w0 : world) (dn : list delivery) (w : world) : Prop :=
  w_easy w = w_easy w0 /\ w_content w = w_content w0 /\ w_sent w = w_sent w0 /\
  w_live w = (w_live w0 + held (w_rbuf w))%nat /\
  (if rh then exists fs, script_fields dn fs /\ added oom fs (w_response w0) (w_response w)
   else w_response w = w_response w0) /\
  ((exists x, In x dn /\ piece x <> []) \/ w_rbuf w = Null /\ w_error w = false) /\
  (w_error w = false -> w_rbuf w = hold (concat (map piece dn))) /\
  (w_error w = true -> oom) /\ w_rbuf w <> Dangling.

Lemma script_fields_app a b fs gs : script_fields a fs -> script_fields b gs -> script_fields (a ++ b) (fs ++ gs).
Proof.
  induction 1; intros G; cbn [app]; [auto| |constructor; auto].
  rewrite <- app_assoc. econstructor; eauto.
Qed.

Lemma line_text_or line after : (exists s, line_text line after s) \/ ~ In 0 (line ++ after).
Proof.
  unfold line_text. induction (line ++ after) as [|c l IH]; [right; intros []|].
  destruct (N.eq_dec c 0) as [->|Hc].
  - left. exists [], l. split; [reflexivity|intros []].
  - destruct IH as [(s & rest & -> & F)|F].
    + left. exists (c :: s), rest. split; [reflexivity|]. intros [?|?]; auto.
    + right. intros [?|?]; auto.
Qed.

(* The cases in which the deliveries may lead to undefined behaviour. *)
Definition may_break (rh : bool) (oom : Prop) (ds : list delivery) : Prop :=
  (rh = true /\ unterminated ds) \/ (oom /\ grows ds).

Lemma concat_snoc dn d : concat (map piece (dn ++ [d])) = concat (map piece dn) ++ piece d.
Proof. now rewrite map_app, concat_app, <- (app_nil_r (piece d)). Qed.

Lemma deliver_spec : forall n rh (oom : Prop) w0 dn d rest w,
  o_wfun (w_easy w0) = true -> o_wdata (w_easy w0) = Some n ->
  o_hfun (w_easy w0) = rh -> o_hdata (w_easy w0) = (if rh then Some n else None) ->
  (In false (w_oracle w) -> oom) ->
  response_state rh oom w0 dn w ->
  match deliver n d w with
  | Some (_, w') => later w w' /\ (response_state rh oom w0 (dn ++ [d]) w' \/
                                   w_rbuf w' = Dangling /\ may_break rh oom (dn ++ d :: rest))
  | None => may_break rh oom (dn ++ d :: rest)
  end.
Proof.
  intros n rh oom w0 dn d rest w Wf Wd Hf Hd Or (S1 & S2 & S3 & S4 & S5 & S6 & S7 & S8 & S9).
  unfold deliver, bindC, get. rewrite S1, Wf, Wd, Hf, Hd. destruct d as [line after|bytes].
  - (* a header line *)
    destruct rh.
    2: { cbn [done]. split; [apply later_refl|]. left.
         unfold response_state. rewrite concat_snoc. cbn [piece]. rewrite app_nil_r.
         repeat (split; [assumption|]). split; [|auto].
         destruct S6 as [(x & I & X)|S6]; [left; exists x; split; [apply in_or_app; auto|auto]|auto]. }
    rewrite Nat.eqb_refl.
    destruct (line_text_or line after) as [(s & T)|T].
    + destruct (header_tokens_spec (length s) s w (le_n _)) as (w' & fs & A & B & L & D & E).
      unfold HeadersWriteFunction. rewrite (proj2 (c_string_text (line ++ after) s) T), A.
      split; [exact L|]. left.
      assert (w_easy w' = w_easy w /\ w_content w' = w_content w /\ w_sent w' = w_sent w /\
              w_live w' = w_live w /\ w_rbuf w' = w_rbuf w /\ w_error w' = w_error w) as (E1 & E2 & E3 & E4 & E5 & E6).
      { rewrite B. now destruct w. }
      unfold response_state. rewrite E1, E2, E3, E4, E5, E6, concat_snoc. cbn [piece]. rewrite app_nil_r.
      repeat (split; [assumption|]). split.
      { destruct S5 as (gs & G & H). exists (gs ++ fs). split.
        - apply script_fields_app; [exact G|]. replace fs with (fs ++ []) by apply app_nil_r.
          econstructor; [exact T|exact D|constructor].
        - eapply added_app; [exact H|]. eapply added_weaken; [exact Or|exact E]. }
      split; [|auto].
      destruct S6 as [(x & I & X)|S6]; [left; exists x; split; [apply in_or_app; auto|auto]|auto].
    + unfold HeadersWriteFunction. destruct (c_string_of (line ++ after)) as [s|] eqn:Cs.
      { apply c_string_text in Cs as (r & Cs & _). exfalso. apply T. rewrite Cs. apply in_or_app. right. now left. }
      left. split; [reflexivity|]. exists line, after. split; [|exact T]. apply in_or_app. right. now left.
  - (* a piece of the body *)
    rewrite Nat.eqb_refl. unfold ContentWriteFunction.
    assert (forall w', w_response w' = w_response w ->
      (if rh then exists fs, script_fields (dn ++ [Piece bytes]) fs /\ added oom fs (w_response w0) (w_response w')
       else w_response w' = w_response w0)) as S5'.
    { intros w' ->. destruct rh; [|exact S5]. destruct S5 as (fs & A & B). exists fs. split; [|exact B].
      replace fs with (fs ++ []) by apply app_nil_r. apply script_fields_app; [exact A|]. repeat constructor. }
    destruct (length bytes =? 0)%nat eqn:Lb.
    { destruct bytes; [|discriminate]. cbn [done]. split; [apply later_refl|]. left.
      unfold response_state. rewrite concat_snoc. cbn [piece]. rewrite app_nil_r.
      repeat (split; [assumption|]). split; [apply S5'; reflexivity|]. split; [|auto].
      destruct S6 as [(x & I & X)|S6]; [left; exists x; split; [apply in_or_app; auto|auto]|auto]. }
    assert (bytes <> []) as Nb by (now destruct bytes).
    unfold bindC, get. cbn beta iota.
    destruct (answer_spec w) as (b & w1 & A1 & A2 & A3 & A4).
    assert (w_easy w1 = w_easy w /\ w_content w1 = w_content w /\ w_sent w1 = w_sent w /\
            w_live w1 = w_live w /\ w_rbuf w1 = w_rbuf w /\ w_error w1 = w_error w /\
            w_response w1 = w_response w) as (E1 & E2 & E3 & E4 & E5 & E6 & E7).
    { rewrite A2. now destruct w. }
    assert (forall v, concat (map piece (dn ++ [Piece bytes])) = v -> v = concat (map piece dn) ++ bytes) as Cc.
    { intros v <-. rewrite concat_snoc. reflexivity. }
    destruct (w_rbuf w) as [|l|] eqn:Rb.
    + rewrite A1. destruct b.
      * unfold allocated, change. cbn beta iota.
        split. { destruct A3 as [u A3]. exists u. exact A3. }
        left. unfold response_state. cbn [with_rbuf with_live w_easy w_content w_sent w_live w_rbuf w_error held].
        rewrite E1, E2, E3, E4, E6. repeat (split; [assumption|]). split; [rewrite S4; cbn [held]; lia|].
        split; [apply S5'; exact E7|]. split.
        { left. exists (Piece bytes). split; [apply in_or_app; right; now left|exact Nb]. }
        split; [|split; [exact S8|discriminate] ]. intros Er. specialize (S7 Er).
        rewrite concat_snoc. cbn [piece].
        destruct (concat (map piece dn)); [|discriminate]. cbn [app]. destruct bytes; [now destruct Nb|reflexivity].
      * unfold change, done. cbn beta iota.
        split. { destruct A3 as [u A3]. exists u. exact A3. }
        left. unfold response_state. cbn [with_error w_easy w_content w_sent w_live w_rbuf w_error].
        rewrite E1, E2, E3, E4, E5. repeat (split; [assumption|]).
        split; [apply S5'; exact E7|]. split.
        { left. exists (Piece bytes). split; [apply in_or_app; right; now left|exact Nb]. }
        split; [discriminate|]. split; [auto|discriminate].
    + rewrite A1. destruct b.
      * unfold change. cbn beta iota.
        split. { destruct A3 as [u A3]. exists u. exact A3. }
        left. unfold response_state. cbn [with_rbuf with_live w_easy w_content w_sent w_live w_rbuf w_error held].
        rewrite E1, E2, E3, E4, E6. repeat (split; [assumption|]).
        split; [apply S5'; exact E7|]. split.
        { left. exists (Piece bytes). split; [apply in_or_app; right; now left|exact Nb]. }
        split; [|split; [exact S8|discriminate] ]. intros Er. specialize (S7 Er).
        rewrite concat_snoc. cbn [piece]. unfold hold in S7.
        destruct (concat (map piece dn)) as [|x y]; [discriminate|]. injection S7 as ->. reflexivity.
      * assert (may_break rh oom (dn ++ Piece bytes :: rest)) as U.
        { right. split; [auto|]. destruct S6 as [(x & I & X)|(X & _)]; [|discriminate].
          apply in_split in I as (p & q & ->). exists p, x, q, (Piece bytes), rest.
          rewrite <- app_assoc. auto. }
        unfold change, freed. cbn beta iota. cbn [with_error w_live]. rewrite E4, S4. cbn [held].
        rewrite Nat.add_1_r. cbn beta iota.
        split. { destruct A3 as [u A3]. exists u. exact A3. }
        right. split; [reflexivity|exact U].
    + now destruct S9.
Qed.

Lemma deliver_dangling : forall n d w,
  w_rbuf w = Dangling ->
  match deliver n d w with Some (_, w') => w_rbuf w' = Dangling | None => True end.
Proof.
  intros n d w R. unfold deliver, bindC, get. destruct d as [line after|bytes].
  - destruct (o_hfun (w_easy w)); [|exact R]. destruct (o_hdata (w_easy w)) as [k|]; [|exact R].
    destruct (k =? n)%nat; [|exact I]. unfold HeadersWriteFunction.
    destruct (c_string_of (line ++ after)) as [s|]; [|exact I].
    destruct (header_tokens_spec (length s) s w (le_n _)) as (w' & fs & A & B & _).
    rewrite A. rewrite B. now destruct w.
  - destruct (o_wfun (w_easy w)); [|exact I]. destruct (o_wdata (w_easy w)) as [k|]; [|exact I].
    destruct (k =? n)%nat; [|exact I]. unfold ContentWriteFunction, bindC, get.
    destruct (length bytes =? 0)%nat; [exact R|]. rewrite R. exact I.
Qed.
Lemma deliver_all_dangling : forall n ds w,
  w_rbuf w = Dangling ->
  match deliver_all n ds w with Some (_, w') => w_rbuf w' = Dangling | None => True end.
Proof.
  induction ds as [|d ds IH]; intros w R; [exact R|]. cbn [deliver_all]. unfold bindC.
  pose proof (deliver_dangling n d w R). destruct (deliver n d w) as [[u w1]|]; [|exact I]. now apply IH.
Qed.

Lemma deliver_all_spec : forall n rh (oom : Prop) w0,
  o_wfun (w_easy w0) = true -> o_wdata (w_easy w0) = Some n ->
  o_hfun (w_easy w0) = rh -> o_hdata (w_easy w0) = (if rh then Some n else None) ->
  forall ds dn w, (In false (w_oracle w) -> oom) -> response_state rh oom w0 dn w ->
  match deliver_all n ds w with
  | Some (_, w') => later w w' /\ response_state rh oom w0 (dn ++ ds) w' \/
                    w_rbuf w' = Dangling /\ may_break rh oom (dn ++ ds)
  | None => may_break rh oom (dn ++ ds)
  end.
Proof.
  intros n rh oom w0 Wf Wd Hf Hd ds. induction ds as [|d ds IH]; intros dn w Or S.
  - cbn [deliver_all done]. left. split; [apply later_refl|]. now rewrite app_nil_r.
  - cbn [deliver_all]. unfold bindC.
    pose proof (deliver_spec n rh oom w0 dn d ds w Wf Wd Hf Hd Or S) as D.
    destruct (deliver n d w) as [[u w1]|]; [|exact D].
    destruct D as (L & [D | [D U] ]).
    + assert (In false (w_oracle w1) -> oom) as Or1 by (intros I; apply Or; eapply later_in; eassumption).
      specialize (IH (dn ++ [d]) w1 Or1 D). rewrite <- app_assoc in IH. cbn [app] in IH.
      destruct (deliver_all n ds w1) as [[u' w2]|]; [|exact IH].
      destruct IH as [[L2 IH]|IH]; [left; split; [eapply later_trans; eassumption|exact IH]|now right].
    + pose proof (deliver_all_dangling n ds w1 D) as D2.
      destruct (deliver_all n ds w1) as [[u' w2]|]; [now right|exact U].
Qed.

Lemma freed_ok w n : w_live w = S n -> freed w = Some (tt, with_live w n).
Proof. intros E. unfold freed. now rewrite E. Qed.

Lemma transfer_spec : forall n r s w (oom : Prop),
  o_wfun (w_easy w) = true -> o_wdata (w_easy w) = Some n ->
  o_hfun (w_easy w) = r_response r -> o_hdata (w_easy w) = (if r_response r then Some n else None) ->
  valid_at n (w_easy w) = true -> w_rbuf w = Null -> w_error w = false ->
  (In false (w_oracle w) -> oom) ->
  match transfer n r s w with
  | Some ((res, st), w') =>
      later w w' /\ w_easy w' = w_easy w /\ w_live w' = w_live w /\ w_sent w' = w_easy w :: w_sent w /\
      headers_of_answer oom r s (w_response w) (w_response w') /\
      answered oom r s (w_content w) res st (w_content w')
  | None => may_break (r_response r) oom (s_deliveries s)
  end.
Proof.
  intros n r s w oom Wf Wd Hf Hd V Rb Er Or.
  unfold transfer, bindC. unfold perform, bindC, get, change. rewrite V. cbn [negb].
  set (w0 := with_sent w (w_easy w :: w_sent w)).
  assert (response_state (r_response r) oom w0 [] w0) as S0.
  { unfold response_state, w0. cbn [with_sent w_easy w_content w_sent w_live w_rbuf w_error w_response].
    rewrite Rb, Er. cbn [held hold map concat]. repeat split; try auto; try discriminate.
    destruct (r_response r); [|reflexivity]. exists []. split; constructor. }
  pose proof (deliver_all_spec n (r_response r) oom w0 Wf Wd Hf Hd (s_deliveries s) [] w0 Or S0) as D.
  cbn [app] in D. destruct (deliver_all n (s_deliveries s) w0) as [[u w1]|]; [|exact D].
  unfold done at 1.
  destruct D as [[L S]|[R U] ].
  2: { (* the buffer dangles *)
    assert (forall (m : C (HTTPAPI_RESULT * option Z)),
      (match m w1 with Some (_, w') => w_rbuf w' = Dangling | None => True end) ->
      match (match m w1 with
       | Some (a, w2) => match match w_rbuf w2 with
                      | Null => done tt | Held _ => freed | Dangling => undefined end w2 with
                      | Some (_, w3) => done a w3 | None => None end
       | None => None end) with Some _ => False | None => True end) as Z.
    { intros m. destruct (m w1) as [[a w2]|]; [|auto]. intros ->. exact I. }
    match goal with |- match (match ?m w1 with _ => _ end) with _ => _ end => specialize (Z m) end.
    match type of Z with ?A -> _ => assert A as Y end.
    { destruct (s_ok s); cbn [negb done]; [|exact R]. destruct (s_code s) as [code|]; [|exact R].
      destruct (w_error w1); [exact R|]. destruct (r_body r); [rewrite R; exact I|].
      cbn [done]. destruct (code >=? 300)%Z; exact R. }
    specialize (Z Y). clear Y.
    match type of Z with match ?X with _ => _ end => destruct X as [[[res st] w9]|] end; [destruct Z|exact U]. }
  destruct S as (S1 & S2 & S3 & S4 & S5 & S6 & S7 & S8 & S9).
  assert (headers_of_answer oom r s (w_response w) (w_response w1)) as Hh.
  { unfold headers_of_answer. destruct (r_response r); exact S5. }
  cbn [w0 with_sent w_easy w_content w_sent w_live w_response] in S1, S2, S3, S4.
  assert (later w w1) as Lw. { destruct L as [x L]. exists x. exact L. }
  (* the block of the buffer is given back *)
  assert (forall a w2, w_rbuf w2 = w_rbuf w1 -> w_live w2 = w_live w1 ->
    exists w3, match match w_rbuf w2 with
                      | Null => done tt | Held _ => freed | Dangling => undefined end w2 with
                      | Some (_, w3) => done a w3 | None => None end = Some (a : HTTPAPI_RESULT * option Z, w3) /\
      w_live w3 = w_live w /\ w_easy w3 = w_easy w2 /\ w_sent w3 = w_sent w2 /\ w_response w3 = w_response w2 /\
      w_content w3 = w_content w2 /\ w_oracle w3 = w_oracle w2) as Fr.
  { intros a w2 E1 E2. rewrite E1. destruct (w_rbuf w1) as [|l|]; [| |now destruct S9].
    - exists w2. cbn [held] in S4. split; [reflexivity|]. repeat (split; [congruence || lia|]). congruence.
    - cbn [held] in S4. rewrite (freed_ok w2 (w_live w)) by lia. eexists. split; [reflexivity|].
      now repeat split. }
  assert (w_error w1 = true -> body s <> []) as Nb.
  { intros E. destruct S6 as [(x & I & X)|(_ & X)]; [|congruence].
    apply in_split in I as (p & q & Eq). unfold body. rewrite Eq, map_app, concat_app. cbn [map concat].
    intros Z. apply app_eq_nil in Z as [_ Z]. apply app_eq_nil in Z as [Z _]. auto. }
  destruct (s_ok s) eqn:Ok; cbn [negb].
  2: { unfold done at 1. destruct (Fr (HTTPAPI_OPEN_REQUEST_FAILED, None) w1 eq_refl eq_refl) as (w3 & -> & F1 & F2 & F3 & F4 & F5 & F6).
       rewrite F2, F1, F3, F4, F5, S1, S2, S3. split; [destruct Lw as [x Lw]; exists x; now rewrite F6|].
       repeat (split; [auto|]). now apply answered_failed. }
  destruct (s_code s) as [code|] eqn:Co.
  2: { unfold done at 1. destruct (Fr (HTTPAPI_QUERY_HEADERS_FAILED, None) w1 eq_refl eq_refl) as (w3 & -> & F1 & F2 & F3 & F4 & F5 & F6).
       rewrite F2, F1, F3, F4, F5, S1, S2, S3. split; [destruct Lw as [x Lw]; exists x; now rewrite F6|].
       repeat (split; [auto|]). now apply answered_no_code. }
  destruct (w_error w1) eqn:Er1.
  { unfold done at 1. destruct (Fr (HTTPAPI_READ_DATA_FAILED, None) w1 eq_refl eq_refl) as (w3 & -> & F1 & F2 & F3 & F4 & F5 & F6).
    rewrite F2, F1, F3, F4, F5, S1, S2, S3. split; [destruct Lw as [x Lw]; exists x; now rewrite F6|].
    repeat (split; [auto|]). eapply answered_read_failed; eauto. }
  specialize (S7 eq_refl). fold (body s) in S7.
  change (status_of code) with (code mod 2^32)%Z. set (st := if r_status r then Some (code mod 2^32)%Z else None).
  destruct (r_body r) eqn:Bo.
  - rewrite S7 in *. unfold hold in *. destruct (body s) as [|x y] eqn:B.
    + unfold done at 1. destruct (code >=? 300)%Z.
      * unfold done at 1. destruct (Fr (HTTPAPI_OK, st) w1 S7 eq_refl) as (w3 & -> & F1 & F2 & F3 & F4 & F5 & F6).
        rewrite F2, F1, F3, F4, F5, S1, S2, S3. split; [destruct Lw as [z Lw]; exists z; now rewrite F6|].
        repeat (split; [auto|]). apply (answered_empty oom r s (w_content w) code); auto.
      * unfold done at 1. destruct (Fr (HTTPAPI_OK, st) w1 S7 eq_refl) as (w3 & -> & F1 & F2 & F3 & F4 & F5 & F6).
        rewrite F2, F1, F3, F4, F5, S1, S2, S3. split; [destruct Lw as [z Lw]; exists z; now rewrite F6|].
        repeat (split; [auto|]). apply (answered_empty oom r s (w_content w) code); auto.
    + destruct (answer_spec w1) as (m & w2 & A1 & A2 & A3 & A4). rewrite A1.
      assert (In false (w_oracle w1) -> oom) as Or1.
      { intros I. apply Or. eapply later_in; [exact Lw|exact I]. }
      assert (w_easy w2 = w_easy w1 /\ w_content w2 = w_content w1 /\ w_sent w2 = w_sent w1 /\
              w_live w2 = w_live w1 /\ w_rbuf w2 = w_rbuf w1 /\ w_response w2 = w_response w1) as (E1 & E2 & E3 & E4 & E5 & E6).
      { rewrite A2. now destruct w1. }
      destruct m.
      * unfold done at 1.
        set (w2' := with_content w2 (x :: y)).
        assert (forall a b : C (HTTPAPI_RESULT * option Z), True) as _ by auto.
        assert ((if (code >=? 300)%Z then done (HTTPAPI_OK, st) else done (HTTPAPI_OK, st)) w2' = Some ((HTTPAPI_OK, st), w2')) as Q
          by (destruct (code >=? 300)%Z; reflexivity).
        rewrite Q. destruct (Fr (HTTPAPI_OK, st) w2') as (w3 & W3 & F1 & F2 & F3 & F4 & F5 & F6); [cbn; congruence|cbn; congruence|].
        rewrite W3. rewrite F2, F1, F3, F4, F5. unfold w2'. cbn [with_content w_easy w_sent w_response w_content].
        rewrite E1, E3, E6, S1, S3. split.
        { eapply later_trans; [exact Lw|]. destruct A3 as [z A3]. exists z. rewrite F6. exact A3. }
        repeat (split; [auto|]). rewrite <- B. apply (answered_body oom r s (w_content w) code); auto. now rewrite B.
      * unfold done at 1.
        assert ((if (code >=? 300)%Z then done (HTTPAPI_INSUFFICIENT_RESPONSE_BUFFER, st) else done (HTTPAPI_OK, st)) w2 =
          Some ((if (code >=? 300)%Z then HTTPAPI_INSUFFICIENT_RESPONSE_BUFFER else HTTPAPI_OK, st), w2)) as Q
          by (destruct (code >=? 300)%Z; reflexivity).
        rewrite Q. destruct (Fr (if (code >=? 300)%Z then HTTPAPI_INSUFFICIENT_RESPONSE_BUFFER else HTTPAPI_OK, st) w2) as (w3 & W3 & F1 & F2 & F3 & F4 & F5 & F6); [congruence|congruence|].
        rewrite W3. rewrite F2, F1, F3, F4, F5. rewrite E1, E2, E3, E6, S1, S2, S3. split.
        { eapply later_trans; [exact Lw|]. destruct A3 as [z A3]. exists z. rewrite F6. exact A3. }
        repeat (split; [auto|]). apply answered_lost; auto. rewrite B. discriminate.
  - unfold done at 1.
    assert ((if (code >=? 300)%Z then done (HTTPAPI_OK, st) else done (HTTPAPI_OK, st)) w1 = Some ((HTTPAPI_OK, st), w1)) as Q
      by (destruct (code >=? 300)%Z; reflexivity).
    rewrite Q. destruct (Fr (HTTPAPI_OK, st) w1 eq_refl eq_refl) as (w3 & -> & F1 & F2 & F3 & F4 & F5 & F6).
    rewrite F2, F1, F3, F4, F5, S1, S2, S3. split; [destruct Lw as [z Lw]; exists z; now rewrite F6|].
    repeat (split; [auto|]). apply (answered_empty oom r s (w_content w) code); auto.
Qed.

(** * The request *)

Definition oom_of (w : world) : Prop := In false (w_oracle w).

Lemma with_parts w : with_oracle (with_easy w (w_easy w)) (w_oracle w) = w.
Proof. now destruct w. Qed.

Lemma setopt_spec : forall f w, exists b w', setopt f w = Some (b, w') /\ later w w' /\
  w' = with_oracle (with_easy w (w_easy w')) (w_oracle w') /\
  (b = true -> w_easy w' = f (w_easy w)) /\ (b = false -> oom_of w).
Proof.
  intros f w. destruct (answer_spec w) as (b & w1 & A1 & A2 & A3 & A4).
  unfold setopt, bindC. rewrite A1. destruct b.
  - exists true. eexists. split; [reflexivity|]. split; [destruct A3 as [u A3]; exists u; exact A3|].
    cbn [with_easy w_easy w_oracle]. split; [rewrite A2; now destruct w|].
    split; [rewrite A2; now destruct w|discriminate].
  - exists false, w1. split; [reflexivity|]. split; [exact A3|].
    split; [rewrite A2; now destruct w|]. split; [discriminate|auto].
Qed.
Lemma setopts_spec : forall fs w, exists b w', setopts fs w = Some (b, w') /\ later w w' /\
  w' = with_oracle (with_easy w (w_easy w')) (w_oracle w') /\
  (b = true -> w_easy w' = fold_left (fun e f => f e) fs (w_easy w)) /\ (b = false -> oom_of w).
Proof.
  induction fs as [|f fs IH]; intros w; cbn [setopts fold_left].
  - exists true, w. split; [reflexivity|]. split; [apply later_refl|]. split; [now rewrite with_parts|].
    split; [auto|discriminate].
  - destruct (setopt_spec f w) as (b & w1 & A1 & A2 & A3 & A4 & A5). unfold bindC. rewrite A1. destruct b.
    + destruct (IH w1) as (b & w2 & B1 & B2 & B3 & B4 & B5). exists b, w2. split; [exact B1|].
      split; [eapply later_trans; eassumption|]. split; [rewrite B3, A3; now destruct w|].
      split; [intros E; rewrite (B4 E), (A4 eq_refl); reflexivity|].
      intros E. eapply later_in; [exact A2|]. now apply B5.
    + exists false, w1. split; [reflexivity|]. split; [exact A2|]. split; [exact A3|].
      split; [discriminate|auto].
Qed.

Lemma header_list_spec : forall l acc w, exists code lines w', header_list l acc w = Some ((code, lines), w') /\
  later w w' /\ (length acc <= length lines)%nat /\
  w' = with_oracle (with_live w (w_live w + (length lines - length acc))) (w_oracle w') /\
  (code = HTTPAPI_OK /\ lines = acc ++ map (fun p => fst p ++ str ": " ++ snd p) l \/
   oom_of w /\ (code = HTTPAPI_HTTP_HEADERS_FAILED \/ code = HTTPAPI_ALLOC_FAILED)).
Proof.
  induction l as [|[n v] l IH]; intros acc w; cbn [header_list].
  - exists HTTPAPI_OK, acc, w. split; [reflexivity|]. split; [apply later_refl|]. split; [lia|].
    split. { rewrite Nat.sub_diag, Nat.add_0_r. now destruct w. }
    left. split; [reflexivity|]. cbn [map]. now rewrite app_nil_r.
  - unfold bindC. destruct (answer_spec w) as (m & w1 & A1 & A2 & A3 & A4). rewrite A1.
    destruct m; cbn [negb].
    2: { exists HTTPAPI_HTTP_HEADERS_FAILED, acc, w1. split; [reflexivity|]. split; [exact A3|]. split; [lia|].
         split. { rewrite Nat.sub_diag, Nat.add_0_r. rewrite A2. now destruct w. }
         right. split; [now apply A4|auto]. }
    unfold allocated, change. cbn beta iota.
    set (w2 := with_live w1 (S (w_live w1))).
    destruct (answer_spec w2) as (a & w3 & B1 & B2 & B3 & B4). rewrite B1.
    assert (w_live w3 = S (w_live w1)) as L3. { rewrite B2. reflexivity. }
    assert (w_live w1 = w_live w) as L1. { rewrite A2. reflexivity. }
    destruct a; cbn [negb].
    2: { rewrite (freed_ok w3 (w_live w1) L3). unfold done.
         exists HTTPAPI_ALLOC_FAILED, acc. eexists. split; [reflexivity|].
         split. { eapply later_trans; [exact A3|]. destruct B3 as [u B3]. exists u. exact B3. }
         split; [lia|]. split. { rewrite Nat.sub_diag, Nat.add_0_r. rewrite L1. rewrite B2. unfold w2. rewrite A2. now destruct w. }
         right. split; [|auto]. eapply later_in; [exact A3|]. now apply B4. }
    set (w4 := with_live w3 (S (w_live w3))).
    rewrite (freed_ok w4 (w_live w3) eq_refl).
    set (w5 := with_live w4 (w_live w3)).
    destruct (IH (acc ++ [n ++ str ": " ++ v]) w5) as (code & lines & w' & C1 & C2 & C3 & C4 & C5).
    exists code, lines, w'. split; [exact C1|].
    rewrite app_length in C3, C4. cbn [length] in C3, C4.
    assert (later w w5) as La.
    { eapply later_trans; [exact A3|]. destruct B3 as [u B3]. exists u. exact B3. }
    split; [eapply later_trans; [exact La|exact C2]|]. split; [lia|].
    split.
    { rewrite C4. replace (w_live w5 + (length lines - (length acc + 1)))%nat
        with (w_live w + (length lines - length acc))%nat.
      2: { unfold w5. cbn [with_live w_live]. rewrite L3, L1. lia. }
      unfold w5, w4. rewrite B2. unfold w2. rewrite A2. now destruct w. }
    destruct C5 as [[-> ->]|[O C5] ].
    + left. split; [reflexivity|]. cbn [map]. rewrite <- app_assoc. reflexivity.
    + right. split; [eapply later_in; [exact La|exact O]|exact C5].
Qed.

Lemma slist_free_spec : forall l w n, w_live w = (n + length l)%nat ->
  slist_free_all l w = Some (tt, with_live w n).
Proof.
  induction l as [|x l IH]; intros w n E; cbn [slist_free_all].
  - rewrite Nat.add_0_r in E. unfold done. subst n. now destruct w.
  - cbn [length] in E. unfold bindC. rewrite (freed_ok w (n + length l)) by lia.
    rewrite (IH _ n) by reflexivity. now destruct w.
Qed.

Definition outcome (n : nat) (hd : HTTP_HANDLE_DATA) (url : text) (r : request) (s : script)
  (w : world) (res : HTTPAPI_RESULT) (st : option Z) (w' : world) : Prop :=
  w_sent w' = w_sent w /\ w_response w' = w_response w /\ w_content w' = w_content w /\ st = None /\
    refused (oom_of w) r res
  \/ valid_request r /\
     exists e, w_sent w' = e :: w_sent w /\ as_asked n url hd r e /\
       ((r_type r = HTTPAPI_REQUEST_GET -> has_content r = false) -> wire_method e = method_name (r_type r)) /\
       headers_of_answer (oom_of w) r s (w_response w) (w_response w') /\
       answered (oom_of w) r s (w_content w) res st (w_content w').

Lemma wrap {X} (m : C X) (lines : list text) (w1 : world) (L : nat) :
  (forall a w2, m w1 = Some (a, w2) -> w_live w2 = (L + length lines)%nat) ->
  (res <- m ;; slist_free_all lines ;; done res) w1 =
    match m w1 with Some (a, w2) => Some (a, with_live w2 L) | None => None end.
Proof.
  intros H. unfold bindC. destruct (m w1) as [[a w2]|]; [|reflexivity].
  rewrite (slist_free_spec lines w2 L); [reflexivity|]. now apply (H a).
Qed.
Lemma wrap_freed {X} (m : C X) (w1 : world) (L : nat) :
  (forall a w2, m w1 = Some (a, w2) -> w_live w2 = S L) ->
  (res <- m ;; freed ;; done res) w1 =
    match m w1 with Some (a, w2) => Some (a, with_live w2 L) | None => None end.
Proof.
  intros H. unfold bindC. destruct (m w1) as [[a w2]|]; [|reflexivity].
  rewrite (freed_ok w2 L); [reflexivity|]. now apply (H a).
Qed.

(* The part from the header list on. *)
Definition rest_of (n : nat) (r : request) (s : script) (lines : list text) : C (HTTPAPI_RESULT * option Z) :=
  b <- setopt (set_headers (match lines with [] => None | _ => Some (n, lines) end)) ;;
  if negb b then done (HTTPAPI_SET_OPTION_FAILED, None)
  else
    b <- (match r_content r with
          | Some c =>
              if 0 <? r_length r then
                setopts [set_body (Some (n, c)); set_size (Z.of_N (r_length r))]
              else
                match r_type r with
                | HTTPAPI_REQUEST_GET => done true
                | _ => setopts [set_body None; set_size 0]
                end
          | None =>
              match r_type r with
              | HTTPAPI_REQUEST_GET => done true
              | _ => setopts [set_body None; set_size 0]
              end
          end) ;;
    if negb b then done (HTTPAPI_SET_OPTION_FAILED, None)
    else
      b <- setopts [set_hdata None; set_hfun false; set_wfun true] ;;
      if negb b then done (HTTPAPI_SET_OPTION_FAILED, None)
      else
        b <- (if r_response r
              then setopts [set_hdata (Some n); set_hfun true]
              else done true) ;;
        if negb b then done (HTTPAPI_SET_OPTION_FAILED, None)
        else
          change (fun w => with_error (with_rbuf w Null) false) ;;
          b <- setopt (set_wdata (Some n)) ;;
          if negb b then done (HTTPAPI_SET_OPTION_FAILED, None)
          else transfer n r s.

(* the options the body leads to *)
Definition body_options (n : nat) (r : request) : list (easy -> easy) :=
  if has_content r then
    match r_content r with
    | Some c => [set_body (Some (n, c)); set_size (Z.of_N (r_length r))]
    | None => []
    end
  else match r_type r with HTTPAPI_REQUEST_GET => [] | _ => [set_body None; set_size 0%Z] end.
Lemma body_options_ok n r :
  (match r_content r with
          | Some c =>
              if 0 <? r_length r then
                setopts [set_body (Some (n, c)); set_size (Z.of_N (r_length r))]
              else
                match r_type r with
                | HTTPAPI_REQUEST_GET => done true
                | _ => setopts [set_body None; set_size 0]
                end
          | None =>
              match r_type r with
              | HTTPAPI_REQUEST_GET => done true
              | _ => setopts [set_body None; set_size 0]
              end
          end) = setopts (body_options n r).
Proof.
  unfold body_options, has_content. destruct (r_content r) as [c|].
  - destruct (0 <? r_length r); [reflexivity|]. now destruct (r_type r).
  - now destruct (r_type r).
Qed.

(* the options set up to curl_easy_perform *)
Definition final_options (n : nat) (r : request) (lines : list text) : list (easy -> easy) :=
  set_headers (match lines with [] => None | _ => Some (n, lines) end) :: body_options n r ++
  [set_hdata None; set_hfun false; set_wfun true] ++
  (if r_response r then [set_hdata (Some n); set_hfun true] else []) ++ [set_wdata (Some n)].
Definition apply_all (fs : list (easy -> easy)) (e : easy) : easy := fold_left (fun e f => f e) fs e.

Lemma rest_spec : forall n r s lines w (oom : Prop),
  let e := apply_all (final_options n r lines) (w_easy w) in
  (oom_of w -> oom) -> valid_at n e = true ->
  match rest_of n r s lines w with
  | Some ((res, st), w') =>
      later w w' /\ w_live w' = w_live w /\
      (w_sent w' = w_sent w /\ w_response w' = w_response w /\ w_content w' = w_content w /\ st = None /\
       oom /\ res = HTTPAPI_SET_OPTION_FAILED
       \/ w_sent w' = e :: w_sent w /\
          headers_of_answer oom r s (w_response w) (w_response w') /\
          answered oom r s (w_content w) res st (w_content w'))
  | None => may_break (r_response r) oom (s_deliveries s)
  end.
Proof.
  intros n r s lines w oom e Oo Va. unfold rest_of. rewrite body_options_ok.
  assert (forall w', later w w' -> w' = with_oracle (with_easy w (w_easy w')) (w_oracle w') -> oom_of w ->
    later w w' /\ w_live w' = w_live w /\
      (w_sent w' = w_sent w /\ w_response w' = w_response w /\ w_content w' = w_content w /\ @None Z = None /\
       oom /\ HTTPAPI_SET_OPTION_FAILED = HTTPAPI_SET_OPTION_FAILED
       \/ w_sent w' = e :: w_sent w /\
          headers_of_answer oom r s (w_response w) (w_response w') /\
          answered oom r s (w_content w) HTTPAPI_SET_OPTION_FAILED None (w_content w'))) as Fail.
  { intros w' L E O. split; [exact L|]. rewrite E. split; [reflexivity|]. left.
    repeat (split; [reflexivity|]). auto. }
  unfold bindC at 1. destruct (setopt_spec (set_headers (match lines with [] => None | _ => Some (n, lines) end)) w)
    as (b1 & w1 & A1 & A2 & A3 & A4 & A5). rewrite A1.
  destruct b1; cbn [negb]; [|apply Fail; auto]. specialize (A4 eq_refl).
  unfold bindC at 1. destruct (setopts_spec (body_options n r) w1) as (b2 & w2 & B1 & B2 & B3 & B4 & B5). rewrite B1.
  assert (later w w2) as L2 by (eapply later_trans; eassumption).
  assert (w2 = with_oracle (with_easy w (w_easy w2)) (w_oracle w2)) as W2 by (rewrite B3, A3; now destruct w).
  destruct b2; cbn [negb]; [|apply Fail; auto; eapply later_in; [exact A2|now apply B5] ]. specialize (B4 eq_refl).
  unfold bindC at 1. destruct (setopts_spec [set_hdata None; set_hfun false; set_wfun true] w2) as (b3 & w3 & C1 & C2 & C3 & C4 & C5). rewrite C1.
  assert (later w w3) as L3 by (eapply later_trans; eassumption).
  assert (w3 = with_oracle (with_easy w (w_easy w3)) (w_oracle w3)) as W3 by (rewrite C3, W2; now destruct w).
  destruct b3; cbn [negb]; [|apply Fail; auto; eapply later_in; [exact L2|now apply C5] ]. specialize (C4 eq_refl).
  unfold bindC at 1.
  replace (if r_response r then setopts [set_hdata (Some n); set_hfun true] else done true)
    with (setopts (if r_response r then [set_hdata (Some n); set_hfun true] else [])) by (now destruct (r_response r)).
  destruct (setopts_spec (if r_response r then [set_hdata (Some n); set_hfun true] else []) w3) as (b4 & w4 & D1 & D2 & D3 & D4 & D5). rewrite D1.
  assert (later w w4) as L4 by (eapply later_trans; eassumption).
  assert (w4 = with_oracle (with_easy w (w_easy w4)) (w_oracle w4)) as W4 by (rewrite D3, W3; now destruct w).
  destruct b4; cbn [negb]; [|apply Fail; auto; eapply later_in; [exact L3|now apply D5] ]. specialize (D4 eq_refl).
  unfold bindC at 1, change.
  set (w5 := with_error (with_rbuf w4 Null) false).
  unfold bindC at 1. destruct (setopt_spec (set_wdata (Some n)) w5) as (b6 & w6 & E1 & E2 & E3 & E4 & E5). rewrite E1.
  assert (later w w6) as L6. { eapply later_trans; [exact L4|]. destruct E2 as [u E2]. exists u. exact E2. }
  assert (w_live w6 = w_live w /\ w_sent w6 = w_sent w /\ w_response w6 = w_response w /\ w_content w6 = w_content w /\
          w_rbuf w6 = Null /\ w_error w6 = false) as (F1 & F2 & F3 & F4 & F5 & F6).
  { rewrite E3. unfold w5. rewrite W4. now destruct w. }
  destruct b6; cbn [negb].
  2: { unfold done. split; [exact L6|]. split; [exact F1|]. left. repeat (split; [solve [auto]|]).
       split; [|reflexivity]. apply Oo. eapply later_in; [exact L4|]. apply (E5 eq_refl). }
  specialize (E4 eq_refl).
  assert (w_easy w6 = e) as We.
  { rewrite E4. unfold w5. cbn [with_error with_rbuf w_easy]. rewrite D4, C4, B4, A4.
    unfold e, apply_all, final_options. cbn [fold_left]. rewrite !fold_left_app. reflexivity. }
  assert (o_wfun e = true /\ o_wdata e = Some n /\ o_hfun e = r_response r /\
          o_hdata e = (if r_response r then Some n else None)) as (G1 & G2 & G3 & G4).
  { unfold e, apply_all, final_options. cbn [fold_left]. rewrite !fold_left_app.
    destruct (r_response r); cbn [fold_left]; repeat split. }
  rewrite <- We in G1, G2, G3, G4, Va.
  pose proof (transfer_spec n r s w6 oom G1 G2 G3 G4 Va F5 F6) as T.
  assert (In false (w_oracle w6) -> oom) as O6 by (intros I; apply Oo; eapply later_in; [exact L6|exact I]).
  specialize (T O6). destruct (transfer n r s w6) as [[[res st] w']|]; [|exact T].
  destruct T as (T1 & T2 & T3 & T4 & T5 & T6). split; [eapply later_trans; eassumption|].
  split; [congruence|]. right. rewrite T4, We, F2. rewrite F3 in T5. rewrite F4 in T6. auto.
Qed.

(* the options set before the header list is built *)
Definition first_options (url path : text) (hd : HTTP_HANDLE_DATA) : list (easy -> easy) :=
  [set_verbose (verbose hd); set_url (url ++ path); set_timeout (timeout hd); set_lslimit (lowSpeedLimit hd);
   set_lstime (lowSpeedTime hd); set_fresh (freshConnect hd); set_forbid (forbidReuse hd); set_version].

Lemma options_as_asked n url hd r path l fs e0 :
  r_path r = Some path -> r_headers r = Some l -> (r_content r = None -> r_length r = 0) ->
  method_options (r_type r) = Some fs ->
  let e := apply_all (final_options n r (asked_headers r)) (apply_all fs (apply_all (first_options url path hd) e0)) in
  as_asked n url hd r e /\ valid_at n e = true /\
  ((r_type r = HTTPAPI_REQUEST_GET -> has_content r = false) -> wire_method e = method_name (r_type r)).
Proof.
  intros Pa He Co Me e.
  assert (wire_headers n e = Some (asked_headers r) /\ o_headers e = match asked_headers r with [] => None | x => Some (n, x) end) as (Wh & Oh).
  { assert (o_headers e = match asked_headers r with [] => None | x => Some (n, x) end) as Oh.
    { unfold e, apply_all, final_options. cbn [fold_left]. rewrite !fold_left_app. unfold body_options, first_options.
      destruct (r_response r), (has_content r), (r_content r), (r_type r); cbn; try reflexivity; now destruct (asked_headers r). }
    split; [|exact Oh]. unfold wire_headers. rewrite Oh. destruct (asked_headers r); [reflexivity|]. now rewrite Nat.eqb_refl. }
  assert (asked_path r = path) as Ap by (unfold asked_path; now rewrite Pa).
  assert (o_url e = Some (url ++ path) /\ o_version e = true /\ o_timeout e = timeout hd /\
    o_lslimit e = lowSpeedLimit hd /\ o_lstime e = lowSpeedTime hd /\ o_fresh e = freshConnect hd /\
    o_forbid e = forbidReuse hd /\ o_verbose e = verbose hd) as O.
  { unfold e, apply_all, final_options. cbn [fold_left]. rewrite !fold_left_app. unfold body_options, first_options.
    destruct (r_type r); try discriminate Me; injection Me as <-;
      destruct (r_response r), (has_content r), (r_content r); cbn; repeat split. }
  assert (wire_body n e = Some (asked_body r) /\
          match o_req e, o_body e with REQ_POST, Some (k, _) => (k =? n)%nat | _, _ => true end = true) as (Wb & Vb).
  { unfold wire_body, asked_body. unfold e, apply_all, final_options. cbn [fold_left]. rewrite !fold_left_app.
    unfold body_options, has_content. destruct (r_content r) as [c|] eqn:Ec.
    - destruct (0 <? r_length r) eqn:El.
      + assert (Z.to_nat (Z.of_N (r_length r)) = N.to_nat (r_length r)) as X by lia.
        destruct (r_response r); cbn [fold_left o_req o_body o_size set_wdata set_hdata set_hfun set_wfun set_size set_body app];
          rewrite Nat.eqb_refl, X; auto.
      + apply N.ltb_ge in El. replace (r_length r) with 0 by lia. cbn [N.to_nat firstn].
        destruct (r_type r) eqn:Et; try discriminate Me; injection Me as <-; destruct (r_response r); cbn; auto.
    - destruct (r_type r) eqn:Et; try discriminate Me; injection Me as <-; destruct (r_response r); cbn; auto. }
  split; [|split].
  - unfold as_asked. rewrite Ap. destruct O as (O1 & O2 & O3 & O4 & O5 & O6 & O7 & O8). auto 12.
  - unfold valid_at. rewrite Vb, Oh. destruct (asked_headers r); [reflexivity|]. now rewrite Nat.eqb_refl.
  - intros G. unfold wire_method, e, apply_all, final_options. cbn [fold_left]. rewrite !fold_left_app.
    unfold body_options. destruct (r_type r) eqn:Et; try discriminate Me; injection Me as <-.
    + rewrite (G eq_refl). destruct (r_response r); reflexivity.
    + destruct (has_content r), (r_content r), (r_response r); reflexivity.
    + destruct (has_content r), (r_content r), (r_response r); reflexivity.
    + destruct (has_content r), (r_content r), (r_response r); reflexivity.
    + destruct (has_content r), (r_content r), (r_response r); reflexivity.
Qed.

(* C87, C88: any request on a connection, in whatever state earlier requests left the libcurl
   handle, whatever libcurl and the allocator answer.  Nothing is sent or exactly this request,
   with the headers, body and settings asked for; the caller gets the answer; every block is given
   back; and the behaviour is defined but for two cases ([may_break]): a header line that is not
   followed by a 0, and a response buffer that cannot grow. *)
Theorem execute_request : forall n hd url r s w, hostURL hd = Some url ->
  match HTTPAPI_ExecuteRequest n (Connection hd) r s w with
  | Some ((res, st), w') => w_live w' = w_live w /\ outcome n hd url r s w res st w'
  | None => valid_request r /\ may_break (r_response r) (oom_of w) (s_deliveries s)
  end.
Proof.
  intros n hd url r s w Hu. unfold HTTPAPI_ExecuteRequest.
  assert (~ valid_request r -> w_live w = w_live w /\ outcome n hd url r s w HTTPAPI_INVALID_ARG None w) as Inv.
  { intros V. split; [reflexivity|]. left. repeat (split; [reflexivity|]). left. auto. }
  destruct (r_path r) as [path|] eqn:Pa.
  2: { apply Inv. intros (X & _). now destruct X. }
  destruct (r_headers r) as [l|] eqn:He.
  2: { apply Inv. intros (_ & X & _). now destruct X. }
  destruct ((match r_content r with None => true | _ => false end) && (0 <? r_length r)) eqn:Cl.
  { apply andb_prop in Cl as [C1 C2]. apply N.ltb_lt in C2. apply Inv. intros (_ & _ & X & _).
    destruct (r_content r); [discriminate|]. rewrite (X eq_refl) in C2. lia. }
  assert (r_content r = None -> r_length r = 0) as Co.
  { intros E. rewrite E in Cl. cbn in Cl. apply N.ltb_ge in Cl. lia. }
  rewrite Hu. clear Inv Cl.
  unfold bindC at 1. destruct (answer_spec w) as (m & w1 & A1 & A2 & A3 & A4). rewrite A1.
  assert (w_live w1 = w_live w /\ w_sent w1 = w_sent w /\ w_response w1 = w_response w /\ w_content w1 = w_content w)
    as (R1 & R2 & R3 & R4) by (rewrite A2; now destruct w).
  destruct m; cbn [negb].
  2: { unfold done. cbv beta iota. split; [exact R1|]. left. repeat (split; [solve [auto]|]). right.
       split; [now apply A4|]. now left. }
  unfold bindC at 1. unfold allocated, change. cbv beta iota.
  set (w2 := with_live w1 (S (w_live w1))).
  match goal with |- match bindC ?m _ w2 with _ => _ end => set (inner := m) end.
  (* it is enough to look at the inner part *)
  assert (match inner w2 with
    | Some ((res, st), w') => w_live w' = S (w_live w) /\ outcome n hd url r s w res st w'
    | None => valid_request r /\ may_break (r_response r) (oom_of w) (s_deliveries s)
    end) as Goal1.
  2: { rewrite (wrap_freed inner w2 (w_live w)).
       - destruct (inner w2) as [[[res st] w3]|]; [|exact Goal1]. destruct Goal1 as [_ G]. split; [reflexivity|].
         exact G.
       - intros [res st] w3 E. rewrite E in Goal1. apply Goal1. }
  unfold inner. clear inner. fold (first_options url path hd). unfold bindC at 1.
  destruct (setopts_spec (first_options url path hd) w2) as (b3 & w3 & B1 & B2 & B3 & B4 & B5). rewrite B1.
  assert (later w w2) as L2 by (destruct A3 as [u A3]; exists u; exact A3).
  assert (later w w3) as L3 by (eapply later_trans; eassumption).
  assert (w_live w3 = S (w_live w) /\ w_sent w3 = w_sent w /\ w_response w3 = w_response w /\ w_content w3 = w_content w /\
          w_easy w2 = w_easy w) as (S1 & S2 & S3 & S4 & S5).
  { rewrite B3. unfold w2. rewrite A2. now destruct w. }
  destruct b3; cbn [negb].
  2: { unfold done. cbv beta iota. split; [exact S1|]. left. repeat (split; [solve [auto]|]). right.
       split; [eapply later_in; [exact L2|now apply B5]|]. right. now left. }
  specialize (B4 eq_refl).
  destruct (method_options (r_type r)) as [fs|] eqn:Me.
  2: { unfold done. cbv beta iota. split; [exact S1|]. left. repeat (split; [solve [auto]|]). left.
       split; [|reflexivity]. intros (_ & _ & _ & X). destruct (r_type r); try discriminate. now destruct X. }
  assert (valid_request r) as Va.
  { split; [now rewrite Pa|]. split; [now rewrite He|]. split; [exact Co|].
    intros X. now rewrite X in Me. }
  unfold bindC at 1. destruct (setopts_spec fs w3) as (b4 & w4 & C1 & C2 & C3 & C4 & C5). rewrite C1.
  assert (later w w4) as L4 by (eapply later_trans; eassumption).
  assert (w_live w4 = S (w_live w) /\ w_sent w4 = w_sent w /\ w_response w4 = w_response w /\ w_content w4 = w_content w)
    as (T1 & T2 & T3 & T4) by (rewrite C3; cbn; auto).
  destruct b4; cbn [negb].
  2: { unfold done. cbv beta iota. split; [exact T1|]. left. repeat (split; [solve [auto]|]). right.
       split; [eapply later_in; [exact L3|now apply C5]|]. right. now left. }
  specialize (C4 eq_refl).
  unfold bindC at 1. destruct (header_list_spec l [] w4) as (code & lines & w5 & D1 & D2 & _ & D4 & D5). rewrite D1.
  cbn [length] in D4. rewrite Nat.sub_0_r in D4.
  assert (later w w5) as L5 by (eapply later_trans; eassumption).
  assert (w_live w5 = (S (w_live w) + length lines)%nat /\ w_sent w5 = w_sent w /\ w_response w5 = w_response w /\
          w_content w5 = w_content w /\ w_easy w5 = w_easy w4) as (U1 & U2 & U3 & U4 & U5).
  { rewrite D4. cbn. rewrite T1. auto. }
  match goal with |- match bindC ?m _ w5 with _ => _ end => set (inner := m) end.
  assert (match inner w5 with
    | Some ((res, st), w') => w_live w' = (S (w_live w) + length lines)%nat /\ outcome n hd url r s w res st w'
    | None => may_break (r_response r) (oom_of w) (s_deliveries s)
    end) as Goal2.
  2: { rewrite (wrap inner lines w5 (S (w_live w))).
       - destruct (inner w5) as [[[res st] w6]|]; [|auto]. destruct Goal2 as [_ G]. split; [reflexivity|exact G].
       - intros [res st] w6 E. rewrite E in Goal2. apply Goal2. }
  destruct D5 as [[-> Li]|[Oo Dc] ].
  2: { assert (inner w5 = Some ((code, None), w5)) as -> by (destruct Dc as [-> | ->]; reflexivity).
       split; [exact U1|]. left. repeat (split; [solve [auto]|]). right.
       split; [eapply later_in; [exact L4|exact Oo]|]. destruct Dc as [-> | ->]; cbn; auto. }
  assert (lines = asked_headers r) as Ln. { unfold asked_headers. rewrite He, Li. reflexivity. }
  change inner with (rest_of n r s lines). clear inner.
  destruct (options_as_asked n url hd r path l fs (w_easy w) Pa He Co Me) as (P1 & P2 & P3).
  assert (apply_all (final_options n r lines) (w_easy w5) =
          apply_all (final_options n r (asked_headers r)) (apply_all fs (apply_all (first_options url path hd) (w_easy w)))) as Ee.
  { rewrite U5, C4, B4, S5, Ln. reflexivity. }
  pose proof (rest_spec n r s lines w5 (oom_of w)) as Re. cbv zeta in Re. rewrite Ee in Re.
  specialize (Re (fun I => later_in w w5 false L5 I) P2).
  destruct (rest_of n r s lines w5) as [[[res st] w6]|]; [|exact Re].
  destruct Re as (_ & Re1 & Re2). split; [congruence|].
  destruct Re2 as [(Q1 & Q2 & Q3 & Q4 & Q5 & Q6)|(Q1 & Q2 & Q3)].
  - left. rewrite Q1, Q2, Q3. repeat (split; [solve [auto]|]). right. split; [exact Q5|]. right. now left.
  - right. split; [exact Va|]. eexists. split; [rewrite Q1, U2; reflexivity|]. split; [exact P1|]. split; [exact P3|].
    rewrite U3 in Q2. rewrite U4 in Q3. auto.
Qed.

(** * What follows for one request *)

Definition terminated (ds : list delivery) : Prop :=
  forall line after, In (HeaderLine line after) ds -> In 0 (line ++ after).
Lemma terminated_ok ds : terminated ds -> ~ unterminated ds.
Proof. intros T (line & after & I & N). apply N. now apply (T line after). Qed.

(* C66, C88: when nothing fails to be allocated or set, the request is sent, the response headers
   are the fields delivered, the status is stored and the buffer holds all pieces in order. *)
Theorem request_answered_partial : forall n hd url r s w code,
  hostURL hd = Some url -> valid_request r -> ~ In false (w_oracle w) -> terminated (s_deliveries s) ->
  s_ok s = true -> s_code s = Some code ->
  exists w' e, HTTPAPI_ExecuteRequest n (Connection hd) r s w =
      Some ((HTTPAPI_OK, if r_status r then Some (code mod 2^32)%Z else None), w') /\
    w_sent w' = e :: w_sent w /\ as_asked n url hd r e /\
    (r_body r = true -> body s <> [] -> w_content w' = body s) /\
    (r_response r = true -> exists fs, script_fields (s_deliveries s) fs /\
       w_response w' = fold_left (fun l p => put l (fst p) (snd p) true) fs (w_response w)).
Proof.
  intros n hd url r s w code Hu Va Or Te Ok Co.
  pose proof (execute_request n hd url r s w Hu) as X.
  destruct (HTTPAPI_ExecuteRequest n (Connection hd) r s w) as [[[res st] w']|].
  2: { exfalso. destruct X as [_ [[_ X]|[X _] ] ]; [now apply terminated_ok in X|auto]. }
  destruct X as (_ & [(_ & _ & _ & _ & [(X & _)|(X & _)])|(_ & e & X1 & X2 & X3 & X4 & X5)]); [contradiction|contradiction|].
  exists w', e.
  assert (res = HTTPAPI_OK /\ st = (if r_status r then Some (code mod 2^32)%Z else None) /\
          (r_body r = true -> body s <> [] -> w_content w' = body s)) as (-> & -> & B).
  { inversion X5 as [Y|Y Y2|c2 Y Y2 Y3|c2 Y Y2 Y3 Z1 Z2 Z3|c2 Y Y2 Y3 Y4 Z1 Z2 Z3|c2 Y Y2 Y3 Y4 Y5]; subst;
      try (rewrite Ok in Y; discriminate); try (rewrite Co in Y2; discriminate); try (now destruct Or).
    - rewrite Co in Y2. injection Y2 as <-. split; [reflexivity|]. split; [reflexivity|].
      intros Y4 Y5. destruct Y3 as [Y3|Y3]; [congruence|now destruct Y5].
    - rewrite Co in Y2. injection Y2 as <-. auto. }
  split; [reflexivity|]. split; [exact X1|]. split; [exact X2|]. split; [exact B|].
  intros Rr. unfold headers_of_answer in X4. rewrite Rr in X4. destruct X4 as (fs & F & A).
  exists fs. split; [exact F|]. apply added_all. eapply added_weaken; [|exact A]. exact Or.
Qed.

(* C66: with a body in one piece every allocation may fail: the behaviour is defined, nothing
   leaks, and the content is the body, or what it was. *)
Theorem one_piece_safe : forall n hd url r s w,
  hostURL hd = Some url -> terminated (s_deliveries s) -> ~ grows (s_deliveries s) ->
  exists res st w', HTTPAPI_ExecuteRequest n (Connection hd) r s w = Some ((res, st), w') /\
    w_live w' = w_live w /\ (w_content w' = body s \/ w_content w' = w_content w).
Proof.
  intros n hd url r s w Hu Te Gr. pose proof (execute_request n hd url r s w Hu) as X.
  destruct (HTTPAPI_ExecuteRequest n (Connection hd) r s w) as [[[res st] w']|].
  2: { exfalso. destruct X as [_ [[_ X]|[_ X] ] ]; [now apply terminated_ok in X|auto]. }
  exists res, st, w'. split; [reflexivity|]. destruct X as (L & X). split; [exact L|].
  destruct X as [(_ & _ & -> & _)|(_ & e & _ & _ & _ & _ & X)]; [now right|].
  inversion X; auto.
Qed.

(* C66 refuted: when the buffer is allocated and then cannot grow, the freed block is used again,
   whatever the transfer ends with. *)
Theorem growth_failure_refuted : forall n r s w a b rest more,
  s_deliveries s = Piece a :: Piece b :: rest -> a <> [] -> b <> [] ->
  o_wfun (w_easy w) = true -> o_wdata (w_easy w) = Some n -> w_rbuf w = Null ->
  w_oracle w = true :: false :: more ->
  transfer n r s w = None.
Proof.
  intros n r s w a b rest more D Na Nb Wf Wd Rb Or.
  unfold transfer. unfold bindC at 1. unfold perform, bindC, get, change.
  destruct (valid_at n (w_easy w)); cbn [negb]; [|reflexivity].
  set (w0 := with_sent w (w_easy w :: w_sent w)).
  rewrite D. cbn [deliver_all].
  assert (exists w2, (deliver n (Piece a) ;; deliver n (Piece b)) w0 = Some (tt, w2) /\ w_rbuf w2 = Dangling) as (w2 & E & R).
  { clear -Na Nb Wf Wd Rb Or. unfold w0. destruct w as [e o rs ct rb er li se].
    cbn [w_easy w_rbuf w_oracle] in *. subst o rb.
    unfold bindC, deliver, bindC, get, ContentWriteFunction.
    destruct a as [|xa a]; [now destruct Na|]. destruct b as [|xb b]; [now destruct Nb|].
    cbn [length Nat.eqb]. cbn. rewrite Wf, Wd, Nat.eqb_refl. cbn.
    rewrite Wf, Wd, Nat.eqb_refl. eexists. split; reflexivity. }
  unfold bindC in E |- *. destruct (deliver n (Piece a) w0) as [[u w1]|]; [|reflexivity].
  rewrite E. pose proof (deliver_all_dangling n rest w2 R) as Dg.
  destruct (deliver_all n rest w2) as [[u' w3]|]; [|reflexivity]. unfold done at 1.
  assert (forall (m : C (HTTPAPI_RESULT * option Z)),
    (match m w3 with Some (_, w') => w_rbuf w' = Dangling | None => True end) ->
    match m w3 with
     | Some (a, w2) => match match w_rbuf w2 with
                    | Null => done tt | Held _ => freed | Dangling => undefined end w2 with
                    | Some (_, w3) => done a w3 | None => None end
     | None => None end = None) as Z.
  { intros m. destruct (m w3) as [[x w4]|]; [|auto]. now intros ->. }
  match goal with |- match ?m w3 with _ => _ end = None => apply (Z m) end.
  destruct (s_ok s); cbn [negb done]; [|exact Dg]. destruct (s_code s) as [code|]; [|exact Dg].
  destruct (w_error w3); [exact Dg|]. destruct (r_body r); [rewrite Dg; exact I|].
  cbn [done]. destruct (code >=? 300)%Z; exact Dg.
Qed.

(** * Histories *)

(* requests one after the other on one connection, numbered from n *)
Fixpoint requests (n : nat) (hd : HTTP_HANDLE_DATA) (l : list (request * script))
  : C (list (HTTPAPI_RESULT * option Z)) :=
  match l with
  | [] => done []
  | (r, s) :: l => x <- HTTPAPI_ExecuteRequest n (Connection hd) r s ;;
                   xs <- requests (S n) hd l ;; done (x :: xs)
  end.
(* the options handed to libcurl, oldest first, are those of a subsequence of the requests *)
Inductive sends (hd : HTTP_HANDLE_DATA) (url : text) : nat -> list (request * script) -> list easy -> Prop :=
| sends_nil n : sends hd url n [] []
| sends_one n r s l e es : valid_request r -> as_asked n url hd r e -> sends hd url (S n) l es ->
    sends hd url n ((r, s) :: l) (e :: es)
| sends_not n r s l es : sends hd url (S n) l es -> sends hd url n ((r, s) :: l) es.

(* C87: over any history of requests, whatever failed before, libcurl gets each request at most once, in
   order, as asked; the memory in use is the same before and after. *)
Theorem history_as_asked_partial : forall hd url l n w, hostURL hd = Some url ->
  match requests n hd l w with
  | Some (xs, w') => w_live w' = w_live w /\ length xs = length l /\
      exists es, w_sent w' = rev es ++ w_sent w /\ sends hd url n l es
  | None => exists r s, In (r, s) l /\ (r_response r = true /\ unterminated (s_deliveries s) \/ grows (s_deliveries s))
  end.
Proof.
  intros hd url l. induction l as [|[r s] l IH]; intros n w Hu; cbn [requests].
  - unfold done. cbv beta iota. split; [reflexivity|]. split; [reflexivity|]. exists []. split; [reflexivity|constructor].
  - unfold bindC. pose proof (execute_request n hd url r s w Hu) as X.
    destruct (HTTPAPI_ExecuteRequest n (Connection hd) r s w) as [[[res st] w1]|].
    2: { exists r, s. split; [now left|]. destruct X as [_ [X|[_ X] ] ]; auto. }
    specialize (IH (S n) w1 Hu). destruct (requests (S n) hd l w1) as [[xs w2]|].
    2: { destruct IH as (r' & s' & I & Y). exists r', s'. split; [now right|exact Y]. }
    unfold done. cbv beta iota. destruct IH as (I1 & I2 & es & I3 & I4). destruct X as (X1 & X).
    split; [congruence|]. split; [cbn; congruence|].
    destruct X as [(X2 & _)|(V & e & X2 & X3 & _)].
    + exists es. split; [congruence|]. now apply sends_not.
    + exists (e :: es). split; [cbn [rev]; rewrite <- app_assoc; cbn [app]; congruence|]. now apply sends_one.
Qed.

(** * Examples and refutations *)

Definition demo : HTTP_HANDLE_DATA :=
  {| hostURL := Some (str "https://host"); timeout := 242000; lowSpeedLimit := 0; lowSpeedTime := 0;
     forbidReuse := 0; freshConnect := 0; verbose := 0 |}.
Definition demo_request (t : HTTPAPI_REQUEST_TYPE) (c : list N) : request :=
  {| r_type := t; r_path := Some (str "/a?b"); r_headers := Some [(str "X", str "1"); (str "Y", str "2")];
     r_content := Some c; r_length := N.of_nat (length c); r_status := true; r_response := true; r_body := true |}.
Definition demo_script (c : Z) : script :=
  {| s_deliveries := [HeaderLine (str "HTTP/1.1 200 OK" ++ [13; 10]) [0]; HeaderLine (str "A: b" ++ [13; 10]) [0];
                      Piece [1; 2]; Piece [3] ];
     s_ok := true; s_code := Some c |}.

Example request_example :
  match requests 0 demo [(demo_request HTTPAPI_REQUEST_PUT [7; 8], demo_script 200); (demo_request HTTPAPI_REQUEST_GET [], demo_script 404)] (fresh []) with
  | Some (xs, w) => xs = [(HTTPAPI_OK, Some 200%Z); (HTTPAPI_OK, Some 404%Z)] /\
      map wire_method (w_sent w) = [str "GET"; str "PUT"] /\
      w_content w = [1; 2; 3] /\ w_response w = [(str "A", str "b, b")] /\ w_live w = 0%nat
  | None => False
  end.
Proof. vm_compute. repeat (split; [reflexivity|]). reflexivity. Qed.

(* C87 refuted for GET: a GET request with content goes out as POST. *)
Theorem get_with_content_refuted : exists r s w,
  r_type r = HTTPAPI_REQUEST_GET /\
  match HTTPAPI_ExecuteRequest 0 (Connection demo) r s w with
  | Some ((res, _), w') => res = HTTPAPI_OK /\ map wire_method (w_sent w') = [str "POST"]
  | None => False
  end.
Proof.
  exists (demo_request HTTPAPI_REQUEST_GET [1]), (demo_script 200), (fresh []). split; [reflexivity|].
  vm_compute. split; reflexivity.
Qed.

(* C88 refuted: the answer has a body, there is no memory to hand it over, and the result is OK all the
   same, with the content of an earlier answer in the buffer. *)
Theorem lost_body_refuted : exists r s w,
  r_body r = true /\
  match HTTPAPI_ExecuteRequest 0 (Connection demo) r s w with
  | Some ((res, _), w') => res = HTTPAPI_OK /\ body s <> [] /\ w_content w' <> body s
  | None => False
  end.
Proof.
  exists {| r_type := HTTPAPI_REQUEST_GET; r_path := Some []; r_headers := Some []; r_content := None; r_length := 0;
            r_status := true; r_response := false; r_body := true |}, (demo_script 200),
         (fresh (repeat true 18 ++ [false])).
  split; [reflexivity|]. vm_compute. split; [reflexivity|]. split; discriminate.
Qed.
(* C88 refuted: an empty body leaves the old content. *)
Theorem stale_content_refuted : forall n hd url r s w res st w',
  hostURL hd = Some url -> body s = [] ->
  HTTPAPI_ExecuteRequest n (Connection hd) r s w = Some ((res, st), w') -> w_content w' = w_content w.
Proof.
  intros n hd url r s w res st w' Hu B E. pose proof (execute_request n hd url r s w Hu) as X. rewrite E in X.
  destruct X as (_ & [(_ & _ & -> & _)|(_ & e & _ & _ & _ & _ & X)]); [reflexivity|].
  inversion X; auto; contradiction.
Qed.
(* C86 refuted: when only the memory for the host is missing, a handle is returned that cannot be
   used nor closed. *)
Theorem broken_handle_refuted : forall host n r s w,
  let '(h, _, _) := HTTPAPI_CreateConnection (Some host) true false true in
  h <> NoHandle /\ HTTPAPI_CloseConnection h = None /\
  (valid_request r -> HTTPAPI_ExecuteRequest n h r s w = None).
Proof.
  intros host n r s w. cbn. split; [discriminate|]. split; [reflexivity|].
  intros (V1 & V2 & V3 & _). destruct (r_path r); [|now destruct V1]. destruct (r_headers r); [|now destruct V2].
  destruct (r_content r); cbn [andb]; [reflexivity|]. rewrite (V3 eq_refl). reflexivity.
Qed.
(* C86: in every other case the handle is NULL and nothing stays allocated, or it is a connection to
   https://host with the default settings, and closing it gives everything back. *)
Theorem connection_owned_partial : forall host m1 m2 curl,
  ~ (m1 = true /\ m2 = false) ->
  let '(h, blocks, handles) := HTTPAPI_CreateConnection host m1 m2 curl in
  HTTPAPI_CloseConnection h = Some (blocks, handles) /\
  match h with
  | NoHandle => (host = None \/ m1 = false \/ curl = false) /\ blocks = 0%nat /\ handles = 0%nat
  | Broken => False
  | Connection hd => exists t, host = Some t /\ hostURL hd = Some (str "https://" ++ t)
  end.
Proof.
  intros host m1 m2 curl H. unfold HTTPAPI_CreateConnection. destruct host as [t|].
  - destruct m1; cbn [negb]; [|cbn; auto 6]. destruct m2; cbn [negb]; [|destruct H; auto].
    destruct curl; cbn [negb]; [|cbn; auto 6]. split; [reflexivity|]. exists t. auto.
  - cbn; auto.
Qed.

(** * Options *)

(* C89: setting a cloned value is setting the value. *)
Theorem cloned_option : forall h name v m v',
  HTTPAPI_CloneOption (Some name) (Some v) m = Some (HTTPAPI_OK, Some v') ->
  HTTPAPI_SetOption h name (Some v') = HTTPAPI_SetOption h name (Some v).
Proof.
  intros h name v m v' E. unfold HTTPAPI_CloneOption in E. unfold HTTPAPI_SetOption.
  destruct (option_of name) as [[]|]; destruct v; destruct m; try discriminate; injection E as <-; reflexivity.
Qed.
(* the documented names with the settings they stand for *)
Definition setting (name : text) (h : HTTP_HANDLE_DATA) : option Z :=
  if teq (str "timeout") name then Some (timeout h)
  else if teq (str "CURLOPT_LOW_SPEED_LIMIT") name then Some (lowSpeedLimit h)
  else if teq (str "CURLOPT_LOW_SPEED_TIME") name then Some (lowSpeedTime h)
  else if teq (str "CURLOPT_FRESH_CONNECT") name then Some (freshConnect h)
  else if teq (str "CURLOPT_FORBID_REUSE") name then Some (forbidReuse h)
  else if teq (str "CURLOPT_VERBOSE") name then Some (verbose h)
  else None.
Definition number (v : value) : Z := match v with VUint u => u | VLong l => l end.
(* C89: the setting named gets the value, all others and the host keep theirs; an unknown name is
   refused; the new settings are what libcurl gets with the next request. *)
Theorem option_set : forall h name v res h',
  HTTPAPI_SetOption h name (Some v) = Some (res, h') ->
  hostURL h' = hostURL h /\
  match setting name h with
  | Some _ => res = HTTPAPI_OK /\ setting name h' = Some (number v) /\
              forall other, setting other h' = setting other h \/
                (forall x, setting other x = setting name x)
  | None => res = HTTPAPI_INVALID_ARG /\ h' = h
  end.
Proof.
  intros h name v res h' E. unfold HTTPAPI_SetOption, option_of in E. unfold setting at 1.
  destruct (teq (str "timeout") name) eqn:E1.
  { destruct v; [|discriminate]. injection E as <- <-. split; [reflexivity|]. split; [reflexivity|].
    unfold setting. rewrite E1. split; [reflexivity|]. intros o. destruct (teq (str "timeout") o); auto. }
  destruct (teq (str "CURLOPT_LOW_SPEED_LIMIT") name) eqn:E2.
  { destruct v; [discriminate|]. injection E as <- <-. split; [reflexivity|]. split; [reflexivity|].
    unfold setting. rewrite E1, E2. split; [reflexivity|]. intros o. destruct (teq (str "timeout") o); auto.
    destruct (teq (str "CURLOPT_LOW_SPEED_LIMIT") o); auto. }
  destruct (teq (str "CURLOPT_LOW_SPEED_TIME") name) eqn:E3.
  { destruct v; [discriminate|]. injection E as <- <-. split; [reflexivity|]. split; [reflexivity|].
    unfold setting. rewrite E1, E2, E3. split; [reflexivity|]. intros o. destruct (teq (str "timeout") o); auto.
    destruct (teq (str "CURLOPT_LOW_SPEED_LIMIT") o); auto. destruct (teq (str "CURLOPT_LOW_SPEED_TIME") o); auto. }
  destruct (teq (str "CURLOPT_FRESH_CONNECT") name) eqn:E4.
  { destruct v; [discriminate|]. injection E as <- <-. split; [reflexivity|]. split; [reflexivity|].
    unfold setting. rewrite E1, E2, E3, E4. split; [reflexivity|]. intros o. destruct (teq (str "timeout") o); auto.
    destruct (teq (str "CURLOPT_LOW_SPEED_LIMIT") o); auto. destruct (teq (str "CURLOPT_LOW_SPEED_TIME") o); auto.
    destruct (teq (str "CURLOPT_FRESH_CONNECT") o); auto. }
  destruct (teq (str "CURLOPT_FORBID_REUSE") name) eqn:E5.
  { destruct v; [discriminate|]. injection E as <- <-. split; [reflexivity|]. split; [reflexivity|].
    unfold setting. rewrite E1, E2, E3, E4, E5. split; [reflexivity|]. intros o. destruct (teq (str "timeout") o); auto.
    destruct (teq (str "CURLOPT_LOW_SPEED_LIMIT") o); auto. destruct (teq (str "CURLOPT_LOW_SPEED_TIME") o); auto.
    destruct (teq (str "CURLOPT_FRESH_CONNECT") o); auto. destruct (teq (str "CURLOPT_FORBID_REUSE") o); auto. }
  destruct (teq (str "CURLOPT_VERBOSE") name) eqn:E6.
  { destruct v; [discriminate|]. injection E as <- <-. split; [reflexivity|]. split; [reflexivity|].
    unfold setting. rewrite E1, E2, E3, E4, E5, E6. split; [reflexivity|]. intros o. destruct (teq (str "timeout") o); auto.
    destruct (teq (str "CURLOPT_LOW_SPEED_LIMIT") o); auto. destruct (teq (str "CURLOPT_LOW_SPEED_TIME") o); auto.
    destruct (teq (str "CURLOPT_FRESH_CONNECT") o); auto. destruct (teq (str "CURLOPT_FORBID_REUSE") o); auto.
    destruct (teq (str "CURLOPT_VERBOSE") o); auto. }
  injection E as <- <-. auto.
Qed.
Example option_example : exists h, HTTPAPI_SetOption demo (str "CURLOPT_VERBOSE") (Some (VLong 1)) = Some (HTTPAPI_OK, h) /\
  verbose h = 1%Z.
Proof. eexists. split; reflexivity. Qed.
