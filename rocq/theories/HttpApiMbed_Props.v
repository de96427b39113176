(* C105: what is sent.  C106: well-formed replies are read as what they say, one after the other. *)
From Verif Require Import Base Map_Model HttpHeaders_Spec HttpApiMbed_Model HttpApiMbed_Spec HttpApiMbed_Read HttpApiMbed_Scan HttpApiMbed_Reply.
Local Open Scope Z_scope.

(** * Frames *)

(* Whatever the outcome, these two worlds are related. *)
Definition keeps (R : world -> world -> Prop) {A} (m : H A) : Prop :=
  forall w, match m w with Ret _ w' => R w w' | Fail _ w' => R w w' | Undef w' => R w w' | NoFuel => True end.

Section keeps.
Context (R : world -> world -> Prop) (Rrefl : forall w, R w w) (Rtrans : forall a b c, R a b -> R b c -> R a c).
Lemma keeps_bind {A B} (m : H A) (f : A -> H B) : keeps R m -> (forall a, keeps R (f a)) -> keeps R (bind m f).
Proof.
  intros K L w. unfold bind. specialize (K w). destruct (m w) as [a w1|res w1|w1|]; auto.
  specialize (L a w1). destruct (f a w1); auto; eapply Rtrans; eassumption.
Qed.
Lemma keeps_ret {A} (a : A) : keeps R (ret a).
Proof. intros w. apply Rrefl. Qed.
Lemma keeps_fail {A} c : keeps R (@fail A c).
Proof. intros w. apply Rrefl. Qed.
Lemma keeps_undef {A} : keeps R (@undef A).
Proof. intros w. apply Rrefl. Qed.
Lemma keeps_nofuel {A} : keeps R (@nofuel A).
Proof. intros w. exact I. Qed.
Lemma keeps_get : keeps R get.
Proof. intros w. apply Rrefl. Qed.
Lemma keeps_change f : (forall w, R w (f w)) -> keeps R (change f).
Proof. intros K w. apply K. Qed.
End keeps.

Ltac frame_step Rr Rt :=
  first
  [ apply (keeps_bind _ Rt); [|intros ?]
  | apply (keeps_ret _ Rr) | apply (keeps_fail _ Rr) | apply (keeps_undef _ Rr) | apply keeps_nofuel | apply (keeps_get _ Rr)
  | apply keeps_change; intros ?; solve [repeat split]
  | match goal with |- keeps _ (if ?b then _ else _) => destruct b end
  | match goal with |- keeps _ (match ?b with _ => _ end) => destruct b end ].

Lemma receive_steady n : keeps steady (receive n).
Proof.
  intros w. unfold receive. destruct (w_sched w); [apply steady_refl|].
  destruct (n <? 0); [repeat split|]. destruct (_ <? 0); [repeat split|]. cbn zeta. destruct (_ =? 0); repeat split.
Qed.
Lemma store_steady d o bs : keeps steady (store d o bs).
Proof.
  intros w. unfold store. destruct bs; [apply steady_refl|]. destruct d.
  - destruct (_ <=? _); repeat split.
  - destruct (w_body w); [|repeat split]. cbn zeta. destruct (_ <=? _); repeat split.
Qed.
Lemma allocates_steady : keeps steady allocates.
Proof. intros w. unfold allocates. destruct (w_alloc w); repeat split. Qed.
Lemma buf_text_steady : keeps steady buf_text.
Proof. intros w. unfold buf_text. destruct (c_string_of _); repeat split. Qed.

Ltac steady_tac :=
  repeat first [ apply receive_steady | apply store_steady | apply allocates_steady | apply buf_text_steady
               | frame_step steady_refl steady_trans ].

Lemma line_loop_steady room : forall line c, keeps steady (line_loop room line c).
Proof.
  induction room as [|room IH]; intros line c; cbn [line_loop]; destruct (c =? 13)%N; steady_tac; try apply IH.
Qed.
Lemma readLine_steady : keeps steady readLine.
Proof. unfold readLine. steady_tac. apply line_loop_steady. Qed.
Lemma a_line_steady : keeps steady a_line.
Proof. unfold a_line. apply (keeps_bind _ steady_trans); [apply readLine_steady|intros ?]. steady_tac. Qed.
Lemma chunk_loop_steady fuel : forall d s o, keeps steady (chunk_loop fuel d s o).
Proof.
  induction fuel as [|fuel IH]; intros d s o; cbn [chunk_loop]; [apply keeps_nofuel|].
  destruct (s =? 0); [steady_tac|]. apply (keeps_bind _ steady_trans); [apply receive_steady|intros p].
  apply (keeps_bind _ steady_trans); [apply store_steady|intros _]. cbn zeta. destruct (_ =? 0); [steady_tac|apply IH].
Qed.
Lemma readChunk_steady d n : keeps steady (readChunk d n).
Proof. intros w. apply chunk_loop_steady. Qed.
Lemma skip_loop_steady fuel : forall o n, keeps steady (skip_loop fuel o n).
Proof.
  induction fuel as [|fuel IH]; intros o n; cbn [skip_loop]; [apply keeps_nofuel|].
  destruct (_ <? n); (apply (keeps_bind _ steady_trans); [apply readChunk_steady|intros ?]); steady_tac; apply IH.
Qed.
Lemma skipN_steady n : keeps steady (skipN n).
Proof. apply skip_loop_steady. Qed.
Lemma read_status_steady r : keeps steady (read_status r).
Proof. unfold read_status. apply (keeps_bind _ steady_trans); [apply a_line_steady|intros _]. steady_tac. Qed.
Lemma headers_loop_steady fuel r : forall l c, keeps steady (headers_loop fuel r l c).
Proof.
  induction fuel as [|fuel IH]; intros l c; cbn [headers_loop]; [apply keeps_nofuel|].
  apply (keeps_bind _ steady_trans); [apply buf_text_steady|intros s]. destruct s; [steady_tac|].
  apply (keeps_bind _ steady_trans); [unfold framing; steady_tac|intros f].
  apply (keeps_bind _ steady_trans); [unfold add_header; steady_tac|intros _].
  apply (keeps_bind _ steady_trans); [apply a_line_steady|intros _]. apply IH.
Qed.
Lemma crlf_missing_steady : keeps steady crlf_missing.
Proof. unfold crlf_missing. apply (keeps_bind _ steady_trans); [apply readChunk_steady|intros ?]. steady_tac. Qed.
Lemma chunks_loop_steady fuel r : forall s c, keeps steady (chunks_loop fuel r s c).
Proof.
  induction fuel as [|fuel IH]; intros s c; cbn [chunks_loop]; [apply keeps_nofuel|].
  apply (keeps_bind _ steady_trans); [apply a_line_steady|intros _].
  apply (keeps_bind _ steady_trans); [apply buf_text_steady|intros t]. destruct (scan_x t); [|steady_tac].
  apply (keeps_bind _ steady_trans); [steady_tac|intros _]. destruct (_ =? 0).
  - apply (keeps_bind _ steady_trans); [apply crlf_missing_steady|intros e]. steady_tac.
  - apply (keeps_bind _ steady_trans); [|intros res].
    + unfold enlarge, use_ptr. repeat first [apply readChunk_steady | apply skipN_steady | apply allocates_steady | frame_step steady_refl steady_trans].
    + apply (keeps_bind _ steady_trans); [apply crlf_missing_steady|intros e]. destruct e; [steady_tac|apply IH].
Qed.
Lemma read_response_steady r : keeps steady (read_response r).
Proof.
  unfold read_response. apply (keeps_bind _ steady_trans); [apply read_status_steady|intros _].
  apply (keeps_bind _ steady_trans).
  - unfold read_headers. apply (keeps_bind _ steady_trans); [apply a_line_steady|intros _].
    apply (keeps_bind _ steady_trans); [apply keeps_get, steady_refl|intros w]. apply headers_loop_steady.
  - intros (l & c). destruct c; cbn [fst snd].
    + unfold read_chunked_body. apply (keeps_bind _ steady_trans); [apply keeps_get, steady_refl|intros w]. apply chunks_loop_steady.
    + unfold read_sized_body, pre_build, use_ptr.
      repeat first [apply readChunk_steady | apply skipN_steady | apply allocates_steady | frame_step steady_refl steady_trans].
Qed.

(** * Sending *)

(* what sending does not touch *)
Definition quiet (w w' : world) : Prop :=
  w_in w' = w_in w /\ w_sched w' = w_sched w /\ w_resp w' = w_resp w /\ w_body w' = w_body w /\ w_ptr w' = w_ptr w /\
  w_status w' = w_status w /\ w_lens w' = w_lens w /\ w_lib w' = w_lib w /\ w_con w' = w_con w /\ w_c0 w' = w_c0 w.
Lemma quiet_refl w : quiet w w. Proof. repeat split. Qed.
Lemma quiet_trans a b c : quiet a b -> quiet b c -> quiet a c.
Proof. unfold quiet. intros (?&?&?&?&?&?&?&?&?&?) (?&?&?&?&?&?&?&?&?&?). repeat split; congruence. Qed.

Lemma is_prefix_app {A} (a b c : list A) : is_prefix b c -> is_prefix (a ++ b) (a ++ c).
Proof. intros (d & ->). exists d. now rewrite app_assoc. Qed.
Lemma is_prefix_nil {A} (b : list A) : is_prefix [] b.
Proof. now exists b. Qed.
Lemma is_prefix_more {A} (a b c : list A) : is_prefix a b -> is_prefix a (b ++ c).
Proof. intros (d & ->). exists (d ++ c). now rewrite app_assoc. Qed.

(* a sending step: all of [bs] was accepted, or the request stops with a prefix *)
Definition sends (bs : list N) (res : HTTPAPI_RESULT -> Prop) (w : world) (o : outcome unit) : Prop :=
  match o with
  | Ret _ w' => w_out w' = w_out w ++ bs /\ whole_sends w' /\ quiet w w' /\ (memory w -> memory w') /\ (all_sent w -> all_sent w')
  | Fail c w' => res c /\ (exists p, is_prefix p bs /\ w_out w' = w_out w ++ p) /\ quiet w w'
  | _ => False
  end.
Lemma sends_bind bs cs (P : HTTPAPI_RESULT -> Prop) m (f : H unit) w :
  sends bs P w (m w) -> (forall w', whole_sends w' -> sends cs P w' (f w')) -> sends (bs ++ cs) P w ((m ;; f) w).
Proof.
  intros S F. unfold bind. destruct (m w) as [u w1|c w1|w1|] eqn:E; cbn [sends] in *; try tauto.
  - destruct S as (O & W & Q & M & AL). specialize (F w1 W). destruct (f w1) as [v w2|c w2|w2|] eqn:E2; cbn [sends] in *; try tauto.
    + destruct F as (O2 & W2 & Q2 & M2 & AL2). split; [rewrite O2, O, app_assoc; reflexivity|]. split; [exact W2|].
      split; [eapply quiet_trans; eassumption|]. split; auto.
    + destruct F as (R & (p & Pp & O2) & Q2). split; [exact R|]. split; [|eapply quiet_trans; eassumption].
      exists (bs ++ p). split; [now apply is_prefix_app|]. now rewrite O2, O, app_assoc.
  - destruct S as (R & (p & Pp & O) & Q). split; [exact R|]. split; [|exact Q]. exists p. split; [now apply is_prefix_more|exact O].
Qed.

Definition send_failure (c : HTTPAPI_RESULT) : Prop := c = HTTPAPI_SEND_REQUEST_FAILED \/ c = HTTPAPI_HTTP_HEADERS_FAILED.

Lemma sending_spec bs w : whole_sends w -> sends bs send_failure w (sending bs w).
Proof.
  intros W. unfold sending, send_all, bind. destruct (Z.leb_spec 2147483648 (Z.of_nat (length bs))) as [L|L].
  - cbn. split; [now left|]. split; [|apply quiet_refl]. exists []. split; [apply is_prefix_nil|now rewrite app_nil_r].
  - unfold whole_sends in *. destruct (w_sends w) as [|k ks] eqn:E.
    + destruct (Z.ltb_spec (Z.of_nat (length bs)) 0); [lia|]. cbn. split; [reflexivity|]. split; [constructor|]. split; [repeat split|].
      split; [auto|]. intros _. constructor.
    + inversion W as [|? ? K W']; subst. destruct (Z.ltb_spec k 0) as [N|N].
      * destruct (Z.ltb_spec k 0); [|lia]. cbn. split; [now left|]. split; [|repeat split]. exists []. split; [apply is_prefix_nil|now rewrite app_nil_r].
      * destruct (Z.ltb_spec (Z.min k (Z.of_nat (length bs))) 0); [lia|]. cbn. split; [|split; [exact W'|split; [repeat split|split; [auto|]]]].
        -- rewrite firstn_all2 by lia. reflexivity.
        -- unfold all_sent. rewrite E. intros F. now inversion F.
Qed.

Lemma allocates_sends w : (exists b l, allocates w = Ret b (set_alloc l w) /\ (memory w -> b = true /\ Forall (fun b => b = true) l)).
Proof.
  unfold allocates, memory. destruct (w_alloc w) as [|b bs] eqn:E.
  - exists true, []. split; [rewrite <- E; destruct w; reflexivity|]. auto.
  - exists b, bs. split; [reflexivity|]. intros F. inversion F; auto.
Qed.

Lemma send_headers_spec l : forall w, whole_sends w ->
  sends (concat (map (fun f => fst f ++ str ": " ++ snd f ++ CRLF) l)) send_failure w (send_headers l w).
Proof.
  induction l as [|(n, v) l IH]; intros w W; cbn [send_headers map concat].
  - cbn. rewrite app_nil_r. auto using quiet_refl.
  - destruct (allocates_sends w) as (b & al & E & M). unfold bind at 1. rewrite E. destruct b; cbn [negb].
    + set (w1 := set_alloc al w).
      assert (sends (concat (map (fun f => fst f ++ str ": " ++ snd f ++ CRLF) ((n, v) :: l))) send_failure w1
                ((sending (n ++ str ": " ++ v);; sending CRLF;; send_headers l) w1)) as G.
      { cbn [map concat fst snd].
        replace ((n ++ str ": " ++ v ++ CRLF) ++ concat (map (fun f => fst f ++ str ": " ++ snd f ++ CRLF) l))
          with ((n ++ str ": " ++ v) ++ CRLF ++ concat (map (fun f => fst f ++ str ": " ++ snd f ++ CRLF) l)) by (rewrite <- !app_assoc; reflexivity).
        apply sends_bind; [apply sending_spec; exact W|intros w2 W2]. apply sends_bind; [apply sending_spec; exact W2|intros w3 W3]. now apply IH. }
      cbn [map concat fst snd] in G. change [13; 10]%N with CRLF.
      destruct ((sending (n ++ str ": " ++ v);; sending CRLF;; send_headers l) w1) as [u w2|c w2|w2|]; cbn [sends] in *; try tauto.
    + cbn. split; [now right|]. split; [|repeat split]. exists []. split; [apply is_prefix_nil|now rewrite app_nil_r].
Qed.

Lemma headers_sent l : forall w, memory w -> all_sent w ->
  Forall (fun f => Z.of_nat (length (fst f)) + 2 + Z.of_nat (length (snd f)) < 2147483648) l ->
  exists w', send_headers l w = Ret tt w' /\ memory w' /\ all_sent w'.
Proof.
  assert (forall bs w, all_sent w -> memory w -> Z.of_nat (length bs) < 2147483648 -> exists w', sending bs w = Ret tt w' /\ all_sent w' /\ memory w') as S.
  { intros bs w A M L. unfold sending, send_all, bind. destruct (Z.leb_spec 2147483648 (Z.of_nat (length bs))); [lia|].
    unfold all_sent in *. destruct (w_sends w) as [|k ks] eqn:E.
    - destruct (Z.ltb_spec (Z.of_nat (length bs)) 0); [lia|]. eexists. split; [reflexivity|]. split; [constructor|exact M].
    - inversion A; subst. destruct (Z.ltb_spec k 0); [lia|]. destruct (Z.ltb_spec (Z.min k (Z.of_nat (length bs))) 0); [lia|].
      eexists. split; [reflexivity|]. split; [assumption|exact M]. }
  induction l as [|(n, v) l IH]; intros w M A F; cbn [send_headers].
  - exists w. auto.
  - inversion F as [|? ? B F']; subst. cbn [fst snd] in B.
    destruct (allocates_ok w M) as (al & E & FA). erewrite bind_ret by exact E. cbn [negb].
    destruct (S (n ++ str ": " ++ v) (set_alloc al w)) as (w1 & E1 & A1 & M1); [exact A|exact FA|rewrite !app_length; cbn; lia|].
    erewrite bind_ret by exact E1.
    destruct (S CRLF w1) as (w2 & E2 & A2 & M2); [exact A1|exact M1|cbn; lia|].
    erewrite bind_ret by exact E2. now apply IH.
Qed.

(* the request is sent, or the result says that something failed *)
Definition not_sent (c : HTTPAPI_RESULT) : Prop := send_failure c \/ c = HTTPAPI_STRING_PROCESSING_ERROR.

Lemma sends_weaken bs (P Q : HTTPAPI_RESULT -> Prop) w o : (forall c, P c -> Q c) -> sends bs P w o -> sends bs Q w o.
Proof. intros I. destruct o; cbn; auto. intros (X & Y). auto. Qed.

Lemma method_of_text t m : method_of t = Some m -> m = method_text t.
Proof. destruct t; cbn; congruence. Qed.

Lemma send_request_spec r m p hs w : method_of (r_type r) = Some m -> r_path r = Some p -> r_headers r = Some hs ->
  whole_sends w -> sends (request_bytes r) not_sent w (send_request m p hs (r_content r) (r_length r) w).
Proof.
  intros Em Ep Eh W. apply method_of_text in Em. unfold send_request. cbn zeta.
  destruct (Z.leb_spec 4096 (Z.of_nat (length (m ++ str " " ++ p ++ str " HTTP/1.1" ++ [13; 10]%N)))) as [L|L].
  - cbn. split; [now right|]. split; [|apply quiet_refl]. exists []. split; [apply is_prefix_nil|now rewrite app_nil_r].
  - unfold bind at 1. unfold change at 1.
    set (w1 := set_buf _ w).
    assert (sends (request_bytes r) send_failure w1
      ((sending (m ++ str " " ++ p ++ str " HTTP/1.1" ++ [13; 10]%N) ;; send_headers hs ;; sending [13; 10]%N ;;
        match r_content r with
        | Some bs => if (0 <? r_length r)%N then sending (firstn (N.to_nat (r_length r)) bs) else ret tt
        | None => ret tt
        end) w1)) as G.
    { replace (request_bytes r) with ((m ++ str " " ++ p ++ str " HTTP/1.1" ++ [13; 10]%N) ++
        concat (map (fun f => fst f ++ str ": " ++ snd f ++ CRLF) hs) ++ CRLF ++ request_content r).
      2:{ unfold request_bytes, request_line, request_fields. rewrite Ep, Eh, <- Em. rewrite <- !app_assoc. reflexivity. }
      apply sends_bind; [apply sending_spec; exact W|intros w2 W2].
      apply sends_bind; [apply send_headers_spec; exact W2|intros w3 W3].
      apply sends_bind; [apply sending_spec; exact W3|intros w4 W4].
      unfold request_content. destruct (r_content r) as [bs|].
      - destruct (N.ltb_spec 0 (r_length r)); [now apply sending_spec|].
        replace (r_length r) with 0%N by lia. change (N.to_nat 0) with 0%nat. cbn. rewrite app_nil_r. auto using quiet_refl.
      - cbn. rewrite app_nil_r. auto using quiet_refl. }
    eapply (sends_weaken _ _ not_sent) in G; [|intros c X; now left].
    match goal with |- sends _ _ _ ?o => destruct o end; cbn [sends] in *; try tauto.
Qed.

Lemma sending_done bs w : all_sent w -> memory w -> Z.of_nat (length bs) < 2147483648 -> exists w', sending bs w = Ret tt w' /\ all_sent w' /\ memory w'.
Proof.
  intros A M L. unfold sending, send_all, bind. destruct (Z.leb_spec 2147483648 (Z.of_nat (length bs))); [lia|].
  unfold all_sent in *. destruct (w_sends w) as [|k ks] eqn:E.
  - destruct (Z.ltb_spec (Z.of_nat (length bs)) 0); [lia|]. eexists. split; [reflexivity|]. split; [constructor|exact M].
  - inversion A; subst. destruct (Z.ltb_spec k 0); [lia|]. destruct (Z.ltb_spec (Z.min k (Z.of_nat (length bs))) 0); [lia|].
    eexists. split; [reflexivity|]. split; [assumption|exact M].
Qed.

Lemma all_whole w : all_sent w -> whole_sends w.
Proof. apply Forall_impl. auto. Qed.

Lemma send_request_done r m p hs w : method_of (r_type r) = Some m -> r_path r = Some p -> r_headers r = Some hs ->
  sizes_ok r -> memory w -> all_sent w ->
  exists w', send_request m p hs (r_content r) (r_length r) w = Ret tt w' /\
    w_out w' = w_out w ++ request_bytes r /\ quiet w w' /\ memory w' /\ all_sent w'.
Proof.
  intros Em Ep Eh (S1 & S2 & S3) M A.
  assert (exists w', send_request m p hs (r_content r) (r_length r) w = Ret tt w') as (w' & E).
  { pose proof (method_of_text _ _ Em) as Em'. unfold send_request. cbn zeta.
    unfold request_line in S1. rewrite <- Em', Ep in S1.
    assert (Z.of_nat (length (m ++ str " " ++ p ++ str " HTTP/1.1" ++ [13; 10]%N)) < 4096) as L.
    { rewrite !app_length in *. cbn [length] in *. lia. }
    destruct (Z.leb_spec 4096 (Z.of_nat (length (m ++ str " " ++ p ++ str " HTTP/1.1" ++ [13; 10]%N)))); [lia|].
    erewrite bind_ret by reflexivity.
    match goal with |- exists w', bind _ _ ?x = _ => destruct (sending_done (m ++ str " " ++ p ++ str " HTTP/1.1" ++ [13; 10]%N) x) as (w1 & E1 & A1 & M1) end.
    { exact A. } { exact M. } { lia. }
    erewrite bind_ret by exact E1.
    unfold request_fields in S3. rewrite Eh in S3.
    destruct (headers_sent hs w1 M1 A1 S3) as (w2 & E2 & M2 & A2). erewrite bind_ret by exact E2.
    destruct (sending_done [13; 10]%N w2 A2 M2) as (w3 & E3 & A3 & M3); [cbn; lia|]. erewrite bind_ret by exact E3.
    unfold request_content in S2. destruct (r_content r) as [bs|]; [|eexists; reflexivity].
    destruct (0 <? r_length r)%N; [|eexists; reflexivity].
    destruct (sending_done _ w3 A3 M3 S2) as (w4 & E4 & _). eauto. }
  pose proof (send_request_spec r m p hs w Em Ep Eh (all_whole _ A)) as G. rewrite E in G. cbn in G.
  destruct G as (O & _ & Q & MM & AA). exists w'. split; [exact E|]. split; [exact O|]. split; [exact Q|]. auto.
Qed.

(** * C105 *)

Definition fresh (w : world) : world := set_lens [] (set_status None (set_body (w_body w) false w)).

(* The connection is made or was there. *)
Lemma con_steps (f : con -> con) : keeps (fun a b => w_out b = w_out a /\ w_sends b = w_sends a) (on_con f).
Proof. intros w. split; reflexivity. Qed.
Definition wired (a b : world) : Prop := w_out b = w_out a /\ w_sends b = w_sends a.
Lemma wired_refl w : wired w w. Proof. split; reflexivity. Qed.
Lemma wired_trans a b c : wired a b -> wired b c -> wired a c.
Proof. unfold wired. intros (?&?) (?&?). split; congruence. Qed.
Lemma succeeds_wired : keeps wired succeeds.
Proof. intros w. unfold succeeds. destruct (w_lib w); split; reflexivity. Qed.
Lemma ctx_free_wired : keeps wired ctx_free.
Proof. intros w. unfold ctx_free. destruct (c_refs _); split; reflexivity. Qed.
Lemma connecting_wired h : keeps wired (connecting h).
Proof.
  unfold connecting, con_load_certificate, con_connect, con_close, on_con.
  repeat first [apply succeeds_wired | apply ctx_free_wired | frame_step wired_refl wired_trans].
Qed.

Definition plain {A} (m : H A) : Prop := forall w c w', m w <> Fail c w'.
Lemma plain_bind {A B} (m : H A) (f : A -> H B) : plain m -> (forall a, plain (f a)) -> plain (bind m f).
Proof.
  intros P Q w c w'. unfold bind. specialize (P w). destruct (m w) as [a w1|d w1|w1|]; try discriminate; [apply Q|].
  exfalso. now apply (P d w1).
Qed.
Lemma plain_succeeds : plain succeeds.
Proof. intros w c w'. unfold succeeds. destruct (w_lib w); discriminate. Qed.
Lemma plain_ctx_free : plain ctx_free.
Proof. intros w c w'. unfold ctx_free. destruct (c_refs _); discriminate. Qed.
Lemma plain_ret {A} (a : A) : plain (ret a).
Proof. intros w c w'. discriminate. Qed.
Lemma plain_get : plain get.
Proof. intros w c w'. discriminate. Qed.
Lemma plain_change f : plain (change f).
Proof. intros w c w'. discriminate. Qed.
Ltac plain_tac := repeat first
  [ apply plain_succeeds | apply plain_ctx_free | apply plain_ret | apply plain_get | apply plain_change
  | apply plain_bind; [|intros ?] | match goal with |- plain (if ?b then _ else _) => destruct b end ].
Lemma con_connect_plain : plain con_connect.
Proof. unfold con_connect, con_close, on_con. plain_tac. Qed.
Lemma load_plain : plain con_load_certificate.
Proof. unfold con_load_certificate. plain_tac. Qed.

(* Whatever HTTPAPI_ExecuteRequest returns: what was sent is the beginning of the request, and
   it is the whole request if the result is not one of those for a request that could not be
   made, connected or sent.  (Every send takes everything or fails; see the next theorem.) *)
Definition stopped (c : HTTPAPI_RESULT) : Prop :=
  c = HTTPAPI_INVALID_ARG \/ c = HTTPAPI_ERROR \/ not_sent c.
Theorem request_sent_partial : forall h r w res w',
  whole_sends w -> HTTPAPI_ExecuteRequest h r w = Returns res w' ->
  exists p, w_out w' = w_out w ++ p /\ is_prefix p (request_bytes r) /\ (stopped res \/ p = request_bytes r).
Proof.
  intros h r w res w' W E. unfold HTTPAPI_ExecuteRequest, execute in E. unfold bind at 1, change in E. fold (fresh w) in E.
  assert (forall c w0, w_out w0 = w_out w -> stopped c -> exists p, w_out w0 = w_out w ++ p /\ is_prefix p (request_bytes r) /\ (stopped c \/ p = request_bytes r)) as NO.
  { intros c w0 O S. exists []. rewrite app_nil_r. split; [exact O|]. split; [apply is_prefix_nil|now left]. }
  destruct h as [h|]; [|injection E as <- <-; apply NO; [reflexivity|now left]].
  destruct (r_path r) as [p|] eqn:Ep; [|injection E as <- <-; apply NO; [reflexivity|now left]].
  destruct (r_headers r) as [hs|] eqn:Eh; [|injection E as <- <-; apply NO; [reflexivity|now left]].
  destruct (method_of (r_type r)) as [m|] eqn:Em; [|injection E as <- <-; apply NO; [reflexivity|now left]].
  pose proof (connecting_wired h (fresh w)) as KW. unfold bind at 1 in E.
  destruct (connecting h (fresh w)) as [u w1|c w1|w1|] eqn:EC; try discriminate E.
  2:{ injection E as <- <-. destruct KW as (O & _). apply NO; [exact O|].
      unfold connecting, fail, ret, bind, get in EC. 
      assert (c = HTTPAPI_ERROR) as ->; [|right; now left].
      destruct (c_connected (w_con (fresh w))); [discriminate EC|].
      destruct ((match h_certificate h with Some _ => con_load_certificate | None => fun w => Ret true w end) (fresh w)) as [b w2|c2 w2|w2|] eqn:E1; try discriminate EC.
      - destruct b; cbn [negb] in EC; [|now injection EC].
        destruct (con_connect w2) as [b w3|c3 w3|w3|] eqn:E2; try discriminate EC.
        + destruct b; cbn [negb] in EC; [discriminate EC|now injection EC].
        + exfalso. apply (con_connect_plain w2 c3 w3 E2).
      - exfalso. destruct (h_certificate h); [apply (load_plain _ _ _ E1)|discriminate E1]. }
  destruct KW as (O & SE).
  assert (whole_sends w1) as W1 by (unfold whole_sends; rewrite SE; exact W).
  pose proof (send_request_spec r m p hs w1 Em Ep Eh W1) as G. unfold bind at 1 in E.
  destruct (send_request m p hs (r_content r) (r_length r) w1) as [u2 w2|c w2|w2|]; cbn in G; try contradiction.
  - destruct G as (O2 & _). pose proof (read_response_steady r w2) as K.
    assert (w_out w' = w_out w2) as O3.
    { destruct (read_response r w2); try discriminate E; injection E as <- <-; apply K. }
    exists (request_bytes r). split; [rewrite O3, O2, O; reflexivity|]. split; [exists []; now rewrite app_nil_r|now right].
  - injection E as <- <-. destruct G as (R & (q & Pq & O2) & _). exists q. split; [rewrite O2, O; reflexivity|].
    split; [exact Pq|left; right; now right].
Qed.

(** * C106 *)

(* There is a connection. *)
Definition connected (w : world) : Prop := c_connected (w_con w) = true.

Lemma execute_connected h r m p hs w : connected w -> r_path r = Some p -> r_headers r = Some hs -> method_of (r_type r) = Some m ->
  execute (Some h) r w = (send_request m p hs (r_content r) (r_length r) ;; read_response r) (fresh w).
Proof.
  intros C Ep Eh Em. unfold execute. unfold bind at 1, change. rewrite Ep, Eh, Em. fold (fresh w).
  unfold connecting. unfold bind at 1. unfold bind at 1. unfold get. unfold connected in C. cbn [w_con fresh set_lens set_status set_body].
  rewrite C. reflexivity.
Qed.

(* The reply is read as what it says, and no byte of what follows it is. *)
Theorem reply_read : forall h r w rp rest,
  connected w -> sendable r -> sizes_ok r -> all_sent w -> memory w -> (r_body r = true -> w_body w = None) ->
  well_formed rp -> w_in w = reply_bytes rp ++ rest -> arrives (reply_bytes rp) w ->
  exists w', HTTPAPI_ExecuteRequest (Some h) r w = Returns HTTPAPI_OK w' /\
    w_out w' = w_out w ++ request_bytes r /\
    w_in w' = rest /\
    w_status w' = (if r_status r then Some (numeral 10 (rp_code rp)) else None) /\
    w_resp w' = (if r_response r then headers_after (rp_fields rp) (w_resp w) else w_resp w) /\
    (if r_body r then holds (reply_data rp) (w_body w') else w_body w' = w_body w) /\
    connected w' /\ all_sent w' /\ memory w' /\ took (length (reply_bytes rp)) w w'.
Proof.
  intros h r w rp rest C (T & Pp & Ph) SZ AS M B WF I A.
  destruct (r_path r) as [p|] eqn:Ep; [|congruence]. destruct (r_headers r) as [hs|] eqn:Eh; [|congruence].
  destruct (method_of (r_type r)) as [m|] eqn:Em; [|destruct (r_type r); cbn in Em; congruence].
  unfold HTTPAPI_ExecuteRequest. rewrite (execute_connected h r m p hs w C Ep Eh Em).
  destruct (send_request_done r m p hs (fresh w) Em Ep Eh SZ M AS) as (w1 & E1 & O1 & Q1 & M1 & A1).
  erewrite bind_ret by exact E1. destruct Q1 as (I1 & S1 & R1 & B1 & P1 & C1 & L1 & LB1 & CO1 & _).
  destruct (read_response_ok rp r w1 rest WF) as (w' & E & I' & T' & ST' & M' & R' & C' & B').
  - rewrite I1. exact I.
  - unfold arrives. rewrite S1. exact A.
  - exact M1.
  - rewrite B1. exact B.
  - rewrite E. exists w'. split; [reflexivity|]. destruct ST' as (O' & S' & _ & _ & CO').
    split; [rewrite O', O1; reflexivity|]. split; [exact I'|]. split; [rewrite C', C1; reflexivity|].
    split; [rewrite R', R1; reflexivity|]. split; [destruct (r_body r); [exact B'|rewrite B', B1; reflexivity]|].
    split; [unfold connected; rewrite CO', CO1; exact C|]. split; [unfold all_sent; rewrite S'; exact A1|]. split; [exact M'|].
    destruct T' as (i & Hi & Ei). exists i. split; [exact Hi|]. rewrite Ei, S1. reflexivity.
Qed.

(* Any number of requests on one connection: each gets its own reply.  Before each request the
   caller empties the response buffer if it wants the content again. *)
Fixpoint exchange (h : HTTP_HANDLE_DATA) (rs : list request) (w : world) : option (list (HTTPAPI_RESULT * option Z * option (list (option N))) * world) :=
  match rs with
  | [] => Some ([], w)
  | r :: rs =>
    match HTTPAPI_ExecuteRequest (Some h) r (set_body None false w) with
    | Returns res w =>
      match exchange h rs w with
      | Some (l, w') => Some ((res, w_status w, w_body w) :: l, w')
      | None => None
      end
    | _ => None
    end
  end.
Definition answers (rp : reply) (r : request) (a : HTTPAPI_RESULT * option Z * option (list (option N))) : Prop :=
  fst (fst a) = HTTPAPI_OK /\
  snd (fst a) = (if r_status r then Some (numeral 10 (rp_code rp)) else None) /\
  (if r_body r then holds (reply_data rp) (snd a) else snd a = None).

Theorem replies_in_order : forall h rs rps w rest,
  connected w -> all_sent w -> memory w ->
  Forall sendable rs -> Forall sizes_ok rs -> Forall well_formed rps -> length rps = length rs ->
  w_in w = concat (map reply_bytes rps) ++ rest -> arrives (concat (map reply_bytes rps)) w ->
  exists l w', exchange h rs w = Some (l, w') /\ w_in w' = rest /\
    w_out w' = w_out w ++ concat (map request_bytes rs) /\
    length l = length rs /\
    forall i r rp a, nth_error rs i = Some r -> nth_error rps i = Some rp -> nth_error l i = Some a -> answers rp r a.
Proof.
  intros h rs. induction rs as [|r rs IH]; intros rps w rest C AS M S SZ WF L I A.
  - destruct rps as [|rp rps]; [|discriminate L]. exists [], w. split; [reflexivity|]. split; [exact I|]. split; [cbn; now rewrite app_nil_r|].
    split; [reflexivity|]. intros i r rp a X. destruct i; discriminate X.
  - destruct rps as [|rp rps]; [discriminate L|]. inversion S as [|? ? S1 S']; subst. inversion SZ as [|? ? Z1 Z']; subst.
    inversion WF as [|? ? WF1 WF']; subst. cbn [map concat] in I, A. rewrite <- app_assoc in I.
    destruct (reply_read h r (set_body None false w) rp (concat (map reply_bytes rps) ++ rest)) as (w1 & E & O1 & I1 & C1 & R1 & B1 & CO1 & AS1 & M1 & T1); auto.
    { eapply arrives_less; [exact A|]. rewrite app_length. lia. }
    destruct (IH rps w1 rest CO1 AS1 M1 S' Z' WF') as (l & w' & E' & I' & O' & L' & N'); auto.
    { eapply (arrives_took _ _ (length (reply_bytes rp)) w w1); [exact A| |rewrite app_length; lia].
      - destruct T1 as (i & Hi & Ei). exists i. split; [exact Hi|exact Ei]. }
    exists ((HTTPAPI_OK, w_status w1, w_body w1) :: l), w'. cbn [exchange]. rewrite E, E'. split; [reflexivity|]. split; [exact I'|].
    split; [rewrite O', O1; cbn [map concat w_out set_body]; now rewrite app_assoc|]. split; [cbn; lia|].
    intros [|i] r0 rp0 a X Y V; cbn in X, Y, V.
    + injection X as <-. injection Y as <-. injection V as <-. split; [reflexivity|]. split; [exact C1|].
      cbn [snd]. destruct (r_body r); exact B1.
    + eapply N'; eauto.
Qed.

(* The conversions used: the number of the same 32 bits, in the range of the type. *)
Theorem conversions_32 z : 0 <= size32 z < 2 ^ 32 /\ - 2 ^ 31 <= int32 z < 2 ^ 31 /\ size32 z mod 2 ^ 32 = z mod 2 ^ 32 /\ int32 z mod 2 ^ 32 = z mod 2 ^ 32.
Proof.
  change (2 ^ 32) with 4294967296. change (2 ^ 31) with 2147483648. unfold int32, size32. assert (H := Z.mod_pos_bound z 4294967296 ltac:(lia)).
  split; [lia|]. split; [destruct (Z.ltb_spec (z mod 4294967296) 2147483648); lia|]. split; [apply Z.mod_mod; lia|].
  destruct (Z.ltb_spec (z mod 4294967296) 2147483648); [apply Z.mod_mod; lia|]. rewrite <- Zminus_mod_idemp_r, Z_mod_same_full, Z.sub_0_r. apply Z.mod_mod. lia.
Qed.
