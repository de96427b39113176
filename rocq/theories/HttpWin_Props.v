(* C139-C144: the HTTP adapter of Windows. *)
From Verif Require Import Base HttpWin_Model HttpWin_Spec.
From Coq Require Import Lia.

Lemma filled_app a b : filled (a ++ b) = filled a ++ filled b.
Proof. apply map_app. Qed.
Lemma c_len_is (l : list N) tl : ~ In 0%N l -> c_len (filled (l ++ [0%N]) ++ tl) = Some (length l).
Proof.
  induction l as [|c l IH]; cbn; intros H; [reflexivity|].
  destruct (N.eqb_spec c 0) as [->|E]; [exfalso; auto|]. unfold filled in IH. rewrite IH by auto. reflexivity.
Qed.
Lemma c_str_is (l : list N) tl : ~ In 0%N l -> c_str (filled (l ++ [0%N]) ++ tl) = Some l.
Proof.
  induction l as [|c l IH]; cbn; intros H; [reflexivity|].
  destruct (N.eqb_spec c 0) as [->|E]; [exfalso; auto|]. unfold filled in IH. rewrite IH by auto. reflexivity.
Qed.
Lemma strcat_is (l s : list N) tl : ~ In 0%N l -> length s <= length tl ->
  strcat (filled (l ++ [0%N]) ++ tl) s = Some (filled ((l ++ s) ++ [0%N]) ++ skipn (length s) tl).
Proof.
  intros Z L. unfold strcat. rewrite c_len_is by assumption.
  replace (filled (l ++ [0%N]) ++ tl) with (filled l ++ (Some 0%N :: firstn (length s) tl) ++ skipn (length s) tl).
  - replace (length l) with (length (filled l)) at 1 by apply filled_length. rewrite store_all_app_gen.
    + rewrite !filled_app, <- !app_assoc. reflexivity.
    + cbn. rewrite firstn_length, app_length. cbn. lia.
  - cbn [app]. rewrite firstn_skipn, filled_app, <- app_assoc. reflexivity.
Qed.
Definition no_nul (h : list N * list N) : Prop := ~ In 0%N (fst h) /\ ~ In 0%N (snd h).
Lemma header_no_nul h : no_nul h -> ~ In 0%N (header_text h).
Proof. intros [A B] I. unfold header_text in I. apply in_app_or in I. destruct I as [I|I]; [auto|]. cbn in I. destruct I as [I|[I|I] ]; [discriminate|discriminate|auto]. Qed.
Lemma plain_no_nul l : plain l -> ~ In 0%N l.
Proof. intros P I. unfold plain in P. rewrite Forall_forall in P. destruct (P _ I) as [X _]. congruence. Qed.
Lemma field_no_nul h : field_ok h -> no_nul h.
Proof. intros (A & _ & B). split; apply plain_no_nul; assumption. Qed.
Lemma request_text_cons h hs : request_text (h :: hs) = header_text h ++ crlf ++ request_text hs.
Proof. unfold request_text, header_text. cbn [flat_map]. rewrite <- !app_assoc. reflexivity. Qed.
Lemma request_no_nul hs : Forall no_nul hs -> ~ In 0%N (request_text hs).
Proof.
  induction 1 as [|h hs A _ IH]; [cbn; auto|]. rewrite request_text_cons. intros I. apply in_app_or in I. destruct I as [I|I]; [apply (header_no_nul h A I)|].
  cbn in I. destruct I as [I|[I|I] ]; [discriminate|discriminate|auto].
Qed.

Lemma measure_is hs a : measure hs a = None \/ measure hs a = Some (length (request_text hs)).
Proof.
  revert a. induction hs as [|h hs IH]; intros a; [right; reflexivity|]. destruct a as [|[|] a]; [left; reflexivity| |left; reflexivity].
  cbn [measure]. destruct (IH a) as [->| ->]; [left; reflexivity|right]. rewrite request_text_cons. cbn. rewrite !app_length. cbn. f_equal. lia.
Qed.
Lemma measure_ok hs a : length a = length hs -> Forall (eq true) a -> measure hs a = Some (length (request_text hs)).
Proof.
  revert a. induction hs as [|h hs IH]; intros a L F; [reflexivity|]. destruct a as [|x a]; [discriminate|]. inversion F; subst. cbn in L.
  cbn [measure]. rewrite IH by (auto; lia). rewrite request_text_cons. cbn. rewrite !app_length. cbn. f_equal. lia.
Qed.
Lemma fill_is hs a l tl : Forall no_nul hs -> ~ In 0%N l -> length tl = length (request_text hs) ->
  fill hs a (filled (l ++ [0%N]) ++ tl) = Some None \/ fill hs a (filled (l ++ [0%N]) ++ tl) = Some (Some (filled ((l ++ request_text hs) ++ [0%N]))).
Proof.
  intros F. revert a l tl. induction F as [|h hs A _ IH]; intros a l tl Z L.
  - right. cbn. destruct tl; [|discriminate]. rewrite !app_nil_r. destruct a; reflexivity.
  - destruct a as [|[|] a]; [left; reflexivity| |left; reflexivity]. cbn [fill]. rewrite request_text_cons in L. rewrite !app_length in L. cbn [length crlf] in L.
    rewrite strcat_is by (auto; lia). rewrite strcat_is.
    + destruct (IH a ((l ++ header_text h) ++ [13%N; 10%N]) (skipn (length [13%N; 10%N]) (skipn (length (header_text h)) tl))) as [->| ->].
      * intros I. apply in_app_or in I. destruct I as [I|I]; [|cbn in I; destruct I as [I|[I|I] ]; [discriminate|discriminate|auto] ].
        apply in_app_or in I. destruct I as [I|I]; [auto|apply (header_no_nul h A I)].
      * rewrite !skipn_length. cbn [length]. lia.
      * left. reflexivity.
      * right. rewrite request_text_cons. unfold crlf. rewrite <- !app_assoc. reflexivity.
    + intros I. apply in_app_or in I. destruct I as [I|I]; [auto|apply (header_no_nul h A I)].
    + rewrite skipn_length. cbn. lia.
Qed.
Lemma fill_ok hs a l tl : length a = length hs -> Forall (eq true) a -> fill hs a (filled (l ++ [0%N]) ++ tl) <> Some None.
Proof.
  revert a l tl. enough (H : forall a b, length a = length hs -> Forall (eq true) a -> fill hs a b <> Some None) by (intros a l tl; apply H).
  induction hs as [|h hs IH]; intros a b L F; [destruct a; discriminate|]. destruct a as [|x a]; [discriminate|]. inversion F; subst. cbn in L. cbn [fill].
  destruct (strcat b _) as [b1|]; [|discriminate]. destruct (strcat b1 _) as [b2|]; [|discriminate]. apply IH; auto.
Qed.

(* --- C139: the text of the headers --- *)
(* Whatever fails, the text is written inside its block, and it is either not made or all of it *)
Theorem win_headers_text hs first second memory : Forall no_nul hs ->
  ConstructHeadersString hs first second memory = Some None
  \/ ConstructHeadersString hs first second memory = Some (Some (filled (request_text hs ++ [0%N]))).
Proof.
  intros F. unfold ConstructHeadersString. destruct (measure_is hs first) as [->| ->]; [left; reflexivity|]. destruct memory; [|left; reflexivity].
  replace (length (request_text hs) + 1) with (S (length (request_text hs))) by lia. cbn [fresh repeat store].
  change (Some 0%N :: repeat None (length (request_text hs))) with (filled ([] ++ [0%N]) ++ fresh (length (request_text hs))).
  apply fill_is; [exact F|auto|apply fresh_length].
Qed.
Theorem win_headers_made hs first second : Forall no_nul hs -> length first = length hs -> Forall (eq true) first -> length second = length hs -> Forall (eq true) second ->
  ConstructHeadersString hs first second true = Some (Some (filled (request_text hs ++ [0%N]))).
Proof.
  intros F L1 F1 L2 F2. destruct (win_headers_text hs first second true F) as [E|E]; [|exact E]. exfalso.
  unfold ConstructHeadersString in E. rewrite measure_ok in E by assumption.
  replace (length (request_text hs) + 1) with (S (length (request_text hs))) in E by lia. cbn [fresh repeat store] in E.
  change (Some 0%N :: repeat None (length (request_text hs))) with (filled ([] ++ [0%N]) ++ fresh (length (request_text hs))) in E.
  apply (fill_ok _ _ _ _ L2 F2 E).
Qed.

(* --- the body --- *)
Lemma store_end (c : block) (bs : list N) n : length bs <= n ->
  store_all (c ++ fresh n) (length (c ++ fresh n) - n) bs = Some (c ++ filled bs ++ fresh (n - length bs)).
Proof.
  intros L. replace (length (c ++ fresh n) - n) with (length c) by (rewrite app_length, fresh_length; lia).
  replace (c ++ fresh n) with (c ++ fresh (length bs) ++ fresh (n - length bs)).
  - rewrite store_all_app_gen by apply fresh_length. reflexivity.
  - f_equal. unfold fresh. rewrite <- repeat_app. f_equal. lia.
Qed.
Lemma body_read body a : chunks body a -> forall c, read_body a c = BDone HTTPAPI_OK (c ++ filled body).
Proof.
  induction 1 as [memory read a|bs rest a N C IH]; intros c; cbn [read_body].
  - cbn. rewrite app_nil_r. reflexivity.
  - destruct (Nat.eqb_spec (length bs) 0) as [Z|Z]; [apply length_zero_iff_nil in Z; contradiction|].
    destruct (Nat.ltb_spec (length bs) (length bs)); [lia|]. rewrite store_end by lia. rewrite Nat.sub_diag. cbn [fresh repeat]. rewrite app_nil_r, IH.
    rewrite filled_app, <- app_assoc. reflexivity.
Qed.
(* what a body that ends well has been made of: (announced, read) *)
Definition piece (p : nat * list N) : block := filled (snd p) ++ fresh (fst p - length (snd p)).
Definition got (p : nat * list N) : body_answer := Available (fst p) true (Some (snd p)).
Lemma body_ok a : forall c d, read_body a c = BDone HTTPAPI_OK d ->
  exists ps memory read rest, a = map got ps ++ Available 0 memory read :: rest /\ Forall (fun p => snd p <> [] /\ length (snd p) <= fst p) ps /\ d = c ++ concat (map piece ps).
Proof.
  induction a as [|x a IH]; intros c d E; [discriminate|]. destruct x as [|n memory read]; [discriminate|]. cbn [read_body] in E.
  destruct (Nat.eqb_spec n 0) as [->|N].
  - injection E as <-. exists [], memory, read, a. cbn. rewrite app_nil_r. auto.
  - destruct memory; [|discriminate]. destruct read as [bs|]; [|discriminate]. destruct (Nat.ltb_spec n (length bs)); [discriminate|].
    rewrite store_end in E by lia. destruct (Nat.eqb_spec (length bs) 0) as [Z|Z]; [discriminate|].
    destruct (IH _ _ E) as (ps & m & r & rest & -> & F & ->). exists ((n, bs) :: ps), m, r, rest. cbn. split; [reflexivity|]. split.
    + constructor; [|assumption]. cbn. split; [intros ->; cbn in Z; lia|lia].
    + rewrite <- app_assoc. reflexivity.
Qed.
Lemma body_cut a : chunks_cut a -> forall c, exists x d, read_body a c = BDone x (c ++ d) /\ (x = HTTPAPI_QUERY_DATA_AVAILABLE_FAILED \/ x = HTTPAPI_READ_DATA_FAILED \/ x = HTTPAPI_ERROR).
Proof.
  induction 1 as [a|n read a N|n a N|n a N|n bs a B L C IH]; intros c; cbn [read_body].
  - exists HTTPAPI_QUERY_DATA_AVAILABLE_FAILED, []. rewrite app_nil_r. auto.
  - destruct (Nat.eqb_spec n 0); [lia|]. exists HTTPAPI_ERROR, []. rewrite app_nil_r. auto.
  - destruct (Nat.eqb_spec n 0); [lia|]. exists HTTPAPI_READ_DATA_FAILED, (fresh n). auto.
  - destruct (Nat.eqb_spec n 0); [lia|]. destruct (Nat.ltb_spec n (length (@nil N.t))); [cbn in *; lia|]. rewrite store_end by (cbn; lia). cbn [length Nat.eqb].
    eexists HTTPAPI_READ_DATA_FAILED, _. split; [reflexivity|auto].
  - destruct (Nat.eqb_spec n 0) as [Z|Z]; [destruct bs; [congruence|cbn in L; lia]|]. destruct (Nat.ltb_spec n (length bs)); [lia|]. rewrite store_end by lia.
    destruct (Nat.eqb_spec (length bs) 0) as [Q|Q]; [apply length_zero_iff_nil in Q; contradiction|].
    destruct (IH (c ++ filled bs ++ fresh (n - length bs))) as (x & d & -> & K). exists x. eexists. split; [rewrite <- app_assoc; reflexivity|exact K].
Qed.

(* --- the response headers --- *)
Lemma tokens_line (l cur rest : list N) : plain l -> l <> [] \/ cur <> [] -> tokens cur (l ++ 13%N :: 10%N :: rest) = (rev cur ++ l) :: tokens [] rest.
Proof.
  revert cur. induction l as [|c l IH]; intros cur P N.
  - cbn. destruct cur as [|x cur]; [destruct N; congruence|]. rewrite app_nil_r. reflexivity.
  - inversion P as [|? ? (_ & P1 & P2) P3]; subst. cbn [app tokens]. unfold delimiter.
    destruct (N.eqb_spec c 13); [contradiction|]. destruct (N.eqb_spec c 10); [contradiction|]. cbn [orb].
    rewrite IH; [|assumption|right; discriminate]. cbn. rewrite <- app_assoc. reflexivity.
Qed.
Lemma at_colon_is n v : ~ In 58%N n -> at_colon (n ++ 58%N :: v) = Some (n, v).
Proof.
  induction n as [|c n IH]; intros H; [reflexivity|]. cbn. destruct (N.eqb_spec c 58); [exfalso; apply H; left; auto|]. rewrite IH by (intros I; apply H; right; auto). reflexivity.
Qed.
Lemma at_colon_none l : ~ In 58%N l -> at_colon l = None.
Proof.
  induction l as [|c n IH]; intros H; [reflexivity|]. cbn. destruct (N.eqb_spec c 58); [exfalso; apply H; left; auto|]. rewrite IH by (intros I; apply H; right; auto). reflexivity.
Qed.
Lemma tokens_fields fs rest : Forall field_ok fs -> tokens [] (flat_map (fun h => fst h ++ 58%N :: snd h ++ crlf) fs ++ rest) = map (fun h => fst h ++ 58%N :: snd h) fs ++ tokens [] rest.
Proof.
  induction 1 as [|[n v] fs (A & _ & B) _ IH]; [reflexivity|]. cbn [flat_map map fst snd] in *. cbn in A, B.
  replace ((n ++ 58%N :: v ++ crlf) ++ _) with ((n ++ 58%N :: v) ++ 13%N :: 10%N :: (flat_map (fun h => fst h ++ 58%N :: snd h ++ crlf) fs)) by (unfold crlf; rewrite <- !app_assoc; cbn; rewrite <- app_assoc; reflexivity).
  rewrite <- app_assoc. change ((13%N :: 10%N :: ?x) ++ rest) with (13%N :: 10%N :: (x ++ rest)). cbn [app]. rewrite tokens_line.
  - cbn [rev app]. rewrite IH. reflexivity.
  - apply Forall_app. split; [exact A|]. constructor; [repeat split; discriminate|exact B].
  - left. destruct n; discriminate.
Qed.
Lemma free_get w : free_block (get_block w) = w.
Proof. destruct w as [b h]. unfold free_block, get_block. cbn. rewrite Nat.sub_0_r. reflexivity. Qed.
Lemma close_get w : close_handle (get_handle w) = w.
Proof. destruct w as [b h]. unfold close_handle, get_handle. cbn. rewrite Nat.sub_0_r. reflexivity. Qed.
Lemma add_fields fs a w hs : Forall field_ok fs -> length fs <= length a -> Forall lucky a ->
  add_headers (map (fun h => fst h ++ 58%N :: snd h) fs) a w hs = (HTTPAPI_OK, w, hs ++ fs).
Proof.
  intros F. revert a hs. induction F as [|[n v] fs (A & C & B) _ IH]; intros a hs L K; [cbn; rewrite app_nil_r; destruct a; reflexivity|].
  destruct a as [|x a]; [cbn in L; lia|]. inversion K as [|? ? (K1 & K2 & K3 & K4) K5]; subst. cbn [map fst snd add_headers]. rewrite K1, K2, K3, K4.
  cbn in C. rewrite at_colon_is by exact C. rewrite free_get, IH by (auto; cbn in L; lia). rewrite <- app_assoc. reflexivity.
Qed.
Lemma add_headers_world ts a w hs : let '(x, w2, _) := add_headers ts a w hs in (x = HTTPAPI_OK /\ w2 = w) \/ (x = HTTPAPI_HTTP_HEADERS_FAILED /\ w2 = get_block w).
Proof.
  revert a hs. induction ts as [|t ts IH]; intros a hs; [cbn; auto|]. destruct a as [|x a]; [cbn; auto|]. cbn [add_headers].
  destruct (t_size x); [|apply IH]. destruct (t_memory x); [|apply IH]. destruct (t_convert x); [|rewrite free_get; apply IH].
  destruct (at_colon t) as [[n v]|]; [|rewrite free_get; apply IH]. destruct (t_add x); [rewrite free_get; apply IH|]. right. auto.
Qed.

(* --- C140: the request --- *)
Definition DWORD (n : nat) : Prop := (N.of_nat n < 2 ^ 32)%N.
(* With a connection, calls that succeed and less than 4 GB: one message goes out, and it is the
   caller's; the response is read *)
Lemma good_run i c t path hs content st res buf s w code : running i -> Forall field_ok hs -> good hs s code ->
  HTTPAPI_ExecuteRequest i (connected c) (mkr (Some t) (Some path) (Some hs) content st res buf) s w
  = with_world free_block (with_world free_block (with_world free_block (with_world close_handle
      (response (mkr (Some t) (Some path) (Some hs) content st res buf) s
         [whole t path hs (firstn (N.to_nat (N.of_nat (length content) mod 2 ^ 32)) content) c] (get_handle (get_block (get_block (get_block w)))))))).
Proof.
  intros R F (L1 & F1 & L2 & F2 & G1 & G2 & G3 & G4 & G5 & G6 & G7 & G8 & G9 & G10 & _).
  unfold HTTPAPI_ExecuteRequest. red in R. rewrite R. cbn [negb connected r_path r_headers r_type].
  replace (method (Some t)) with (Some (method_of t)) by (destruct t; reflexivity).
  assert (NN : Forall no_nul hs) by (eapply Forall_impl; [|exact F]; apply field_no_nul).
  rewrite G1, win_headers_made by assumption. rewrite G2, G3, G4, G5.
  replace (filled (request_text hs ++ [0%N])) with (filled (request_text hs ++ [0%N]) ++ []) by apply app_nil_r.
  rewrite c_str_is by (apply request_no_nul; assumption). cbn [c_handle c_timeout]. rewrite G6.
  unfold send_and_receive. rewrite G7, G8, G9, G10. reflexivity.
Qed.
Lemma dword_id (l : list N) : DWORD (length l) -> firstn (N.to_nat (N.of_nat (length l) mod 2 ^ 32)) l = l.
Proof. intros D. rewrite N.mod_small by exact D. rewrite Nat2N.id. apply firstn_all. Qed.

(* what is sent, when something is sent, and it is sent at most once *)
Lemma response_sent r s sent w a : response r s sent w = Returns a -> a_sent a = sent.
Proof.
  unfold response. destruct (s_status s) as [code|]; [|intros E; injection E as <-; reflexivity].
  destruct (match r_buffer r with Some b => _ | None => _ end) as [use w1]. destruct use as [b|]; [|intros E; injection E as <-; reflexivity].
  destruct (read_body (s_body s) b) as [x c|]; [|discriminate]. destruct (match r_buffer r with Some _ => _ | None => _ end) as [content w2].
  destruct x; try (intros E; injection E as <-; reflexivity). destruct (r_response r); [|intros E; injection E as <-; reflexivity].
  unfold response_headers. destruct (s_rawmem s); [|intros E; injection E as <-; reflexivity]. destruct (s_raw s) as [raw|]; [|intros E; injection E as <-; reflexivity].
  destruct (add_headers _ _ _ _) as [[y w3] hs]. intros E; injection E as <-; reflexivity.
Qed.
Lemma with_world_returns f o a : with_world f o = Returns a -> exists b, o = Returns b /\ a_sent a = a_sent b /\ a_result a = a_result b /\ a_status a = a_status b /\ a_headers a = a_headers b /\ a_content a = a_content b /\ a_world a = f (a_world b).
Proof. destruct o as [b| |]; cbn; intros E; try discriminate. injection E as <-. exists b. auto 10. Qed.
Lemma early x r w : exists b, Returns (mka x [] None [] (r_buffer r) w) = Returns b /\ a_sent b = [] /\ a_result b = x.
Proof. eexists. split; [reflexivity|]. auto. Qed.

Theorem win_sends_partial i c t path hs content st res buf s w a : Forall field_ok hs -> DWORD (length content) ->
  HTTPAPI_ExecuteRequest i (connected c) (mkr (Some t) (Some path) (Some hs) content st res buf) s w = Returns a ->
  (a_sent a = [] \/ a_sent a = [whole t path hs content c]) /\ (a_result a = HTTPAPI_OK -> a_sent a = [whole t path hs content c]).
Proof.
  intros F D. unfold HTTPAPI_ExecuteRequest.
  assert (Q : forall x w1, x <> HTTPAPI_OK -> Returns (mka x [] None [] buf w1) = Returns a ->
    (a_sent a = [] \/ a_sent a = [whole t path hs content c]) /\ (a_result a = HTTPAPI_OK -> a_sent a = [whole t path hs content c])).
  { intros x w1 N E. injection E as <-. cbn. split; [auto|]. intros; contradiction. }
  destruct (negb (initialised i)); [apply Q; discriminate|]. cbn [connected r_path r_headers r_type r_buffer].
  replace (method (Some t)) with (Some (method_of t)) by (destruct t; reflexivity).
  assert (NN : Forall no_nul hs) by (eapply Forall_impl; [|exact F]; apply field_no_nul).
  destruct (win_headers_text hs (s_first s) (s_second s) (s_text s) NN) as [->| ->]; [apply Q; discriminate|].
  intros E. apply with_world_returns in E. destruct E as (b1 & E & -> & -> & _). revert E.
  destruct (s_pathmem s); [|intros E; injection E as <-; cbn; split; [auto|discriminate] ].
  intros E. apply with_world_returns in E. destruct E as (b2 & E & -> & -> & _). revert E.
  destruct (s_pathconv s); [|intros E; injection E as <-; cbn; split; [auto|discriminate] ].
  destruct (s_headmem s); [|intros E; injection E as <-; cbn; split; [auto|discriminate] ].
  intros E. apply with_world_returns in E. destruct E as (b3 & E & -> & -> & _). revert E.
  destruct (s_headconv s); [|intros E; injection E as <-; cbn; split; [auto|discriminate] ].
  replace (filled (request_text hs ++ [0%N])) with (filled (request_text hs ++ [0%N]) ++ []) by apply app_nil_r.
  rewrite c_str_is by (apply request_no_nul; assumption). cbn [c_handle c_timeout].
  destruct (s_open s); [|intros E; injection E as <-; cbn; split; [auto|discriminate] ].
  intros E. apply with_world_returns in E. destruct E as (b4 & E & -> & -> & _). revert E.
  unfold send_and_receive. cbn [r_content r_buffer]. rewrite dword_id by assumption.
  destruct (s_timeouts s); [|intros E; injection E as <-; cbn; split; [auto|discriminate] ].
  destruct (s_security s); [|intros E; injection E as <-; cbn; split; [auto|discriminate] ].
  destruct (s_send s); [|intros E; injection E as <-; cbn; split; [auto|discriminate] ].
  destruct (s_receive s); [|intros E; injection E as <-; cbn; split; [auto|discriminate] ].
  intros E. apply response_sent in E. rewrite E. auto.
Qed.

(* A content of 4 GB and more is cut to its length modulo 2^32, and the call succeeds *)
Theorem win_large_refuted i c t path hs content st s w code body k : running i -> Forall field_ok hs -> good hs s code -> chunks body (s_body s) ->
  N.of_nat (length content) = (2 ^ 32 + k)%N -> (k < 2 ^ 32)%N ->
  exists a, HTTPAPI_ExecuteRequest i (connected c) (mkr (Some t) (Some path) (Some hs) content st false (Some [])) s w = Returns a
    /\ a_result a = HTTPAPI_OK /\ exists m, a_sent a = [m] /\ N.of_nat (length (m_content m)) = k /\ m_content m <> content.
Proof.
  intros R F G C L K. rewrite (good_run _ _ _ _ _ _ _ _ _ _ _ _ R F G).
  destruct G as (_ & _ & _ & _ & _ & _ & _ & _ & _ & _ & _ & _ & _ & _ & G1 & G2 & G3).
  unfold response. rewrite G1. cbn [r_buffer r_response]. rewrite (body_read _ _ C).
  eexists. split; [reflexivity|]. split; [reflexivity|]. eexists. split; [reflexivity|]. cbn [m_content whole].
  assert (X : N.to_nat (N.of_nat (length content) mod 2 ^ 32) = N.to_nat k).
  { f_equal. rewrite L. rewrite <- (N.mod_small k (2 ^ 32)) at 2 by exact K. rewrite N.add_comm. rewrite <- (N.mul_1_l (2 ^ 32)) at 1. apply N.mod_add. discriminate. }
  rewrite X. split.
  - rewrite firstn_length_le by lia. apply N2Nat.id.
  - intros E. apply (f_equal (@length _)) in E. rewrite firstn_length in E. lia.
Qed.

(* --- C141: the response --- *)
Theorem win_response_partial i c t path hs content st buf s w code body line fs : running i -> Forall field_ok hs -> DWORD (length content) -> good hs s code ->
  chunks body (s_body s) -> plain line -> line <> [] -> ~ In 58%N line -> Forall field_ok fs ->
  s_raw s = Some (response_text line fs) -> S (length fs) <= length (s_tokens s) -> Forall lucky (s_tokens s) ->
  HTTPAPI_ExecuteRequest i (connected c) (mkr (Some t) (Some path) (Some hs) content st true buf) s w
  = Returns (mka HTTPAPI_OK [whole t path hs content c] (if st then Some code else None) fs (option_map (fun b => b ++ filled body) buf) w).
Proof.
  intros R F D G C P PN PC FF RT L K. rewrite (good_run _ _ _ _ _ _ _ _ _ _ _ _ R F G), dword_id by assumption.
  destruct G as (_ & _ & _ & _ & _ & _ & _ & _ & _ & _ & _ & _ & _ & _ & G1 & G2 & G3).
  unfold response. rewrite G1, G2. cbn [r_buffer r_response r_status].
  assert (T : tokens [] (response_text line fs) = line :: map (fun h => fst h ++ 58%N :: snd h) fs).
  { unfold response_text. change (crlf ++ ?x) with (13%N :: 10%N :: x). rewrite tokens_line by auto. cbn [rev app]. rewrite tokens_fields by assumption. cbn. rewrite app_nil_r. reflexivity. }
  assert (A : forall w1, add_headers (tokens [] (response_text line fs)) (s_tokens s) w1 [] = (HTTPAPI_OK, w1, fs)).
  { intros w1. rewrite T. destruct (s_tokens s) as [|x a]; [cbn in L; lia|]. inversion K as [|? ? (K1 & K2 & K3 & K4) K5]; subst. cbn [add_headers].
    rewrite K1, K2, K3, at_colon_none by assumption. rewrite free_get, add_fields by (auto; cbn in L; lia). reflexivity. }
  destruct buf as [b|].
  - rewrite (body_read _ _ C). unfold response_headers. rewrite G3, RT, A. cbn [with_world a_result a_sent a_status a_headers a_content a_world].
    rewrite free_get, close_get, !free_get. reflexivity.
  - rewrite (body_read _ _ C). unfold response_headers. rewrite G3, RT, A. cbn [with_world a_result a_sent a_status a_headers a_content a_world].
    rewrite !free_get, close_get, !free_get. reflexivity.
Qed.
(* a body that does not come to its end, or for which there is no memory, is reported *)
Theorem win_body_cut i c t path hs content st res buf s w code a : running i -> Forall field_ok hs -> good hs s code -> chunks_cut (s_body s) ->
  HTTPAPI_ExecuteRequest i (connected c) (mkr (Some t) (Some path) (Some hs) content st res buf) s w = Returns a ->
  a_result a = HTTPAPI_QUERY_DATA_AVAILABLE_FAILED \/ a_result a = HTTPAPI_READ_DATA_FAILED \/ a_result a = HTTPAPI_ERROR.
Proof.
  intros R F G C. rewrite (good_run _ _ _ _ _ _ _ _ _ _ _ _ R F G).
  destruct G as (_ & _ & _ & _ & _ & _ & _ & _ & _ & _ & _ & _ & _ & _ & G1 & G2 & G3).
  unfold response. rewrite G1, G2. cbn [r_buffer r_response r_status].
  destruct buf as [b|].
  - destruct (body_cut _ C b) as (x & d & -> & K). intros E. destruct K as [->|[->| ->] ]; cbn [with_world] in E; injection E as <-; cbn; auto.
  - destruct (body_cut _ C []) as (x & d & -> & K). intros E. destruct K as [->|[->| ->] ]; cbn [with_world] in E; injection E as <-; cbn; auto.
Qed.
(* A read that gives less than was announced leaves unwritten bytes in the body, with HTTPAPI_OK *)
Theorem win_short_read_refuted i c t path hs content st s w code n bs memory read rest : running i -> Forall field_ok hs -> good hs s code ->
  bs <> [] -> length bs < n -> s_body s = Available n true (Some bs) :: Available 0 memory read :: rest ->
  exists a d, HTTPAPI_ExecuteRequest i (connected c) (mkr (Some t) (Some path) (Some hs) content st false (Some [])) s w = Returns a
    /\ a_result a = HTTPAPI_OK /\ a_content a = Some (filled bs ++ d) /\ length d = n - length bs /\ d <> [] /\ Forall (eq None) d.
Proof.
  intros R F G N L B. rewrite (good_run _ _ _ _ _ _ _ _ _ _ _ _ R F G).
  destruct G as (_ & _ & _ & _ & _ & _ & _ & _ & _ & _ & _ & _ & _ & _ & G1 & G2 & G3).
  unfold response. rewrite G1, B. cbn [r_buffer r_response r_status read_body].
  destruct (Nat.eqb_spec n 0); [lia|]. destruct (Nat.ltb_spec n (length bs)); [lia|]. rewrite store_end by lia.
  destruct (Nat.eqb_spec (length bs) 0) as [Q|Q]; [apply length_zero_iff_nil in Q; contradiction|]. cbn [Nat.eqb].
  eexists. exists (fresh (n - length bs)). split; [reflexivity|]. split; [reflexivity|]. split; [reflexivity|]. rewrite fresh_length. split; [reflexivity|]. split.
  - intros E. apply (f_equal (@length _)) in E. rewrite fresh_length in E. cbn in E. lia.
  - unfold fresh. clear. induction (n - length bs); cbn; constructor; auto.
Qed.
(* Headers that cannot be had, for want of memory or because the query fails, are silently left out *)
Theorem win_headers_dropped_refuted i c t path hs content st buf s w code body line f : running i -> Forall field_ok hs -> good hs s code -> chunks body (s_body s) ->
  plain line -> line <> [] -> ~ In 58%N line -> field_ok f ->
  (s_raw s = None \/ (s_raw s = Some (response_text line [f]) /\ exists x y, s_tokens s = [x; y] /\ lucky x /\ (t_size y = false \/ t_memory y = false \/ t_convert y = false))) ->
  exists a, HTTPAPI_ExecuteRequest i (connected c) (mkr (Some t) (Some path) (Some hs) content st true buf) s w = Returns a
    /\ a_result a = HTTPAPI_OK /\ a_headers a = [].
Proof.
  intros R F G C P PN PC FF H. rewrite (good_run _ _ _ _ _ _ _ _ _ _ _ _ R F G).
  destruct G as (_ & _ & _ & _ & _ & _ & _ & _ & _ & _ & _ & _ & _ & _ & G1 & G2 & G3).
  unfold response. rewrite G1, G2. cbn [r_buffer r_response r_status].
  assert (Z : forall sent st1 content1 w1, exists a, response_headers (mkr (Some t) (Some path) (Some hs) content st true buf) s sent st1 content1 w1 = Returns a /\ a_result a = HTTPAPI_OK /\ a_headers a = []).
  { intros sent st1 content1 w1. unfold response_headers. rewrite G3. destruct H as [->|(-> & x & y & -> & (K1 & K2 & K3 & K4) & Y)].
    - eexists. split; [reflexivity|]. auto.
    - assert (T : tokens [] (response_text line [f]) = line :: map (fun h => fst h ++ 58%N :: snd h) [f]).
      { unfold response_text. change (crlf ++ ?x) with (13%N :: 10%N :: x). rewrite tokens_line by auto. cbn [rev app]. rewrite tokens_fields by auto. cbn. reflexivity. }
      rewrite T. cbn [map add_headers]. rewrite K1, K2, K3, at_colon_none by assumption.
      destruct Y as [->|[->| ->] ].
      + eexists. split; [reflexivity|]. auto.
      + destruct (t_size y); (eexists; split; [reflexivity|]; auto).
      + destruct (t_size y), (t_memory y); (eexists; split; [reflexivity|]; auto). }
  destruct buf as [b|]; rewrite (body_read _ _ C); match goal with |- context [response_headers _ _ ?a ?b ?c ?d] => destruct (Z a b c d) as (x & -> & X1 & X2) end;
  cbn [with_world]; eexists; (split; [reflexivity|]); cbn; auto.
Qed.
(* A status line with a colon in its reason becomes a response header *)
Theorem win_reason_refuted i c t path hs content st buf s w code body pre post : running i -> Forall field_ok hs -> good hs s code -> chunks body (s_body s) ->
  plain pre -> ~ In 58%N pre -> plain post -> s_raw s = Some (response_text (pre ++ 58%N :: post) []) -> (exists x, s_tokens s = [x] /\ lucky x) ->
  exists a, HTTPAPI_ExecuteRequest i (connected c) (mkr (Some t) (Some path) (Some hs) content st true buf) s w = Returns a
    /\ a_result a = HTTPAPI_OK /\ a_headers a = [(pre, post)].
Proof.
  intros R F G C P PN PC RT (x & X & K1 & K2 & K3 & K4). rewrite (good_run _ _ _ _ _ _ _ _ _ _ _ _ R F G).
  destruct G as (_ & _ & _ & _ & _ & _ & _ & _ & _ & _ & _ & _ & _ & _ & G1 & G2 & G3).
  unfold response. rewrite G1, G2. cbn [r_buffer r_response r_status].
  assert (T : tokens [] (response_text (pre ++ 58%N :: post) []) = [pre ++ 58%N :: post]).
  { unfold response_text. change (crlf ++ ?x) with (13%N :: 10%N :: x). rewrite tokens_line; [reflexivity| |left; destruct pre; discriminate].
    apply Forall_app. split; [exact P|]. constructor; [repeat split; discriminate|exact PC]. }
  assert (A : forall w1, add_headers (tokens [] (response_text (pre ++ 58%N :: post) [])) (s_tokens s) w1 [] = (HTTPAPI_OK, w1, [(pre, post)])).
  { intros w1. rewrite T, X. cbn [add_headers]. rewrite K1, K2, K3, K4, at_colon_is by assumption. rewrite free_get. reflexivity. }
  destruct buf as [b|]; rewrite (body_read _ _ C); unfold response_headers; rewrite G3, RT, A; cbn [with_world]; eexists; (split; [reflexivity|]); cbn; auto.
Qed.

(* --- C142: memory and handles --- *)
Lemma response_world r s sent w a : response r s sent w = Returns a ->
  (a_result a <> HTTPAPI_HTTP_HEADERS_FAILED /\ a_world a = w) \/ (a_result a = HTTPAPI_HTTP_HEADERS_FAILED /\ a_world a = get_block w).
Proof.
  unfold response. destruct (s_status s) as [code|]; [|intros E; injection E as <-; left; split; [discriminate|reflexivity] ].
  assert (H : forall content w1 a, response_headers r s sent (if r_status r then Some code else None) content w1 = Returns a ->
    (a_result a <> HTTPAPI_HTTP_HEADERS_FAILED /\ a_world a = w1) \/ (a_result a = HTTPAPI_HTTP_HEADERS_FAILED /\ a_world a = get_block w1)).
  { intros content w1 a0. unfold response_headers. destruct (s_rawmem s); [|intros E; injection E as <-; left; split; [discriminate|reflexivity] ].
    destruct (s_raw s) as [raw|].
    - pose proof (add_headers_world (tokens [] raw) (s_tokens s) (get_block w1) []) as Q. destruct (add_headers _ _ _ _) as [[y w3] hs].
      intros E; injection E as <-. cbn. destruct Q as [[-> ->]|[-> ->] ]; rewrite free_get; [left|right]; split; auto; discriminate.
    - intros E; injection E as <-. left. cbn. rewrite free_get. split; [discriminate|reflexivity]. }
  destruct (r_buffer r) as [b|].
  - pose proof (body_ok (s_body s) b) as BO. destruct (read_body (s_body s) b) as [x c|] eqn:EB; [|discriminate].
    assert (NX : x <> HTTPAPI_HTTP_HEADERS_FAILED).
    { clear - EB. intros ->. revert b EB. induction (s_body s) as [|y l IH]; intros b; [discriminate|]. destruct y as [|n m rd]; [discriminate|]. cbn [read_body].
      destruct (n =? 0); [discriminate|]. destruct m; [|discriminate]. destruct rd as [bs|]; [|discriminate]. destruct (n <? length bs); [discriminate|].
      destruct (store_all _ _ bs); [|discriminate]. destruct (length bs =? 0); [discriminate|]. apply IH. }
    destruct x; try (intros E; injection E as <-; left; split; [discriminate|reflexivity]); try congruence.
    destruct (r_response r); [apply H|]. intros E; injection E as <-; left; split; [discriminate|reflexivity].
  - destruct (s_buffer s); [|intros E; injection E as <-; left; split; [discriminate|reflexivity] ].
    destruct (read_body (s_body s) []) as [x c|] eqn:EB; [|discriminate].
    assert (NX : x <> HTTPAPI_HTTP_HEADERS_FAILED).
    { clear - EB. intros ->. revert EB. generalize (@nil (option N)). induction (s_body s) as [|y l IH]; intros b; [discriminate|]. destruct y as [|n m rd]; [discriminate|]. cbn [read_body].
      destruct (n =? 0); [discriminate|]. destruct m; [|discriminate]. destruct rd as [bs|]; [|discriminate]. destruct (n <? length bs); [discriminate|].
      destruct (store_all _ _ bs); [|discriminate]. destruct (length bs =? 0); [discriminate|]. apply IH. }
    rewrite free_get.
    destruct x; try (intros E; injection E as <-; left; split; [discriminate|reflexivity]); try congruence.
    destruct (r_response r); [apply H|]. intros E; injection E as <-; left; split; [discriminate|reflexivity].
Qed.

(* Every path gives back every block and every handle, but the one on which a header is refused *)
Theorem win_memory_partial i c r s w a : HTTPAPI_ExecuteRequest i c r s w = Returns a ->
  if (match a_result a with HTTPAPI_HTTP_HEADERS_FAILED => true | _ => false end) then handles (a_world a) = handles w /\ blocks (a_world a) = S (blocks w) else a_world a = w.
Proof.
  assert (G : ((a_result a <> HTTPAPI_HTTP_HEADERS_FAILED /\ a_world a = w) \/ (a_result a = HTTPAPI_HTTP_HEADERS_FAILED /\ a_world a = get_block w)) ->
    if (match a_result a with HTTPAPI_HTTP_HEADERS_FAILED => true | _ => false end) then handles (a_world a) = handles w /\ blocks (a_world a) = S (blocks w) else a_world a = w).
  { intros [[N E]|[-> ->] ]; [destruct (a_result a); try exact E; congruence|split; reflexivity]. }
  intros E. apply G. clear G. revert E.
  unfold HTTPAPI_ExecuteRequest.
  assert (Q : forall x w1 b, x <> HTTPAPI_HTTP_HEADERS_FAILED -> Returns (mka x [] None [] (r_buffer r) w1) = Returns b ->
     (a_result b <> HTTPAPI_HTTP_HEADERS_FAILED /\ a_world b = w1) \/ (a_result b = HTTPAPI_HTTP_HEADERS_FAILED /\ a_world b = get_block w1)).
  { intros x w1 b N E. injection E as <-. left. auto. }
  assert (FG : forall w1 w2, (w2 = get_block w1 -> free_block w2 = w1) /\ (w2 = get_block (get_block w1) -> free_block w2 = get_block w1)) by (intros; split; intros ->; apply free_get).
  destruct (negb (initialised i)); [apply Q; discriminate|].
  destruct c as [c|]; [|apply Q; discriminate]. destruct (r_path r) as [path|]; [|apply Q; discriminate]. destruct (r_headers r) as [hs|]; [|apply Q; discriminate].
  destruct (method (r_type r)) as [m|]; [|apply Q; discriminate].
  destruct (ConstructHeadersString _ _ _ _) as [[b|]|]; [|apply Q; discriminate|discriminate].
  assert (K : forall o w1, (forall b1, o = Returns b1 -> (a_result b1 <> HTTPAPI_HTTP_HEADERS_FAILED /\ a_world b1 = get_block w1) \/ (a_result b1 = HTTPAPI_HTTP_HEADERS_FAILED /\ a_world b1 = get_block (get_block w1))) ->
     forall a1, with_world free_block o = Returns a1 -> (a_result a1 <> HTTPAPI_HTTP_HEADERS_FAILED /\ a_world a1 = w1) \/ (a_result a1 = HTTPAPI_HTTP_HEADERS_FAILED /\ a_world a1 = get_block w1)).
  { intros o w1 H a1 E. apply with_world_returns in E. destruct E as (b1 & E & _ & -> & _ & _ & _ & ->). destruct (H b1 E) as [[N ->]|[N ->] ]; rewrite free_get; auto. }
  apply K. intros b1. destruct (s_pathmem s); [|apply Q; discriminate].
  apply K. intros b2. destruct (s_pathconv s); [|apply Q; discriminate]. destruct (s_headmem s); [|apply Q; discriminate].
  apply K. intros b3. destruct (s_headconv s); [|apply Q; discriminate].
  destruct (c_str b) as [text|]; [|discriminate]. destruct (c_handle c) as [[|]|]; [|discriminate|discriminate]. destruct (c_timeout c) as [timeout|]; [|discriminate].
  destruct (s_open s); [|apply Q; discriminate].
  intros E. apply with_world_returns in E. destruct E as (b4 & E & _ & -> & _ & _ & _ & ->).
  assert (Y : (a_result b4 <> HTTPAPI_HTTP_HEADERS_FAILED /\ a_world b4 = get_handle (get_block (get_block (get_block w)))) \/
              (a_result b4 = HTTPAPI_HTTP_HEADERS_FAILED /\ a_world b4 = get_block (get_handle (get_block (get_block (get_block w)))))).
  { revert E. unfold send_and_receive.
    destruct (s_timeouts s); [|intros E; injection E as <-; left; split; [discriminate|reflexivity] ].
    destruct (s_security s); [|intros E; injection E as <-; left; split; [discriminate|reflexivity] ].
    destruct (s_send s); [|intros E; injection E as <-; left; split; [discriminate|reflexivity] ].
    destruct (s_receive s); [|intros E; injection E as <-; left; split; [discriminate|reflexivity] ].
    apply response_world. }
  destruct Y as [[N ->]|[N ->] ]; [left|right]; (split; [exact N|]).
  - apply close_get.
  - unfold close_handle, get_handle, get_block. cbn. rewrite Nat.sub_0_r. reflexivity.
Qed.
(* and no call does anything undefined with a connection that was made *)
Theorem win_defined i c r s w : (forall hs, r_headers r = Some hs -> Forall no_nul hs) -> HTTPAPI_ExecuteRequest i (connected c) r s w <> Undefined.
Proof.
  intros F. unfold HTTPAPI_ExecuteRequest. destruct (negb (initialised i)); [discriminate|]. cbn [connected].
  destruct (r_path r); [|discriminate]. destruct (r_headers r) as [hs|]; [|discriminate]. specialize (F hs eq_refl). destruct (method (r_type r)); [|discriminate].
  destruct (win_headers_text hs (s_first s) (s_second s) (s_text s) F) as [->| ->]; [discriminate|].
  assert (K : forall f o, o <> Undefined -> with_world f o <> Undefined) by (intros f o; destruct o; cbn; congruence).
  apply K. destruct (s_pathmem s); [|discriminate]. apply K. destruct (s_pathconv s); [|discriminate]. destruct (s_headmem s); [|discriminate]. apply K.
  destruct (s_headconv s); [|discriminate].
  replace (filled (request_text hs ++ [0%N])) with (filled (request_text hs ++ [0%N]) ++ []) by apply app_nil_r.
  rewrite c_str_is by (apply request_no_nul; assumption). cbn [c_handle c_timeout]. destruct (s_open s); [|discriminate]. apply K.
  unfold send_and_receive. destruct (s_timeouts s); [|discriminate]. destruct (s_security s); [|discriminate]. destruct (s_send s); [|discriminate]. destruct (s_receive s); [|discriminate].
  unfold response. destruct (s_status s); [|discriminate].
  assert (H : forall r s sent st content w1, response_headers r s sent st content w1 <> Undefined).
  { intros. unfold response_headers. destruct (s_rawmem s0); [|discriminate]. destruct (s_raw s0); [|discriminate]. destruct (add_headers _ _ _ _) as [[? ?] ?]. discriminate. }
  destruct (match r_buffer r with Some b => _ | None => _ end) as [use w1]. destruct use; [|discriminate]. destruct (read_body _ _) as [x ?|]; [|discriminate].
  destruct (match r_buffer r with Some _ => _ | None => _ end) as [cont2 w2]. destruct x; try discriminate. destruct (r_response r); [apply H|discriminate].
Qed.
(* A response header that cannot be added: the call says so, and its text is lost *)
Theorem win_leak_refuted i c t path hs content st buf s w code body line f : running i -> Forall field_ok hs -> good hs s code -> chunks body (s_body s) ->
  plain line -> line <> [] -> ~ In 58%N line -> field_ok f -> s_raw s = Some (response_text line [f]) ->
  (exists x y, s_tokens s = [x; y] /\ lucky x /\ t_size y = true /\ t_memory y = true /\ t_convert y = true /\ t_add y = false) ->
  exists a, HTTPAPI_ExecuteRequest i (connected c) (mkr (Some t) (Some path) (Some hs) content st true buf) s w = Returns a
    /\ a_result a = HTTPAPI_HTTP_HEADERS_FAILED /\ blocks (a_world a) = S (blocks w).
Proof.
  intros R F G C P PN PC FF RT (x & y & X & (K1 & K2 & K3 & K4) & Y1 & Y2 & Y3 & Y4).
  destruct (HTTPAPI_ExecuteRequest i (connected c) (mkr (Some t) (Some path) (Some hs) content st true buf) s w) as [a| |] eqn:E.
  - exists a. split; [reflexivity|].
    enough (A : a_result a = HTTPAPI_HTTP_HEADERS_FAILED) by (split; [exact A|]; pose proof (win_memory_partial _ _ _ _ _ _ E) as M; rewrite A in M; apply M).
    rewrite (good_run _ _ _ _ _ _ _ _ _ _ _ _ R F G) in E.
    destruct G as (_ & _ & _ & _ & _ & _ & _ & _ & _ & _ & _ & _ & _ & _ & G1 & G2 & G3).
    unfold response in E. rewrite G1, G2 in E. cbn [r_buffer r_response r_status] in E.
    assert (T : tokens [] (response_text line [f]) = line :: map (fun h => fst h ++ 58%N :: snd h) [f]).
    { unfold response_text. change (crlf ++ ?z) with (13%N :: 10%N :: z). rewrite tokens_line by auto. cbn [rev app]. rewrite tokens_fields by auto. cbn. reflexivity. }
    assert (A : forall w1, add_headers (tokens [] (response_text line [f])) (s_tokens s) w1 [] = (HTTPAPI_HTTP_HEADERS_FAILED, get_block w1, [])).
    { intros w1. rewrite T, X. cbn [map add_headers]. rewrite K1, K2, K3, at_colon_none by assumption. rewrite Y1, Y2, Y3, Y4, free_get. destruct f as [n v]. cbn [fst snd].
      rewrite at_colon_is by apply FF. reflexivity. }
    destruct buf as [b|]; rewrite (body_read _ _ C) in E; unfold response_headers in E; rewrite G3, RT, A in E; cbn [with_world] in E; injection E as <-; reflexivity.
  - exfalso. apply (win_defined i c (mkr (Some t) (Some path) (Some hs) content st true buf) s w); [|exact E]. cbn. intros ? Q. injection Q as <-. eapply Forall_impl; [|exact F]. apply field_no_nul.
  - exfalso. rewrite (good_run _ _ _ _ _ _ _ _ _ _ _ _ R F G) in E.
    destruct G as (_ & _ & _ & _ & _ & _ & _ & _ & _ & _ & _ & _ & _ & _ & G1 & G2 & G3).
    unfold response in E. rewrite G1, G2 in E. cbn [r_buffer r_response r_status] in E.
    destruct buf as [b|]; rewrite (body_read _ _ C) in E; unfold response_headers in E; rewrite G3, RT in E; destruct (add_headers _ _ _ _) as [[? ?] ?]; discriminate.
Qed.

(* --- C143: the session and the connections --- *)
Inductive op := Init (ok : bool) | Deinit.
Definition step (s : api) (o : op) : api := match o with Init ok => snd (HTTPAPI_Init ok s) | Deinit => HTTPAPI_Deinit s end.
(* how often the api is initialised: successful Inits not yet undone *)
Fixpoint count (n : nat) (os : list op) : nat :=
  match os with
  | [] => n
  | Init ok :: os => count (match n with 0 => if ok then 1 else 0 | _ => S n end) os
  | Deinit :: os => count (n - 1) os
  end.
(* After any history the session is open exactly while someone uses it, and each one opened is closed once *)
Theorem win_session os : let s := fold_left step os api0 in
  users s = count 0 os /\ session s = (0 <? count 0 os) /\ initialised s = (0 <? count 0 os) /\ opened s = closed s + (if 0 <? count 0 os then 1 else 0).
Proof.
  enough (H : forall os s n, users s = n -> session s = (0 <? n) -> initialised s = (0 <? n) -> opened s = closed s + (if 0 <? n then 1 else 0) ->
    let s := fold_left step os s in users s = count n os /\ session s = (0 <? count n os) /\ initialised s = (0 <? count n os) /\ opened s = closed s + (if 0 <? count n os then 1 else 0))
    by (apply H; reflexivity).
  clear os. induction os as [|o os IH]; intros s n U S I O; [cbn; auto|]. cbn [fold_left count]. destruct o as [ok|].
  - apply IH; unfold step, HTTPAPI_Init; rewrite U; destruct n as [|n]; cbn; destruct ok; cbn; rewrite ?S, ?I, ?O, ?U; cbn; lia || reflexivity.
  - apply IH; unfold step, HTTPAPI_Deinit; rewrite U; destruct n as [|[|n] ]; cbn; rewrite ?S, ?I, ?O, ?U; cbn; rewrite ?S, ?I, ?O, ?U; cbn; lia || reflexivity.
Qed.
Theorem win_init_result ok s : fst (HTTPAPI_Init ok s) = HTTPAPI_OK <-> (0 < users s \/ ok = true).
Proof.
  unfold HTTPAPI_Init. destruct (Nat.eqb_spec (users s) 0); destruct ok; cbn; split; intros H; try reflexivity; try discriminate; auto; try (left; lia).
  destruct H as [H|H]; [lia|discriminate].
Qed.
(* a connection that is made can be used and closed, and NULL leaves nothing; not so when the host
   name cannot be converted or copied *)
Theorem win_connection_partial s memory convert connect w : initialised s = true ->
  let (c, w2) := HTTPAPI_CreateConnection s memory true true convert connect w in
  (c = None /\ w2 = w /\ memory && convert && connect = false) \/ (c = connected 30000 /\ w2 = get_handle (get_block w) /\ HTTPAPI_CloseConnection s c w2 = Some w).
Proof.
  intros I. unfold HTTPAPI_CreateConnection. rewrite I. cbn [negb]. destruct memory; [|left; auto]. destruct convert; [|left; cbn; rewrite !free_get; auto].
  destruct connect; [|left; cbn; rewrite !free_get; auto]. right. split; [reflexivity|]. split; [unfold free_block, get_handle, get_block; cbn; reflexivity|].
  unfold HTTPAPI_CloseConnection. rewrite I. cbn. f_equal. destruct w as [b h]. unfold free_block, close_handle, get_handle, get_block. cbn. rewrite !Nat.sub_0_r. reflexivity.
Qed.
(* then the caller gets a handle whose connection nobody ever wrote: closing it, or a request on it, is undefined *)
Theorem win_connection_refuted s size memory2 convert connect w : initialised s = true -> size && memory2 = false ->
  let (c, w2) := HTTPAPI_CreateConnection s true size memory2 convert connect w in
  c <> None /\ HTTPAPI_CloseConnection s c w2 = None /\
  forall t path hs content st res buf sc w3, Forall field_ok hs -> (exists code, good hs sc code) ->
    HTTPAPI_ExecuteRequest s c (mkr (Some t) (Some path) (Some hs) content st res buf) sc w3 = Undefined.
Proof.
  intros I E. unfold HTTPAPI_CreateConnection. rewrite I. cbn [negb].
  assert (H : Some (mkc None None) <> None /\ HTTPAPI_CloseConnection s (Some (mkc None None)) (get_block w) = None /\
    forall t path hs content st res buf sc w3, Forall field_ok hs -> (exists code, good hs sc code) ->
    HTTPAPI_ExecuteRequest s (Some (mkc None None)) (mkr (Some t) (Some path) (Some hs) content st res buf) sc w3 = Undefined).
  { split; [discriminate|]. split; [unfold HTTPAPI_CloseConnection; rewrite I; reflexivity|].
    intros t path hs content st res buf sc w3 F (code & L1 & F1 & L2 & F2 & G1 & G2 & G3 & G4 & G5 & G6 & _).
    unfold HTTPAPI_ExecuteRequest. rewrite I. cbn [negb r_path r_headers r_type]. replace (method (Some t)) with (Some (method_of t)) by (destruct t; reflexivity).
    assert (NN : Forall no_nul hs) by (eapply Forall_impl; [|exact F]; apply field_no_nul).
    rewrite G1, win_headers_made by assumption. rewrite G2, G3, G4, G5.
    replace (filled (request_text hs ++ [0%N])) with (filled (request_text hs ++ [0%N]) ++ []) by apply app_nil_r.
    rewrite c_str_is by (apply request_no_nul; assumption). reflexivity. }
  destruct size; [|exact H]. destruct memory2; [discriminate|exact H].
Qed.
(* a connection closed after the last Deinit stays there for ever *)
Theorem win_close_late_refuted s w c : initialised s = false -> HTTPAPI_CloseConnection s (connected c) w = Some w.
Proof. intros I. unfold HTTPAPI_CloseConnection. rewrite I. reflexivity. Qed.
Theorem win_invalid i c r s w : initialised i = false \/ c = None \/ r_path r = None \/ r_headers r = None \/ r_type r = None ->
  HTTPAPI_ExecuteRequest i c r s w = Returns (mka (if initialised i then HTTPAPI_INVALID_ARG else HTTPAPI_NOT_INIT) [] None [] (r_buffer r) w).
Proof.
  unfold HTTPAPI_ExecuteRequest. destruct (initialised i) eqn:E; cbn [negb]; [|reflexivity]. intros [H|[H|[H|[H|H] ] ] ]; [discriminate| | | |]; rewrite H; cbn [method].
  - reflexivity.
  - destruct c; reflexivity.
  - destruct c, (r_path r); reflexivity.
  - destruct c, (r_path r), (r_headers r); reflexivity.
Qed.

(* --- C144: the timeout --- *)
(* the value given to SetOption, or the copy CloneOption made, is the timeout of the following requests *)
Theorem win_timeout c v : HTTPAPI_SetOption (connected c) (Some (str "timeout")) (Some v) = (HTTPAPI_OK, connected v)
  /\ HTTPAPI_CloneOption (Some (str "timeout")) (Some v) true true = (HTTPAPI_OK, Some v) /\ fst (HTTPAPI_CloneOption (Some (str "timeout")) (Some v) true false) = HTTPAPI_ERROR
  /\ forall name h, (name = None \/ exists n, name = Some n /\ n <> str "timeout") -> HTTPAPI_SetOption h name (Some v) = (HTTPAPI_INVALID_ARG, h) /\ HTTPAPI_CloneOption name (Some v) true true = (HTTPAPI_INVALID_ARG, None).
Proof.
  split; [reflexivity|]. split; [reflexivity|]. split; [reflexivity|]. intros name h [->|(n & -> & N)].
  - destruct h; auto.
  - unfold HTTPAPI_SetOption, HTTPAPI_CloneOption. destruct (list_eq_dec N.eq_dec n (str "timeout")); [contradiction|]. destruct h; auto.
Qed.

(* Concrete cases *)
Definition case_hs : list (list N * list N) := [(str "Host", str "h"); (str "A", str "b c")].
Definition case_line : list N := str "HTTP/1.1 200 OK".
Definition case_script : script := mks [true; true] [true; true] true true true true true true true true true true (Some 200%N) true
  [Available 2 true (Some (str "he")); Available 3 true (Some (str "llo")); Available 0 true None] true (Some (response_text case_line [(str "X", str " y"); (str "Z", [])]))
  [mkt true true true true; mkt true true true true; mkt true true true true].
Example case_good : good case_hs case_script 200.
Proof. repeat split; repeat constructor. Qed.
Example case_chunks : chunks (str "hello") (s_body case_script).
Proof. apply (chunks_more (str "he") (str "llo")); [discriminate|]. apply (chunks_more (str "llo") []); [discriminate|]. apply chunks_end. Qed.
Example case_cut : chunks_cut [Available 4 true (Some (str "he")); QueryFails].
Proof. apply cut_more; [discriminate|cbn; lia|]. apply cut_query. Qed.
Example case_fields : Forall field_ok [(str "X", str " y"); (str "Z", [])] /\ Forall field_ok case_hs /\ plain case_line /\ ~ In 58%N case_line.
Proof. repeat split; repeat constructor; cbn; try discriminate; intuition discriminate. Qed.
Example case_run : HTTPAPI_ExecuteRequest (mkapi 1 true true 1 0) (connected 5) (mkr (Some PUT) (Some (str "/p")) (Some case_hs) (str "body") true true (Some (filled (str "> ")))) case_script (mkw 7 2)
  = Returns (mka HTTPAPI_OK [mkmsg (str "PUT") (str "/p") (str "Host: h" ++ crlf ++ str "A: b c" ++ crlf) (str "body") 5] (Some 200%N) [(str "X", str " y"); (str "Z", [])] (Some (filled (str "> hello"))) (mkw 7 2)).
Proof. vm_compute. reflexivity. Qed.
