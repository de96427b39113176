(* C50-C54, C73: HTTPAPIEX. *)
From Coq Require Import Permutation.
From Verif Require Import Base Mem Refine Map_Model Map_Spec Map_Proofs Map_Props HttpHeaders_Model HttpHeaders_Spec HttpHeaders_Proofs
  Buffer_Model Buffer_Spec Buffer_Proofs Strings_Model Crt_Model Crt_Spec
  HttpApiEx_Model HttpApiEx_Spec HttpApiEx_Proofs HttpApiEx_Calls HttpApiEx_Objects HttpApiEx_Total.
Open Scope N_scope.

(** * Reached states *)

Lemma reached_resting fuel host h d w : (9 <= fuel)%nat -> reached fuel host h d w ->
  (exists vals, resting d w vals (fold_left in_force h []) (told_after [] (events h))) /\ hostName d = host /\ host_ok d /\
  w_trace w = events h /\ told_all [] [] h /\ low_run Down (events h) = Some (low_of d) /\ (k d =? 2)%Z = fold_left up_after h false /\
  Forall (fun c => exists latest0 conn0 d0 w0 d1 w1, stepped latest0 conn0 d0 w0 (fst (fst c)) (snd (fst c)) d1 w1 (snd c)) h.
Proof.
  intros Hf (d0 & hs & bs & st & ans & ops & o & o1 & o2 & Hc & Hh). pose proof (create_ensures _ _ _ _ Hc) as (E1 & E2 & E3 & E4 & E5).
  pose proof (start_resting d0 hs bs st ans E3 E4 E5) as Q. pose proof (history_ensures fuel ops _ _ _ _ _ Hf Q _ _ _ Hh) as (_ & H1 & H2 & H3 & H4 & H5 & H6 & H7).
  split; [exact H2|]. split; [congruence|]. split; [unfold host_ok; rewrite H5; apply cstr_okb_ok; exact E2|]. split; [exact H1|]. split; [exact H3|].
  unfold low_of in H4 at 1. rewrite E3 in *. auto.
Qed.

(* what fuel is for: once the loop has come to its end, more of it changes nothing *)
Lemma sequence_more fuel : forall fuel' u st d w o r d' w' o', (fuel <= fuel')%nat ->
  sequence fuel u st d w o = Some ((r, d', w'), o') -> r <> StillRunning -> sequence fuel' u st d w o = Some ((r, d', w'), o').
Proof.
  induction fuel as [|fuel IH]; intros fuel' u st d w o r d' w' o' Hle E Hr; cbn [sequence] in E.
  { injection E as <- _ _ _. congruence. }
  destruct fuel' as [|fuel']; [lia|]. cbn [sequence]. unfold bind in *. destruct (round u st d w o) as [[[[[r1 st1] d1] w1] o1]|]; [|discriminate].
  destruct r1 as [r1|]; [exact E|]. apply IH; [lia|exact E|exact Hr].
Qed.
Lemma execute_more fuel fuel' d w type path reqh reqc status resh resc o r d' w' o' : (fuel <= fuel')%nat ->
  HTTPAPIEX_ExecuteRequest fuel d w type path reqh reqc status resh resc o = Some ((r, d', w'), o') -> r <> StillRunning ->
  HTTPAPIEX_ExecuteRequest fuel' d w type path reqh reqc status resh resc o = Some ((r, d', w'), o').
Proof.
  intros Hle E Hr. unfold HTTPAPIEX_ExecuteRequest in *. destruct (5 <=? type); [exact E|].
  unfold bind in *. destruct (buildAllRequests _ _ _ _ _ _ _ _ _ _ o) as [[[[[u|] hs] bs] o1]|]; [|exact E|discriminate].
  match type of E with context [sequence fuel u ?a ?b ?c o1] => destruct (sequence fuel u a b c o1) as [[[[r1 d1] w1] o2]|] eqn:Es; [|discriminate];
    rewrite (sequence_more fuel fuel' u a b c o1 r1 d1 w1 o2 Hle Es); [exact E|] end.
  intros ->. apply Hr. repeat match type of E with context [match ?x with _ => _ end] => destruct x as [[? ?]|]; [|discriminate] end. cbn in E.
  injection E as <- _ _ _. reflexivity.
Qed.

(** * C50: it always returns *)

(* Whatever the calls below answer and whatever allocations fail: it returns, with one of its
   codes, after at most one HTTPAPI_Init, two HTTPAPI_CreateConnection and three
   HTTPAPI_ExecuteRequest (9 rounds of its loop always suffice). *)
Theorem execute_always_returns : forall host h d w hsp bsp type path reqh reqc status resh resc o,
  reached 9 host h d w ->
  hrepresents (w_headers w) hsp -> brepresents (w_buffers w) bsp -> usable hsp bsp reqh reqc resh resc ->
  exists r d' w' o' evs,
    (forall fuel, (9 <= fuel)%nat -> HTTPAPIEX_ExecuteRequest fuel d w type path reqh reqc status resh resc o = Some ((r, d', w'), o')) /\
    r <> StillRunning /\
    w_trace w' = w_trace w ++ evs /\
    (count is_init evs <= 1 /\ count is_create evs <= 2 /\ count is_request evs <= 3)%nat.
Proof.
  intros host h d w hsp bsp type path reqh reqc status resh resc o HR HH HB US.
  destruct (reached_resting 9 host h d w ltac:(lia) HR) as ((vals & Q) & _ & Hho & _).
  destruct (execute_total 9 d w vals _ _ hsp bsp type path reqh reqc status resh resc Hho Q HH HB US) as [D _].
  destruct (HTTPAPIEX_ExecuteRequest 9 d w type path reqh reqc status resh resc o) as [[[[r d'] w'] o']|] eqn:E; [|destruct (D o E)].
  destruct (execute_ensures 9 d w vals _ _ type path reqh reqc status resh resc Q _ _ _ E) as (evs & Ht & _ & _ & _ & _ & Hb & _).
  destruct (Hb ltac:(lia)) as [Hr Hc]. exists r, d', w', o', evs. split; [|auto]. intros fuel Hf. eapply execute_more; eassumption.
Qed.

(* The same of every call of a history. *)
Theorem every_call_bounded : forall fuel host h d w, (9 <= fuel)%nat -> reached fuel host h d w ->
  Forall (fun c => snd (fst c) <> XR StillRunning /\
    (count is_init (snd c) <= 1 /\ count is_create (snd c) <= 2 /\ count is_request (snd c) <= 3)%nat) h.
Proof.
  intros fuel host h d w Hf HR. destruct (reached_resting _ _ _ _ _ Hf HR) as (_ & _ & _ & _ & _ & _ & _ & H).
  eapply Forall_impl; [|exact H]. intros c (l0 & c0 & d0 & w0 & d1 & w1 & Hs). destruct Hs. auto.
Qed.

(** * C51: the calls below are balanced *)

(* At any time, and whatever the history: the calls made are properly nested (init, connect,
   requests and options on that connection, close, deinit), and after the last call that
   executed a request there is a connection if it returned OK and nothing if it failed. *)
Theorem calls_below_balanced : forall fuel host h d w, (9 <= fuel)%nat -> reached fuel host h d w ->
  exists s, low_run Down (events h) = Some s /\
    if fold_left up_after h false then exists c, s = Up (Some c) else s = Down.
Proof.
  intros fuel host h d w Hf HR. destruct (reached_resting _ _ _ _ _ Hf HR) as ((vals & Q) & _ & _ & _ & _ & Hl & Hk & _).
  exists (low_of d). split; [exact Hl|]. rewrite <- Hk. unfold low_of. destruct (k d =? 2)%Z eqn:E.
  - apply Z.eqb_eq in E. apply (q_handle _ _ _ _ _ Q) in E. destruct (httpHandle d) as [c|]; [eauto|congruence].
  - destruct (q_k _ _ _ _ _ Q) as [K|K]; rewrite K in *; [reflexivity|discriminate].
Qed.

(* Destroy, after any history, closes and de-initialises exactly what is open, and frees every clone of an option. *)
Theorem destroy_leaves_nothing : forall fuel host h d w o, (9 <= fuel)%nat -> reached fuel host h d w ->
  exists w' evs, HTTPAPIEX_Destroy d w o = Some (w', o) /\
    w_trace w' = events h ++ evs /\ low_run Down (events h ++ evs) = Some Down /\
    count is_init evs = 0%nat /\ count is_create evs = 0%nat /\ count is_request evs = 0%nat /\
    w_headers w' = w_headers w /\ w_buffers w' = w_buffers w /\ w_status w' = w_status w /\
    forall c, clone_value w' c = None.
Proof.
  intros fuel host h d w o Hf HR. destruct (reached_resting _ _ _ _ _ Hf HR) as ((vals & Q) & _ & _ & Ht & _ & Hl & _).
  destruct (destroy_ensures d w vals _ _ Q o) as (w' & evs & E & Ht' & Hl' & H). exists w', evs. rewrite <- Ht. split; [exact E|]. split; [exact Ht'|].
  split; [rewrite low_run_app, Ht, Hl; exact Hl'|exact H].
Qed.

(** * C52: the result reflects the last request *)

(* OK exactly if a request was made and the last one succeeded; the status code is the last
   request's.  (Every request made carries the caller's method and path.) *)
Theorem result_is_the_last_requests_partial : forall fuel host h d w type path reqh reqc status resh resc o r d' w' o',
  (9 <= fuel)%nat -> reached fuel host h d w ->
  HTTPAPIEX_ExecuteRequest fuel d w type path reqh reqc status resh resc o = Some ((r, d', w'), o') ->
  exists evs, w_trace w' = w_trace w ++ evs /\
    (r = HTTPAPIEX_OK <-> exists q, last_request evs = Some q /\ succeeded q) /\
    w_status w' = (if status then match last_request evs with Some q => a_status (r_answer q) | None => w_status w end else w_status w) /\
    forall q, In (ERequest q) evs -> r_type q = type /\ r_path q = match path with Some p => p | None => [] end.
Proof.
  intros fuel host h d w type path reqh reqc status resh resc o r d' w' o' Hf HR E.
  destruct (reached_resting _ _ _ _ _ Hf HR) as ((vals & Q) & _).
  destruct (execute_ensures fuel d w vals _ _ type path reqh reqc status resh resc Q _ _ _ E) as (evs & Ht & _ & _ & _ & _ & Hb & Hs & Ha & _ & He).
  destruct (Hb Hf) as [Hr _]. exists evs. split; [exact Ht|]. split; [|split; assumption].
  assert (Hlast : forall q, last_request evs = Some q -> In (ERequest q) evs).
  { intros q. rewrite last_request_requests. intros Hq. apply requests_in, in_rev. destruct (rev (requests evs)); [discriminate|]. injection Hq as ->. left. reflexivity. }
  split.
  - intros ->. apply He.
  - intros (q & Hq & Hok). destruct r; [reflexivity|..].
    + destruct He as [_ ->]. discriminate.
    + destruct He as [_ ->]. discriminate.
    + destruct He as [_ He]. destruct (He q (Hlast q Hq) Hok).
    + congruence.
Qed.

(* The response: if all of it could be stored, the buffer given for it holds exactly the body
   of the last request; the headers are those the caller had with those of every request made
   by this call added. *)
Theorem response_is_stored : forall fuel host h d w hsp bsp type path reqh reqc status resh resc o r d' w' o',
  (9 <= fuel)%nat -> reached fuel host h d w ->
  hrepresents (w_headers w) hsp -> brepresents (w_buffers w) bsp -> usable hsp bsp reqh reqc resh resc ->
  HTTPAPIEX_ExecuteRequest fuel d w type path reqh reqc status resh resc o = Some ((r, d', w'), o') ->
  exists evs hsp' bsp', w_trace w' = w_trace w ++ evs /\ hrepresents (w_headers w') hsp' /\ brepresents (w_buffers w') bsp' /\
    (all_stored (requests evs) -> forall q, last_request evs = Some q ->
       (forall i, resc = Some i -> blive bsp' i = Some (body_content (a_body (r_answer q)))) /\
       (forall i, resh = Some i -> hlive hsp' i = Some (response_headers (headers_at hsp resh) (requests evs)))).
Proof.
  intros fuel host h d w hsp bsp type path reqh reqc status resh resc o r d' w' o' Hf HR HH HB US E.
  destruct (reached_resting _ _ _ _ _ Hf HR) as ((vals & Q) & _ & Hho & _).
  destruct (execute_total fuel d w vals _ _ hsp bsp type path reqh reqc status resh resc Hho Q HH HB US) as [_ T].
  destruct (T _ _ _ E) as (evs & hsp' & bsp' & Ht & RH & RB & [_ _ _ _ O1 O2]). exists evs, hsp', bsp'. split; [exact Ht|]. split; [exact RH|]. split; [exact RB|].
  intros Hall q Hq. split; intros i Hi; [|apply O1; assumption]. rewrite (O2 Hall i Hi). f_equal. unfold response_body.
  rewrite last_request_requests in Hq. destruct (rev (requests evs)) as [|q0 l] eqn:Er; [discriminate|]. injection Hq as ->.
  rewrite <- (rev_involutive (requests evs)), Er. cbn. rewrite fold_left_app. reflexivity.
Qed.
(* If the call needed only one request, these are exactly the response's. *)
Corollary first_try_response_is_exact : forall fuel host h d w hsp bsp type path reqh reqc status resh resc o r d' w' o' evs q,
  (9 <= fuel)%nat -> reached fuel host h d w ->
  hrepresents (w_headers w) hsp -> brepresents (w_buffers w) bsp -> usable hsp bsp reqh reqc resh resc ->
  HTTPAPIEX_ExecuteRequest fuel d w type path reqh reqc status resh resc o = Some ((r, d', w'), o') ->
  w_trace w' = w_trace w ++ evs -> requests evs = [q] -> r_stored q = true ->
  exists hsp' bsp', hrepresents (w_headers w') hsp' /\ brepresents (w_buffers w') bsp' /\
    (forall i, resc = Some i -> blive bsp' i = Some (body_content (a_body (r_answer q)))) /\
    (forall i, resh = Some i -> hlive hsp' i = Some (fold_left received (a_headers (r_answer q)) (headers_at hsp resh))).
Proof.
  intros fuel host h d w hsp bsp type path reqh reqc status resh resc o r d' w' o' evs q Hf HR HH HB US E Ht Hq Hs.
  destruct (response_is_stored fuel host h d w hsp bsp type path reqh reqc status resh resc o r d' w' o' Hf HR HH HB US E) as (evs' & hsp' & bsp' & Ht' & RH & RB & H).
  rewrite Ht in Ht'. apply app_inv_head in Ht'. subst evs'. exists hsp', bsp'. split; [exact RH|]. split; [exact RB|].
  destruct (H) with (q := q) as [H1 H2].
  - rewrite Hq. intros x [<-|[]]. exact Hs.
  - rewrite last_request_requests, Hq. reflexivity.
  - split; [exact H1|]. intros i Hi. rewrite (H2 i Hi), Hq. unfold response_headers. cbn. rewrite app_nil_r. reflexivity.
Qed.

(** * C53: options *)

(* On every request ever made, each option in force is what the connection in use was last
   told for that name. *)
Theorem options_are_replayed_partial : forall fuel host h d w, (9 <= fuel)%nat -> reached fuel host h d w -> told_all [] [] h.
Proof. intros fuel host h d w Hf HR. apply (reached_resting _ _ _ _ _ Hf HR). Qed.

(* SetOption never fails to return, and an option accepted before any connection is OK without a call below *)
Theorem setoption_before_connection : forall fuel host h d w n v o r d' w' o', (9 <= fuel)%nat -> reached fuel host h d w ->
  fold_left up_after h false = false ->
  HTTPAPIEX_SetOption d w n v o = Some ((r, d', w'), o') -> w_trace w' = w_trace w.
Proof.
  intros fuel host h d w n v o r d' w' o' Hf HR Hup E. destruct (reached_resting _ _ _ _ _ Hf HR) as ((vals & Q) & _ & _ & _ & _ & _ & Hk & _).
  destruct (setoption_ensures d w vals _ _ n v Q _ _ _ E) as (evs & vals' & Ht & _ & Hkk & _ & _ & _ & Hl & _).
  rewrite Hup in Hk. rewrite Ht. destruct evs as [|e evs]; [apply app_nil_r|]. exfalso.
  assert (Hdown : low_of d = Down).
  { unfold low_of. rewrite Hk. destruct (q_k _ _ _ _ _ Q) as [K|K]; rewrite K in *; [reflexivity|discriminate]. }
  rewrite Hdown in Hl. cbn in Hl. unfold HTTPAPIEX_SetOption in E. destruct n as [n|]; [|cbn in E; injection E as _ _ <- _; apply (f_equal (@length _)) in Ht; rewrite app_length in Ht; cbn in Ht; lia].
  destruct e; try discriminate; cbn in Hl.
  (* only an initialisation is possible, and SetOption makes none *)
  pose proof (setoption_ensures d w vals _ _ (Some n) v Q) as X.
  destruct (X o (r, d', w') o' E) as (evs2 & vals2 & Ht2 & _ & _ & _ & _ & _ & _ & _ & C1 & _).
  rewrite Ht in Ht2. apply app_inv_head in Ht2. subst evs2. discriminate C1.
Qed.

(** * C54: Host and Content-Length; C73: nothing else changes *)

Theorem request_headers_sent_partial : forall fuel host h d w hsp bsp type path reqh reqc status resh resc o r d' w' o',
  reached fuel host h d w -> (9 <= fuel)%nat ->
  hrepresents (w_headers w) hsp -> brepresents (w_buffers w) bsp -> usable hsp bsp reqh reqc resh resc ->
  HTTPAPIEX_ExecuteRequest fuel d w type path reqh reqc status resh resc o = Some ((r, d', w'), o') ->
  exists evs, w_trace w' = w_trace w ++ evs /\
    forall q, In (ERequest q) evs -> carries host (headers_at hsp reqh) (content_at bsp reqc) q.
Proof.
  intros fuel host h d w hsp bsp type path reqh reqc status resh resc o r d' w' o' HR Hf HH HB US E.
  destruct (reached_resting _ _ _ _ _ Hf HR) as ((vals & Q) & <- & Hho & _).
  destruct (execute_total fuel d w vals _ _ hsp bsp type path reqh reqc status resh resc Hho Q HH HB US) as [_ T].
  destruct (T _ _ _ E) as (evs & hsp' & bsp' & Ht & RH & RB & [O1 _ _ _ _ _]). eauto.
Qed.

(* What full_headers is: exactly one Host and one Content-Length, everything else as it was. *)
Theorem full_headers_meaning : forall host ds l, NoDup (map fst l) ->
  let f := full_headers host ds l in
  NoDup (map fst f) /\
  lookup (str "Host") f = Some (trim host) /\ lookup (str "Content-Length") f = Some ds /\
  (forall n, n <> str "Host" -> n <> str "Content-Length" -> lookup n f = lookup n l) /\
  filter (fun p => negb (teq (fst p) (str "Host") || teq (fst p) (str "Content-Length"))) f =
  filter (fun p => negb (teq (fst p) (str "Host") || teq (fst p) (str "Content-Length"))) l.
Proof.
  intros host ds l Hd.
  assert (W : forall n v l, NoDup (map fst l) -> NoDup (map fst (with_header n v l)) /\ (forall m, lookup m (with_header n v l) = if teq n m then Some v else lookup m l) /\
     forall P, P n = false -> filter (fun p => P (fst p)) (with_header n v l) = filter (fun p => P (fst p)) l).
  { clear. intros n v l Hd. rewrite <- with_header_replace. destruct (lookup n l) as [old|] eqn:E.
    - split; [|split].
      + unfold replace_value. rewrite map_map. replace (map _ l) with (map fst l); [exact Hd|]. apply map_ext. intros [m x]. cbn. destruct (teq m n); reflexivity.
      + intros m. apply spec_update_lookup. rewrite E. discriminate.
      + intros P HP. unfold replace_value. clear -HP. induction l as [|[m x] l IH]; [reflexivity|]. cbn. destruct (teq m n) eqn:E; cbn.
        * apply teq_eq in E. subst m. rewrite HP. exact IH.
        * destruct (P m); rewrite IH; reflexivity.
    - assert (Hn : ~ In n (map fst l)).
      { intros K. clear -E K. induction l as [|[m x] l IH]; [destruct K|]. cbn in *. destruct (teq m n) eqn:Em; [discriminate|].
        destruct K as [->|K]; [rewrite teq_refl in Em; discriminate|auto]. }
      split; [|split].
      + rewrite map_app. cbn. apply (Permutation_NoDup (Permutation_cons_append _ n)). constructor; assumption.
      + intros m. rewrite lookup_app. cbn. destruct (teq n m) eqn:Em.
        * apply teq_eq in Em. subst m. rewrite E. reflexivity.
        * destruct (lookup m l); reflexivity.
      + intros P HP. rewrite filter_app. cbn. rewrite HP, app_nil_r. reflexivity. }
  cbn zeta. unfold full_headers. destruct (W (str "Host") (trim host) l Hd) as (W1 & W2 & W3). set (l1 := with_header (str "Host") (trim host) l) in *.
  destruct (W (str "Content-Length") ds l1 W1) as (V1 & V2 & V3). split; [exact V1|].
  split; [rewrite V2; change (teq (str "Content-Length") (str "Host")) with false; cbv iota; rewrite W2, teq_refl; reflexivity|].
  split; [rewrite V2, teq_refl; reflexivity|]. split.
  - intros n N1 N2. rewrite V2. destruct (teq (str "Content-Length") n) eqn:E; [apply teq_eq in E; congruence|]. rewrite W2.
    destruct (teq (str "Host") n) eqn:E2; [apply teq_eq in E2; congruence|reflexivity].
  - rewrite (V3 (fun n => negb (teq n (str "Host") || teq n (str "Content-Length")))) by reflexivity.
    apply (W3 (fun n => negb (teq n (str "Host") || teq n (str "Content-Length")))). reflexivity.
Qed.

(* Header names in a header object are distinct, so the theorem above applies. *)
Theorem header_names_distinct : forall hs hsp i l, hrepresents hs hsp -> hlive hsp i = Some l -> NoDup (map fst l).
Proof.
  intros hs hsp i l (ms & H) L. destruct (hrep_get hs hsp ms i l H L) as (m & _ & Lm & _).
  destruct (mrep_get _ _ _ _ (proj1 H) Lm) as (x & _ & Hw). apply Hw.
Qed.

(* Whatever happens, a call leaves no object of its own behind and touches none of the caller's
   but the request headers, the response headers and the response buffer. *)
Theorem execute_touches_only_its_objects : forall fuel host h d w hsp bsp type path reqh reqc status resh resc o r d' w' o',
  reached fuel host h d w -> (9 <= fuel)%nat ->
  hrepresents (w_headers w) hsp -> brepresents (w_buffers w) bsp -> usable hsp bsp reqh reqc resh resc ->
  HTTPAPIEX_ExecuteRequest fuel d w type path reqh reqc status resh resc o = Some ((r, d', w'), o') ->
  exists hsp' bsp', hrepresents (w_headers w') hsp' /\ brepresents (w_buffers w') bsp' /\
    only (fun x => x = reqh \/ x = resh) hsp hsp' /\ onlyb (fun x => x = resc) bsp bsp' /\ w_clones w' = w_clones w.
Proof.
  intros fuel host h d w hsp bsp type path reqh reqc status resh resc o r d' w' o' HR Hf HH HB US E.
  destruct (reached_resting _ _ _ _ _ Hf HR) as ((vals & Q) & _ & Hho & _).
  destruct (execute_total fuel d w vals _ _ hsp bsp type path reqh reqc status resh resc Hho Q HH HB US) as [_ T].
  destruct (T _ _ _ E) as (evs & hsp' & bsp' & Ht & RH & RB & [_ O1 O2 _ _ _]).
  destruct (execute_ensures fuel d w vals _ _ type path reqh reqc status resh resc Q _ _ _ E) as (evs' & _ & Hc & _).
  exists hsp', bsp'. auto.
Qed.

(** * A history: the theorems apply to it, and it shows where the properties fail *)

Definition good (h : nat) : answer :=
  {| a_result := LowOk; a_handle := Some h; a_status := 200; a_headers := [(str "X", str "good")]; a_body := [1; 2] |}.
Definition bad : answer :=
  {| a_result := LowOther; a_handle := None; a_status := 500; a_headers := [(str "X", str "bad")]; a_body := [3] |}.
Definition ex_data : exdata := {| hostName := str "host.net"; k := -1; httpHandle := None; savedOptions := [] |}.
(* a request that succeeds, an option set, another value for it that the connection refuses *)
Definition ex_ops : list exop :=
  [XHeaders HAlloc; XHeaders (HAdd (Some 0%nat) (Some (str "host")) (HStr (str "mine"))); XHeaders HAlloc;
   XBuffers BNew; XBuffers (BCreate (BSBytes [7; 8; 9]) 3);
   XExecute 1 (Some (str "/p")) (Some 0%nat) (Some 1%nat) true None None;
   XSetOption (Some (str "timeout")) (Some [1]); XSetOption (Some (str "timeout")) (Some [2])].
(* the next request fails, the one on a new connection succeeds *)
Definition ex_answers : list answer := [good 0; good 7; good 0; good 0; good 0; good 0; bad; bad; good 8; good 0; good 0].
Definition ex_start : world := start {| hmaps := []; hdrs := [] |} [] 0 ex_answers.
Definition ex_run : list call * (exdata * world) :=
  match history 9 (ex_data, ex_start) ex_ops [] with Some (x, _) => x | None => ([], (ex_data, ex_start)) end.
Definition ex_calls := fst ex_run.
Definition ex_d := fst (snd ex_run).
Definition ex_w := snd (snd ex_run).
Definition ex_headers : header_lists :=
  [Some [(str "host", str "mine"); (str "Host", str "host.net"); (str "Content-Length", str "3")]; Some []; None].
Definition ex_contents : contents := [Some None; Some (Some [Some 7; Some 8; Some 9]); None].

Example ex_reached : reached 9 (str "host.net") ex_calls ex_d ex_w.
Proof.
  exists ex_data, {| hmaps := []; hdrs := [] |}, [], 0, ex_answers, ex_ops, [], [], []. split; [reflexivity|]. vm_compute. reflexivity.
Qed.
Lemma ex_maps_represented pairs m : (mcount m = length pairs /\ mapFilterCallback m = None /\
  holds (keys m) (map fst pairs) /\ holds (values m) (map snd pairs) /\ NoDup (map fst pairs) /\
  forallb (fun p => cstr_okb (fst p) && cstr_okb (snd p)) pairs = true) -> mwf m {| a_pairs := pairs; a_filter := None |}.
Proof.
  intros (H1 & H2 & H3 & H4 & H5 & H6). unfold mwf. cbn. repeat (split; [assumption|]). apply Forall_forall. intros p Hp.
  rewrite forallb_forall in H6. specialize (H6 p Hp). apply andb_true_iff in H6. split; apply cstr_okb_ok; apply H6.
Qed.
Example ex_objects : hrepresents (w_headers ex_w) ex_headers /\ brepresents (w_buffers ex_w) ex_contents /\
  usable ex_headers ex_contents (Some 0%nat) (Some 1%nat) (Some 1%nat) (Some 0%nat).
Proof.
  split; [|split].
  - exists [Some {| a_pairs := [(str "host", str "mine"); (str "Host", str "host.net"); (str "Content-Length", str "3")]; a_filter := None |};
            Some {| a_pairs := []; a_filter := None |}; None]. split; [|split].
    + set (m := hmaps (w_headers ex_w)). vm_compute in m. subst m. unfold mrepresents. constructor; [|constructor; [|constructor; [exact I|constructor] ] ]; apply ex_maps_represented; (split; [reflexivity|]; split; [reflexivity|]).
      * split; [exists []; reflexivity|]. split; [exists []; reflexivity|]. split; [|reflexivity]. repeat constructor; cbn; intuition discriminate.
      * split; [reflexivity|]. split; [reflexivity|]. split; [constructor|reflexivity].
    + set (m := hdrs (w_headers ex_w)). vm_compute in m. subst m. repeat constructor.
    + intros i j m. unfold gethdr. set (l := hdrs (w_headers ex_w)). vm_compute in l. subst l.
      assert (Hn : forall n, nth_error (@nil (option nat)) n = None) by (intros []; reflexivity).
      destruct i as [|[|[|i]]]; destruct j as [|[|[|j]]]; cbn; rewrite ?Hn; congruence.
  - set (m := w_buffers ex_w). vm_compute in m. subst m. unfold brepresents, ex_contents.
    constructor; [split; reflexivity|]. constructor; [split; [reflexivity|]; split; reflexivity|]. constructor; [exact I|constructor].
  - constructor; intros; try congruence.
    + destruct H as [H|H]; injection H as <-; discriminate.
    + destruct H as [H|H]; injection H as <-; discriminate.
Qed.

Definition ex_exec : option (ex_result * exdata * world * oracle) :=
  HTTPAPIEX_ExecuteRequest 9 ex_d ex_w 1 None (Some 0%nat) (Some 1%nat) true (Some 1%nat) (Some 0%nat) [].
Definition ex_trace : list event :=
  match ex_exec with Some ((_, _, w'), _) => skipn (length (w_trace ex_w)) (w_trace w') | None => [] end.

(* C52, taken literally, fails: the headers of an attempt that failed stay in the response
   of the one that succeeded. *)
Theorem response_headers_of_last_request_refuted :
  exists host h d w hsp bsp d' w' evs q hsp',
    reached 9 host h d w /\ hrepresents (w_headers w) hsp /\ brepresents (w_buffers w) bsp /\
    usable hsp bsp (Some 0%nat) (Some 1%nat) (Some 1%nat) (Some 0%nat) /\ hlive hsp 1 = Some [] /\
    HTTPAPIEX_ExecuteRequest 9 d w 1 None (Some 0%nat) (Some 1%nat) true (Some 1%nat) (Some 0%nat) [] = Some ((HTTPAPIEX_OK, d', w'), []) /\
    w_trace w' = w_trace w ++ evs /\ last_request evs = Some q /\ r_stored q = true /\
    a_headers (r_answer q) = [(str "X", str "good")] /\
    hrepresents (w_headers w') hsp' /\ hlive hsp' 1 = Some [(str "X", str "bad, good")].
Proof.
  destruct ex_objects as (H1 & H2 & H3).
  assert (X : exists d' w', HTTPAPIEX_ExecuteRequest 9 ex_d ex_w 1 None (Some 0%nat) (Some 1%nat) true (Some 1%nat) (Some 0%nat) [] = Some ((HTTPAPIEX_OK, d', w'), []) /\
     w_trace w' = w_trace ex_w ++ ex_trace).
  { eexists _, _. split; vm_compute; reflexivity. }
  destruct X as (d' & w' & E & Et).
  destruct (response_is_stored 9 _ _ _ _ _ _ _ _ _ _ _ _ _ _ _ _ _ _ ltac:(lia) ex_reached H1 H2 H3 E) as (evs & hsp' & bsp' & Ht & RH & RB & H).
  rewrite Et in Ht. apply app_inv_head in Ht. subst evs.
  assert (Hl : exists q, last_request ex_trace = Some q /\ r_stored q = true /\ a_headers (r_answer q) = [(str "X", str "good")]).
  { eexists. split; [vm_compute; reflexivity|]. split; reflexivity. }
  destruct Hl as (q & Hq & Hs & Hh).
  exists (str "host.net"), ex_calls, ex_d, ex_w, ex_headers, ex_contents, d', w', ex_trace, q, hsp'.
  split; [exact ex_reached|]. split; [exact H1|]. split; [exact H2|]. split; [exact H3|]. split; [reflexivity|]. split; [exact E|].
  split; [exact Et|]. split; [exact Hq|]. split; [exact Hs|]. split; [exact Hh|]. split; [exact RH|].
  destruct (H) with (q := q) as [_ H5]; [|exact Hq|].
  - intros x Hx. assert (F : forallb r_stored (requests ex_trace) = true) by (vm_compute; reflexivity). rewrite forallb_forall in F. exact (F x Hx).
  - rewrite (H5 1%nat eq_refl). vm_compute. reflexivity.
Qed.

(* C53, taken literally, fails: a value that HTTPAPIEX_SetOption reported as refused replaces
   the accepted one on the next connection. *)
Theorem refused_option_is_replayed_refuted :
  exists h d w, reached 9 (str "host.net") h d w /\ ~ accepted_told [] [] h.
Proof.
  set (x := match history 9 (ex_data, ex_start) (ex_ops ++ [XExecute 1 None (Some 0%nat) (Some 1%nat) true (Some 1%nat) (Some 0%nat)]) [] with
            | Some (x, _) => x | None => ([], (ex_data, ex_start)) end).
  exists (fst x), (fst (snd x)), (snd (snd x)). split.
  - exists ex_data, {| hmaps := []; hdrs := [] |}, [], 0, ex_answers, (ex_ops ++ [XExecute 1 None (Some 0%nat) (Some 1%nat) true (Some 1%nat) (Some 0%nat)]), [], [], [].
    split; [reflexivity|]. unfold x. vm_compute. reflexivity.
  - set (h := fst x). vm_compute in h. subst h. clear x. intros H. cbn [accepted_told snd] in H.
    do 8 apply proj2 in H. apply proj1 in H. cbn [told] in H. apply proj2, proj1 in H.
    specialize (H (str "timeout") [1] eq_refl). vm_compute in H. discriminate.
Qed.

(* C54, taken literally, fails: HTTP header names do not depend on case, but the caller's
   "host" is sent as well. *)
Theorem one_host_header_refuted :
  exists host h d w hsp bsp d' w' evs q i hsp',
    reached 9 host h d w /\ hrepresents (w_headers w) hsp /\ brepresents (w_buffers w) bsp /\
    usable hsp bsp (Some 0%nat) (Some 1%nat) (Some 1%nat) (Some 0%nat) /\
    HTTPAPIEX_ExecuteRequest 9 d w 1 None (Some 0%nat) (Some 1%nat) true (Some 1%nat) (Some 0%nat) [] = Some ((HTTPAPIEX_OK, d', w'), []) /\
    w_trace w' = w_trace w ++ evs /\ In (ERequest q) evs /\ r_headers q = Some i /\ hrepresents (r_state q) hsp' /\
    option_map (filter (fun p => same_header (fst p) (str "Host"))) (hlive hsp' i) = Some [(str "host", str "mine"); (str "Host", str "host.net")].
Proof.
  destruct ex_objects as (H1 & H2 & H3).
  assert (X : exists d' w', HTTPAPIEX_ExecuteRequest 9 ex_d ex_w 1 None (Some 0%nat) (Some 1%nat) true (Some 1%nat) (Some 0%nat) [] = Some ((HTTPAPIEX_OK, d', w'), []) /\
     w_trace w' = w_trace ex_w ++ ex_trace).
  { eexists _, _. split; vm_compute; reflexivity. }
  destruct X as (d' & w' & E & Et).
  destruct (request_headers_sent_partial 9 _ _ _ _ _ _ _ _ _ _ _ _ _ _ _ _ _ _ ex_reached ltac:(lia) H1 H2 H3 E) as (evs & Ht & H).
  rewrite Et in Ht. apply app_inv_head in Ht. subst evs.
  assert (Hl : exists q, In (ERequest q) ex_trace).
  { assert (F : existsb is_request ex_trace = true) by (vm_compute; reflexivity). apply existsb_exists in F. destruct F as (e & He & K).
    destruct e as [| | | | |q]; try discriminate K. exists q. exact He. }
  destruct Hl as (q & Hq). destruct (H q Hq) as (i & hsp' & ds & Hi & Hr & Hl & _).
  exists (str "host.net"), ex_calls, ex_d, ex_w, ex_headers, ex_contents, d', w', ex_trace, q, i, hsp'.
  split; [exact ex_reached|]. split; [exact H1|]. split; [exact H2|]. split; [exact H3|]. split; [exact E|].
  split; [exact Et|]. split; [exact Hq|]. split; [exact Hi|]. split; [exact Hr|].
  rewrite Hl. clear. vm_compute. reflexivity.
Qed.
