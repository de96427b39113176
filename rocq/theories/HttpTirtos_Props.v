(* C135-C138: the HTTP adapter of TI-RTOS. *)
From Verif Require Import Base HttpTirtos_Model HttpTirtos_Spec.
From Coq Require Import Lia.

(* strings in blocks *)
Lemma filled_app a b : filled (a ++ b) = filled a ++ filled b.
Proof. apply map_app. Qed.
Lemma c_str_is (l : list N) tl : ~ In 0%N l -> c_str (filled (l ++ [0%N]) ++ tl) = Some l.
Proof.
  induction l as [|c l IH]; cbn; intros H; [reflexivity|].
  destruct (N.eqb_spec c 0) as [->|E]; [exfalso; auto|]. unfold filled in IH. rewrite IH by auto. reflexivity.
Qed.
Lemma c_str_total (l : list N) tl : exists s, c_str (filled (l ++ [0%N]) ++ tl) = Some s.
Proof.
  induction l as [|c l [s IH] ]; cbn; [eauto|]. unfold filled in IH. destruct (c =? 0)%N; [eauto|]. rewrite IH. cbn. eauto.
Qed.
Lemma strchr_at (n : list N) rest : ~ In 0%N n -> ~ In 58%N n -> strchr 58 (filled n ++ Some 58%N :: rest) = Some (Some (length n)).
Proof.
  induction n as [|c n IH]; intros H0 H1; [reflexivity|]. cbn. cbn in H0, H1.
  destruct (N.eqb_spec c 58); [exfalso; auto|]. destruct (N.eqb_spec c 0); [exfalso; auto|].
  unfold filled in IH. rewrite IH by auto. reflexivity.
Qed.
Lemma skip_is (v : list N) tl : skip_spaces (filled (v ++ [0%N]) ++ tl) = Some (filled (trimmed v ++ [0%N]) ++ tl).
Proof.
  induction v as [|c v IH]; cbn; [reflexivity|]. destruct (c =? 32)%N; [exact IH|reflexivity].
Qed.
Lemma trimmed_in v x : In x (trimmed v) -> In x v.
Proof. induction v as [|c v IH]; cbn; [auto|]. destruct (c =? 32)%N; cbn; auto. Qed.

Lemma skipn_app_length {A} (a b : list A) : skipn (length a) (a ++ b) = b.
Proof. rewrite skipn_app, Nat.sub_diag, skipn_all. reflexivity. Qed.
Lemma split_is n v tl : ~ In 0%N n -> ~ In 58%N n ->
  splitHeader (filled (n ++ 58%N :: v ++ [0%N]) ++ tl)
  = Some (Some (filled (n ++ [0%N]) ++ filled (v ++ [0%N]) ++ tl, filled (trimmed v ++ [0%N]) ++ tl)).
Proof.
  intros H0 H1. unfold splitHeader. rewrite (filled_app n), <- app_assoc.
  change (filled (58%N :: v ++ [0%N]) ++ tl) with (Some 58%N :: filled (v ++ [0%N]) ++ tl).
  rewrite strchr_at by assumption.
  replace (length n) with (length (filled n)) at 1 by apply filled_length. rewrite store_app.
  replace (S (length n)) with (length (filled (n ++ [0%N]))) by (rewrite filled_length, app_length; cbn; lia).
  replace (filled n ++ Some 0%N :: filled (v ++ [0%N]) ++ tl) with (filled (n ++ [0%N]) ++ filled (v ++ [0%N]) ++ tl)
    by (rewrite (filled_app n), <- !app_assoc; reflexivity).
  rewrite skipn_app_length, skip_is. reflexivity.
Qed.

(* what splitHeader leaves can be read, whatever the line is *)
Lemma split_total (l : list N) tl : exists r, splitHeader (filled (l ++ [0%N]) ++ tl) = Some r
  /\ match r with None => True | Some (nb, vb) => length nb = length (filled (l ++ [0%N]) ++ tl) /\ (exists n, c_str nb = Some n) /\ (exists v, c_str vb = Some v) end.
Proof.
  assert (C : (exists n v, l = n ++ 58%N :: v /\ ~ In 0%N n /\ ~ In 58%N n) \/ strchr 58 (filled (l ++ [0%N]) ++ tl) = Some None).
  { induction l as [|c l IH]; [right; reflexivity|]. cbn. destruct (N.eqb_spec c 58) as [->|E].
    - left. exists [], l. cbn. auto.
    - destruct (N.eqb_spec c 0) as [->|E0]; [right; reflexivity|].
      destruct IH as [(n & v & -> & H0 & H1)|IH].
      + left. exists (c :: n), v. cbn. split; [reflexivity|]. split; intros [?|?]; auto.
      + right. unfold filled in IH. rewrite IH. reflexivity. }
  destruct C as [(n & v & -> & H0 & H1)|C].
  - rewrite <- app_assoc. cbn [app]. rewrite split_is by assumption. eexists. split; [reflexivity|]. cbn beta iota. split; [|split].
    + rewrite !app_length, !filled_length, !app_length. cbn. rewrite !app_length. cbn. lia.
    + exists n. apply c_str_is. assumption.
    + apply c_str_total.
  - unfold splitHeader. rewrite C. exists None. auto.
Qed.

(* --- the request --- *)
Lemma send_fields_ok hs a : Forall field_ok hs -> length a = length hs -> Forall (fun x => f_memory x = true /\ f_sent x = true) a ->
  send_fields hs a = Some (map (fun f => SendField (fst f) (trimmed (snd f))) hs, HTTPAPI_OK).
Proof.
  revert a. induction hs as [|[n v] hs IH]; intros [|x a] F L A; cbn in L; try discriminate; [reflexivity|].
  inversion F as [|? ? F0 F1]; inversion A as [|? ? [A0 A1] A2]; subst. destruct F0 as (N0 & N1 & V0). cbn in N0, N1, V0.
  cbn [send_fields]. rewrite A0.
  replace (n ++ str ": " ++ v ++ [0%N]) with (n ++ 58%N :: (32%N :: v) ++ [0%N]) by reflexivity.
  pose proof (split_is n (32%N :: v) [] N0 N1) as E. rewrite app_nil_r in E. rewrite E.
  rewrite c_str_is by assumption. change (trimmed (32%N :: v)) with (trimmed v). rewrite c_str_is by (intros H; apply trimmed_in in H; auto).
  rewrite A1, IH by (auto; lia). reflexivity.
Qed.
(* what is sent is always a beginning of the whole; OK only when all is sent *)
Lemma send_fields_prefix hs a : Forall field_ok hs ->
  exists l x rest, send_fields hs a = Some (l, x) /\ map (fun f => SendField (fst f) (trimmed (snd f))) hs = l ++ rest
    /\ (x = HTTPAPI_OK -> rest = []) /\ (x = HTTPAPI_OK \/ x = HTTPAPI_SEND_REQUEST_FAILED \/ x = HTTPAPI_QUERY_HEADERS_FAILED).
Proof.
  revert a. induction hs as [|[n v] hs IH]; intros a F.
  - exists [], HTTPAPI_OK, []. cbn. auto.
  - inversion F as [|? ? F0 F1]; subst. destruct F0 as (N0 & N1 & V0). cbn in N0, N1, V0.
    destruct a as [|x a].
    { exists [], HTTPAPI_QUERY_HEADERS_FAILED. eexists. split; [reflexivity|]. split; [reflexivity|]. split; [discriminate|auto]. }
    cbn [send_fields]. destruct (f_memory x).
    2:{ exists [], HTTPAPI_QUERY_HEADERS_FAILED. eexists. split; [reflexivity|]. split; [reflexivity|]. split; [discriminate|auto]. }
    replace (n ++ str ": " ++ v ++ [0%N]) with (n ++ 58%N :: (32%N :: v) ++ [0%N]) by reflexivity.
    pose proof (split_is n (32%N :: v) [] N0 N1) as E. rewrite app_nil_r in E. rewrite E.
    rewrite c_str_is by assumption. change (trimmed (32%N :: v)) with (trimmed v). rewrite c_str_is by (intros H; apply trimmed_in in H; auto).
    destruct (f_sent x).
    + destruct (IH a F1) as (l & y & rest & -> & E1 & E2 & E3). exists (SendField n (trimmed v) :: l), y, rest. cbn. rewrite E1. auto.
    + exists [SendField n (trimmed v)], HTTPAPI_SEND_REQUEST_FAILED. eexists. split; [reflexivity|]. split; [reflexivity|]. split; [discriminate|auto].
Qed.

(* --- the response headers --- *)
Lemma grow_store (h : option block) (pre bs : list N) tl (cond : bool) :
  (match h with Some b => b = filled pre ++ tl | None => pre = [] /\ tl = [] end) ->
  cond = (size h <? length pre + length bs)%nat ->
  exists tl', store_all (if cond then grown h (length pre + length bs) else match h with Some b => b | None => [] end) (length pre) bs
    = Some (filled (pre ++ bs) ++ tl').
Proof.
  intros H ->.
  assert (S : size h = (length pre + length tl)%nat).
  { destruct h as [b|]; [subst b; cbn; rewrite app_length, filled_length; reflexivity|destruct H as [-> ->]; reflexivity]. }
  assert (B : (match h with Some b => b | None => [] end) = filled pre ++ tl) by (destruct h; [exact H|destruct H as [-> ->]; reflexivity]).
  destruct (Nat.ltb_spec (size h) (length pre + length bs)) as [L|L].
  - exists []. rewrite app_nil_r.
    replace (grown h (length pre + length bs)) with (filled pre ++ (tl ++ fresh (length bs - length tl)) ++ []).
    + replace (length pre) with (length (filled pre)) at 1 by apply filled_length. rewrite store_all_app_gen.
      * rewrite filled_app, app_nil_r. reflexivity.
      * rewrite app_length, fresh_length. lia.
    + rewrite app_nil_r. destruct h as [b|]; cbn.
      * subst b. rewrite app_length, filled_length, <- app_assoc. f_equal. f_equal. f_equal. lia.
      * destruct H as [-> ->]. cbn [length filled map app Nat.add]. rewrite Nat.sub_0_r. reflexivity.
  - rewrite B. exists (skipn (length bs) tl). rewrite <- (firstn_skipn (length bs) tl) at 1.
    replace (length pre) with (length (filled pre)) at 1 by apply filled_length. rewrite store_all_app_gen.
    + rewrite filled_app, <- app_assoc. reflexivity.
    + rewrite firstn_length. lia.
Qed.
Lemma piece_sizes (bs : list N) : 1 <= length bs <= 128 -> ((length bs =? 0)%nat || (128 <? length bs)%nat) = false.
Proof. intros H. destruct (Nat.eqb_spec (length bs) 0); [lia|]. destruct (Nat.ltb_spec 128 (length bs)); [lia|reflexivity]. Qed.

Lemma read_delivered line a : delivered line a -> forall pre tl s n v k,
  offset s = length pre -> (match hname s with Some b => b = filled pre ++ tl | None => pre = [] /\ tl = [] end) ->
  pre ++ line = n ++ 58%N :: v ++ [0%N] -> field_ok (n, v) ->
  exists b, read_headers (a ++ k) s = read_headers k (mkh (Some b) 0 (lost s) (headers s ++ [(n, trimmed v)])).
Proof.
  induction 1 as [bs L|bs rest a L D IH]; intros pre tl s n v k O H E F.
  - cbn [app read_headers]. rewrite piece_sizes by assumption. rewrite Bool.andb_false_r. rewrite O.
    destruct (grow_store (hname s) pre bs tl _ H eq_refl) as (tl' & ->).
    cbn beta iota. rewrite E. destruct F as (N0 & N1 & V0). cbn in N0, N1, V0. rewrite split_is by assumption.
    rewrite c_str_is by assumption. rewrite c_str_is by (intros I; apply trimmed_in in I; auto). eexists. reflexivity.
  - cbn [app read_headers]. rewrite piece_sizes by assumption. rewrite Bool.andb_false_r. rewrite O.
    destruct (grow_store (hname s) pre bs tl _ H eq_refl) as (tl' & ->).
    cbn beta iota. edestruct (IH (pre ++ bs) tl') as (b & ->).
    5:{ exists b. reflexivity. }
    + cbn. rewrite app_length. reflexivity.
    + cbn. reflexivity.
    + rewrite <- app_assoc. exact E.
    + exact F.
Qed.
Lemma read_response fs a : response fs a -> forall s, offset s = 0 ->
  exists h, read_headers a s = HDone HTTPAPI_OK h /\ headers h = headers s ++ map trim fs /\ lost h = lost s.
Proof.
  induction 1 as [a|f fs a b F D R IH]; intros s O.
  - exists s. cbn. rewrite app_nil_r. auto.
  - destruct f as [n v]. edestruct (read_delivered _ _ D [] (match hname s with Some b => b | None => [] end) s n v b) as (blk & ->).
    + exact O.
    + destruct (hname s); auto.
    + reflexivity.
    + exact F.
    + destruct (IH (mkh (Some blk) 0 (lost s) (headers s ++ [(n, trimmed v)])) eq_refl) as (h & E1 & E2 & E3).
      exists h. rewrite E1, E2. cbn. rewrite <- app_assoc. auto.
Qed.
Lemma read_broken_inside a : broken [] a -> forall pre tl s, offset s = length pre -> (match hname s with Some b => b = filled pre ++ tl | None => pre = [] /\ tl = [] end) ->
  exists h, read_headers a s = HDone HTTPAPI_RECEIVE_RESPONSE_FAILED h /\ headers h = headers s /\ lost h = lost s.
Proof.
  intros B. remember [] as fs eqn:Q. induction B as [a|bs a L B IH|f fs a b F D B IH]; [| |discriminate]; intros pre tl s O H.
  - exists s. auto.
  - cbn [read_headers]. rewrite piece_sizes by assumption. rewrite Bool.andb_false_r. rewrite O.
    destruct (grow_store (hname s) pre bs tl _ H eq_refl) as (tl' & ->). cbn beta iota.
    edestruct (IH Q (pre ++ bs) tl') as (h & E1 & E2 & E3); [| |exists h; rewrite E1; auto].
    + cbn. rewrite app_length. reflexivity.
    + reflexivity.
Qed.
Lemma read_broken fs a : broken fs a -> forall s, offset s = 0 ->
  exists h, read_headers a s = HDone HTTPAPI_RECEIVE_RESPONSE_FAILED h /\ headers h = headers s ++ map trim fs /\ lost h = lost s.
Proof.
  intros B. induction B as [a|bs a L B IH|f fs a b F D B IH]; intros s O.
  - exists s. cbn. rewrite app_nil_r. auto.
  - cbn [map]. rewrite app_nil_r. apply (read_broken_inside _ (broken_inside bs a L B) [] (match hname s with Some b => b | None => [] end)); [exact O|].
    destruct (hname s); auto.
  - destruct f as [n v]. edestruct (read_delivered _ _ D [] (match hname s with Some b => b | None => [] end) s n v b) as (blk & ->).
    + exact O.
    + destruct (hname s); auto.
    + reflexivity.
    + exact F.
    + destruct (IH (mkh (Some blk) 0 (lost s) (headers s ++ [(n, trimmed v)])) eq_refl) as (h & E1 & E2 & E3).
      exists h. rewrite E1, E2. cbn. rewrite <- app_assoc. auto.
Qed.

(* no undefined behaviour while the library ends its headers *)
Lemma read_headers_defined a : Forall terminates a -> forall pre tl s,
  offset s = length pre -> (match hname s with Some b => b = filled pre ++ tl | None => pre = [] /\ tl = [] end) -> read_headers a s <> HUndefined.
Proof.
  induction a as [|x a IH]; intros T pre tl s O H; [discriminate|]. inversion T as [|? ? T0 T1]; subst.
  destruct x as [| |bs more memory added]; [discriminate|discriminate|]. cbn [read_headers].
  destruct ((length bs =? 0)%nat || _); [discriminate|]. rewrite O.
  destruct ((size (hname s) <? _)%nat && negb memory); [discriminate|].
  destruct (grow_store (hname s) pre bs tl _ H eq_refl) as (tl' & ->). cbn beta iota.
  destruct more.
  - apply (IH T1 (pre ++ bs) tl'); cbn; [rewrite app_length; reflexivity|reflexivity].
  - destruct T0 as (l & ->). rewrite app_assoc.
    destruct (split_total (pre ++ l) tl') as (r & -> & K). destruct r as [[nb vb]|]; [|discriminate].
    destruct K as (_ & (n & ->) & (v & ->)). destruct added; [|discriminate].
    apply (IH T1 [] nb); cbn; reflexivity.
Qed.
Lemma read_headers_lost a s : match read_headers a s with HDone r h => lost h = lost s \/ (r = HTTPAPI_ALLOC_FAILED /\ lost h <= S (lost s)) | _ => True end.
Proof.
  revert s. induction a as [|x a IH]; intros s; [exact Logic.I|].
  destruct x as [| |bs more memory added]; [cbn; auto|cbn; auto|]. cbn [read_headers].
  destruct ((length bs =? 0)%nat || _); [exact Logic.I|].
  destruct ((size (hname s) <? _)%nat && negb memory).
  { cbn. right. split; [reflexivity|]. destruct (hname s); lia. }
  destruct (store_all _ _ bs) as [b|]; [|exact Logic.I]. destruct more; [apply (IH (mkh _ _ _ _))|].
  destruct (splitHeader b) as [[[nb vb]|]|]; [|cbn; auto|exact Logic.I].
  destruct (c_str nb); [|exact Logic.I]. destruct (c_str vb); [|exact Logic.I]. destruct added; [apply (IH (mkh _ _ _ _))|cbn; auto].
Qed.

(* --- the body --- *)
Lemma skipn_skipn' {A} x y (l : list A) : skipn x (skipn y l) = skipn (y + x) l.
Proof. revert l. induction y as [|y IH]; intros l; [reflexivity|]. destruct l; cbn; [apply skipn_nil|apply IH]. Qed.
Lemma body_step (bs done : list N) old : length bs <= 128 ->
  store_all ((filled done ++ skipn (length done) (old ++ fresh (length done))) ++ fresh (length bs)) (length done) bs
  = Some (filled (done ++ bs) ++ skipn (length (done ++ bs)) (old ++ fresh (length (done ++ bs)))).
Proof.
  intros _. set (r := skipn (length done) (old ++ fresh (length done)) ++ fresh (length bs)).
  rewrite <- app_assoc. fold r.
  assert (R : r = skipn (length done) (old ++ fresh (length done + length bs))).
  { unfold r, fresh. rewrite repeat_app, app_assoc, (skipn_app _ (old ++ repeat None (length done))).
    f_equal. replace (length done - length (old ++ repeat None (length done)))%nat with 0; [reflexivity|]. rewrite app_length, repeat_length. lia. }
  assert (L : length bs <= length r) by (unfold r; rewrite app_length, fresh_length; lia).
  rewrite <- (firstn_skipn (length bs) r). replace (length done) with (length (filled done)) at 1 by apply filled_length.
  rewrite store_all_app_gen by (rewrite firstn_length; lia). f_equal. rewrite filled_app, <- app_assoc. f_equal. f_equal.
  rewrite R, app_length. rewrite skipn_skipn'. reflexivity.
Qed.
Lemma body_read total a : body_of total a -> forall done old,
  read_body a (length done) (filled done ++ skipn (length done) (old ++ fresh (length done)))
  = BDone 0 (filled (done ++ total) ++ skipn (length (done ++ total)) (old ++ fresh (length (done ++ total)))).
Proof.
  induction 1 as [bs a L|bs rest a L B IH]; intros done old; cbn [read_body].
  - destruct (Nat.ltb_spec 128 (length bs)); [lia|]. destruct (Nat.eqb_spec (length bs) 0) as [Z|Z].
    + apply length_zero_iff_nil in Z. subst bs. rewrite app_nil_r. reflexivity.
    + rewrite body_step by assumption. reflexivity.
  - destruct (Nat.ltb_spec 128 (length bs)); [lia|]. destruct (Nat.eqb_spec (length bs) 0) as [Z|Z].
    + apply length_zero_iff_nil in Z. subst bs. apply IH.
    + rewrite body_step by assumption. cbn beta iota. rewrite <- app_length, IH, <- app_assoc. reflexivity.
Qed.
Lemma body_broken total a : body_cut total a -> forall done old,
  exists ret, (ret = code HTTPAPI_RECEIVE_RESPONSE_FAILED \/ ret = code HTTPAPI_ALLOC_FAILED) /\
  read_body a (length done) (filled done ++ skipn (length done) (old ++ fresh (length done)))
  = BDone ret (filled (done ++ total) ++ skipn (length (done ++ total)) (old ++ fresh (length (done ++ total)))).
Proof.
  induction 1 as [a|bs more a L|bs rest a L B IH]; intros done old; cbn [read_body].
  - eexists. split; [left; reflexivity|]. rewrite app_nil_r. reflexivity.
  - eexists. split; [right; reflexivity|]. destruct (Nat.ltb_spec 128 (length bs)); [lia|]. destruct (Nat.eqb_spec (length bs) 0); [lia|].
    rewrite app_nil_r. reflexivity.
  - destruct (Nat.ltb_spec 128 (length bs)); [lia|]. destruct (Nat.eqb_spec (length bs) 0) as [Z|Z].
    + apply length_zero_iff_nil in Z. subst bs. apply IH.
    + rewrite body_step by assumption. cbn beta iota. rewrite <- app_length. destruct (IH (done ++ bs) old) as (r & R & E).
      exists r. split; [exact R|]. rewrite E, <- app_assoc. reflexivity.
Qed.
Lemma read_body_defined a o c : o <= length c -> read_body a o c <> BUndefined.
Proof.
  revert o c. induction a as [|x a IH]; intros o c H; [discriminate|]. destruct x as [|bs more memory]; [discriminate|]. cbn [read_body].
  destruct (128 <? length bs)%nat; [discriminate|]. destruct (length bs =? 0)%nat.
  - destruct more; [apply IH; assumption|discriminate].
  - destruct memory; [|discriminate].
    pose proof (firstn_skipn o (c ++ fresh (length bs))) as E.
    assert (L : length (firstn o (c ++ fresh (length bs))) = o) by (rewrite firstn_length, app_length, fresh_length; lia).
    assert (L2 : length bs <= length (skipn o (c ++ fresh (length bs)))) by (rewrite skipn_length, app_length, fresh_length; lia).
    set (p := firstn o _) in *. set (q := skipn o _) in *. rewrite <- E, <- (firstn_skipn (length bs) q). rewrite <- L at 1.
    rewrite store_all_app_gen by (rewrite firstn_length; lia). destruct more; [|discriminate].
    apply IH. rewrite !app_length, filled_length, L. lia.
Qed.

(* --- C135: the request --- *)
(* When everything is accepted, exactly the request is sent, the fields last first; whatever
   happens, what is sent is a beginning of it, and HTTPAPI_OK says that all of it was. *)
Theorem tirtos_sends t path hs content res buf s : Forall field_ok hs ->
  s_request s = true -> s_end s = true -> s_body s = true -> length (s_fields s) = length hs -> Forall (fun x => f_memory x = true /\ f_sent x = true) (s_fields s) ->
  match HTTPAPI_ExecuteRequest (mkr (Some t) (Some path) (Some hs) content true res buf) s with
  | Returns a => if res then a_sent a = whole t path hs content /\ (s_status s = None -> a_result a = HTTPAPI_RECEIVE_RESPONSE_FAILED) else a_result a = HTTPAPI_INVALID_ARG /\ a_sent a = []
  | Undefined => exists x, In x (s_headers s) /\ ~ terminates x
  | Waits => True
  end.
Proof.
  intros F R En B L A. unfold HTTPAPI_ExecuteRequest. cbn [r_type r_path r_headers r_content r_status r_response r_buffer].
  replace (getHttpMethod (Some t)) with (Some (method_of t)) by (destruct t; reflexivity).
  destruct res; [|cbn; auto]. cbn [andb negb]. rewrite R, En, B.
  rewrite send_fields_ok; [|apply Forall_rev; assumption|rewrite rev_length; assumption|assumption].
  cbv zeta. set (w := match content with Some (c :: t) => (_ ++ _) ++ _ | _ => _ end).
  assert (W : w = whole t path hs content).
  { unfold w, whole. destruct content as [[|c u]|]; cbn; rewrite ?app_nil_r; try reflexivity. rewrite <- app_assoc. reflexivity. }
  rewrite W. clear w W.
  replace (match content with Some (_ :: _) => true | _ => true end) with true by (destruct content as [[|? ?]|]; reflexivity).
  destruct (s_status s) as [st|]; [|cbn; auto].
  pose proof (fun T => read_headers_defined (s_headers s) T [] [] (mkh None 0 0 []) eq_refl (conj eq_refl eq_refl)) as D.
  destruct (read_headers (s_headers s) (mkh None 0 0 [])) as [r h| |] eqn:E.
  - destruct r; try (cbn; split; [reflexivity|discriminate]). destruct buf as [c|]; [|cbn; split; [reflexivity|discriminate]].
    pose proof (read_body_defined (s_chunks s) 0 c (Nat.le_0_l _)) as D2. destruct (read_body (s_chunks s) 0 c) as [ret c'| |]; [|congruence|exact Logic.I].
    destruct (ret <? 0)%Z; cbn; split; try reflexivity; discriminate.
  - assert (K : ~ Forall terminates (s_headers s)) by (intros K; apply D in K; congruence).
    apply Exists_exists. apply neg_Forall_Exists_neg in K; [exact K|].
    intros x. destruct x as [| |bs [|] m ad]; cbn; auto.
    rewrite <- (rev_involutive bs). destruct (rev bs) as [|y r]; cbn [rev]; [right; intros (l & Hl); destruct l; discriminate|].
    destruct (N.eq_dec y 0) as [->|NE]; [left; eauto|right]. intros (l & Hl). apply app_inj_tail in Hl. destruct Hl; congruence.
  - exact Logic.I.
Qed.

Theorem tirtos_ok_sent t path hs content buf s a : Forall field_ok hs ->
  HTTPAPI_ExecuteRequest (mkr (Some t) (Some path) (Some hs) content true true buf) s = Returns a ->
  exists rest, whole t path hs content = a_sent a ++ rest /\ (a_result a = HTTPAPI_OK -> rest = []).
Proof.
  intros F. unfold HTTPAPI_ExecuteRequest. cbn [r_type r_path r_headers r_content r_status r_response r_buffer].
  replace (getHttpMethod (Some t)) with (Some (method_of t)) by (destruct t; reflexivity). cbn [andb negb].
  destruct (s_request s).
  2:{ intros E. injection E as <-. cbn. unfold whole. eexists. split; [reflexivity|discriminate]. }
  destruct (send_fields_prefix (rev hs) (s_fields s)) as (l & x & rest & -> & P & Q & X); [apply Forall_rev; assumption|].
  cbv zeta. set (w := match content with Some (c :: t) => (_ ++ _) ++ _ | _ => _ end).
  destruct X as [-> | [-> | ->] ].
  - specialize (Q eq_refl). subst rest. rewrite app_nil_r in P.
    assert (W : w = whole t path hs content).
    { unfold w, whole. rewrite P. destruct content as [[|c u]|]; cbn; rewrite ?app_nil_r; try reflexivity. rewrite <- app_assoc. reflexivity. }
    assert (W2 : forall r, (r = HTTPAPI_OK -> False) -> forall st hd bf ls, Returns (mka r ([SendRequest (method_of t) path] ++ l ++ [SendEnd]) st hd bf ls) = Returns a ->
       exists rest, whole t path hs content = a_sent a ++ rest /\ (a_result a = HTTPAPI_OK -> rest = [])).
    { intros r Hr st hd bf ls E. injection E as <-. cbn [a_sent a_result]. unfold whole. rewrite P. eexists. split; [|intros K; destruct (Hr K)].
      cbn. rewrite <- !app_assoc. reflexivity. }
    assert (W3 : forall r st hd bf ls, Returns (mka r w st hd bf ls) = Returns a ->
       exists rest, whole t path hs content = a_sent a ++ rest /\ (a_result a = HTTPAPI_OK -> rest = [])).
    { intros r st hd bf ls E. injection E as <-. cbn [a_sent a_result]. exists []. rewrite app_nil_r. auto. }
    destruct (s_end s); [|apply W2; discriminate].
    destruct (match content with Some (_ :: _) => s_body s | _ => true end); [|apply W3].
    destruct (s_status s); [|apply W3]. destruct (read_headers _ _) as [r h| |]; [|discriminate|discriminate].
    destruct r; try apply W3. destruct buf; [|apply W3]. destruct (read_body _ _ _) as [ret c| |]; [|discriminate|discriminate]. destruct (ret <? 0)%Z; apply W3.
  - intros E. injection E as <-. cbn [a_sent a_result]. unfold whole. rewrite P. eexists. split; [|discriminate]. cbn. rewrite <- !app_assoc. reflexivity.
  - intros E. injection E as <-. cbn [a_sent a_result]. unfold whole. rewrite P. eexists. split; [|discriminate]. cbn. rewrite <- !app_assoc. reflexivity.
Qed.

(* --- C136: the response --- *)
(* the whole request is accepted, and the status comes *)
Definition accepted (hs : list (list N * list N)) (s : script) (st : Z) : Prop :=
  s_request s = true /\ s_end s = true /\ s_body s = true /\ length (s_fields s) = length hs /\ Forall (fun x => f_memory x = true /\ f_sent x = true) (s_fields s)
  /\ s_status s = Some st.
Lemma accepted_run t path hs content buf s st : Forall field_ok hs -> accepted hs s st ->
  HTTPAPI_ExecuteRequest (mkr (Some t) (Some path) (Some hs) content true true buf) s =
  match read_headers (s_headers s) (mkh None 0 0 []) with
  | HUndefined => Undefined | HWaiting => Waits
  | HDone HTTPAPI_OK h =>
      match buf with
      | None => Returns (mka HTTPAPI_OK (whole t path hs content) (Some st) (headers h) None (lost h))
      | Some c => match read_body (s_chunks s) 0 c with
                  | BUndefined => Undefined | BWaiting => Waits
                  | BDone ret c => if (ret <? 0)%Z then Returns (mka HTTPAPI_ERROR (whole t path hs content) (Some st) (headers h) (Some []) (lost h))
                                   else Returns (mka HTTPAPI_OK (whole t path hs content) (Some st) (headers h) (Some c) (lost h))
                  end
      end
  | HDone x h => Returns (mka x (whole t path hs content) (Some st) (headers h) buf (lost h))
  end.
Proof.
  intros F (R & En & B & L & A & St). unfold HTTPAPI_ExecuteRequest. cbn [r_type r_path r_headers r_content r_status r_response r_buffer].
  replace (getHttpMethod (Some t)) with (Some (method_of t)) by (destruct t; reflexivity).
  cbn [andb negb]. rewrite R, En, B, St.
  rewrite send_fields_ok; [|apply Forall_rev; assumption|rewrite rev_length; assumption|assumption].
  cbv zeta. set (w := match content with Some (c :: t) => (_ ++ _) ++ _ | _ => _ end).
  assert (W : w = whole t path hs content).
  { unfold w, whole. destruct content as [[|c u]|]; cbn; rewrite ?app_nil_r; try reflexivity. rewrite <- app_assoc. reflexivity. }
  rewrite W. clear w W.
  replace (match content with Some (_ :: _) => true | _ => true end) with true by (destruct content as [[|? ?]|]; reflexivity).
  reflexivity.
Qed.

(* However headers and body are cut into pieces, the caller gets exactly them, with the status *)
Theorem tirtos_response_partial t path hs content s st fs body : Forall field_ok hs -> accepted hs s st ->
  response fs (s_headers s) -> body_of body (s_chunks s) ->
  HTTPAPI_ExecuteRequest (mkr (Some t) (Some path) (Some hs) content true true (Some [])) s
  = Returns (mka HTTPAPI_OK (whole t path hs content) (Some st) (map trim fs) (Some (filled body)) 0).
Proof.
  intros F A R B. rewrite (accepted_run _ _ _ _ _ _ _ F A).
  destruct (read_response fs _ R (mkh None 0 0 []) eq_refl) as (h & -> & E2 & E3).
  pose proof (body_read _ _ B [] []) as Q. cbn [length filled map app skipn fresh repeat] in Q. rewrite Q.
  rewrite skipn_all2 by (rewrite fresh_length; lia). rewrite app_nil_r, E2, E3. reflexivity.
Qed.
(* ... and with a NULL buffer, the headers *)
Theorem tirtos_response_no_buffer t path hs content s st fs : Forall field_ok hs -> accepted hs s st ->
  response fs (s_headers s) ->
  HTTPAPI_ExecuteRequest (mkr (Some t) (Some path) (Some hs) content true true None) s
  = Returns (mka HTTPAPI_OK (whole t path hs content) (Some st) (map trim fs) None 0).
Proof.
  intros F A R. rewrite (accepted_run _ _ _ _ _ _ _ F A).
  destruct (read_response fs _ R (mkh None 0 0 []) eq_refl) as (h & -> & E2 & E3). rewrite E2, E3. reflexivity.
Qed.
(* a connection that fails among the headers is reported, and the buffer is as it was *)
Theorem tirtos_headers_broken t path hs content s st fs buf : Forall field_ok hs -> accepted hs s st ->
  broken fs (s_headers s) ->
  HTTPAPI_ExecuteRequest (mkr (Some t) (Some path) (Some hs) content true true buf) s
  = Returns (mka HTTPAPI_RECEIVE_RESPONSE_FAILED (whole t path hs content) (Some st) (map trim fs) buf 0).
Proof.
  intros F A R. rewrite (accepted_run _ _ _ _ _ _ _ F A).
  destruct (read_broken fs _ R (mkh None 0 0 []) eq_refl) as (h & -> & E2 & E3). rewrite E2, E3. reflexivity.
Qed.
(* A connection or a memory that fails in the body is not: whatever came so far is given out as the
   whole body, with HTTPAPI_OK *)
Theorem tirtos_body_cut_refuted t path hs content s st fs part : Forall field_ok hs -> accepted hs s st ->
  response fs (s_headers s) -> body_cut part (s_chunks s) ->
  HTTPAPI_ExecuteRequest (mkr (Some t) (Some path) (Some hs) content true true (Some [])) s
  = Returns (mka HTTPAPI_OK (whole t path hs content) (Some st) (map trim fs) (Some (filled part)) 0).
Proof.
  intros F A R B. rewrite (accepted_run _ _ _ _ _ _ _ F A).
  destruct (read_response fs _ R (mkh None 0 0 []) eq_refl) as (h & -> & E2 & E3).
  destruct (body_broken _ _ B [] []) as (ret & K & Q). cbn [length filled map app skipn fresh repeat] in Q. rewrite Q.
  rewrite skipn_all2 by (rewrite fresh_length; lia). rewrite app_nil_r, E2, E3. destruct K as [-> | ->]; reflexivity.
Qed.
(* A buffer that holds something is not replaced and not appended to: the body overwrites its
   beginning, and it ends with bytes nobody wrote *)
Theorem tirtos_buffer_refuted t path hs content s st fs body old : Forall field_ok hs -> accepted hs s st ->
  response fs (s_headers s) -> body_of body (s_chunks s) -> old <> [] -> body <> [] ->
  exists b, HTTPAPI_ExecuteRequest (mkr (Some t) (Some path) (Some hs) content true true (Some (filled old))) s
    = Returns (mka HTTPAPI_OK (whole t path hs content) (Some st) (map trim fs) (Some (b ++ [None])) 0)
    /\ length (b ++ [None]) = length old + length body.
Proof.
  intros F A R B O N. rewrite (accepted_run _ _ _ _ _ _ _ F A).
  destruct (read_response fs _ R (mkh None 0 0 []) eq_refl) as (h & -> & E2 & E3).
  pose proof (body_read _ _ B [] (filled old)) as Q. cbn [length map app skipn fresh repeat] in Q. rewrite app_nil_r in Q.
  change (filled [] ++ filled old) with (filled old) in Q. fold (fresh (length body)) in Q. rewrite Q.
  assert (E : exists m, fresh (length body) = m ++ [None] /\ length body = S (length m)).
  { destruct body as [|c body]; [congruence|]. exists (fresh (length body)). cbn [length fresh repeat]. rewrite fresh_length. split; [|reflexivity].
    unfold fresh. apply repeat_cons. }
  destruct E as (m & E & L). rewrite E.
  assert (Lo : length old = S (length old - 1)) by (destruct old; [congruence|cbn; lia]).
  rewrite app_assoc, skipn_app.
  replace (length body - length (filled old ++ m))%nat with 0 by (rewrite app_length, filled_length; lia).
  exists (filled body ++ skipn (length body) (filled old ++ m)). rewrite <- app_assoc. cbn [skipn]. rewrite E2, E3. cbn [headers lost app]. split; [reflexivity|].
  rewrite !app_length, skipn_length, !filled_length, app_length, filled_length. cbn. lia.
Qed.

(* --- C137: memory --- *)
(* every call is defined while the library ends its headers with a NUL *)
Theorem tirtos_defined r s : (forall hs, r_headers r = Some hs -> Forall field_ok hs) -> Forall terminates (s_headers s) ->
  HTTPAPI_ExecuteRequest r s <> Undefined.
Proof.
  intros F T. unfold HTTPAPI_ExecuteRequest. destruct (getHttpMethod (r_type r)); [|discriminate]. destruct (r_path r); [|discriminate].
  destruct (negb _); [discriminate|]. destruct (r_headers r) as [hs|]; [|discriminate]. specialize (F hs eq_refl).
  destruct (s_request s); [|discriminate].
  destruct (send_fields_prefix (rev hs) (s_fields s)) as (l1 & x & rest & -> & _ & _ & _); [apply Forall_rev; assumption|].
  destruct x; try discriminate. destruct (s_end s); [|discriminate]. destruct (match r_content r with Some (_ :: _) => s_body s | _ => true end); [|discriminate].
  destruct (s_status s); [|discriminate].
  pose proof (read_headers_defined (s_headers s) T [] [] (mkh None 0 0 []) eq_refl (conj eq_refl eq_refl)) as D.
  destruct (read_headers _ _) as [y h| |]; [|congruence|discriminate]. destruct y; try discriminate.
  destruct (r_buffer r) as [c|]; [|discriminate]. pose proof (read_body_defined (s_chunks s) 0 c (Nat.le_0_l _)) as D2.
  destruct (read_body _ _ _) as [ret ?| |]; [|congruence|discriminate]. destruct (ret <? 0)%Z; discriminate.
Qed.
(* and loses nothing unless memory runs out *)
Theorem tirtos_memory_partial r s a : HTTPAPI_ExecuteRequest r s = Returns a -> a_result a <> HTTPAPI_ALLOC_FAILED -> a_lost a = 0.
Proof.
  unfold HTTPAPI_ExecuteRequest.
  assert (Z : forall x l st hd bf, Returns (mka x l st hd bf 0) = Returns a -> a_result a <> HTTPAPI_ALLOC_FAILED -> a_lost a = 0) by (intros x l st hd bf E _; injection E as <-; reflexivity).
  destruct (getHttpMethod (r_type r)); [|apply Z]. destruct (r_path r); [|apply Z].
  destruct (negb _); [apply Z|]. destruct (r_headers r) as [hs|]; [|apply Z]. destruct (s_request s); [|apply Z].
  destruct (send_fields _ _) as [[l1 x]|]; [|discriminate]. destruct x; try apply Z. destruct (s_end s); [|apply Z].
  destruct (match r_content r with Some (_ :: _) => s_body s | _ => true end); [|apply Z]. destruct (s_status s); [|apply Z].
  pose proof (read_headers_lost (s_headers s) (mkh None 0 0 [])) as D. destruct (read_headers _ _) as [y h| |]; [|discriminate|discriminate].
  cbn [lost] in D.
  assert (Y : forall l st hd bf, Returns (mka y l st hd bf (lost h)) = Returns a -> a_result a <> HTTPAPI_ALLOC_FAILED -> a_lost a = 0).
  { intros ll st0 hd bf E K. injection E as <-. cbn in K |- *. destruct D as [D|[D _] ]; [exact D|congruence]. }
  destruct y; try apply Y. destruct (r_buffer r); [|apply Y].
  destruct (read_body _ _ _) as [ret c| |]; [|discriminate|discriminate]. destruct (ret <? 0)%Z; [|apply Y].
  intros E K. injection E as <-. cbn. destruct D as [D|[D _] ]; [exact D|discriminate].
Qed.
(* A header in more than one piece whose block cannot grow: the call says so, and the block is
   lost, whatever the pieces *)
Theorem tirtos_leak_refuted t path hs content s st bs ok bs' more added rest buf : Forall field_ok hs -> accepted hs s st ->
  1 <= length bs <= 128 -> 1 <= length bs' <= 128 ->
  s_headers s = HPiece bs true true ok :: HPiece bs' more false added :: rest ->
  HTTPAPI_ExecuteRequest (mkr (Some t) (Some path) (Some hs) content true true buf) s
  = Returns (mka HTTPAPI_ALLOC_FAILED (whole t path hs content) (Some st) [] buf 1).
Proof.
  intros F A L L2 E. rewrite (accepted_run _ _ _ _ _ _ _ F A), E. cbn [read_headers]. rewrite piece_sizes by assumption. rewrite Bool.andb_false_r.
  change (offset (mkh None 0 0 [])) with (length (@nil N)).
  destruct (grow_store (hname (mkh None 0 0 [])) [] bs [] _ (conj eq_refl eq_refl) eq_refl) as (tl & Q).
  pose proof Q as Q0. rewrite Q. cbn beta iota. cbn [offset hname lost headers]. rewrite piece_sizes by assumption.
  assert (T : length (filled ([] ++ bs) ++ tl) = length bs).
  { cbn [size hname length app] in Q0. destruct (Nat.ltb_spec 0 (0 + length bs)); [|lia]. unfold grown in Q0.
    rewrite store_all_exact in Q0 by (rewrite fresh_length; reflexivity). injection Q0 as Q0. cbn [app]. rewrite <- Q0. apply filled_length. }
  unfold size at 1. rewrite T. cbn [length app Nat.add]. destruct (Nat.ltb_spec (length bs) (length bs + length bs')); [|lia]. reflexivity.
Qed.

(* --- C138: connections --- *)
(* no outcome of the library's calls leaves a client without a handle; closing takes it away *)
Theorem tirtos_connections address create connect n :
  let '(ok, m) := HTTPAPI_CreateConnection address create connect n in
  (ok = true <-> address = true /\ create = true /\ connect = true)
  /\ m = (if ok then S n else n) /\ HTTPAPI_CloseConnection ok m = n.
Proof. destruct address, create, connect; cbn; repeat split; intuition (try discriminate; try lia). Qed.

(* Concrete cases *)
Definition case_headers : list header_answer :=
  [HPiece (str "Content-Ty") true true true; HPiece (str "pe:  text" ++ [0%N]) false true true; HPiece (str "A: b" ++ [0%N]) false true true; HEnd].
Definition case_script : script := mksc true [mkf true true; mkf true true] true true (Some 200%Z) case_headers [BChunk (str "he") true true; BChunk (str "llo") false true].
Example case_response : response [(str "Content-Type", str "  text"); (str "A", str " b")] case_headers.
Proof.
  apply (response_field (str "Content-Type", str "  text") _ [HPiece (str "Content-Ty") true true true; HPiece (str "pe:  text" ++ [0%N]) false true true]).
  - split; [|split]; vm_compute; intuition discriminate.
  - apply (delivered_more (str "Content-Ty")); [cbn; lia|]. apply delivered_last. cbn. lia.
  - apply (response_field (str "A", str " b") _ [HPiece (str "A: b" ++ [0%N]) false true true]).
    + split; [|split]; vm_compute; intuition discriminate.
    + apply delivered_last. cbn. lia.
    + apply response_end.
Qed.
Example case_body : body_of (str "hello") (s_chunks case_script).
Proof. apply (body_more (str "he")); [cbn; lia|]. apply (body_last (str "llo")). cbn. lia. Qed.
Example case_accepted : accepted [(str "Host", str "h"); (str "X", str "  y")] case_script 200.
Proof. repeat split; repeat constructor. Qed.
Example case_run : HTTPAPI_ExecuteRequest (mkr (Some POST) (Some (str "/p")) (Some [(str "Host", str "h"); (str "X", str "  y")]) (Some (str "b")) true true (Some [])) case_script
  = Returns (mka HTTPAPI_OK [SendRequest (str "POST") (str "/p"); SendField (str "X") (str "y"); SendField (str "Host") (str "h"); SendEnd; SendBody (str "b")]
      (Some 200%Z) [(str "Content-Type", str "text"); (str "A", str "b")] (Some (filled (str "hello"))) 0).
Proof. vm_compute. reflexivity. Qed.
Example case_cut : body_cut (str "he") [BChunk (str "he") true true; BFail].
Proof. apply (cut_more (str "he") []); [cbn; lia|]. apply cut_read. Qed.
Example case_broken : broken [] [HPiece (str "Co") true true true; HFail].
Proof. apply broken_inside; [cbn; lia|]. apply broken_now. Qed.
Example case_terminates : Forall terminates case_headers.
Proof. repeat constructor; cbn; [exists (str "pe:  text")|exists (str "A: b")]; reflexivity. Qed.

(* what a NULL argument, or a method there is not, gives: INVALID_ARG, and nothing is sent or stored *)
Theorem tirtos_invalid r s : r_type r = None \/ r_path r = None \/ r_status r = false \/ r_response r = false ->
  HTTPAPI_ExecuteRequest r s = Returns (mka HTTPAPI_INVALID_ARG [] None [] (r_buffer r) 0).
Proof.
  unfold HTTPAPI_ExecuteRequest. intros [E|[E|[E|E] ] ]; rewrite E; cbn; [reflexivity| | |];
  destruct (getHttpMethod (r_type r)); try reflexivity; destruct (r_path r); try reflexivity. rewrite Bool.andb_false_r. reflexivity.
Qed.

(* Different results have different codes, from 0 on as HTTPAPI_RESULT_VALUES lists them. *)
Theorem tirtos_codes a b : (code a = code b -> a = b) /\ (0 <= code a <= 17)%Z /\ (code a = 0%Z <-> a = HTTPAPI_OK).
Proof. split; [destruct a, b; cbn; congruence|]. split; [destruct a; cbn; lia|]. destruct a; cbn; split; congruence. Qed.
