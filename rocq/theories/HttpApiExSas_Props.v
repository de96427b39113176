(* C55: HTTPAPIEX_SAS. *)
From Verif Require Import Base Mem Refine Base64_Spec Base64_Model Base64_Props Map_Model Map_Spec HttpHeaders_Model HttpHeaders_Spec HttpHeaders_Proofs
  Buffer_Model Buffer_Spec Crt_Spec Crt_Props Strings_Model Strings_Spec Strings_Proofs Sas_Model Sas_Spec Sas_Proofs Sas_Props
  HttpApiEx_Model HttpApiEx_Spec HttpApiEx_Proofs HttpApiEx_Calls HttpApiEx_Objects HttpApiEx_Total HttpApiEx_Props HttpApiExSas_Model.
Open Scope N_scope.

(** * Specification *)

(* the strings are as before, and none is left over *)
Definition strings_kept (sp sp' : texts) : Prop :=
  firstn (length sp) sp' = sp /\ forall j, (length sp <= j)%nat -> live sp' j = None.

Definition authorization : text := str "Authorization".

(* only the request headers given can be different *)
Definition same_but_headers (w w' : world) : Prop :=
  w_buffers w' = w_buffers w /\ w_clones w' = w_clones w /\ w_status w' = w_status w /\ w_answers w' = w_answers w /\ w_trace w' = w_trace w.

(** * Strings *)

Lemma kept_refl sp : strings_kept sp sp.
Proof. split; [apply firstn_all|]. intros j Hj. unfold live. rewrite (proj2 (nth_error_None sp j) Hj). reflexivity. Qed.

Lemma live_upd_none sp h j : live (upd sp h None) j = if (j =? h)%nat then None else live sp j.
Proof.
  unfold live. destruct (Nat.eqb_spec j h) as [->|Hn].
  - destruct (Nat.lt_ge_cases h (length sp)) as [H|H].
    + rewrite upd_same by exact H. reflexivity.
    + rewrite (proj2 (nth_error_None _ h)); [reflexivity|]. rewrite upd_length. exact H.
  - rewrite upd_other by congruence. reflexivity.
Qed.
Lemma firstn_upd {A} (l : list A) n i x : (n <= i)%nat -> firstn n (upd l i x) = firstn n l.
Proof. revert n i. induction l as [|y l IH]; intros [|n] [|i] H; cbn; try reflexivity; try lia. f_equal. apply IH. lia. Qed.

Lemma delete_eval st sp h t o : represents st sp -> live sp h = Some t ->
  exists st', STRING_delete st (Some h) o = Some ((RI true, st'), o) /\ represents st' (upd sp h None).
Proof.
  intros R L. destruct (delete_does st sp h t (fun x => ret x) o (fun x => represents (snd x) (upd sp h None) /\ fst x = RI true) R L) as (x & o' & E & Hx).
  { intros st' R'. exists (RI true, st'), o. split; [reflexivity|]. split; [exact R'|reflexivity]. }
  destruct x as [r st']. cbn in Hx. destruct Hx as [Hx ->]. exists st'. split; [|exact Hx].
  unfold bind in E. destruct (STRING_delete st (Some h) o) as [[[r0 s0] o0]|] eqn:E0; [|discriminate]. cbn in E. injection E as -> -> ->.
  unfold STRING_delete, bind, lift in E0. destruct (getb st h); [|discriminate]. cbn in E0. injection E0 as _ <-. reflexivity.
Qed.

(** * The headers *)

Lemma find_eval hs hsp i l n o : hrepresents hs hsp -> hlive hsp i = Some l -> cstr_ok n ->
  HTTPHeaders_FindHeaderValue hs (Some i) (Some n) o = Some ((HRS (lookup n l), hs), o).
Proof.
  intros HR HL Hn. destruct HR as (ms & H). destruct (hrep_get hs hsp ms i l H HL) as (m & Em & Lm & _).
  unfold HTTPHeaders_FindHeaderValue, bind, lift. rewrite Em. destruct (getvalue_eval _ _ _ _ n (proj1 H) Lm Hn) as [K|K]; rewrite K; reflexivity.
Qed.

Lemma replace_eval hs hsp i l n v o : hrepresents hs hsp -> hlive hsp i = Some l -> cstr_okb n = true -> legal_name n = true -> cstr_okb v = true ->
  exists r hs' o' hsp', HTTPHeaders_ReplaceHeaderNameValuePair hs (Some i) (Some n) (HStr v) o = Some ((r, hs'), o') /\ hrepresents hs' hsp' /\
    (hsp' = upd hsp i (Some (with_header n (trim v) l)) \/ hsp' = hsp /\ In false o).
Proof.
  intros HR HL Hn Hg Hv. destruct (headers_simulate hs hsp (HReplace (Some i) (Some n) (HStr v)) o HR) as (m & Hm & H).
  assert (Hs : exists r, hsp_step hsp (HReplace (Some i) (Some n) (HStr v)) m = Some (r, if m then upd hsp i (Some (with_header n (trim v) l)) else hsp)).
  { cbn. rewrite Hn, HL, Hv, Hg. cbn. rewrite <- with_header_replace. destruct (lookup n l); unfold hset; destruct m; eauto. }
  destruct Hs as (r & Hs). destruct (H _ _ Hs) as (hs' & o' & used & E & R & _).
  unfold hstep_merged, bind in E. cbn [hstep] in E. destruct (HTTPHeaders_ReplaceHeaderNameValuePair hs (Some i) (Some n) (HStr v) o) as [[[r0 s0] o0]|]; [|discriminate].
  cbn in E. injection E as _ -> ->. exists r0, hs', o'. eexists. split; [reflexivity|]. split; [exact R|]. destruct m; [left; reflexivity|right; auto].
Qed.

Lemma token_trim sc sig ds name : trim (sas_token sc sig ds name) = sas_token sc sig ds name.
Proof. reflexivity. Qed.

(** * The refresh *)

(* Nothing happens without a SAS handle, without request headers, without an Authorization
   header in them, or without a clock: the call is exactly HTTPAPIEX_ExecuteRequest. *)
Definition no_refresh (hsp : header_lists) (sas : option sas_state) (reqh : option nat) (now : Z) : Prop :=
  sas = None \/ reqh = None \/ lookup authorization (headers_at hsp reqh) = None \/ now = (-1)%Z.

Lemma refresh_nothing st hs hsp sas reqh now o : hrepresents hs hsp -> (forall i, reqh = Some i -> hlive hsp i <> None) ->
  no_refresh hsp sas reqh now -> refresh st sas hs reqh now o = Some ((hs, st), o).
Proof.
  intros HR HL H. unfold refresh. destruct sas as [s|]; [|reflexivity]. destruct reqh as [i|]; [|reflexivity].
  destruct (hlive hsp i) as [l|] eqn:E; [|destruct (HL i eq_refl E)].
  unfold bind. rewrite (find_eval hs hsp i l (str "Authorization") o HR E) by (apply cstr_okb_ok; reflexivity). cbn [fst].
  destruct H as [H|[H|[H|H]]]; try discriminate.
  - unfold headers_at in H. rewrite E in H. fold authorization. rewrite H. reflexivity.
  - subst now. destruct (lookup (str "Authorization") l); reflexivity.
Qed.

Theorem sas_request_is_plain_request : forall fuel st sas now d w hsp type path reqh reqc status resh resc o,
  hrepresents (w_headers w) hsp -> (forall i, reqh = Some i -> hlive hsp i <> None) ->
  no_refresh hsp sas reqh now ->
  HTTPAPIEX_SAS_ExecuteRequest fuel st sas now d w type path reqh reqc status resh resc o =
  match HTTPAPIEX_ExecuteRequest fuel d w type path reqh reqc status resh resc o with
  | Some (x, o') => Some ((x, st), o')
  | None => None
  end.
Proof.
  intros fuel st sas now d w hsp type path reqh reqc status resh resc o HR HL H. unfold HTTPAPIEX_SAS_ExecuteRequest.
  unfold bind at 1. rewrite (refresh_nothing st _ hsp sas reqh now o HR HL H).
  replace (with_objects w (w_headers w) (w_buffers w)) with w by (destruct w; reflexivity). unfold bind.
  destruct (HTTPAPIEX_ExecuteRequest fuel d w type path reqh reqc status resh resc o) as [[x o']|]; reflexivity.
Qed.

Lemma refresh_gives st sp s hk hu hn kb scope name ds hs hsp i l now o :
  represents st sp -> s_key s = Some hk -> s_uri s = Some hu -> s_name s = Some hn ->
  live sp hk = Some (rfc4648 kb) -> live sp hu = Some scope -> live sp hn = Some name -> bytes_ok kb ->
  lenN kb < 2 ^ 31 -> lenN scope + 21 < 2 ^ 31 ->
  hrepresents hs hsp -> hlive hsp i = Some l -> lookup authorization l <> None -> now <> (-1)%Z ->
  (-3600 <= now <= 2 ^ 53 - 3600)%Z -> decimal (Z.to_N (now + 3600)) ds ->
  exists hs' st' o' hsp' sp', refresh st (Some s) hs (Some i) now o = Some ((hs', st'), o') /\
    represents st' sp' /\ strings_kept sp sp' /\ hrepresents hs' hsp' /\
    ((exists sig, signs kb scope ds sig /\ kb <> [] /\ hsp' = upd hsp i (Some (with_header authorization (sas_token scope sig ds name) l))) \/
     hsp' = hsp /\ (In false o \/ kb = [])).
Proof.
  intros R Ek Eu En Lk Lu Ln Hkb Bk Bs HR HL Ha Hnow Ht Hd. unfold refresh.
  unfold bind at 1. rewrite (find_eval hs hsp i l (str "Authorization") o HR HL) by (apply cstr_okb_ok; reflexivity). cbn [fst]. fold authorization.
  destruct (lookup authorization l) as [old|]; [|congruence].
  replace (now =? -1)%Z with false by lia. unfold sas_expiry.
  replace ((-3600 <=? now)%Z && (now + 3600 <=? 2 ^ 53)%Z) with true by (symmetry; apply andb_true_iff; split; apply Z.leb_le; lia).
  rewrite bind_lift. set (e := Z.to_N (now + 3600)) in *. assert (He : e < 2 ^ 64) by (unfold e; lia). rewrite Ek, Eu, En.
  assert (Hnone : forall o1 r, SASToken_Create st (Some hk) (Some hu) (Some hn) e o = Some (r, o1) -> nothing_made sp r -> (In false o \/ kb = []) ->
    exists hs' st' o' hsp' sp', bind (SASToken_Create st (Some hk) (Some hu) (Some hn) e) (fun '(token, st, _) =>
             match token with
             | None => ret (hs, st)
             | Some t =>
                 c <- STRING_c_str st token ;;
                 tx <- lift (match fst c with RT (Some x) => Some x | _ => None end) ;;
                 r <- HTTPHeaders_ReplaceHeaderNameValuePair hs (Some i) (Some authorization) (HStr tx) ;;
                 d <- STRING_delete st token ;;
                 ret (snd r, snd d)
             end)%m o = Some ((hs', st'), o') /\
    represents st' sp' /\ strings_kept sp sp' /\ hrepresents hs' hsp' /\
    ((exists sig, signs kb scope ds sig /\ kb <> [] /\ hsp' = upd hsp i (Some (with_header authorization (sas_token scope sig ds name) l))) \/
     hsp' = hsp /\ (In false o \/ kb = []))).
  { intros o1 [[token st1] b] E (H1 & _ & sp1 & R1 & H2 & H3) Hin. cbn in H1, R1. subst token. unfold bind. rewrite E.
    exists hs, st1, o1, hsp, sp1. split; [reflexivity|]. split; [exact R1|]. split; [split; assumption|]. split; [exact HR|]. right. auto. }
  destruct (base64_decode_canonical (rfc4648 kb) o (base64_text_is_canonical kb Hkb)) as [(o1 & E & Hi)|(o1 & bs & E & Hb & Heq)].
  { apply (Hnone o1 (None, st, [])); [eapply sas_token_undecodable_key; eauto| |left; exact Hi].
    split; [reflexivity|]. split; [constructor|]. exists sp. split; [exact R|]. apply kept_refl. }
  apply base64_injective in Heq; [|exact Hb|exact Hkb]. subst bs. destruct kb as [|b0 kb0].
  { destruct (sas_token_empty_key st sp hk hu hn _ scope e ds o o1 R Lk Lu He Hd E) as (r & o' & E' & Hn). eapply Hnone; eauto. }
  destruct (sas_gives st sp hk hu hn _ (b0 :: kb0) scope name e ds o o1 R Lk Lu Ln He Hd E Hb ltac:(discriminate) Bk Bs) as (r & o2 & E2 & [[Hg (used & Hu)]|[Hbad Hi]]).
  2:{ apply bad_nothing in Hbad. eapply Hnone; eauto. }
  clear Hnone. pose proof (good_made st sp _ _ _ _ _ Hg) as (sig & h & Hsig & Hh & Hle & sp1 & R1 & Lh & Hf & Hdead & _).
  destruct r as [[token st1] b]. cbn in Hh, R1. subst token. unfold bind at 1. rewrite E2.
  destruct (rep_get _ _ _ _ R1 Lh) as (bt & Eb & Wb).
  assert (Ec : STRING_c_str st1 (Some h) = ret (RT (Some (sas_token scope sig ds name)), st1)).
  { unfold STRING_c_str, bind, lift. rewrite Eb, (wf_ctext _ _ Wb). reflexivity. }
  rewrite Ec, bind_ret. cbn [fst]. rewrite bind_lift.
  destruct (replace_eval hs hsp i l authorization (sas_token scope sig ds name) o2 HR HL) as (r & hs' & o3 & hsp' & E3 & R3 & H3); [reflexivity|reflexivity|apply cstr_okb_ok; apply Wb|].
  unfold bind at 1. rewrite E3. cbn [snd]. destruct (delete_eval st1 sp1 h _ o3 R1 Lh) as (st2 & E4 & R4). unfold bind. rewrite E4. cbn [snd].
  exists hs', st2, o3, hsp', (upd sp1 h None). split; [reflexivity|]. split; [exact R4|]. split.
  { split; [rewrite firstn_upd by exact Hle; exact Hf|]. intros j Hj. rewrite live_upd_none. destruct (Nat.eqb_spec j h) as [->|Hne]; [reflexivity|auto]. }
  split; [exact R3|]. destruct H3 as [->|[-> Hi]]; [left; exists sig|right].
  - split; [exact Hsig|]. split; [discriminate|]. rewrite token_trim. reflexivity.
  - split; [reflexivity|]. left. rewrite Hu. apply in_or_app. right. exact Hi.
Qed.

(* With an Authorization header and a clock: the plain call is made once, on the same
   arguments and in the same state but for the value of Authorization in the request headers,
   which is the SAS token for now + 3600 seconds (or the old value, if some allocation failed
   or the key is empty).  Every request sent carries these headers.  No string is left over. *)
Theorem sas_request_refreshes_authorization : forall fuel host h d w hsp bsp st sp s hk hu hn kb scope name ds now type path i l reqc status resh resc o,
  reached fuel host h d w -> (9 <= fuel)%nat ->
  hrepresents (w_headers w) hsp -> brepresents (w_buffers w) bsp -> usable hsp bsp (Some i) reqc resh resc ->
  hlive hsp i = Some l -> lookup authorization l <> None ->
  represents st sp -> s_key s = Some hk -> s_uri s = Some hu -> s_name s = Some hn ->
  live sp hk = Some (rfc4648 kb) -> live sp hu = Some scope -> live sp hn = Some name -> bytes_ok kb ->
  lenN kb < 2 ^ 31 -> lenN scope + 21 < 2 ^ 31 ->
  now <> (-1)%Z -> (-3600 <= now <= 2 ^ 53 - 3600)%Z -> decimal (Z.to_N (now + 3600)) ds ->
  exists r d' w' st' o' evs sp' sent w1 o1,
    HTTPAPIEX_SAS_ExecuteRequest fuel st (Some s) now d w type path (Some i) reqc status resh resc o = Some ((r, d', w', st'), o') /\
    HTTPAPIEX_ExecuteRequest fuel d w1 type path (Some i) reqc status resh resc o1 = Some ((r, d', w'), o') /\
    same_but_headers w w1 /\ (exists hsp1, hrepresents (w_headers w1) hsp1 /\ hlive hsp1 i = Some sent /\ forall j, j <> i -> hlive hsp1 j = hlive hsp j) /\
    w_trace w' = w_trace w ++ evs /\
    (forall q, In (ERequest q) evs -> carries host sent (content_at bsp reqc) q) /\
    represents st' sp' /\ strings_kept sp sp' /\
    ((exists sig, signs kb scope ds sig /\ kb <> [] /\ sent = with_header authorization (sas_token scope sig ds name) l) \/
     sent = l /\ (In false o \/ kb = [])).
Proof.
  intros fuel host h d w hsp bsp st sp s hk hu hn kb scope name ds now type path i l reqc status resh resc o HR Hf HH HB US HL Ha R Ek Eu En Lk Lu Ln Hkb Bk Bs Hnow Ht Hd.
  destruct (refresh_gives st sp s hk hu hn kb scope name ds (w_headers w) hsp i l now o) as (hs' & st' & o1 & hsp1 & sp' & E1 & R1 & K1 & H1 & Hout); try assumption.
  set (w1 := with_objects w hs' (w_buffers w)).
  assert (Hlive : forall j, hlive hsp1 j <> None <-> hlive hsp j <> None).
  { intros j. destruct Hout as [(sig & _ & _ & ->)|[-> _]]; [|reflexivity]. rewrite hlive_upd' by congruence. destruct (Nat.eqb_spec j i) as [->|Hn]; [|reflexivity].
    rewrite HL. split; intros _; discriminate. }
  assert (US1 : usable hsp1 bsp (Some i) reqc resh resc).
  { destruct US as [U1 U2 U3 U4]. constructor; try assumption. intros j Hj. apply Hlive, U1, Hj. }
  destruct (reached_resting _ _ _ _ _ Hf HR) as ((vals & Q) & Hhost & Hho & _).
  assert (Q1 : resting d w1 vals (fold_left in_force h []) (told_after [] (events h))) by (destruct Q; constructor; assumption).
  destruct (execute_total fuel d w1 vals _ _ hsp1 bsp type path (Some i) reqc status resh resc Hho Q1 H1 HB US1) as [D T].
  destruct (HTTPAPIEX_ExecuteRequest fuel d w1 type path (Some i) reqc status resh resc o1) as [[[[r d'] w'] o']|] eqn:E; [|destruct (D o1 E)].
  destruct (T _ _ _ E) as (evs & hsp' & bsp' & Htr & _ & _ & [O1 _ _ _ _ _]).
  exists r, d', w', st', o', evs, sp', (match hlive hsp1 i with Some x => x | None => [] end), w1, o1.
  split; [unfold HTTPAPIEX_SAS_ExecuteRequest, bind; rewrite E1; fold w1; rewrite E; reflexivity|].
  split; [exact E|]. split; [repeat split|]. split.
  { exists hsp1. split; [exact H1|]. split.
    - destruct (hlive hsp1 i) eqn:El; [reflexivity|]. exfalso. apply (proj2 (Hlive i)); [congruence|exact El].
    - intros j Hj. destruct Hout as [(sig & _ & _ & ->)|[-> _]]; [|reflexivity]. rewrite hlive_upd' by congruence. apply Nat.eqb_neq in Hj. rewrite Hj. reflexivity. }
  split; [exact Htr|]. split; [rewrite <- Hhost; exact O1|]. split; [exact R1|]. split; [exact K1|].
  destruct Hout as [(sig & Hs & Hk & ->)|[-> Hi]]; [left; exists sig|right].
  - split; [exact Hs|]. split; [exact Hk|]. rewrite hlive_upd' by congruence. rewrite Nat.eqb_refl. reflexivity.
  - rewrite HL. auto.
Qed.

(** * Create and Destroy *)

Lemma clone_gives st sp i t o : represents st sp -> live sp i = Some t ->
  exists r st' o', STRING_clone st (Some i) o = Some ((RH r, st'), o') /\ (exists used, o = used ++ o') /\
    (r = Some (length sp) /\ represents st' (sp ++ [Some t]) \/ r = None /\ st' = st /\ In false o).
Proof.
  intros R L. destruct (strings_simulate st sp (SClone (Some i)) o R) as (m & Hm & H). cbn [sp_step] in H. rewrite L in H.
  destruct (rep_get _ _ _ _ R L) as (b & Eb & Wb).
  assert (Es : exists r sp', create sp m t = Some (RH r, sp') /\ (if m then r = Some (length sp) /\ sp' = sp ++ [Some t] else r = None /\ sp' = sp)) by (destruct m; cbn; eauto 6).
  destruct Es as (r & sp' & Es & Hr). destruct (H _ _ Es) as (st' & o' & used & E & R' & Hu & _).
  exists r, st', o'. split; [exact E|]. split; [eauto|]. destruct m; destruct Hr as [-> ->]; [left; auto|right; split; [reflexivity|]; split; [|auto]].
  cbn [sstep] in E. unfold STRING_clone, bind, lift in E. rewrite Eb in E. unfold new_string in E.
  unfold bind, allocs, alloc in E. revert E. rewrite (wf_ctext _ _ Wb), write_fresh. cbn. intros E.
  repeat match type of E with context [match ?x with _ => _ end] => destruct x; cbn in E; try discriminate end; try (injection E as <- <-; reflexivity); try (injection E as -> ->; reflexivity).
Qed.
Lemma live_app_l sp l i t : live sp i = Some t -> live (sp ++ l) i = Some t.
Proof. unfold live. intros H. rewrite nth_error_app1; [exact H|]. apply nth_error_Some. destruct (nth_error sp i); congruence. Qed.
Lemma upd_snoc {A} (l r : list A) x y : upd (l ++ x :: r) (length l) y = l ++ y :: r.
Proof. induction l as [|z l IH]; cbn; [reflexivity|]. f_equal. exact IH. Qed.
Lemma kept_nones sp n : strings_kept sp (sp ++ repeat None n).
Proof.
  split; [apply firstn_exact|]. intros j Hj. replace j with (length sp + (j - length sp))%nat by lia. rewrite live_new. apply live_nones.
Qed.

(* Create gives a handle with copies of its own of the three texts, or NULL (only if an
   allocation failed), and then no string is left over. *)
Theorem sas_create : forall st sp hk hu hn key uri name o,
  represents st sp -> live sp hk = Some key -> live sp hu = Some uri -> live sp hn = Some name ->
  exists r st' o' sp', HTTPAPIEX_SAS_Create st (Some hk) (Some hu) (Some hn) o = Some ((r, st'), o') /\ represents st' sp' /\
    match r with
    | Some s => exists a b c, s_key s = Some a /\ s_uri s = Some b /\ s_name s = Some c /\ NoDup [a; b; c] /\
        Forall (fun x => length sp <= x)%nat [a; b; c] /\
        live sp' a = Some key /\ live sp' b = Some uri /\ live sp' c = Some name /\ firstn (length sp) sp' = sp /\
        forall j, (length sp <= j)%nat -> ~ In j [a; b; c] -> live sp' j = None
    | None => strings_kept sp sp' /\ In false o
    end.
Proof.
  intros st sp hk hu hn key uri name o R Lk Lu Ln. unfold HTTPAPIEX_SAS_Create. destruct (alloc_spec o) as (ok & o1 & used & Ea & Ho & Hf).
  unfold bind at 1. rewrite Ea. destruct ok; cbn [negb].
  2:{ exists None, st, o1, sp. split; [reflexivity|]. split; [exact R|]. split; [apply kept_refl|]. rewrite Ho. apply in_or_app. left. auto. }
  assert (Hin : In false o1 -> In false o) by (intros H; rewrite Ho; apply in_or_app; auto).
  unfold check_new, bind at 1. destruct (clone_gives st sp hk key o1 R Lk) as (r1 & st1 & o2 & E1 & (u1 & Hu1) & [[-> R1]|(-> & -> & Hi)]); rewrite E1; cbn [fst snd].
  2:{ exists None, st, o2, sp. split; [reflexivity|]. split; [exact R|]. split; [apply kept_refl|auto]. }
  assert (Hin2 : In false o2 -> In false o) by (intros H; apply Hin; rewrite Hu1; apply in_or_app; auto).
  unfold bind at 1. destruct (clone_gives st1 _ hu uri o2 R1 (live_app_l _ _ _ _ Lu)) as (r2 & st2 & o3 & E2 & (u2 & Hu2) & [[-> R2]|(-> & -> & Hi)]); rewrite E2; cbn [fst snd].
  2:{ unfold HTTPAPIEX_SAS_Destroy. cbn [s_key s_uri s_name].
      destruct (delete_eval st1 (sp ++ [Some key]) (length sp) key o3 R1) as (st' & E & R').
      { replace (length sp) with (length sp + 0)%nat by lia. rewrite live_new. reflexivity. }
      exists None, st', o3, (sp ++ [None]). split; [unfold bind; rewrite E; reflexivity|]. split; [rewrite <- (upd_snoc sp [] (Some key)); exact R'|]. split; [apply (kept_nones sp 1)|auto]. }
  assert (Hin3 : In false o3 -> In false o) by (intros H; apply Hin2; rewrite Hu2; apply in_or_app; auto).
  rewrite <- app_assoc in R2. cbn [app] in R2.
  assert (Ln2 : live (sp ++ [Some key; Some uri]) hn = Some name) by (apply live_app_l, Ln).
  unfold bind at 1. destruct (clone_gives st2 _ hn name o3 R2 Ln2) as (r3 & st3 & o4 & E3 & (u3 & Hu3) & [[-> R3]|(-> & -> & Hi)]); rewrite E3; cbn [fst snd].
  - rewrite <- app_assoc in R3. cbn [app] in R3. rewrite !app_length. cbn [length].
    exists (Some {| s_key := Some (length sp); s_uri := Some (length sp + 1)%nat; s_name := Some (length sp + 2)%nat |}), st3, o4, (sp ++ [Some key; Some uri; Some name]).
    split; [reflexivity|]. split; [exact R3|]. exists (length sp), (length sp + 1)%nat, (length sp + 2)%nat.
    split; [reflexivity|]. split; [reflexivity|]. split; [reflexivity|]. split; [repeat constructor; cbn; lia|]. split; [repeat constructor; lia|].
    split; [replace (length sp) with (length sp + 0)%nat by lia; rewrite live_new; reflexivity|]. split; [rewrite live_new; reflexivity|]. split; [rewrite live_new; reflexivity|].
    split; [apply firstn_exact|]. intros j Hj Hn. unfold live. rewrite (proj2 (nth_error_None _ j)); [reflexivity|]. rewrite app_length. cbn. cbn in Hn. lia.
  - unfold HTTPAPIEX_SAS_Destroy. cbn [s_key s_uri s_name]. rewrite app_length. cbn [length].
    destruct (delete_eval st2 _ (length sp) key o4 R2) as (st' & E & R').
    { replace (length sp) with (length sp + 0)%nat by lia. rewrite live_new. reflexivity. }
    rewrite upd_snoc in R'.
    destruct (delete_eval st' _ (length sp + 1) uri o4 R') as (st'' & E' & R'').
    { rewrite live_new. reflexivity. }
    exists None, st'', o4, (sp ++ [None; None]). split; [unfold bind; rewrite E; cbn [snd]; rewrite E'; reflexivity|].
    split; [|split; [apply (kept_nones sp 2)|auto]].
    replace (sp ++ [None; Some uri]) with ((sp ++ [None]) ++ [Some uri]) in R'' by (rewrite <- app_assoc; reflexivity).
    replace (length sp + 1)%nat with (length (sp ++ [@None (list N)])) in R'' by (rewrite app_length; reflexivity).
    rewrite upd_snoc, <- app_assoc in R''. exact R''.
Qed.

Theorem sas_create_null : forall st key uri name o, key = None \/ uri = None \/ name = None ->
  HTTPAPIEX_SAS_Create st key uri name o = Some ((None, st), o).
Proof. intros st [|] [|] [|] o [H|[H|H]]; try discriminate; reflexivity. Qed.

(* Destroy deletes the three copies and nothing else. *)
Theorem sas_destroy : forall st sp s a b c ka kb kc o,
  represents st sp -> s_key s = Some a -> s_uri s = Some b -> s_name s = Some c -> NoDup [a; b; c] ->
  live sp a = Some ka -> live sp b = Some kb -> live sp c = Some kc ->
  exists st' sp', HTTPAPIEX_SAS_Destroy st (Some s) o = Some (st', o) /\ represents st' sp' /\ length sp' = length sp /\
    forall j, live sp' j = if existsb (Nat.eqb j) [a; b; c] then None else live sp j.
Proof.
  intros st sp s a b c ka kb kc o R Ea Eb Ec Hd La Lb Lc. unfold HTTPAPIEX_SAS_Destroy. rewrite Ea, Eb, Ec.
  inversion Hd as [|? ? N1 Hd2]; subst. inversion Hd2 as [|? ? N2 _]; subst. cbn in N1, N2.
  destruct (delete_eval st sp a ka o R La) as (st1 & E1 & R1).
  destruct (delete_eval st1 (upd sp a None) b kb o R1) as (st2 & E2 & R2).
  { rewrite live_upd_none. destruct (Nat.eqb_spec b a); [intuition congruence|exact Lb]. }
  destruct (delete_eval st2 (upd (upd sp a None) b None) c kc o R2) as (st3 & E3 & R3).
  { rewrite !live_upd_none. destruct (Nat.eqb_spec c b); [intuition congruence|]. destruct (Nat.eqb_spec c a); [intuition congruence|exact Lc]. }
  exists st3. eexists. unfold bind. rewrite E1. cbn [snd]. rewrite E2. cbn [snd]. rewrite E3. split; [reflexivity|]. split; [exact R3|].
  split; [rewrite !upd_length; reflexivity|]. intros j. rewrite !live_upd_none. cbn [existsb]. rewrite orb_false_r.
  destruct (j =? a)%nat, (j =? b)%nat, (j =? c)%nat; reflexivity.
Qed.

(** * The hypotheses are met *)
Example sas_time_example : decimal (Z.to_N (1447800000 + 3600)) (str "1447803600") /\ (-3600 <= 1447800000 <= 2 ^ 53 - 3600)%Z.
Proof. split; [|lia]. repeat split; try (vm_compute; congruence); repeat constructor; vm_compute; congruence. Qed.
(* the handle of HttpApiEx_Props' history, with headers that have an Authorization *)
Definition sas_ops : list exop :=
  [XHeaders HAlloc; XHeaders (HAdd (Some 0%nat) (Some authorization) (HStr (str "old"))); XHeaders (HAdd (Some 0%nat) (Some (str "X")) (HStr (str "y")))].
Definition sas_run : list call * (exdata * world) :=
  match history 9 (ex_data, start {| hmaps := []; hdrs := [] |} [] 0 []) sas_ops [] with Some (x, _) => x | None => ([], (ex_data, ex_start)) end.
Example sas_headers_example : reached 9 (str "host.net") (fst sas_run) (fst (snd sas_run)) (snd (snd sas_run)) /\
  hrepresents (w_headers (snd (snd sas_run))) [Some [(authorization, str "old"); (str "X", str "y")]] /\
  usable [Some [(authorization, str "old"); (str "X", str "y")]] [] (Some 0%nat) None None None /\
  with_header authorization (str "new") [(authorization, str "old"); (str "X", str "y")] = [(authorization, str "new"); (str "X", str "y")].
Proof.
  split; [|split; [|split]].
  - exists ex_data, {| hmaps := []; hdrs := [] |}, [], 0, [], sas_ops, [], [], []. split; [reflexivity|]. vm_compute. reflexivity.
  - exists [Some {| a_pairs := [(authorization, str "old"); (str "X", str "y")]; a_filter := None |}]. split; [|split].
    + set (m := hmaps (w_headers (snd (snd sas_run)))). vm_compute in m. subst m. constructor; [|constructor]. apply ex_maps_represented. split; [reflexivity|]. split; [reflexivity|].
      split; [exists []; reflexivity|]. split; [exists []; reflexivity|]. split; [|reflexivity]. repeat constructor; cbn; intuition discriminate.
    + set (m := hdrs (w_headers (snd (snd sas_run)))). vm_compute in m. subst m. repeat constructor.
    + intros i j m. unfold gethdr. set (l := hdrs (w_headers (snd (snd sas_run)))). vm_compute in l. subst l.
      assert (Hn : forall n, nth_error (@nil (option nat)) n = None) by (intros []; reflexivity).
      destruct i as [|i]; destruct j as [|j]; cbn; rewrite ?Hn; congruence.
  - constructor; intros; try congruence. 1: destruct H as [H|H]; [injection H as <-; discriminate|discriminate]. destruct H as [H|H]; discriminate.
  - reflexivity.
Qed.
