(* HTTPAPIEX_ExecuteRequest on valid objects: it is defined, sends the right headers and
   content, and gives back exactly the response; no object is leaked or touched otherwise. *)
From Verif Require Import Base Mem Refine Map_Model Map_Spec Map_Proofs Map_Props HttpHeaders_Model HttpHeaders_Spec HttpHeaders_Proofs
  Buffer_Model Buffer_Spec Buffer_Proofs Strings_Model Crt_Model Crt_Spec HttpApiEx_Model HttpApiEx_Spec HttpApiEx_Proofs HttpApiEx_Calls HttpApiEx_Objects.
Open Scope N_scope.

(* slot h is the caller's (orig) or a temporary beyond the caller's *)
Definition slot (n : nat) (given : option nat) (orig : bool) (h : nat) : Prop :=
  if orig then given = Some h else given = None /\ (n <= h)%nat.

Record built (d : exdata) (hsp : header_lists) (bsp : contents) (reqh reqc resh resc : option nat)
    (u : used) (h c rh rc : nat) (ds : text) (hsp' : header_lists) (bsp' : contents) : Prop := {
  bu_h : u_reqh u = Some h; bu_c : u_reqc u = Some c; bu_rh : u_resh u = Some rh; bu_rc : u_resc u = Some rc;
  bu_sh : slot (length hsp) reqh (o_reqh u) h; bu_sc : slot (length bsp) reqc (o_reqc u) c;
  bu_srh : slot (length hsp) resh (o_resh u) rh; bu_src : slot (length bsp) resc (o_resc u) rc;
  bu_hh : h <> rh; bu_bb : c <> rc;
  bu_ds : decimal (lenN (bytes_of (content_at bsp reqc))) ds;
  bu_hsp : forall j, hlive hsp' j = if (j =? h)%nat then Some (full_headers (hostName d) ds (headers_at hsp reqh))
                                    else if (j =? rh)%nat then Some (headers_at hsp resh) else hlive hsp j;
  bu_bsp : forall j, blive bsp' j = if (j =? c)%nat then Some (content_at bsp reqc)
                                    else if (j =? rc)%nat then Some (content_at bsp resc) else blive bsp j
}.

Lemma headers_at_live hsp i : hlive hsp i <> None -> hlive hsp i = Some (headers_at hsp (Some i)).
Proof. unfold headers_at. destruct (hlive hsp i); congruence. Qed.
Lemma content_at_live bsp i : blive bsp i <> None -> blive bsp i = Some (content_at bsp (Some i)).
Proof. unfold content_at. destruct (blive bsp i); congruence. Qed.

Lemma gotb_live bsp orig i oc bsp' : gotb bsp orig (Some i) oc bsp' -> (forall j, orig = Some j -> blive bsp j <> None) ->
  slot (length bsp) orig oc i /\ (length bsp <= length bsp')%nat /\ (i < length bsp')%nat /\
  forall j, blive bsp' j = if (j =? i)%nat then Some (content_at bsp orig) else blive bsp j.
Proof.
  intros G Hv. cbn in G. unfold slot. destruct oc.
  - destruct G as (-> & ->). split; [reflexivity|]. split; [lia|]. pose proof (content_at_live _ _ (Hv i eq_refl)) as E.
    split; [eapply blive_lt; exact E|]. intros j. destruct (Nat.eqb_spec j i) as [->|]; [exact E|reflexivity].
  - destruct G as (-> & -> & ->). split; [auto|]. rewrite app_length. cbn. split; [lia|]. split; [lia|]. intros j. rewrite blive_snoc. reflexivity.
Qed.
Lemma goth_live hsp orig i oc hsp' : goth hsp orig (Some i) oc hsp' -> (forall j, orig = Some j -> hlive hsp j <> None) ->
  slot (length hsp) orig oc i /\ (length hsp <= length hsp')%nat /\ (i < length hsp')%nat /\
  forall j, hlive hsp' j = if (j =? i)%nat then Some (headers_at hsp orig) else hlive hsp j.
Proof.
  intros G Hv. cbn in G. unfold slot. destruct oc.
  - destruct G as (-> & ->). split; [reflexivity|]. split; [lia|]. pose proof (headers_at_live _ _ (Hv i eq_refl)) as E.
    split; [eapply hlive_lt; exact E|]. intros j. destruct (Nat.eqb_spec j i) as [->|]; [exact E|reflexivity].
  - destruct G as (-> & -> & ->). split; [auto|]. rewrite app_length. cbn. split; [lia|]. split; [lia|]. intros j. rewrite hlive_snoc. reflexivity.
Qed.

Lemma resp_headers_ensures hs hsp resh : hrepresents hs hsp -> (forall j, resh = Some j -> hlive hsp j <> None) ->
  defined (buildResponseHttpHeadersHandle hs resh) /\
  ensures (buildResponseHttpHeadersHandle hs resh) (fun '(h, oh, hs') => exists hsp', hrepresents hs' hsp' /\ goth hsp resh h oh hsp').
Proof.
  intros HR Hv. unfold buildResponseHttpHeadersHandle. destruct resh as [i|]; [|apply (got_headers hs hsp HR)].
  split; [apply defined_ret|]. apply ensures_ret. exists hsp. split; [exact HR|]. split; reflexivity.
Qed.

(* after freeing the temporary in slot i *)
Lemma drop_h hsp hsp1 orig given i : (forall j, j <> i -> hlive hsp1 j = hlive hsp j) -> hlive hsp1 i <> None -> slot (length hsp) given orig i ->
  forall j, hlive (if orig then hsp1 else upd hsp1 i None) j = hlive hsp j \/ (given = Some j /\ hlive (if orig then hsp1 else upd hsp1 i None) j <> None).
Proof.
  intros H1 H2 Hs j. unfold slot in Hs. destruct orig.
  - destruct (Nat.eq_dec j i) as [->|K]; [right; auto|left; auto].
  - left. destruct Hs as [_ Hs]. rewrite hlive_upd' by exact H2. destruct (Nat.eqb_spec j i) as [->|K]; [symmetry; apply hlive_out; exact Hs|auto].
Qed.

Lemma build_total d hs bs hsp bsp type path reqh reqc status resh resc : host_ok d -> hrepresents hs hsp -> brepresents bs bsp -> usable hsp bsp reqh reqc resh resc ->
  defined (buildAllRequests d hs bs type path reqh reqc status resh resc) /\
  ensures (buildAllRequests d hs bs type path reqh reqc status resh resc) (fun '(b, hs', bs') =>
    exists hsp' bsp', hrepresents hs' hsp' /\ brepresents bs' bsp' /\
    match b with
    | None => only (fun x => x = reqh) hsp hsp' /\ onlyb (fun _ => False) bsp bsp'
    | Some u => exists h c rh rc ds, built d hsp bsp reqh reqc resh resc u h c rh rc ds hsp' bsp'
    end).
Proof.
  intros Hho HR HB [Uh Ub Uhh Ubb]. unfold buildAllRequests.
  assert (Vreqc : forall j, reqc = Some j -> blive bsp j <> None) by auto.
  assert (Vresc : forall j, resc = Some j -> blive bsp j <> None) by auto.
  assert (Vreqh : forall j, reqh = Some j -> hlive hsp j <> None) by auto.
  assert (Vresh : forall j, resh = Some j -> hlive hsp j <> None) by auto.
  destruct (got_buffer bs bsp reqc HB) as [D1 E1].
  match goal with |- defined (bind _ ?F) /\ ensures _ ?Q => set (f := F); set (post := Q) end.
  assert (Hf : forall x : option nat * bool * buffers, (let '(c, oc, bs') := x in exists bsp', brepresents bs' bsp' /\ gotb bsp reqc c oc bsp') -> defined (f x) /\ ensures (f x) post).
  2:{ split; [eapply defined_bind; [exact D1|exact E1|]|eapply ensures_bind; [exact E1|]]; intros x Hx; apply (Hf x Hx). }
  intros [[[c|] oc] bs1] (bsp1 & R1 & G1); unfold f.
  2:{ split; [apply defined_ret|]. apply ensures_ret. exists hsp, bsp1. split; [exact HR|]. split; [exact R1|]. cbn in G1. destruct G1 as (_ & _ & ->).
      split; intros j; left; reflexivity. }
  destruct (gotb_live _ _ _ _ _ G1 Vreqc) as (S1 & Le1 & Lt1 & Bl1). clear G1 f D1 E1.
  assert (Lc : blive bsp1 c = Some (content_at bsp reqc)) by (rewrite Bl1, Nat.eqb_refl; reflexivity).
  (* freeing the content leaves the caller's buffers *)
  assert (Hfree : defined (free_buffer bs1 oc (Some c)) /\ ensures (free_buffer bs1 oc (Some c)) (fun bs' => exists bsp', brepresents bs' bsp' /\ onlyb (fun _ => False) bsp bsp')).
  { destruct (free_buffer_ensures bs1 bsp1 oc c R1) as [D E]; [congruence|]. split; [exact D|]. eapply ensures_weaken; [exact E|].
    intros bs' R'. eexists. split; [exact R'|]. intros j. left. unfold slot in S1. destruct oc.
    - rewrite Bl1. destruct (Nat.eqb_spec j c) as [->|]; [|reflexivity]. subst reqc. rewrite content_at_live by auto. reflexivity.
    - rewrite blive_upd' by congruence. rewrite Bl1. destruct (Nat.eqb_spec j c) as [->|]; [|reflexivity]. symmetry. apply blive_out. apply S1. }
  destruct (request_headers_ensures d hs bs1 hsp bsp1 c _ reqh Hho HR R1 Lc Vreqh) as [D2 E2].
  match goal with |- defined (bind _ ?F) /\ _ => set (f := F) end.
  assert (Hf : forall x : option nat * bool * hstate, (let '(h, oh, hs') := x in exists hsp', hrepresents hs' hsp' /\
    match h with
    | None => only (fun x => x = reqh) hsp hsp'
    | Some i => exists l ds, decimal (lenN (bytes_of (content_at bsp reqc))) ds /\ (length hsp <= length hsp')%nat /\
        (if oh then reqh = Some i /\ hlive hsp i = Some l else reqh = None /\ i = length hsp /\ l = []) /\
        (forall j, hlive hsp' j = if (j =? i)%nat then Some (full_headers (hostName d) ds l) else hlive hsp j)
    end) -> defined (f x) /\ ensures (f x) post).
  2:{ split; [eapply defined_bind; [exact D2|exact E2|]|eapply ensures_bind; [exact E2|]]; intros x Hx; apply (Hf x Hx). }
  intros [[[h|] oh] hs1] (hsp1 & R2 & G2); unfold f.
  2:{ destruct Hfree as [Df Ef]. split; [eapply defined_bind; [exact Df|exact Ef|]; intros; apply defined_ret|].
      eapply ensures_bind; [exact Ef|]. intros bs' (bsp' & R' & O'). apply ensures_ret. exists hsp1, bsp'. auto. }
  destruct G2 as (l & ds & Hds & Le2 & S2 & Hl2). clear f D2 E2.
  assert (El : l = headers_at hsp reqh).
  { destruct oh; [destruct S2 as (-> & S2); unfold headers_at; rewrite S2; reflexivity|destruct S2 as (-> & _ & ->); reflexivity]. }
  assert (Sl2 : slot (length hsp) reqh oh h) by (unfold slot; destruct oh; [apply S2|split; [apply S2|destruct S2 as (_ & -> & _); lia]]).
  subst l. clear S2. set (full := full_headers (hostName d) ds (headers_at hsp reqh)) in *.
  assert (Lh : hlive hsp1 h = Some full) by (rewrite Hl2, Nat.eqb_refl; reflexivity).
  assert (Vresh1 : forall j, resh = Some j -> hlive hsp1 j <> None).
  { intros j Hj. rewrite Hl2. destruct (j =? h)%nat; [discriminate|auto]. }
  (* freeing both *)
  assert (Hfree2 : forall hs' hsp', hrepresents hs' hsp' -> (forall j, hlive hsp' j = hlive hsp1 j) ->
     defined (free_headers hs' oh (Some h)) /\ ensures (free_headers hs' oh (Some h)) (fun hs'' => exists hsp'', hrepresents hs'' hsp'' /\ only (fun x => x = reqh) hsp hsp'')).
  { intros hs' hsp' R' Hsame. destruct (free_headers_ensures hs' hsp' oh h R') as [D E]; [rewrite Hsame; congruence|]. split; [exact D|]. eapply ensures_weaken; [exact E|].
    intros hs'' R''. eexists. split; [exact R''|]. intros j. destruct (drop_h hsp hsp' oh reqh h) with (j := j) as [H|[H1 H2]]; auto.
    - intros i Hi. rewrite Hsame, Hl2. apply Nat.eqb_neq in Hi. rewrite Hi. reflexivity.
    - rewrite Hsame. congruence. }
  destruct (resp_headers_ensures hs1 hsp1 resh R2 Vresh1) as [D3 E3].
  match goal with |- defined (bind _ ?F) /\ _ => set (f := F) end.
  assert (Hf : forall x : option nat * bool * hstate, (let '(rh, orh, hs') := x in exists hsp', hrepresents hs' hsp' /\ goth hsp1 resh rh orh hsp') -> defined (f x) /\ ensures (f x) post).
  2:{ split; [eapply defined_bind; [exact D3|exact E3|]|eapply ensures_bind; [exact E3|]]; intros x Hx; apply (Hf x Hx). }
  intros [[[rh|] orh] hs2] (hsp2 & R3 & G3); unfold f.
  2:{ destruct Hfree as [Df Ef]. cbn in G3. destruct G3 as (_ & _ & ->). destruct (Hfree2 hs2 hsp1 R3 (fun j => eq_refl)) as [Dh Eh]. split.
      - eapply defined_bind; [exact Df|exact Ef|]. intros bs' _. eapply defined_bind; [exact Dh|exact Eh|]. intros. apply defined_ret.
      - eapply ensures_bind; [exact Ef|]. intros bs' (bsp' & R' & O'). eapply ensures_bind; [exact Eh|]. intros hs' (hsp' & Rh' & Oh').
        apply ensures_ret. exists hsp', bsp'. auto. }
  destruct (goth_live _ _ _ _ _ G3 Vresh1) as (S3 & Le3 & Lt3 & Hl3). clear G3 f D3 E3.
  assert (Hne : h <> rh).
  { intros ->. unfold slot in *. destruct oh, orh.
    - subst reqh resh. apply Uhh; congruence.
    - destruct S3 as [_ S3]. pose proof (hlive_lt _ _ _ Lh). lia.
    - destruct Sl2 as [_ Sl2]. subst resh. apply (Vresh rh eq_refl). apply hlive_out. exact Sl2.
    - destruct S3 as [_ S3]. pose proof (hlive_lt _ _ _ Lh). lia. }
  assert (Sl3 : slot (length hsp) resh orh rh) by (unfold slot in *; destruct orh; [exact S3|split; [apply S3|lia]]).
  assert (Eresp : headers_at hsp1 resh = headers_at hsp resh).
  { unfold headers_at. destruct resh as [i|]; [|reflexivity]. rewrite Hl2. destruct (Nat.eqb_spec i h) as [->|]; [|reflexivity].
    exfalso. unfold slot in Sl2. destruct oh; [apply Uhh; congruence|]. apply (Vresh h eq_refl). apply hlive_out. apply Sl2. }
  rewrite Eresp in Hl3.
  assert (Hall : forall j, hlive hsp2 j = if (j =? h)%nat then Some full else if (j =? rh)%nat then Some (headers_at hsp resh) else hlive hsp j).
  { intros j. rewrite Hl3, Hl2. destruct (Nat.eqb_spec j rh) as [->|]; [|reflexivity]. replace (rh =? h)%nat with false by (symmetry; apply Nat.eqb_neq; congruence). reflexivity. }
  destruct (got_buffer bs1 bsp1 resc R1) as [D4 E4].
  match goal with |- defined (bind _ ?F) /\ _ => set (f := F) end.
  assert (Hf : forall x : option nat * bool * buffers, (let '(rc, orc, bs') := x in exists bsp', brepresents bs' bsp' /\ gotb bsp1 resc rc orc bsp') -> defined (f x) /\ ensures (f x) post).
  2:{ split; [eapply defined_bind; [exact D4|exact E4|]|eapply ensures_bind; [exact E4|]]; intros x Hx; apply (Hf x Hx). }
  intros [[[rc|] orc] bs2] (bsp2 & R4 & G4); unfold f.
  2:{ cbn in G4. destruct G4 as (_ & _ & ->).
      (* free everything *)
      assert (Hfb : defined (free_buffer bs2 oc (Some c)) /\ ensures (free_buffer bs2 oc (Some c)) (fun bs' => exists bsp', brepresents bs' bsp' /\ onlyb (fun _ => False) bsp bsp')).
      { destruct (free_buffer_ensures bs2 bsp1 oc c R4) as [D E]; [congruence|]. split; [exact D|]. eapply ensures_weaken; [exact E|].
        intros bs' R'. eexists. split; [exact R'|]. intros j. left. unfold slot in S1. destruct oc.
        - rewrite Bl1. destruct (Nat.eqb_spec j c) as [->|]; [|reflexivity]. subst reqc. rewrite content_at_live by auto. reflexivity.
        - rewrite blive_upd' by congruence. rewrite Bl1. destruct (Nat.eqb_spec j c) as [->|]; [|reflexivity]. symmetry. apply blive_out. apply S1. }
      destruct Hfb as [Df Ef]. destruct (free_headers_ensures hs2 hsp2 oh h R3) as [Dh Eh]; [rewrite Hall, Nat.eqb_refl; discriminate|].
      assert (Hrh : forall b : bool, hlive (if b then hsp2 else upd hsp2 h None) rh <> None).
      { intros []; [|rewrite hlive_upd' by (rewrite Hall, Nat.eqb_refl; discriminate)]; replace (rh =? h)%nat with false by (symmetry; apply Nat.eqb_neq; congruence);
          rewrite Hall, Nat.eqb_refl; replace (rh =? h)%nat with false by (symmetry; apply Nat.eqb_neq; congruence); discriminate. }
      split.
      - eapply defined_bind; [exact Df|exact Ef|]. intros bs' _. eapply defined_bind; [exact Dh|exact Eh|]. intros hs' Rh'.
        destruct (free_headers_ensures hs' _ orh rh Rh' (Hrh oh)) as [Dr Er].
        eapply defined_bind; [exact Dr|exact Er|]. intros. apply defined_ret.
      - eapply ensures_bind; [exact Ef|]. intros bs' (bsp' & R' & O'). eapply ensures_bind; [exact Eh|]. intros hs' Rh'.
        destruct (free_headers_ensures hs' _ orh rh Rh' (Hrh oh)) as [Dr Er]. eapply ensures_bind; [exact Er|]. intros hs'' Rr. apply ensures_ret.
        eexists _, bsp'. split; [exact Rr|]. split; [exact R'|]. split; [|exact O'].
        set (hspA := if oh then hsp2 else upd hsp2 h None) in *.
        assert (HA : forall j, hlive hspA j = if (j =? h)%nat then (if oh then Some full else None) else if (j =? rh)%nat then Some (headers_at hsp resh) else hlive hsp j).
        { intros j. unfold hspA. destruct oh; [apply Hall|]. rewrite hlive_upd' by (rewrite Hall, Nat.eqb_refl; discriminate). rewrite Hall. destruct (j =? h)%nat; reflexivity. }
        assert (HB' : forall j, hlive (if orh then hspA else upd hspA rh None) j = if (j =? h)%nat then (if oh then Some full else None) else if (j =? rh)%nat then (if orh then Some (headers_at hsp resh) else None) else hlive hsp j).
        { intros j. destruct orh; [apply HA|]. rewrite hlive_upd' by apply (Hrh oh). rewrite HA. destruct (Nat.eqb_spec j rh) as [->|]; [|reflexivity].
          replace (rh =? h)%nat with false by (symmetry; apply Nat.eqb_neq; congruence). reflexivity. }
        intros j. rewrite HB'. unfold slot in Sl2, Sl3. destruct (Nat.eqb_spec j h) as [->|].
        + destruct oh; [right; split; [auto|discriminate]|left; symmetry; apply hlive_out; apply Sl2].
        + destruct (Nat.eqb_spec j rh) as [->|]; [|left; reflexivity]. left. destruct orh; [subst resh; rewrite headers_at_live by auto; reflexivity|symmetry; apply hlive_out; apply Sl3]. }
  assert (Vresc1 : forall j, resc = Some j -> blive bsp1 j <> None).
  { intros j Hj. rewrite Bl1. destruct (j =? c)%nat; [discriminate|auto]. }
  destruct (gotb_live _ _ _ _ _ G4 Vresc1) as (S4 & Le4 & Lt4 & Bl4). clear G4 f D4 E4.
  assert (Hnb : c <> rc).
  { intros ->. unfold slot in *. destruct oc, orc.
    - subst reqc resc. apply Ubb; congruence.
    - destruct S4 as [_ S4]. pose proof (blive_lt _ _ _ Lc). lia.
    - destruct S1 as [_ S1]. subst resc. apply (Vresc rc eq_refl). apply blive_out. exact S1.
    - destruct S4 as [_ S4]. pose proof (blive_lt _ _ _ Lc). lia. }
  split; [apply defined_ret|]. apply ensures_ret. exists hsp2, bsp2. split; [exact R3|]. split; [exact R4|]. exists h, c, rh, rc, ds.
  split; cbn; auto.
  - unfold slot in *. destruct orc; [exact S4|split; [apply S4|lia]].
  - intros j. rewrite Bl4, Bl1. destruct (Nat.eqb_spec j rc) as [->|].
    + replace (rc =? c)%nat with false by (symmetry; apply Nat.eqb_neq; congruence). f_equal.
      unfold content_at. destruct resc as [i|]; [|reflexivity]. rewrite Bl1. destruct (Nat.eqb_spec i c) as [->|]; [|reflexivity].
      exfalso. unfold slot in S1. destruct oc; [apply Ubb; congruence|]. apply (Vresc c eq_refl). apply blive_out. apply S1.
    + destruct (j =? c)%nat; reflexivity.
Qed.

Record outcome (d : exdata) (hsp : header_lists) (bsp : contents) (reqh reqc resh resc : option nat) (evs : list event)
    (hsp' : header_lists) (bsp' : contents) : Prop := {
  oc_sent : forall q, In (ERequest q) evs -> carries (hostName d) (headers_at hsp reqh) (content_at bsp reqc) q;
  oc_h : only (fun x => x = reqh \/ x = resh) hsp hsp';
  oc_b : onlyb (fun x => x = resc) bsp bsp';
  oc_reqh : requests evs <> [] -> forall i, reqh = Some i -> exists ds, decimal (lenN (bytes_of (content_at bsp reqc))) ds /\
              hlive hsp' i = Some (full_headers (hostName d) ds (headers_at hsp reqh));
  oc_resh : all_stored (requests evs) -> forall i, resh = Some i -> hlive hsp' i = Some (response_headers (headers_at hsp resh) (requests evs));
  oc_resc : all_stored (requests evs) -> forall i, resc = Some i -> blive bsp' i = Some (response_body (content_at bsp resc) (requests evs))
}.

Lemma requests_in q l : In q (requests l) <-> In (ERequest q) l.
Proof.
  induction l as [|e l IH]; [reflexivity|]. destruct e; cbn; rewrite IH; (split; intros H; [|destruct H as [H|H]; [try discriminate H|]]); auto.
  - destruct H as [->|H]; auto.
  - injection H as ->. auto.
Qed.

Lemma execute_total fuel d w vals latest conn hsp bsp type path reqh reqc status resh resc : host_ok d -> resting d w vals latest conn ->
  hrepresents (w_headers w) hsp -> brepresents (w_buffers w) bsp -> usable hsp bsp reqh reqc resh resc ->
  defined (HTTPAPIEX_ExecuteRequest fuel d w type path reqh reqc status resh resc) /\
  ensures (HTTPAPIEX_ExecuteRequest fuel d w type path reqh reqc status resh resc) (fun '(r, d', w') =>
    exists evs hsp' bsp', w_trace w' = w_trace w ++ evs /\ hrepresents (w_headers w') hsp' /\ brepresents (w_buffers w') bsp' /\
      outcome d hsp bsp reqh reqc resh resc evs hsp' bsp').
Proof.
  intros Hho Q HR HB US. pose proof Q as [Qk Qh Qr Qn Qc Ql Qt Qa]. unfold HTTPAPIEX_ExecuteRequest.
  destruct (N.leb_spec 5 type) as [Hty|Hty].
  { split; [apply defined_ret|]. apply ensures_ret. exists [], hsp, bsp. rewrite app_nil_r. split; [reflexivity|]. split; [exact HR|]. split; [exact HB|].
    destruct US as [U1 U2 U3 U4]. split; cbn; try contradiction; try (intros; contradiction); try (intros j; left; reflexivity).
    - intros _ i ->. unfold response_headers. cbn. apply headers_at_live. apply U1. right. reflexivity.
    - intros _ i ->. unfold response_body. cbn. apply content_at_live. apply U2. right. reflexivity. }
  destruct (build_total d (w_headers w) (w_buffers w) hsp bsp type path reqh reqc status resh resc Hho HR HB US) as [D1 E1].
  match goal with |- defined (bind _ ?F) /\ ensures _ ?Q => set (f := F); set (post := Q) end.
  assert (E1' := ensures_and _ _ _ E1 (build_ensures d (w_headers w) (w_buffers w) type path reqh reqc status resh resc)).
  match type of E1' with ensures _ ?P => assert (Hf : forall x, P x -> defined (f x) /\ ensures (f x) post) end.
  2:{ split; [eapply defined_bind; [exact D1|exact E1'|]|eapply ensures_bind; [exact E1'|]]; intros x Hx; apply (Hf x Hx). }
  clear D1 E1 E1'. intros [[[u|] hs1] bs1] ((hsp1 & bsp1 & R1 & R2 & H1) & Hb); unfold f; clear f; cbn zeta.
  2:{ split; [apply defined_ret|]. apply ensures_ret. exists [], hsp1, bsp1. cbn [w_trace with_objects w_headers w_buffers]. rewrite app_nil_r.
      split; [reflexivity|]. split; [exact R1|]. split; [exact R2|]. destruct H1 as [O1 O2]. destruct US as [U1 U2 U3 U4].
      split; cbn; try contradiction; try (intros; contradiction).
      - intros j. destruct (O1 j) as [H|[H H']]; [left; exact H|right; auto].
      - intros j. destruct (O2 j) as [H|[[] _]]. left. exact H.
      - intros _ i ->. unfold response_headers. cbn. destruct (O1 i) as [H|[H _]].
        + rewrite H. apply headers_at_live. apply U1. right. reflexivity.
        + exfalso. apply U3; congruence.
      - intros _ i ->. unfold response_body. cbn. destruct (O2 i) as [H|[[] _]]. rewrite H. apply content_at_live. apply U2. right. reflexivity. }
  destruct H1 as (h & c & rh & rc & ds & [Bh Bc Brh Brc Sh Sc Srh Src Nh Nb Hds Hh Hbl]). destruct Hb as (Hu & _ & Hst & _).
  set (w1 := with_objects w hs1 bs1). set (d1 := if (k d =? -1)%Z then set_k d 0 else d).
  set (full := full_headers (hostName d) ds (headers_at hsp reqh)) in *. set (cont := content_at bsp reqc) in *.
  assert (Lrh : hlive hsp1 rh = Some (headers_at hsp resh)).
  { rewrite Hh, Nat.eqb_refl. replace (rh =? h)%nat with false by (symmetry; apply Nat.eqb_neq; congruence). reflexivity. }
  assert (Lrc : blive bsp1 rc = Some (content_at bsp resc)).
  { rewrite Hbl, Nat.eqb_refl. replace (rc =? c)%nat with false by (symmetry; apply Nat.eqb_neq; congruence). reflexivity. }
  set (I := around (w_trace w) rh rc (headers_at hsp resh) (content_at bsp resc) hsp1 bsp1).
  pose proof (hlive_lt _ _ _ Lrh) as Lt1. pose proof (blive_lt _ _ _ Lrc) as Lt2.
  (* what the objects are whenever the loop looks at them *)
  assert (HI : forall t hs bs, I t hs bs -> exists evs hspI bspI, t = w_trace w ++ evs /\ hrepresents hs hspI /\ brepresents bs bspI /\
     hlive hspI rh <> None /\ blive bspI rc <> None /\
     (forall j, j <> rh -> hlive hspI j = hlive hsp1 j) /\ (forall j, j <> rc -> blive bspI j = blive bsp1 j) /\
     (all_stored (requests evs) -> hlive hspI rh = Some (response_headers (headers_at hsp resh) (requests evs)) /\ blive bspI rc = Some (response_body (content_at bsp resc) (requests evs)))).
  { intros t hs bs (evs & l & b & -> & H1 & H2 & H3). exists evs, (upd hsp1 rh (Some l)), (upd bsp1 rc (Some b)). split; [reflexivity|]. split; [exact H1|]. split; [exact H2|].
    rewrite hlive_upd, blive_upd, !Nat.eqb_refl by assumption. split; [discriminate|]. split; [discriminate|]. split; [|split].
    - intros j Hj. rewrite hlive_upd by assumption. apply Nat.eqb_neq in Hj. rewrite Hj. reflexivity.
    - intros j Hj. rewrite blive_upd by assumption. apply Nat.eqb_neq in Hj. rewrite Hj. reflexivity.
    - intros Hall. destruct (H3 Hall) as [-> ->]. auto. }
  assert (Hcont : forall t hs bs, I t hs bs -> exists i b c0, u_reqc u = Some i /\ getbuf bs i = Some b /\ content_of b = Some c0).
  { intros t hs bs Hi. destruct (HI _ _ _ Hi) as (evs & hspI & bspI & _ & _ & RB & _ & _ & _ & HbI & _).
    destruct (brep_size bs bspI c cont RB) as (b & Eb & _ & Ec & _); [rewrite HbI, Hbl, Nat.eqb_refl by congruence; reflexivity|]. exists c, b, cont. auto. }
  assert (Hquiet := around_quiet (w_trace w) rh rc (headers_at hsp resh) (content_at bsp resc) hsp1 bsp1).
  assert (Hresp : forall a w, I (w_trace w) (w_headers w) (w_buffers w) ->
    defined (respond a w (u_status u) (u_resh u) (u_resc u)) /\
    ensures (respond a w (u_status u) (u_resh u) (u_resc u)) (fun '(stored, w') =>
      forall q, r_answer q = a -> r_stored q = stored -> I (w_trace w ++ [ERequest q]) (w_headers w') (w_buffers w'))).
  { intros a w0 Hi. rewrite Brh, Brc. apply (around_respond (w_trace w) rh rc _ _ hsp1 bsp1 Lt1 Lt2 a w0 (u_status u) Hi). }
  assert (Hi0 : I (w_trace w1) (w_headers w1) (w_buffers w1)).
  { exists [], (headers_at hsp resh), (content_at bsp resc). rewrite app_nil_r. split; [reflexivity|]. cbn.
    rewrite !upd_id; [|unfold blive in Lrc; destruct (nth_error bsp1 rc) as [[]|]; congruence|unfold hlive in Lrh; destruct (nth_error hsp1 rh) as [[]|]; congruence].
    split; [exact R1|]. split; [exact R2|]. intros _. split; reflexivity. }
  assert (Hk1 : (k d1 = 0 \/ k d1 = 2)%Z).
  { unfold d1. destruct (Z.eqb_spec (k d) (-1)) as [E|E]; cbn; lia. }
  assert (Hs1 : savedOptions d1 = savedOptions d) by (unfold d1; destruct (k d =? -1)%Z; reflexivity).
  assert (Hbud : exists b, budget (k d1) [false; false; false] = Some b) by (destruct Hk1 as [-> | ->]; eexists; reflexivity).
  destruct Hbud as (b & Hbud).
  assert (DS : defined (sequence fuel u [false; false; false] d1 w1)).
  { apply (sequence_defined I u vals Hquiet Hresp Hcont Hu fuel _ d1 w1 b Hbud); [rewrite Hs1; exact Qr|exact Hi0]. }
  assert (Hinv : inv I u latest (low_of d) conn d d1 []).
  { split; cbn.
    - unfold d1. rewrite low_of_start. reflexivity.
    - unfold d1, handle_ok in *. destruct (Z.eqb_spec (k d) (-1)) as [E|E]; [|exact Qh]. cbn. rewrite E in Qh. split; [discriminate|]. intros H. apply Qh in H. discriminate.
    - unfold d1, same_data. destruct (k d =? -1)%Z; auto.
    - exact Logic.I.
    - intros H. apply Qa. unfold d1 in H. destruct (Z.eqb_spec (k d) (-1)); [discriminate H|exact H].
    - intros q []. }
  assert (ES := sequence_ensures I u vals latest Qn Qt (low_of d) conn d Hquiet (fun a w H => proj2 (Hresp a w H)) Hu fuel
    [false; false; false] d1 w1 [] Hinv (fun q H => match H with end) ltac:(lia) Qr Hi0).
  match goal with |- defined (bind _ ?F) /\ _ => set (f := F) end.
  match type of ES with ensures _ ?P => assert (Hf : forall x, P x -> defined (f x) /\ ensures (f x) post) end.
  2:{ split; [eapply defined_bind; [exact DS|exact ES|]|eapply ensures_bind; [exact ES|]]; intros x Hx; apply (Hf x Hx). }
  intros [[r d2] w2] (evs & [Hinv2 _] & Ht2 & _ & _ & Hi2). cbn [app] in Hinv2. unfold f. clear f ES DS.
  destruct (HI _ _ _ Hi2) as (evs' & hspI & bspI & Ht' & RH & RB & Lh' & Lb' & HhI & HbI & Hst').
  assert (evs' = evs) by (rewrite Ht2 in Ht'; cbn in Ht'; apply app_inv_head in Ht'; congruence). subst evs'.
  rewrite Bc, Bh, Brc, Brh.
  assert (Lc2 : blive bspI c = Some cont) by (rewrite HbI, Hbl, Nat.eqb_refl by congruence; reflexivity).
  assert (Lh2 : hlive hspI h = Some full) by (rewrite HhI, Hh, Nat.eqb_refl by congruence; reflexivity).
  destruct (free_buffer_ensures (w_buffers w2) bspI (o_reqc u) c RB) as [F1 G1]; [congruence|].
  destruct (free_headers_ensures (w_headers w2) hspI (o_reqh u) h RH) as [F2 G2]; [congruence|].
  set (bspA := if o_reqc u then bspI else upd bspI c None) in *. set (hspA := if o_reqh u then hspI else upd hspI h None) in *.
  assert (HA : forall j, hlive hspA j = if (j =? h)%nat then (if o_reqh u then Some full else None) else hlive hspI j).
  { intros j. unfold hspA. destruct (o_reqh u); [destruct (Nat.eqb_spec j h) as [->|]; auto|]. rewrite hlive_upd' by congruence. reflexivity. }
  assert (BA : forall j, blive bspA j = if (j =? c)%nat then (if o_reqc u then Some cont else None) else blive bspI j).
  { intros j. unfold bspA. destruct (o_reqc u); [destruct (Nat.eqb_spec j c) as [->|]; auto|]. rewrite blive_upd' by congruence. reflexivity. }
  assert (LAh : hlive hspA rh <> None) by (rewrite HA; replace (rh =? h)%nat with false by (symmetry; apply Nat.eqb_neq; congruence); exact Lh').
  assert (LAb : blive bspA rc <> None) by (rewrite BA; replace (rc =? c)%nat with false by (symmetry; apply Nat.eqb_neq; congruence); exact Lb').
  assert (F3 : forall bs', brepresents bs' bspA -> defined (free_buffer bs' (o_resc u) (Some rc)) /\ ensures (free_buffer bs' (o_resc u) (Some rc)) (fun bs'' => brepresents bs'' (if o_resc u then bspA else upd bspA rc None))).
  { intros bs' R'. apply free_buffer_ensures; assumption. }
  assert (F4 : forall hs', hrepresents hs' hspA -> defined (free_headers hs' (o_resh u) (Some rh)) /\ ensures (free_headers hs' (o_resh u) (Some rh)) (fun hs'' => hrepresents hs'' (if o_resh u then hspA else upd hspA rh None))).
  { intros hs' R'. apply free_headers_ensures; assumption. }
  split.
  - eapply defined_bind; [exact F1|exact G1|]. intros bs' Rb'. eapply defined_bind; [exact F2|exact G2|]. intros hs' Rh'.
    destruct (F3 bs' Rb') as [X1 X2]. eapply defined_bind; [exact X1|exact X2|]. intros bs'' _.
    destruct (F4 hs' Rh') as [Y1 Y2]. eapply defined_bind; [exact Y1|exact Y2|]. intros. apply defined_ret.
  - eapply ensures_bind; [exact G1|]. intros bs' Rb'. eapply ensures_bind; [exact G2|]. intros hs' Rh'.
    destruct (F3 bs' Rb') as [X1 X2]. eapply ensures_bind; [exact X2|]. intros bs'' Rb''.
    destruct (F4 hs' Rh') as [Y1 Y2]. eapply ensures_bind; [exact Y2|]. intros hs'' Rh''. apply ensures_ret.
    exists evs, (if o_resh u then hspA else upd hspA rh None), (if o_resc u then bspA else upd bspA rc None).
    split; [exact Ht2|]. split; [exact Rh''|]. split; [exact Rb''|].
    assert (HF : forall j, hlive (if o_resh u then hspA else upd hspA rh None) j =
       if (j =? h)%nat then (if o_reqh u then Some full else None) else if (j =? rh)%nat then (if o_resh u then hlive hspI rh else None) else hlive hsp j).
    { intros j. destruct (o_resh u).
      - rewrite HA. destruct (Nat.eqb_spec j h) as [->|N1]; [reflexivity|]. destruct (Nat.eqb_spec j rh) as [->|N2]; [reflexivity|].
        rewrite HhI, Hh by exact N2. apply Nat.eqb_neq in N1, N2. rewrite N1, N2. reflexivity.
      - rewrite hlive_upd' by exact LAh. destruct (Nat.eqb_spec j rh) as [->|N2].
        + replace (rh =? h)%nat with false by (symmetry; apply Nat.eqb_neq; congruence). reflexivity.
        + rewrite HA. destruct (Nat.eqb_spec j h) as [->|N1]; [reflexivity|]. rewrite HhI, Hh by exact N2. apply Nat.eqb_neq in N1, N2. rewrite N1, N2. reflexivity. }
    assert (BF : forall j, blive (if o_resc u then bspA else upd bspA rc None) j =
       if (j =? c)%nat then (if o_reqc u then Some cont else None) else if (j =? rc)%nat then (if o_resc u then blive bspI rc else None) else blive bsp j).
    { intros j. destruct (o_resc u).
      - rewrite BA. destruct (Nat.eqb_spec j c) as [->|N1]; [reflexivity|]. destruct (Nat.eqb_spec j rc) as [->|N2]; [reflexivity|].
        rewrite HbI, Hbl by exact N2. apply Nat.eqb_neq in N1, N2. rewrite N1, N2. reflexivity.
      - rewrite blive_upd' by exact LAb. destruct (Nat.eqb_spec j rc) as [->|N2].
        + replace (rc =? c)%nat with false by (symmetry; apply Nat.eqb_neq; congruence). reflexivity.
        + rewrite BA. destruct (Nat.eqb_spec j c) as [->|N1]; [reflexivity|]. rewrite HbI, Hbl by exact N2. apply Nat.eqb_neq in N1, N2. rewrite N1, N2. reflexivity. }
    destruct US as [U1 U2 U3 U4]. unfold slot in Sh, Sc, Srh, Src.
    split.
    + intros q Hq. destruct (i_sent _ _ _ _ _ _ _ _ Hinv2 q Hq) as (_ & _ & E3 & t & bsq & bq & Hiq & (i & E4 & E5) & E6 & E7).
      destruct (HI _ _ _ Hiq) as (evq & hq & bqq & _ & RHq & RBq & _ & _ & HHq & HBq & _).
      rewrite Bc in E4. injection E4 as <-. destruct (brep_size bsq bqq c cont RBq) as (b' & Eb' & Es' & Ec' & _); [rewrite HBq, Hbl, Nat.eqb_refl by congruence; reflexivity|].
      rewrite E5 in Eb'. injection Eb' as <-. rewrite E6 in Ec'. injection Ec' as Ec'.
      exists h, hq, ds. rewrite E7, Es'. split; [congruence|]. split; [exact RHq|]. split; [rewrite HHq, Hh, Nat.eqb_refl by congruence; reflexivity|]. auto.
    + intros j. rewrite HF. destruct (Nat.eqb_spec j h) as [->|].
      * destruct (o_reqh u); [right; split; [auto|discriminate]|left; symmetry; apply hlive_out, Sh].
      * destruct (Nat.eqb_spec j rh) as [->|]; [|left; reflexivity]. destruct (o_resh u); [right; split; [auto|exact Lh']|left; symmetry; apply hlive_out, Srh].
    + intros j. rewrite BF. destruct (Nat.eqb_spec j c) as [->|].
      * left. destruct (o_reqc u); [|symmetry; apply blive_out, Sc]. subst reqc. unfold cont. rewrite content_at_live by auto. reflexivity.
      * destruct (Nat.eqb_spec j rc) as [->|]; [|left; reflexivity]. destruct (o_resc u); [right; split; [auto|exact Lb']|left; symmetry; apply blive_out, Src].
    + intros _ i Hi. exists ds. split; [exact Hds|]. destruct (o_reqh u); [|destruct Sh as [Sh _]; congruence].
      assert (i = h) by congruence. subst i. rewrite HF, Nat.eqb_refl. reflexivity.
    + intros Hall i Hi. destruct (o_resh u); [|destruct Srh as [Srh _]; congruence]. assert (i = rh) by congruence. subst i.
      rewrite HF, Nat.eqb_refl. replace (rh =? h)%nat with false by (symmetry; apply Nat.eqb_neq; congruence). apply (Hst' Hall).
    + intros Hall i Hi. destruct (o_resc u); [|destruct Src as [Src _]; congruence]. assert (i = rc) by congruence. subst i.
      rewrite BF, Nat.eqb_refl. replace (rc =? c)%nat with false by (symmetry; apply Nat.eqb_neq; congruence). apply (Hst' Hall).
Qed.
