(* C48 and C49: SAS tokens. *)
From Verif Require Import Base Refine Base64_Spec Base64_Model Base64_Props UrlEncode_Spec Crt_Model Crt_Spec Crt_Props.
From Verif Require Import Sha_Spec Hmac_Model Hmac_Props.
From Verif Require Import Buffer_Model Buffer_Spec Strings_Model Strings_Spec Strings_Proofs Sas_Model Sas_Spec Sas_Proofs.
Open Scope N_scope.

Lemma digits_cstr ds : Forall Crt_Spec.is_digit ds -> cstr_ok ds.
Proof. intros H. eapply Forall_impl; [|exact H]. intros x Hx. unfold Crt_Spec.is_digit in Hx. cbn in Hx. unfold char_ok. lia. Qed.

(* What the call gives: a new string with the token, the only thing left of what was made; or NULL,
   and nothing is left. *)
Definition token_made (st : slots) (sp : texts) (kb scope ds name : list N) (r : sas_result) : Prop :=
  exists sig h, signs kb scope ds sig /\ fst (fst r) = Some h /\ (length sp <= h)%nat /\
    exists sp', represents (snd (fst r)) sp' /\ live sp' h = Some (sas_token scope sig ds name) /\
      firstn (length sp) sp' = sp /\ (forall j, (length sp <= j)%nat -> j <> h -> live sp' j = None) /\ freed (snd r).
Definition nothing_made (sp : texts) (r : sas_result) : Prop :=
  fst (fst r) = None /\ freed (snd r) /\ exists sp', represents (snd (fst r)) sp' /\ firstn (length sp) sp' = sp /\ forall j, (length sp <= j)%nat -> live sp' j = None.

Lemma firstn_exact {A} (l k : list A) : firstn (length l) (l ++ k) = l.
Proof. rewrite firstn_app, firstn_all, Nat.sub_diag, app_nil_r. reflexivity. Qed.

Lemma good_made st sp kb scope ds name x : sas_good sp kb scope ds name x -> token_made st sp kb scope ds name x.
Proof.
  intros (sig & Hs & H1 & H2 & H3). exists sig, (length sp + 1)%nat. split; [exact Hs|]. split; [exact H1|]. split; [lia|].
  eexists. split; [exact H3|]. split; [rewrite live_new; reflexivity|]. split; [apply firstn_exact|]. split; [|exact H2].
  intros j Hj Hne. replace j with (length sp + (j - length sp))%nat by lia. rewrite live_new.
  destruct (j - length sp)%nat as [|[|[|[|k]]]] eqn:E; try reflexivity; [lia|]. unfold live. cbn. destruct k; reflexivity.
Qed.
Lemma live_nones n k : live (repeat None n) k = None.
Proof. revert k. induction n as [|n IH]; intros [|k]; cbn; try reflexivity. apply IH. Qed.
Lemma bad_nothing sp x : sas_bad sp x -> nothing_made sp x.
Proof.
  intros (n & H1 & H2 & H3). split; [exact H1|]. split; [exact H2|]. eexists. split; [exact H3|]. split; [apply firstn_exact|].
  intros j Hj. replace j with (length sp + (j - length sp))%nat by lia. rewrite live_new. apply live_nones.
Qed.

Lemma sas_gives st sp hk hs hn k kb scope name expiry ds o o1 :
  represents st sp -> live sp hk = Some k -> live sp hs = Some scope -> live sp hn = Some name ->
  expiry < 2 ^ 64 -> decimal expiry ds ->
  Base64_Decoder (Some k) o = Some (Some (filled kb), o1) -> bytes_ok kb -> kb <> [] ->
  lenN kb < 2 ^ 31 -> lenN scope + 21 < 2 ^ 31 ->
  gives (SASToken_Create st (Some hk) (Some hs) (Some hn) expiry) o (sas_good sp kb scope ds name) (sas_bad sp).
Proof.
  intros R Lk Ls Ln He Hd Ed Hk Nk Lkb Lsc. pose proof (decimal_64bit_length _ _ He Hd) as Hlen.
  assert (Cds : cstr_ok ds) by (apply digits_cstr; apply Hd).
  unfold SASToken_Create. destruct (rep_get _ _ _ _ R Lk) as (bk & Ebk & Wk).
  eapply gives_step; [unfold STRING_c_str, bind, lift; rewrite Ebk, (wf_ctext _ _ Wk); reflexivity|]. cbn [fst].
  eapply gives_lift; [reflexivity|].
  eapply (gives_bind _ _ o (fun x => x = Some (filled kb)) (fun _ => False)); [|intros a o2 ->|intros a o2 []].
  { exists (Some (filled kb)), o1. split; [exact Ed|]. left. split; [reflexivity|]. eapply decoder_consumes. exact Ed. }
  destruct (size_tToString_correct (filled (repeat 0 32)) 32 expiry ds) as (r & b' & Es & _ & H); [cbn; lia|exact He|exact Hd|].
  replace (length ds <? 32)%nat with true in H by (symmetry; apply Nat.ltb_lt; lia). destruct H as [-> Hc].
  cbv zeta. eapply gives_lift; [exact Es|]. eapply gives_lift; [exact Hc|].
  destruct (rep_get _ _ _ _ R Ls) as (bsc & _ & Wsc).
  eapply prepare_ok; eauto.
  - constructor; [|constructor]. destruct kb as [|x kb]; [congruence|]. cbn [filled map buffer size]. split; [reflexivity|].
    unfold lenN in *. cbn [length] in *. rewrite map_length. split; [reflexivity|]. unfold two64. lia.
  - apply Forall_app. split; [apply Wsc|]. apply Forall_app. split; [repeat constructor|exact Cds].
  - unfold lenN in *. rewrite !app_length. cbn [length]. lia.
Qed.

(* C48 in general: whatever the key text, if it decodes to the bytes kb *)
Theorem sas_token_general st sp hk hs hn k kb scope name expiry ds o o1 :
  represents st sp -> live sp hk = Some k -> live sp hs = Some scope -> live sp hn = Some name ->
  expiry < 2 ^ 64 -> decimal expiry ds ->
  Base64_Decoder (Some k) o = Some (Some (filled kb), o1) -> bytes_ok kb -> kb <> [] ->
  lenN kb < 2 ^ 31 -> lenN scope + 21 < 2 ^ 31 ->
  exists r o', SASToken_Create st (Some hk) (Some hs) (Some hn) expiry o = Some (r, o') /\
    (token_made st sp kb scope ds name r \/ nothing_made sp r /\ In false o).
Proof.
  intros R Lk Ls Ln He Hd Ed Hk Nk Lkb Lsc.
  destruct (sas_gives st sp hk hs hn k kb scope name expiry ds o o1 R Lk Ls Ln He Hd Ed Hk Nk Lkb Lsc) as (r & o' & E & [[H _]|[H Hi]]);
    exists r, o'; (split; [exact E|]); [left; apply good_made, H|right; split; [apply bad_nothing, H|exact Hi]].
Qed.

(* C48 for a key that is the base64 text of some bytes *)
Theorem sas_token_partial st sp hk hs hn kb scope name expiry ds o :
  represents st sp -> live sp hk = Some (rfc4648 kb) -> live sp hs = Some scope -> live sp hn = Some name ->
  expiry < 2 ^ 64 -> decimal expiry ds -> bytes_ok kb -> kb <> [] ->
  lenN kb < 2 ^ 31 -> lenN scope + 21 < 2 ^ 31 ->
  exists r o', SASToken_Create st (Some hk) (Some hs) (Some hn) expiry o = Some (r, o') /\
    (token_made st sp kb scope ds name r \/ nothing_made sp r /\ In false o).
Proof.
  intros R Lk Ls Ln He Hd Hk Nk Lkb Lsc.
  destruct (base64_decode_canonical (rfc4648 kb) o (base64_text_is_canonical kb Hk)) as [(o' & E & Hi)|(o' & bs & E & Hb & Heq)].
  - destruct (rep_get _ _ _ _ R Lk) as (bk & Ebk & Wk). exists (None, st, []), o'. split.
    + unfold SASToken_Create, STRING_c_str, bind, lift. rewrite Ebk, (wf_ctext _ _ Wk). cbn [ret fst]. rewrite E. reflexivity.
    + right. split; [|exact Hi]. split; [reflexivity|]. split; [constructor|]. exists sp. split; [exact R|].
      split; [apply firstn_all|]. intros j Hj. unfold live. rewrite (proj2 (nth_error_None sp j) Hj). reflexivity.
  - apply base64_injective in Heq; [|exact Hb|exact Hk]. subst bs. eapply sas_token_general; eauto.
Qed.

(* C48: NULL arguments, and keys that hold no bytes, give NULL and leave nothing *)
Theorem sas_token_null_arguments st key scope keyName expiry o :
  key = None \/ scope = None \/ keyName = None ->
  SASToken_Create st key scope keyName expiry o = Some ((None, st, []), o).
Proof.
  unfold SASToken_Create. intros [-> | [-> | ->] ]; [reflexivity|destruct key; reflexivity|destruct key, scope; reflexivity].
Qed.

Theorem sas_token_undecodable_key st sp hk hs hn k expiry o o1 :
  represents st sp -> live sp hk = Some k -> Base64_Decoder (Some k) o = Some (None, o1) ->
  SASToken_Create st (Some hk) (Some hs) (Some hn) expiry o = Some ((None, st, []), o1).
Proof.
  intros R L E. destruct (rep_get _ _ _ _ R L) as (bk & Ebk & Wk). unfold SASToken_Create, STRING_c_str, bind, lift.
  rewrite Ebk, (wf_ctext _ _ Wk). cbn [ret fst]. rewrite E. reflexivity.
Qed.

Theorem sas_token_empty_key st sp hk hs hn k scope expiry ds o o1 :
  represents st sp -> live sp hk = Some k -> live sp hs = Some scope -> expiry < 2 ^ 64 -> decimal expiry ds ->
  Base64_Decoder (Some k) o = Some (Some [], o1) ->
  exists r o', SASToken_Create st (Some hk) (Some hs) (Some hn) expiry o = Some (r, o') /\ nothing_made sp r.
Proof.
  intros R Lk Ls He Hd Ed. pose proof (decimal_64bit_length _ _ He Hd) as Hlen.
  destruct (rep_get _ _ _ _ R Lk) as (bk & Ebk & Wk).
  destruct (size_tToString_correct (filled (repeat 0 32)) 32 expiry ds) as (r & b' & Es & _ & H); [cbn; lia|exact He|exact Hd|].
  replace (length ds <? 32)%nat with true in H by (symmetry; apply Nat.ltb_lt; lia). destruct H as [-> Hc].
  destruct (prepare_empty st [Some {| buffer := PNull; size := 0 |}] sp scope ds hs hn o1 R) as (x & o' & E & H); [repeat constructor|exact Ls|apply digits_cstr, Hd|].
  exists x, o'. split; [|apply bad_nothing, H].
  unfold SASToken_Create, STRING_c_str, bind, lift. rewrite Ebk, (wf_ctext _ _ Wk). cbn [ret fst]. rewrite Ed.
  cbn [length N.of_nat]. rewrite Es, Hc. exact E.
Qed.

(* C48 is false for malformed keys: the decoder writes past its buffer *)
Theorem sas_token_bad_key_refuted : exists st sp,
  represents st sp /\ live sp 0 = Some (str "AAAAAB") /\ live sp 1 = Some (str "s") /\
  SASToken_Create st (Some 0%nat) (Some 1%nat) (Some 1%nat) 1 [] = None.
Proof.
  exists [Some (filled (str "AAAAAB" ++ [0])); Some (filled (str "s" ++ [0]))], [Some (str "AAAAAB"); Some (str "s")].
  split; [|split; [reflexivity|split; [reflexivity|reflexivity]]].
  constructor; [|constructor; [|constructor]]; (split; [repeat constructor|exists []; reflexivity]).
Qed.

(** * C49: the fields can be read back *)

Definition no_amp (l : list N) : Prop := ~ In 38 l.

Lemma strip_ok p l : strip p (p ++ l) = Some l.
Proof. induction p as [|x p IH]; [reflexivity|]. cbn. rewrite N.eqb_refl. exact IH. Qed.
Lemma until_amp_ok l r : no_amp l -> until_amp (l ++ 38 :: r) = (l, 38 :: r).
Proof.
  induction l as [|x l IH]; intros H; [reflexivity|]. cbn. destruct (N.eqb_spec x 38) as [->|Hx]; [exfalso; apply H; left; reflexivity|].
  rewrite IH; [reflexivity|]. intros K. apply H. right. exact K.
Qed.
Lemma until_amp_end l : no_amp l -> until_amp l = (l, []).
Proof.
  induction l as [|x l IH]; intros H; [reflexivity|]. cbn. destruct (N.eqb_spec x 38) as [->|Hx]; [exfalso; apply H; left; reflexivity|].
  rewrite IH; [reflexivity|]. intros K. apply H. right. exact K.
Qed.
Lemma hex_not_amp c : hexval c <> None -> c <> 38.
Proof. intros H ->. apply H. reflexivity. Qed.
Lemma safe_no_amp t : url_safe t -> no_amp t.
Proof.
  induction 1 as [|c t Hc _ IH|h l t Hh Hl _ IH]; intros [].
  - subst c. discriminate Hc.
  - apply IH. assumption.
  - discriminate.
  - destruct H as [H|[H|H]]; [exact (hex_not_amp _ Hh H)|exact (hex_not_amp _ Hl H)|exact (IH H)].
Qed.

Theorem sas_fields_recovered scope sig ds name : no_amp scope -> no_amp name -> url_safe sig -> Forall Crt_Spec.is_digit ds ->
  sas_fields (sas_token scope sig ds name) = Some (scope, sig, ds, name).
Proof.
  intros H1 H2 H3 H4. unfold sas_fields, sas_token. rewrite strip_ok.
  change (str "&sig=" ++ sig ++ str "&se=" ++ ds ++ str "&skn=" ++ name) with (38 :: str "sig=" ++ sig ++ str "&se=" ++ ds ++ str "&skn=" ++ name).
  rewrite until_amp_ok by exact H1.
  change (38 :: str "sig=" ++ sig ++ str "&se=" ++ ds ++ str "&skn=" ++ name) with (str "&sig=" ++ sig ++ str "&se=" ++ ds ++ str "&skn=" ++ name).
  rewrite strip_ok. change (str "&se=" ++ ds ++ str "&skn=" ++ name) with (38 :: str "se=" ++ ds ++ str "&skn=" ++ name).
  rewrite until_amp_ok by (apply safe_no_amp, H3).
  change (38 :: str "se=" ++ ds ++ str "&skn=" ++ name) with (str "&se=" ++ ds ++ str "&skn=" ++ name).
  rewrite strip_ok. change (str "&skn=" ++ name) with (38 :: str "skn=" ++ name).
  rewrite until_amp_ok.
  2:{ intros K. rewrite Forall_forall in H4. specialize (H4 _ K). unfold Crt_Spec.is_digit in H4. cbn in H4. lia. }
  change (38 :: str "skn=" ++ name) with (str "&skn=" ++ name). rewrite strip_ok, until_amp_end by exact H2. reflexivity.
Qed.

(* two tokens are equal only if scope, key name and expiry are, and both keys give the same code *)
Theorem sas_token_injective kb1 kb2 s1 s2 e1 e2 d1 d2 n1 n2 g1 g2 :
  no_amp s1 -> no_amp s2 -> no_amp n1 -> no_amp n2 -> cstr_ok s1 -> decimal e1 d1 -> decimal e2 d2 -> e1 < 2 ^ 64 ->
  bytes_ok kb1 -> bytes_ok kb2 -> lenN kb1 < 2 ^ 32 -> lenN kb2 < 2 ^ 32 -> lenN s1 + 21 < 2 ^ 32 ->
  signs kb1 s1 d1 g1 -> signs kb2 s2 d2 g2 ->
  sas_token s1 g1 d1 n1 = sas_token s2 g2 d2 n2 ->
  s1 = s2 /\ n1 = n2 /\ e1 = e2 /\ sas_mac kb1 s1 d1 = sas_mac kb2 s2 d2.
Proof.
  intros A1 A2 A3 A4 Cs D1 D2 He B1 B2 L1 L2 Ls [G1 G1'] [G2 G2'] E. apply (f_equal sas_fields) in E.
  rewrite !sas_fields_recovered in E; auto; try apply D1; try apply D2. injection E as -> -> -> ->.
  split; [reflexivity|]. split; [reflexivity|]. split; [destruct D1 as (_ & <- & _), D2 as (_ & <- & _); reflexivity|].
  rewrite G1' in G2'. injection G2' as E.
  assert (Hb : bytes_ok (s2 ++ [10] ++ d2)).
  { apply Forall_app. split; [apply cstr_bytes, Cs|]. apply Forall_app. split; [repeat constructor|]. apply cstr_bytes, digits_cstr, D2. }
  assert (Hl : lenN (s2 ++ [10] ++ d2) < 2 ^ 32).
  { pose proof (decimal_64bit_length _ _ He D1). unfold lenN in *. rewrite !app_length. cbn [length]. lia. }
  apply base64_injective in E; [exact E|apply hmac_spec_ok; auto|apply hmac_spec_ok; auto].
Qed.

(** * The hypotheses are met *)
Example sas_example : exists st sp, represents st sp /\ live sp 0 = Some (rfc4648 (str "secret key")) /\ live sp 1 = Some (str "myhub.net/devices/d1") /\
  live sp 2 = Some (str "device") /\ decimal 1447800000 (str "1447800000") /\ bytes_ok (str "secret key") /\ no_amp (str "myhub.net/devices/d1").
Proof.
  exists (map (fun t => Some (filled (t ++ [0]))) [rfc4648 (str "secret key"); str "myhub.net/devices/d1"; str "device"]),
    [Some (rfc4648 (str "secret key")); Some (str "myhub.net/devices/d1"); Some (str "device")].
  assert (B : bytes_ok (str "secret key")) by repeat constructor.
  split; [repeat (constructor; [split; [|exists []; rewrite app_nil_r; reflexivity]|]); [apply Base64_Proofs.rfc4648_cstr, B|repeat constructor..]|].
  split; [reflexivity|]. split; [reflexivity|]. split; [reflexivity|]. split; [|split; [exact B|]].
  - repeat split; try (vm_compute; congruence); repeat constructor; vm_compute; congruence.
  - intros H. cbn in H. repeat (destruct H as [H|H]; [discriminate|]). exact H.
Qed.
