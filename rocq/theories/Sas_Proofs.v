(* Proofs about the model of src/sastoken.c. *)
From Verif Require Import Base Refine Base64_Spec Base64_Model Base64_Props UrlEncode_Model UrlEncode_Spec UrlEncode_Props Crt_Model Crt_Spec Crt_Props.
From Verif Require Import Sha_Spec Sha_Model Hmac_Model Hmac_Props HmacSha256_Props.
From Verif Require Import Buffer_Model Buffer_Spec Buffer_Proofs Strings_Model Strings_Spec Strings_Proofs Sas_Model Sas_Spec.
Open Scope N_scope.

(** * Outcomes: P, or F and some allocation failed *)

Definition gives {A} (m : M A) (o : oracle) (P F : A -> Prop) : Prop :=
  exists a o', m o = Some (a, o') /\ ((P a /\ exists used, o = used ++ o') \/ (F a /\ In false o)).
Definition does {A} (m : M A) (o : oracle) (G : A -> Prop) : Prop := exists a o', m o = Some (a, o') /\ G a.

Lemma gives_bind {A B} (m : M A) (f : A -> M B) o P F Q G : gives m o P F ->
  (forall a o', P a -> gives (f a) o' Q G) -> (forall a o', F a -> does (f a) o' G) -> gives (bind m f) o Q G.
Proof.
  intros (a & o1 & E & [[Hp (u & Hu)]|[Hf Hi]]) HP HF.
  - destruct (HP a o1 Hp) as (b & o2 & E2 & H). exists b, o2. unfold bind. rewrite E. split; [exact E2|].
    destruct H as [[Hq (u2 & Hu2)]|[Hg Hi]]; [left|right]; (split; [assumption|]).
    + exists (u ++ u2). rewrite Hu, Hu2. apply app_assoc.
    + rewrite Hu. apply in_or_app. auto.
  - destruct (HF a o1 Hf) as (b & o2 & E2 & Hg). exists b, o2. unfold bind. rewrite E. split; [exact E2|]. right. auto.
Qed.
Lemma gives_ret {A} (a : A) o (P F : A -> Prop) : P a -> gives (ret a) o P F.
Proof. intros H. exists a, o. split; [reflexivity|]. left. split; [exact H|]. exists []. reflexivity. Qed.
Lemma gives_lift {A B} (x : option A) (a : A) (f : A -> M B) o Q G : x = Some a -> gives (f a) o Q G -> gives (bind (lift x) f) o Q G.
Proof. intros -> H. exact H. Qed.
Lemma gives_step {A B} (m : M A) (a : A) (f : A -> M B) o Q G : m o = Some (a, o) -> gives (f a) o Q G -> gives (bind m f) o Q G.
Proof. intros E (b & o' & H). exists b, o'. unfold bind. rewrite E. exact H. Qed.
Lemma gives_does {A} (m : M A) o P F : does m o P -> (forall a o', m o = Some (a, o') -> exists used, o = used ++ o') -> gives m o P F.
Proof. intros (a & o' & E & H) C. exists a, o'. split; [exact E|]. left. split; [exact H|eauto]. Qed.

(** * The oracle is only consumed *)

Definition consumes {A} (m : M A) : Prop := forall o a o', m o = Some (a, o') -> exists used, o = used ++ o'.
Lemma consumes_ret {A} (a : A) : consumes (ret a).
Proof. intros o b o' E. injection E as <- <-. exists []. reflexivity. Qed.
Lemma consumes_lift {A} (x : option A) : consumes (lift x).
Proof. intros o b o' E. unfold lift in E. destruct x; [|discriminate]. injection E as <- <-. exists []. reflexivity. Qed.
Lemma consumes_alloc : consumes alloc.
Proof. intros [|b o] a o' E; injection E as <- <-; [exists []|exists [b]]; reflexivity. Qed.
Lemma consumes_bind {A B} (m : M A) (f : A -> M B) : consumes m -> (forall a, consumes (f a)) -> consumes (bind m f).
Proof.
  intros Hm Hf o b o' E. unfold bind in E. destruct (m o) as [[a o1]|] eqn:Em; [|discriminate].
  destruct (Hm _ _ _ Em) as (u1 & ->). destruct (Hf a _ _ _ E) as (u2 & ->). exists (u1 ++ u2). apply app_assoc.
Qed.
Lemma consumes_undef {A} : consumes (@undef A).
Proof. intros o b o' E. discriminate. Qed.
Ltac consume :=
  repeat match goal with
  | |- forall _, _ => intro
  | |- consumes (ret _) => apply consumes_ret
  | |- consumes (lift _) => apply consumes_lift
  | |- consumes undef => apply consumes_undef
  | |- consumes alloc => apply consumes_alloc
  | |- consumes (bind _ _) => apply consumes_bind
  | |- consumes (let _ := _ in _) => cbv zeta
  | |- consumes (if ?b then _ else _) => destruct b
  | |- consumes (match ?x with _ => _ end) => destruct x
  end.
Lemma decoder_consumes s : consumes (Base64_Decoder s).
Proof. unfold Base64_Decoder, Base64_Decoder_str. consume. Qed.
Lemma encode_consumes s : consumes (Base64_Encode s).
Proof. unfold Base64_Encode, Base64_Encode_Internal. consume. Qed.
Lemma url_consumes s : consumes (URL_Encode s).
Proof. unfold URL_Encode. consume. Qed.
Lemma sdelete_consumes st h : consumes (STRING_delete st h).
Proof. unfold STRING_delete. consume. Qed.
Lemma bdelete_consumes st h : consumes (BUFFER_delete st h).
Proof. unfold BUFFER_delete. consume. Qed.
Lemma built_consumes ok r t a b h bs st : consumes (built ok r t a b h bs st).
Proof.
  unfold built, finish. repeat (first [apply sdelete_consumes|apply bdelete_consumes|apply consumes_ret|apply consumes_bind; [|intro]|destruct ok]).
Qed.
Lemma compute_hash_consumes st k kn p pn h : consumes (HMACSHA256_ComputeHash st k kn p pn h).
Proof. unfold HMACSHA256_ComputeHash, BUFFER_enlarge, realloc_ptr. consume. Qed.

(** * Texts after those of the caller *)

Lemma live_new sp l k : live (sp ++ l) (length sp + k) = live l k.
Proof. unfold live. rewrite nth_error_app2 by lia. replace (length sp + k - length sp)%nat with k by lia. reflexivity. Qed.
Lemma live_old sp l h t : live sp h = Some t -> live (sp ++ l) h = Some t /\ (h < length sp)%nat.
Proof.
  unfold live. intros H. assert (K : (h < length sp)%nat) by (apply nth_error_Some; destruct (nth_error sp h); congruence).
  rewrite nth_error_app1 by exact K. auto.
Qed.
Lemma upd_new {A} (sp l : list A) k v : upd (sp ++ l) (length sp + k) v = sp ++ upd l k v.
Proof. induction sp as [|x sp IH]; [reflexivity|]. cbn. f_equal. exact IH. Qed.

Lemma check_gives {A} st sp op sp1 (bad good : slots -> M A) o Q G : represents st sp ->
  sp_step sp op true = Some (RI true, sp1) -> sp_step sp op false = Some (RI false, sp) ->
  (forall st' o', represents st' sp1 -> gives (good st') o' Q G) -> (forall st' o', represents st' sp -> does (bad st') o' G) ->
  gives (check (sstep st op) bad good) o Q G.
Proof.
  intros R E1 E2 Hg Hb. destruct (strings_simulate st sp op o R) as (m & Hm & Hs). unfold check. destruct m.
  - destruct (Hs _ _ E1) as (st' & o' & used & E & R' & Ho & _). destruct (Hg st' o' R') as (b & o2 & E3 & H).
    exists b, o2. unfold bind. rewrite E. cbn [fst snd]. split; [exact E3|].
    destruct H as [[H (u & ->)]|[H Hi]]; [left|right]; (split; [exact H|]); subst o; [exists (used ++ u); apply app_assoc|apply in_or_app; auto].
  - destruct (Hs _ _ E2) as (st' & o' & used & E & R' & Ho & Hf). destruct (Hb st' o' R') as (b & o2 & E3 & H).
    exists b, o2. unfold bind. rewrite E. cbn [fst snd]. split; [exact E3|]. right. auto.
Qed.

Lemma check_new_gives {A} st sp op t (bad : slots -> M A) good o Q G : represents st sp ->
  (forall m, sp_step sp op m = create sp m t) ->
  (forall st' o', represents st' (sp ++ [Some t]) -> gives (good (length sp) st') o' Q G) -> (forall st' o', represents st' sp -> does (bad st') o' G) ->
  gives (check_new (sstep st op) bad good) o Q G.
Proof.
  intros R E1 Hg Hb. destruct (strings_simulate st sp op o R) as (m & Hm & Hs). unfold check_new. rewrite E1 in Hs. destruct m.
  - destruct (Hs _ _ eq_refl) as (st' & o' & used & E & R' & Ho & _). destruct (Hg st' o' R') as (b & o2 & E3 & H).
    exists b, o2. unfold bind. rewrite E. cbn [fst snd]. split; [exact E3|].
    destruct H as [[H (u & ->)]|[H Hi]]; [left|right]; (split; [exact H|]); subst o; [exists (used ++ u); apply app_assoc|apply in_or_app; auto].
  - destruct (Hs _ _ eq_refl) as (st' & o' & used & E & R' & Ho & Hf). destruct (Hb st' o' R') as (b & o2 & E3 & H).
    exists b, o2. unfold bind. rewrite E. cbn [fst snd]. split; [exact E3|]. right. auto.
Qed.

Lemma check_text_gives {A} st sp m (T : list N -> Prop) (bad : slots -> M A) good o Q G : represents st sp -> consumes m ->
  ((exists o', m o = Some (None, o') /\ In false o) \/ (exists t o', m o = Some (Some (filled (t ++ [0])), o') /\ cstr_ok t /\ T t)) ->
  (forall t st' o', T t -> represents st' (sp ++ [Some t]) -> gives (good (length sp) st') o' Q G) ->
  (forall st' o', represents st' sp -> does (bad st') o' G) ->
  gives (check_new (new_text st m) bad good) o Q G.
Proof.
  intros R C Hm Hg Hb. unfold check_new, new_text. destruct Hm as [(o1 & E & Hi)|(t & o1 & E & Hc & Ht)].
  - destruct (Hb st o1 R) as (b & o2 & E3 & H). exists b, o2. unfold bind. rewrite E. cbn. split; [exact E3|]. right. auto.
  - destruct (C _ _ _ E) as (u & Hu).
    assert (R' : represents (st ++ [Some (filled (t ++ [0]))]) (sp ++ [Some t])).
    { apply rep_push; [exact R|]. split; [exact Hc|]. exists []. rewrite app_nil_r. reflexivity. }
    destruct (Hg t _ o1 Ht R') as (b & o2 & E3 & H).
    exists b, o2. unfold bind. rewrite E. cbn [ret push fst snd]. rewrite (rep_len _ _ R). split; [exact E3|].
    destruct H as [[H (u2 & ->)]|[H Hi]]; [left|right]; (split; [exact H|]); subst o; [exists (u ++ u2); apply app_assoc|apply in_or_app; auto].
Qed.

Lemma delete_does {A} st sp h t (f : sret * slots -> M A) o G : represents st sp -> live sp h = Some t ->
  (forall st', represents st' (upd sp h None) -> does (f (RI true, st')) o G) -> does (bind (STRING_delete st (Some h)) f) o G.
Proof.
  intros R L H. destruct (strings_simulate st sp (SDelete (Some h)) o R) as (m & _ & Hs). cbn [sp_step] in Hs. rewrite L in Hs.
  unfold STRING_delete in *. cbn [sstep] in Hs. unfold STRING_delete in Hs.
  destruct (Hs _ _ eq_refl) as (st' & o' & used & E & R' & Ho & _). destruct (H st' R') as (b & o2 & E2 & Hg).
  destruct (rep_get _ _ _ _ R L) as (blk & Eb & _). unfold bind in *. rewrite Eb in *. cbn in E |- *. injection E as <- <-. exists b, o2. auto.
Qed.

(** * The ends *)

Definition freed (bs : buffers) : Prop := Forall (fun b => b = None) bs.
Definition ends (sp l : texts) (r : option nat) (x : sas_result) : Prop :=
  fst (fst x) = r /\ freed (snd x) /\ represents (snd (fst x)) (sp ++ l).

Lemma does_weaken {A} (m : M A) o (P Q : A -> Prop) : does m o P -> (forall a, P a -> Q a) -> does m o Q.
Proof. intros (a & o' & E & H) W. exists a, o'. auto. Qed.

Lemma buffers_deleted (bs : buffers) c0 c1 (r : option nat) (st : slots) o : brepresents bs [Some c0; Some c1] ->
  does (b1 <- BUFFER_delete bs (Some 1%nat) ;; b2 <- BUFFER_delete (snd b1) (Some 0%nat) ;; ret (r, st, snd b2))%m o
    (fun x => fst x = (r, st) /\ freed (snd x)).
Proof.
  intros R. inversion R as [|ob0 ? bs0 ? H0 R0]; subst. inversion R0 as [|ob1 ? bs1 ? H1 R1]; subst. inversion R1; subst.
  destruct ob0 as [b0|]; [|destruct c0; contradiction]. destruct ob1 as [b1|]; [|destruct c1; contradiction].
  assert (E0 : free_ptr (buffer b0) = Some tt) by (destruct c0; [destruct H0 as (-> & _)|destruct H0 as (-> & _)]; reflexivity).
  assert (E1 : free_ptr (buffer b1) = Some tt) by (destruct c1; [destruct H1 as (-> & _)|destruct H1 as (-> & _)]; reflexivity).
  unfold BUFFER_delete, bind, lift, getbuf. cbn [nth_error]. rewrite E1. cbn [ret snd upd nth_error]. rewrite E0. cbn [ret snd upd].
  eexists _, _. split; [reflexivity|]. cbn. split; [reflexivity|]. repeat constructor.
Qed.

Lemma finish_none sp l r st bs c0 c1 o : represents st (sp ++ l) -> brepresents bs [Some c0; Some c1] ->
  does (finish r None (Some 1%nat) st bs) o (ends sp l r).
Proof.
  intros R B. unfold finish. change (bind (STRING_delete st None) ?f o) with (f (RI true, st) o). unfold does.
  cbn [STRING_delete]. destruct (buffers_deleted bs c0 c1 r st o B) as ([x1 x2] & o' & E & H1 & H2). cbn in H1, H2.
  exists (x1, x2), o'. split; [exact E|]. subst x1. repeat split; assumption.
Qed.
Lemma finish_some sp l r k t st bs c0 c1 o : represents st (sp ++ l) -> live l k = Some t -> brepresents bs [Some c0; Some c1] ->
  does (finish r (Some (length sp + k)%nat) (Some 1%nat) st bs) o (ends sp (upd l k None) r).
Proof.
  intros R L B. unfold finish. eapply delete_does; [exact R|rewrite live_new; exact L|]. intros st' R'. rewrite upd_new in R'. cbn [snd].
  eapply does_weaken; [apply (buffers_deleted bs c0 c1 r st' o B)|]. intros [x1 x2] [H1 H2]. cbn in H1, H2. subst x1. repeat split; assumption.
Qed.

(* the strings made here, in order: toBeHashed, result, base64Signature, urlEncodedSignature *)
Lemma built_fails sp l s64 surl st bs c0 c1 o t0 t1 : represents st (sp ++ [Some t0; Some t1] ++ l) -> brepresents bs [Some c0; Some c1] ->
  (l = [] /\ s64 = None /\ surl = None \/
   (exists a, l = [Some a] /\ s64 = Some (length sp + 2)%nat /\ surl = None) \/
   (exists a b, l = [Some a; Some b] /\ s64 = Some (length sp + 2)%nat /\ surl = Some (length sp + 3)%nat)) ->
  does (built false (length sp + 1) (length sp + 0) s64 surl 1 bs st) o (fun x => exists n, ends sp (repeat None n) None x).
Proof.
  intros R B H. unfold built. eapply delete_does; [exact R|rewrite live_new; reflexivity|]. intros st1 R1. rewrite upd_new in R1. cbn [snd app upd] in *.
  destruct H as [(-> & -> & ->)|[(a & -> & -> & ->)|(a & b & -> & -> & ->)]].
  - change (does (finish None (Some (length sp + 0)%nat) (Some 1%nat) st1 bs) o (fun x => exists n, ends sp (repeat None n) None x)).
    eapply does_weaken; [eapply (finish_some sp _ None 0 t0); eauto|]. intros x Hx. exists 2%nat. exact Hx.
  - eapply delete_does; [exact R1|rewrite live_new; reflexivity|]. intros st2 R2. rewrite upd_new in R2. cbn [snd app upd] in *.
    change (does (finish None (Some (length sp + 0)%nat) (Some 1%nat) st2 bs) o (fun x => exists n, ends sp (repeat None n) None x)).
    eapply does_weaken; [eapply (finish_some sp _ None 0 t0); eauto|]. intros x Hx. exists 3%nat. exact Hx.
  - eapply delete_does; [exact R1|rewrite live_new; reflexivity|]. intros st2 R2. rewrite upd_new in R2. cbn [snd app upd] in *.
    eapply delete_does; [exact R2|rewrite live_new; reflexivity|]. intros st3 R3. rewrite upd_new in R3. cbn [snd app upd] in *.
    eapply does_weaken; [eapply (finish_some sp _ None 0 t0); eauto|]. intros x Hx. exists 4%nat. exact Hx.
Qed.

Lemma built_ok sp t0 t1 a b st bs c0 c1 o : represents st (sp ++ [Some t0; Some t1; Some a; Some b]) -> brepresents bs [Some c0; Some c1] ->
  does (built true (length sp + 1) (length sp + 0) (Some (length sp + 2)%nat) (Some (length sp + 3)%nat) 1 bs st) o
    (ends sp [None; Some t1; None; None] (Some (length sp + 1)%nat)).
Proof.
  intros R B. unfold built. change (bind (ret (RI true, st)) ?f) with (fun o' => f (RI true, st) o'). cbn [snd].
  unfold does. cbn beta. fold (@does sas_result).
  enough (H : does (st2 <- STRING_delete st (Some (length sp + 2)%nat) ;; st3 <- STRING_delete (snd st2) (Some (length sp + 3)%nat) ;;
    finish (Some (length sp + 1)%nat) (Some (length sp + 0)%nat) (Some 1%nat) (snd st3) bs)%m o (ends sp [None; Some t1; None; None] (Some (length sp + 1)%nat))) by exact H.
  eapply delete_does; [exact R|rewrite live_new; reflexivity|]. intros st2 R2. rewrite upd_new in R2. cbn [snd app upd] in *.
  eapply delete_does; [exact R2|rewrite live_new; reflexivity|]. intros st3 R3. rewrite upd_new in R3. cbn [snd app upd] in *.
  eapply does_weaken; [eapply (finish_some sp _ _ 0 t0); eauto|]. intros x Hx. exact Hx.
Qed.

(** * The whole *)

Lemma initialised_filled l : initialised (filled l) = Some l.
Proof. induction l as [|x l IH]; cbn; [reflexivity|]. fold (filled l). rewrite IH. reflexivity. Qed.

Lemma readable_ok bs sp i l : brepresents bs sp -> blive sp i = Some (Some (filled l)) -> readable bs i = Some (Some l, lenN l).
Proof.
  intros R L. destruct (brep_get _ _ _ _ R L) as (b & E & H1 & H2 & _). unfold readable. rewrite E, H1, initialised_filled, H2.
  unfold lenN. rewrite filled_length. reflexivity.
Qed.

Lemma cstr_bytes l : cstr_ok l -> bytes_ok l.
Proof. intros H. eapply Forall_impl; [|exact H]. intros x Hx. unfold char_ok, byte_ok in *. lia. Qed.

Definition sas_good (sp : texts) (kb scope ds name : list N) (x : sas_result) : Prop :=
  exists sig, signs kb scope ds sig /\ ends sp [None; Some (sas_token scope sig ds name); None; None] (Some (length sp + 1)%nat) x.
Definition sas_bad (sp : texts) (x : sas_result) : Prop := exists n, ends sp (repeat None n) None x.

Lemma sp_concat_text sp l k r x m : live l k = Some r -> cstr_ok x ->
  sp_step (sp ++ l) (SConcat (Some (length sp + k)%nat) (CText x)) m = if m then Some (RI true, sp ++ upd l k (Some (r ++ x))) else Some (RI false, sp ++ l).
Proof.
  intros L C. cbn [sp_step denote aliases]. rewrite live_new, L, (proj2 (cstr_okb_ok x) C). unfold assign. rewrite upd_new. reflexivity.
Qed.
Lemma sp_copy_text sp l k r x m : live l k = Some r -> cstr_ok x ->
  sp_step (sp ++ l) (SCopy (Some (length sp + k)%nat) (CText x)) m = if m then Some (RI true, sp ++ upd l k (Some x)) else Some (RI false, sp ++ l).
Proof.
  intros L C. cbn [sp_step denote aliases]. rewrite live_new, L, (proj2 (cstr_okb_ok x) C). unfold assign. rewrite upd_new. reflexivity.
Qed.
Lemma sp_concat_old sp l k r h x m : live l k = Some r -> live sp h = Some x ->
  sp_step (sp ++ l) (SConcatS (Some (length sp + k)%nat) (Some h)) m = if m then Some (RI true, sp ++ upd l k (Some (r ++ x))) else Some (RI false, sp ++ l).
Proof.
  intros L C. destruct (live_old sp l h x C) as [C1 C2]. cbn [sp_step]. rewrite live_new, L, C1.
  replace (length sp + k =? h)%nat with false by (symmetry; apply Nat.eqb_neq; lia). unfold assign. rewrite upd_new. reflexivity.
Qed.
Lemma sp_concat_new sp l k r j x m : live l k = Some r -> live l j = Some x -> k <> j ->
  sp_step (sp ++ l) (SConcatS (Some (length sp + k)%nat) (Some (length sp + j)%nat)) m =
    if m then Some (RI true, sp ++ upd l k (Some (r ++ x))) else Some (RI false, sp ++ l).
Proof.
  intros L C N. cbn [sp_step]. rewrite !live_new, L, C.
  replace (length sp + k =? length sp + j)%nat with false by (symmetry; apply Nat.eqb_neq; lia). unfold assign. rewrite upd_new. reflexivity.
Qed.

Lemma build_token_ok st bs sp kb scope ds name hs hn o :
  let t := scope ++ [10] ++ ds in
  represents st (sp ++ [Some t; Some []]) -> brepresents bs [Some (Some (filled kb)); Some None] ->
  live sp hs = Some scope -> live sp hn = Some name -> cstr_ok t -> cstr_ok ds ->
  bytes_ok kb -> kb <> [] -> lenN kb < 2 ^ 31 -> lenN t < 2 ^ 31 ->
  gives (build_token st bs hs hn ds (length sp + 0) (length sp + 1) 1) o (sas_good sp kb scope ds name) (sas_bad sp).
Proof.
  intros t R B Ls Ln Ht Hds Hk Nk Lk Lt. unfold build_token.
  eapply gives_lift; [eapply readable_ok; [exact B|reflexivity]|]. cbn [fst snd].
  destruct (rep_get _ _ (length sp + 0)%nat t R) as (blk & Eb & Wb); [rewrite live_new; reflexivity|].
  pose proof (wf_ctext _ _ Wb) as Ec.
  eapply gives_step; [unfold STRING_c_str, bind, lift; rewrite Eb, Ec; reflexivity|]. cbn [fst].
  eapply gives_lift; [reflexivity|].
  eapply gives_step; [unfold STRING_length, bind, lift; rewrite Eb, Ec; reflexivity|]. cbn [fst].
  eapply gives_lift; [reflexivity|]. change (N.of_nat (length t)) with (lenN t).
  assert (Nt : t <> []) by (unfold t; destruct scope; discriminate).
  set (mac := sas_mac kb scope ds).
  destruct (hmac_spec_ok Sha256 kb t Hk ltac:(unfold lenN in Lk; lia) (cstr_bytes _ Ht) ltac:(unfold lenN in Lt; lia)) as [Lm Bm].
  change (hmac_spec Sha256 kb (bits_of_bytes t)) with mac in Lm, Bm.
  eapply (gives_bind _ _ o (fun x => fst x = HMACSHA256_OK /\ brepresents (snd x) [Some (Some (filled kb)); Some (Some (filled mac))])
                           (fun x => fst x = HMACSHA256_ERROR /\ brepresents (snd x) [Some (Some (filled kb)); Some None])).
  { destruct (hmacsha256_partial bs _ kb t 1 None o B eq_refl eq_refl Hk (cstr_bytes _ Ht) Nk Nt Lk Lt) as (r & bs' & o' & E & H).
    exists (r, bs'), o'. split; [exact E|]. cbn [fst snd]. destruct H as [[-> H]|(-> & H & Hi)]; [left|right; auto].
    split; [split; [reflexivity|exact H]|]. eapply compute_hash_consumes. exact E. }
  2:{ intros [r bs1] o1 [Hr B1]. cbn [fst snd] in *. subst r. cbv zeta.
      eapply (built_fails sp [] None None _ _ _ _ _ t []); [rewrite app_nil_r; exact R|exact B1|]. left. auto. }
  intros [r bs1] o1 [Hr B1]. cbn [fst snd] in *. subst r. cbv zeta.
  eapply gives_lift; [eapply readable_ok; [exact B1|reflexivity]|]. cbn [fst].
  eapply (check_text_gives st _ _ (fun x => x = rfc4648 mac)); [exact R|apply encode_consumes| | |].
  { destruct (base64_encode_rfc4648 mac o1 Bm) as [H|(o2 & H)]; [left; exact H|right].
    exists (rfc4648 mac), o2. split; [exact H|]. split; [apply Base64_Proofs.rfc4648_cstr; exact Bm|reflexivity]. }
  2:{ intros st' o' R'. eapply (built_fails sp [] None None _ _ _ _ _ t []); [rewrite app_nil_r; exact R'|exact B1|]. left. auto. }
  intros t64 st1 o2 -> R1. rewrite <- app_assoc in R1. cbn [app] in R1.
  replace (length (sp ++ [Some t; Some []])) with (length sp + 2)%nat by (rewrite app_length; reflexivity).
  destruct (rep_get _ _ (length sp + 2)%nat (rfc4648 mac) R1) as (b64 & Eb64 & W64); [rewrite live_new; reflexivity|].
  eapply gives_lift; [rewrite Eb64; apply wf_ctext, W64|].
  eapply (check_text_gives st1 _ _ (fun x => signs kb scope ds x)); [exact R1|apply url_consumes| | |].
  { destruct (url_encode_correct (rfc4648 mac) o2 (Base64_Proofs.rfc4648_cstr _ Bm)) as [H|(x & o3 & H1 & H2 & H3 & H4)]; [left; exact H|right].
    exists x, o3. split; [exact H1|]. split; [exact H2|]. split; assumption. }
  2:{ intros st' o' R'. eapply (built_fails sp [Some (rfc4648 mac)] _ None _ _ _ _ _ t []); [exact R'|exact B1|]. right. left. eauto. }
  intros sig st2 o3 Hsig R2. rewrite <- app_assoc in R2. cbn [app] in R2.
  replace (length (sp ++ [Some t; Some []; Some (rfc4648 mac)])) with (length sp + 3)%nat by (rewrite app_length; reflexivity).
  set (bad := built false _ _ _ _ _ bs1).
  assert (Hbad : forall res st' o', represents st' (sp ++ [Some t; Some res; Some (rfc4648 mac); Some sig]) -> does (bad st') o' (sas_bad sp)).
  { intros res st' o' R'. eapply (built_fails sp [Some (rfc4648 mac); Some sig] _ _ _ _ _ _ _ t res); [exact R'|exact B1|]. right. right. eauto. }
  clearbody bad. cbv zeta.
  eapply (check_gives st2 _ (SCopy (Some (length sp + 1)%nat) (CText (str "SharedAccessSignature sr=")))); [exact R2|..].
  { eapply (sp_copy_text sp _ 1 _ _ true); [reflexivity|repeat constructor]. }
  { eapply (sp_copy_text sp _ 1 _ _ false); [reflexivity|repeat constructor]. }
  2:{ intros st' o' R'. eapply Hbad. exact R'. }
  clear st2 o3 R2. intros st2 o3 R2. cbn [upd] in R2.
  eapply (check_gives st2 _ (SConcatS (Some (length sp + 1)%nat) (Some hs))); [exact R2|..].
  { eapply (sp_concat_old sp _ 1 _ _ _ true); [reflexivity|exact Ls]. }
  { eapply (sp_concat_old sp _ 1 _ _ _ false); [reflexivity|exact Ls]. }
  2:{ intros st' o' R'. eapply Hbad. exact R'. }
  clear st2 o3 R2. intros st2 o3 R2. cbn [upd] in R2.
  eapply (check_gives st2 _ (SConcat (Some (length sp + 1)%nat) (CText (str "&sig=")))); [exact R2|..].
  { eapply (sp_concat_text sp _ 1 _ _ true); [reflexivity|repeat constructor]. }
  { eapply (sp_concat_text sp _ 1 _ _ false); [reflexivity|repeat constructor]. }
  2:{ intros st' o' R'. eapply Hbad. exact R'. }
  clear st2 o3 R2. intros st2 o3 R2. cbn [upd] in R2.
  eapply (check_gives st2 _ (SConcatS (Some (length sp + 1)%nat) (Some (length sp + 3)%nat))); [exact R2|..].
  { eapply (sp_concat_new sp _ 1 _ 3 _ true); [reflexivity|reflexivity|lia]. }
  { eapply (sp_concat_new sp _ 1 _ 3 _ false); [reflexivity|reflexivity|lia]. }
  2:{ intros st' o' R'. eapply Hbad. exact R'. }
  clear st2 o3 R2. intros st2 o3 R2. cbn [upd] in R2.
  eapply (check_gives st2 _ (SConcat (Some (length sp + 1)%nat) (CText (str "&se=")))); [exact R2|..].
  { eapply (sp_concat_text sp _ 1 _ _ true); [reflexivity|repeat constructor]. }
  { eapply (sp_concat_text sp _ 1 _ _ false); [reflexivity|repeat constructor]. }
  2:{ intros st' o' R'. eapply Hbad. exact R'. }
  clear st2 o3 R2. intros st2 o3 R2. cbn [upd] in R2.
  eapply (check_gives st2 _ (SConcat (Some (length sp + 1)%nat) (CText ds))); [exact R2|..].
  { eapply (sp_concat_text sp _ 1 _ _ true); [reflexivity|exact Hds]. }
  { eapply (sp_concat_text sp _ 1 _ _ false); [reflexivity|exact Hds]. }
  2:{ intros st' o' R'. eapply Hbad. exact R'. }
  clear st2 o3 R2. intros st2 o3 R2. cbn [upd] in R2.
  eapply (check_gives st2 _ (SConcat (Some (length sp + 1)%nat) (CText (str "&skn=")))); [exact R2|..].
  { eapply (sp_concat_text sp _ 1 _ _ true); [reflexivity|repeat constructor]. }
  { eapply (sp_concat_text sp _ 1 _ _ false); [reflexivity|repeat constructor]. }
  2:{ intros st' o' R'. eapply Hbad. exact R'. }
  clear st2 o3 R2. intros st2 o3 R2. cbn [upd] in R2.
  eapply (check_gives st2 _ (SConcatS (Some (length sp + 1)%nat) (Some hn))); [exact R2|..].
  { eapply (sp_concat_old sp _ 1 _ _ _ true); [reflexivity|exact Ln]. }
  { eapply (sp_concat_old sp _ 1 _ _ _ false); [reflexivity|exact Ln]. }
  2:{ intros st' o' R'. eapply Hbad. exact R'. }
  clear st2 o3 R2. intros st2 o3 R2. cbn [upd] in R2.
  rewrite <- !app_assoc in R2. change (_ ++ scope ++ _) with (sas_token scope sig ds name) in R2.
  apply gives_does; [|apply built_consumes].
  eapply does_weaken; [eapply built_ok; [exact R2|exact B1]|]. intros x Hx. exists sig. auto.
Qed.

Lemma prepare_gen st bs sp c0 scope ds hs hn o (Q : sas_result -> Prop) :
  let t := scope ++ [10] ++ ds in
  represents st sp -> brepresents bs [Some c0] -> live sp hs = Some scope -> cstr_ok ds ->
  (forall st' bs' o', represents st' (sp ++ [Some t; Some []]) -> brepresents bs' [Some c0; Some None] ->
     gives (build_token st' bs' hs hn ds (length sp + 0) (length sp + 1) 1) o' Q (sas_bad sp)) ->
  gives (prepare st bs hs hn ds) o Q (sas_bad sp).
Proof.
  intros t R B Ls Hds Hbuild. unfold prepare.
  assert (Lb : length bs = 1%nat) by (rewrite (brep_len _ _ B); reflexivity).
  destruct bs as [|b0 [|]]; try discriminate.
  eapply (gives_bind _ _ o (fun x => fst x = BRH (Some 1%nat) /\ brepresents (snd x) [Some c0; Some None])
                           (fun x => fst x = BRH None /\ snd x = [b0])).
  { unfold BUFFER_new. destruct o as [|[|] o]; cbn.
    - eexists _, _. split; [reflexivity|]. left. split; [|exists []; reflexivity]. split; [reflexivity|].
      apply (Forall2_app B). repeat constructor.
    - eexists _, _. split; [reflexivity|]. left. split; [|exists [true]; reflexivity]. split; [reflexivity|].
      apply (Forall2_app B). repeat constructor.
    - eexists _, _. split; [reflexivity|]. right. split; [split; reflexivity|]. left. reflexivity. }
  2:{ intros [r bs] o' [H1 H2]. cbn in H1, H2. subst r bs. cbn [fst snd]. unfold finish.
      inversion B as [|ob0 ? bs0 ? H0 _]; subst. destruct b0 as [b0|]; [|destruct c0; contradiction]. assert (Hf : free_ptr (buffer b0) = Some tt) by (destruct c0; destruct H0 as (-> & _); reflexivity).
      unfold does, bind, STRING_delete, BUFFER_delete, ret, lift, getbuf. cbn [nth_error]. cbn -[free_ptr]. rewrite Hf. cbn.
      eexists _, _. split; [reflexivity|]. exists 0%nat. split; [reflexivity|]. split; [repeat constructor|]. cbn. rewrite app_nil_r. exact R. }
  intros [r bs] o1 [H1 B1]. cbn [fst snd] in *. subst r.
  rewrite <- (app_nil_r sp) in R.
  eapply (check_new_gives st _ SNew []); [exact R|reflexivity| |].
  2:{ intros st' o' R'. eapply does_weaken; [eapply (finish_none sp []); eauto|]. intros x Hx. exists 0%nat. exact Hx. }
  intros st1 o2 R1. rewrite <- app_assoc in R1. cbn [app] in R1. replace (length (sp ++ [])) with (length sp + 0)%nat by (rewrite app_length; reflexivity).
  eapply (check_new_gives st1 _ SNew []); [exact R1|reflexivity| |].
  2:{ intros st' o' R'. eapply does_weaken; [eapply (finish_some sp [Some []] None 0 []); [exact R'|reflexivity|exact B1]|]. intros x Hx. exists 1%nat. exact Hx. }
  intros st2 o3 R2. rewrite <- app_assoc in R2. cbn [app] in R2. replace (length (sp ++ [Some []])) with (length sp + 1)%nat by (rewrite app_length; reflexivity).
  cbv zeta. set (bad := fun st : slots => _).
  assert (Hbad : forall x st' o', represents st' (sp ++ [Some x; Some []]) -> does (bad st') o' (sas_bad sp)).
  { intros x st' o' R'. unfold bad. eapply delete_does; [exact R'|rewrite live_new; reflexivity|]. intros st3 R3. rewrite upd_new in R3. cbn [upd snd] in *.
    eapply does_weaken; [eapply (finish_some sp [Some x; None] None 0 x); [exact R3|reflexivity|exact B1]|]. intros y Hy. exists 2%nat. exact Hy. }
  clearbody bad.
  eapply (check_gives st2 _ (SConcatS (Some (length sp + 0)%nat) (Some hs))); [exact R2|..].
  { eapply (sp_concat_old sp _ 0 _ _ _ true); [reflexivity|exact Ls]. }
  { eapply (sp_concat_old sp _ 0 _ _ _ false); [reflexivity|exact Ls]. }
  2:{ intros st' o' R'. eapply Hbad. exact R'. }
  clear st2 o3 R2. intros st2 o3 R2. cbn [upd app] in R2.
  eapply (check_gives st2 _ (SConcat (Some (length sp + 0)%nat) (CText [10]))); [exact R2|..].
  { eapply (sp_concat_text sp _ 0 _ _ true); [reflexivity|repeat constructor]. }
  { eapply (sp_concat_text sp _ 0 _ _ false); [reflexivity|repeat constructor]. }
  2:{ intros st' o' R'. eapply Hbad. exact R'. }
  clear st2 o3 R2. intros st2 o3 R2. cbn [upd app] in R2.
  eapply (check_gives st2 _ (SConcat (Some (length sp + 0)%nat) (CText ds))); [exact R2|..].
  { eapply (sp_concat_text sp _ 0 _ _ true); [reflexivity|exact Hds]. }
  { eapply (sp_concat_text sp _ 0 _ _ false); [reflexivity|exact Hds]. }
  2:{ intros st' o' R'. eapply Hbad. exact R'. }
  clear st2 o3 R2. intros st2 o3 R2. cbn [upd app] in R2. rewrite <- app_assoc in R2.
  apply Hbuild; [exact R2|exact B1].
Qed.

Lemma prepare_ok st bs sp kb scope ds name hs hn o :
  let t := scope ++ [10] ++ ds in
  represents st sp -> brepresents bs [Some (Some (filled kb))] ->
  live sp hs = Some scope -> live sp hn = Some name -> cstr_ok t -> cstr_ok ds ->
  bytes_ok kb -> kb <> [] -> lenN kb < 2 ^ 31 -> lenN t < 2 ^ 31 ->
  gives (prepare st bs hs hn ds) o (sas_good sp kb scope ds name) (sas_bad sp).
Proof. intros t R B Ls Ln Ht Hds Hk Nk Lk Lt. eapply prepare_gen; eauto. intros. apply build_token_ok; auto. Qed.

(* no key bytes: HMACSHA256_ComputeHash refuses *)
Lemma prepare_empty st bs sp scope ds hs hn o :
  represents st sp -> brepresents bs [Some None] -> live sp hs = Some scope -> cstr_ok ds ->
  does (prepare st bs hs hn ds) o (sas_bad sp).
Proof.
  intros R B Ls Hds. enough (H : gives (prepare st bs hs hn ds) o (sas_bad sp) (sas_bad sp)).
  { destruct H as (a & o' & E & [[H _]|[H _]]); exists a, o'; auto. }
  eapply prepare_gen; eauto. intros st' bs' o' R' B'. unfold build_token. set (t := scope ++ [10] ++ ds) in *.
  destruct (rep_get _ _ (length sp + 0)%nat t R') as (blk & Eb & Wb); [rewrite live_new; reflexivity|].
  pose proof (wf_ctext _ _ Wb) as Ec.
  destruct (brep_get _ _ 0%nat _ B' eq_refl) as (b & E & H1 & H2).
  eapply gives_lift; [unfold readable; rewrite E, H1; reflexivity|].
  eapply gives_step; [unfold STRING_c_str, bind, lift; rewrite Eb, Ec; reflexivity|]. cbn [fst].
  eapply gives_lift; [reflexivity|].
  eapply gives_step; [unfold STRING_length, bind, lift; rewrite Eb, Ec; reflexivity|]. cbn [fst snd].
  eapply gives_lift; [reflexivity|].
  eapply gives_step; [reflexivity|]. cbn [fst snd]. cbv zeta.
  apply gives_does; [|apply built_consumes].
  eapply (built_fails sp [] None None _ _ _ _ _ t []); [rewrite app_nil_r; exact R'|exact B'|]. left. auto.
Qed.
