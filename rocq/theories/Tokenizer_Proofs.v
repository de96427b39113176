(* Proofs about the model of src/string_tokenizer.c. *)
From Verif Require Import Base Refine Strings_Model Strings_Spec Strings_Proofs.
From Verif Require Import Tokenizer_Model Tokenizer_Spec.
Open Scope N_scope.

Lemma is_delim_in ds c : is_delimiter ds c = true <-> In c ds.
Proof.
  unfold is_delimiter. rewrite existsb_exists. split.
  - intros (x & Hx & E). apply N.eqb_eq in E. congruence.
  - intros H. exists c. split; [exact H|apply N.eqb_refl].
Qed.

Lemma skip_split ds s : exists skip rest,
  s = skip ++ rest /\ length skip = skip_delimiters ds s /\
  Forall (fun c => In c ds) skip /\
  match rest with [] => True | c :: _ => ~ In c ds end.
Proof.
  induction s as [|c t (skip & rest & E & Hl & Hf & Hr)]; cbn.
  - exists [], []. repeat split; constructor.
  - destruct (is_delimiter ds c) eqn:D.
    + exists (c :: skip), rest. split; [cbn; congruence|]. split; [cbn; congruence|].
      split; [|exact Hr]. constructor; [apply is_delim_in, D|exact Hf].
    + exists [], (c :: t). repeat split; try constructor. intros H. apply is_delim_in in H. congruence.
Qed.

Lemma strchr_spec s c :
  match strchr s c with
  | Some k => exists a b, s = a ++ c :: b /\ length a = k /\ ~ In c a
  | None => ~ In c s
  end.
Proof.
  induction s as [|x t IH]; cbn; [intros []|].
  destruct (N.eqb_spec x c) as [->|Hne].
  - exists [], t. repeat split. intros [].
  - destruct (strchr t c) as [k|].
    + destruct IH as (a & b & -> & Hl & Hn). exists (x :: a), b. split; [reflexivity|].
      split; [cbn; congruence|]. intros [H|H]; [congruence|auto].
    + intros [H|H]; [congruence|auto].
Qed.

Lemma eot_spec s ds :
  match end_of_token s ds with
  | Some k => exists ds1 d ds2 a b, ds = ds1 ++ d :: ds2 /\ s = a ++ d :: b /\ length a = k /\
                ~ In d a /\ Forall (fun x => ~ In x s) ds1
  | None => Forall (fun x => ~ In x s) ds
  end.
Proof.
  induction ds as [|d ds IH]; cbn; [constructor|].
  pose proof (strchr_spec s d) as S. destruct (strchr s d) as [k|].
  - destruct S as (a & b & E & Hl & Hn). exists [], d, ds, a, b. repeat split; auto.
  - destruct (end_of_token s ds) as [k|].
    + destruct IH as (ds1 & d' & ds2 & a & b & -> & E & Hl & Hn & Hf).
      exists (d :: ds1), d', ds2, a, b. repeat split; auto.
    + constructor; auto.
Qed.

Lemma skipn_add {A} (l : list A) i j : skipn (i + j) l = skipn j (skipn i l).
Proof.
  revert i; induction l as [|x l IH]; intros [|i]; cbn; rewrite ?skipn_nil; try reflexivity.
  apply IH.
Qed.

Lemma cstr_skipn n t : cstr_ok t -> cstr_ok (skipn n t).
Proof.
  intros H. unfold cstr_ok in *. rewrite Forall_forall in *. intros x Hx. apply H.
  rewrite <- (firstn_skipn n t). apply in_or_app. auto.
Qed.

(* The text ahead of the tokenizer. *)
Definition ahead (t : tokenizer) : list N := skipn (currentPos t) (inputString t).

(* What one call does, whatever the delimiters. *)
Lemma token_cases st sp t out old ds o :
  represents st sp -> live sp out = Some old ->
  cstr_ok (inputString t) -> (currentPos t <= length (inputString t))%nat -> ds <> [] ->
  exists skip rest, ahead t = skip ++ rest /\ Forall (fun c => In c ds) skip /\
    match rest with
    | [] => exists t', STRING_TOKENIZER_get_next_token st (Some t) (Some out) (Some ds) o
              = Some ((false, st, Some t'), o) /\ inputString t' = inputString t /\
              currentPos t' = length (inputString t)
    | c :: _ =>
        ~ In c ds /\
        ((exists o', STRING_TOKENIZER_get_next_token st (Some t) (Some out) (Some ds) o
              = Some ((false, st, Some {| inputString := inputString t;
                          currentPos := currentPos t + length skip |}), o') /\ In false o) \/
         (exists st' o' used tok tail pos',
            STRING_TOKENIZER_get_next_token st (Some t) (Some out) (Some ds) o
              = Some ((true, st', Some {| inputString := inputString t; currentPos := pos' |}), o') /\
            represents st' (upd sp out (Some tok)) /\ o = used ++ o' /\
            rest = tok ++ tail /\ tok <> [] /\
            match tail with
            | [] => Forall (fun x => ~ In x tok) ds /\ pos' = length (inputString t)
            | d :: tail' => (exists ds1 ds2, ds = ds1 ++ d :: ds2 /\ Forall (fun x => ~ In x rest) ds1)
                /\ ~ In d tok /\ pos' = (currentPos t + length skip + length tok + 1)%nat
            end))
    end.
Proof.
  intros R L Ht Hp Hds. unfold ahead.
  destruct (skip_split ds (skipn (currentPos t) (inputString t))) as (skip & rest & E & Hl & Hf & Hr).
  exists skip, rest. split; [exact E|]. split; [exact Hf|].
  pose proof (f_equal (@length N) E) as El. rewrite skipn_length, app_length in El.
  assert (Hd0 : (length ds =? 0)%nat = false) by (destruct ds; [congruence|reflexivity]).
  unfold STRING_TOKENIZER_get_next_token. cbv zeta. rewrite Hd0, <- Hl.
  assert (Hhere : skipn (currentPos t + length skip) (inputString t) = rest).
  { rewrite skipn_add, E, skipn_app, skipn_all, Nat.sub_diag. reflexivity. }
  rewrite Hhere.
  destruct rest as [|c rest'].
  - (* nothing but delimiters *)
    cbn in El.
    destruct (Nat.eqb_spec (length (inputString t) - currentPos t) 0) as [H0|H0].
    + eexists. split; [reflexivity|]. split; [reflexivity|]. lia.
    + replace (length (inputString t) - currentPos t - length skip =? 0)%nat with true by lia.
      eexists. split; [reflexivity|]. split; [reflexivity|]. cbn. lia.
  - split; [exact Hr|]. cbn in El.
    replace (length (inputString t) - currentPos t =? 0)%nat with false by lia.
    replace (length (inputString t) - currentPos t - length skip =? 0)%nat with false by lia.
    set (rest := c :: rest') in *.
    assert (Hrest : cstr_ok rest).
    { rewrite <- Hhere. apply cstr_skipn, Ht. }
    assert (Hlr : length rest = (length (inputString t) - currentPos t - length skip)%nat) by (cbn; lia).
    rewrite <- Hlr.
    set (amount := match end_of_token rest ds with Some k => k | None => length rest end).
    destruct (sim_copyn st sp (Some out) (CText rest) amount o R) as (m & Hm & Hs).
    cbn [sp_step denote] in Hs. rewrite L in Hs.
    rewrite (proj2 (cstr_okb_ok rest) Hrest) in Hs. cbn [aliases] in Hs.
    destruct m; cbn [assign] in Hs.
    + right. destruct (Hs _ _ eq_refl) as (st' & o' & used & Es & R' & Ho & _).
      unfold bind at 1. rewrite Es. unfold ret.
      pose proof (eot_spec rest ds) as Q.
      destruct (end_of_token rest ds) as [k|] eqn:Ee.
      * destruct Q as (ds1 & d & ds2 & a & b & Eds & Er & Hk & Hn & Hf1).
        assert (Ha : firstn amount rest = a).
        { unfold amount. rewrite Er, <- Hk, firstn_app, firstn_all, Nat.sub_diag. cbn. apply app_nil_r. }
        rewrite Ha in R'.
        exists st', o', used, a, (d :: b), (currentPos t + length skip + (amount + 1))%nat.
        split; [reflexivity|]. split; [exact R'|]. split; [exact Ho|]. split; [exact Er|].
        split.
        { intros ->. cbn in Er. unfold rest in Er. injection Er as -> _. apply Hr. rewrite Eds.
          apply in_or_app. right. left. reflexivity. }
        split; [exists ds1, ds2; auto|]. split; [exact Hn|]. unfold amount. lia.
      * assert (Ha : firstn amount rest = rest) by (unfold amount; apply firstn_all).
        rewrite Ha in R'.
        exists st', o', used, rest, [], (currentPos t + length skip + amount)%nat.
        split; [reflexivity|]. split; [exact R'|]. split; [exact Ho|].
        split; [rewrite app_nil_r; reflexivity|]. split; [discriminate|].
        split; [exact Q|]. unfold amount. lia.
    + left. destruct (Hs _ _ eq_refl) as (st' & o' & used & Es & R' & Ho & _).
      unfold bind at 1. rewrite Es. unfold ret.
      assert (Hst : st' = st).
      { revert Es. unfold STRING_copy_n, bind, lift. destruct (getb st out) as [b|]; [|discriminate].
        cbn [read_arg]. unfold mutate, bind. destruct (alloc o) as [[[|] o1]|]; [| |discriminate].
        - destruct (lift _ _) as [[b' o2]|]; discriminate.
        - intros H. injection H as <- <-. reflexivity. }
      subst st'. exists o'. split; [reflexivity|auto].
Qed.

(* ------------------------------------------------------------------ *)
(** One delimiter: the tokens are the fields *)

Lemma fields_skip ds skip rest : Forall (fun c => In c ds) skip -> fields ds (skip ++ rest) = fields ds rest.
Proof.
  unfold fields. induction 1 as [|c skip Hc H IH]; [reflexivity|]. cbn.
  apply is_delim_in in Hc. unfold is_delimiter in Hc. rewrite Hc. exact IH.
Qed.

Lemma fields_token ds tok : forall cur s, Forall (fun c => ~ In c ds) tok ->
  fields_from ds cur (tok ++ s) = fields_from ds (cur ++ tok) s.
Proof.
  induction tok as [|c tok IH]; intros cur s H; cbn; [rewrite app_nil_r; reflexivity|].
  inversion H as [|? ? Hc Ht]; subst.
  replace (existsb (N.eqb c) ds) with false.
  - rewrite IH by assumption. rewrite <- app_assoc. reflexivity.
  - destruct (existsb (N.eqb c) ds) eqn:E; [|reflexivity]. destruct Hc. apply is_delim_in, E.
Qed.

Lemma fields_cons ds tok tail : tok <> [] -> Forall (fun c => ~ In c ds) tok ->
  match tail with [] => True | d :: _ => In d ds end ->
  fields ds (tok ++ tail) = tok :: fields ds (skipn 1 tail).
Proof.
  intros Hne Hf Ht. unfold fields. rewrite fields_token by assumption. cbn [app].
  destruct tok as [|c tok]; [congruence|]. destruct tail as [|d tail]; [reflexivity|].
  cbn. apply is_delim_in in Ht. unfold is_delimiter in Ht. rewrite Ht. reflexivity.
Qed.

Lemma one_tok ds rest tok tail : one_delimiter ds rest -> rest = tok ++ tail ->
  match tail with
  | [] => Forall (fun x => ~ In x tok) ds
  | d :: tail' => In d ds /\ ~ In d tok
  end -> Forall (fun c => ~ In c ds) tok.
Proof.
  intros [d0 Hd] -> H. apply Forall_forall. intros c Hc Hin. destruct tail as [|d tail].
  - rewrite Forall_forall in H. apply (H c Hin Hc).
  - destruct H as [H1 H2]. apply H2.
    rewrite (Hd d); [|apply in_or_app; right; left; reflexivity|exact H1].
    rewrite <- (Hd c); [exact Hc|apply in_or_app; auto|exact Hin].
Qed.

Lemma one_sub ds a b : one_delimiter ds (a ++ b) -> one_delimiter ds b.
Proof. intros [d Hd]. exists d. intros c Hc. apply Hd. apply in_or_app. auto. Qed.

Lemma cstr_str_read st sp out tok o : represents st sp -> live sp out = Some tok ->
  STRING_c_str st (Some out) o = Some ((RT (Some tok), st), o).
Proof.
  intros R L. destruct (rep_get _ _ _ _ R L) as (b & Hb & W). unfold STRING_c_str.
  rewrite Hb, bind_lift, (wf_ctext _ _ W), bind_lift. reflexivity.
Qed.

Lemma live_upd sp h t old : live sp h = Some old -> live (upd sp h (Some t)) h = Some t.
Proof.
  intros L. unfold live in *. rewrite upd_same; [reflexivity|].
  apply nth_error_Some. destruct (nth_error sp h); [discriminate|discriminate].
Qed.

Definition pad (n : nat) (fs : list (list N)) : list (option (list N)) :=
  firstn n (map Some fs ++ repeat None n).
Lemma firstn_none a : forall b, (a <= b)%nat -> firstn a (repeat (@None (list N)) b) = repeat None a.
Proof.
  induction a as [|a IH]; intros [|b] Hb; cbn; try lia; try reflexivity. f_equal. apply IH. lia.
Qed.
Lemma pad_nil n : pad (S n) [] = None :: pad n [].
Proof. unfold pad. cbn [map app]. rewrite !firstn_none by lia. reflexivity. Qed.
Lemma pad_cons n f fs : pad (S n) (f :: fs) = Some f :: pad n fs.
Proof.
  unfold pad. cbn [map app firstn]. f_equal. rewrite !firstn_app. f_equal.
  rewrite !firstn_none by lia. reflexivity.
Qed.

Lemma tokens_are_fields ds n : ds <> [] -> forall st sp t out old o,
  represents st sp -> live sp out = Some old ->
  cstr_ok (inputString t) -> (currentPos t <= length (inputString t))%nat ->
  one_delimiter ds (ahead t) -> ~ In false o ->
  exists st' sp' t' o', token_loop n st t out ds o
    = Some ((pad n (fields ds (ahead t)), st', t'), o') /\
    represents st' sp'.
Proof.
  intros Hds. induction n as [|n IH]; intros st sp t out old o R L Ht Hp H1 Ho.
  - exists st, sp, t, o. split; [reflexivity|exact R].
  - destruct (token_cases st sp t out old ds o R L Ht Hp Hds) as (skip & rest & E & Hf & H).
    cbn [token_loop]. unfold bind at 1. rewrite E, fields_skip by assumption.
    destruct rest as [|c rest'].
    + destruct H as (t' & Es & Hi & Hc). rewrite Es. cbn [bind ret].
      assert (Ha : ahead t' = []).
      { unfold ahead. rewrite Hc, Hi, skipn_all. reflexivity. }
      destruct (IH st sp t' out old o R L) as (st2 & sp2 & t2 & o2 & E2 & R2);
        [rewrite Hi; exact Ht|rewrite Hc, Hi; lia| |exact Ho|].
      { exists 0. rewrite Ha. intros ? []. }
      exists st2, sp2, t2, o2. split; [|exact R2].
      unfold bind, ret. rewrite E2, Ha. rewrite pad_nil. reflexivity.
    + destruct H as [Hc [(o' & _ & Hin)|H]]; [contradiction|].
      destruct H as (st' & o' & used & tok & tail & pos' & Es & R' & Hu & Er & Hne & Htail).
      rewrite Es. set (t' := {| inputString := inputString t; currentPos := pos' |}).
      assert (L' : live (upd sp out (Some tok)) out = Some tok) by (eapply live_upd; exact L).
      assert (Ho' : ~ In false o').
      { intros Hin. apply Ho. rewrite Hu. apply in_or_app. auto. }
      assert (Hlen : length (ahead t) = (length skip + length tok + length tail)%nat).
      { rewrite E, Er, !app_length. lia. }
      unfold ahead in Hlen at 1. rewrite skipn_length in Hlen.
      assert (Hpos : (pos' <= length (inputString t))%nat).
      { destruct tail; [lia|]. destruct Htail as (_ & _ & ->). cbn in Hlen. lia. }
      assert (Hah : ahead t' = skipn 1 tail).
      { unfold ahead, t'. cbn [inputString currentPos]. destruct tail as [|d tail].
        - destruct Htail as [_ ->]. rewrite skipn_all. reflexivity.
        - destruct Htail as (_ & _ & ->).
          rewrite <- !Nat.add_assoc, !skipn_add. fold (ahead t). rewrite E, Er.
          rewrite skipn_app, skipn_all, Nat.sub_diag. cbn [skipn app].
          rewrite skipn_app, skipn_all, Nat.sub_diag. reflexivity. }
      assert (Hone : one_delimiter ds (skipn 1 tail)).
      { rewrite E, Er in H1. apply one_sub, one_sub in H1. destruct tail as [|d tail]; [exact H1|].
        apply (one_sub ds [d]) in H1. exact H1. }
      destruct (IH st' _ t' out tok o' R' L' Ht Hpos) as (st2 & sp2 & t2 & o2 & E2 & R2);
        [rewrite Hah; exact Hone|exact Ho'|].
      exists st2, sp2, t2, o2. split; [|exact R2].
      unfold bind, ret. rewrite (cstr_str_read _ _ _ _ _ R' L'), E2.
      assert (Htd : match tail with [] => True | d :: _ => In d ds end).
      { destruct tail as [|d tail]; [exact I|].
        destruct Htail as ((ds1 & ds2 & -> & _) & _). apply in_or_app. right. left. reflexivity. }
      rewrite Er, fields_cons.
      * rewrite Hah, pad_cons. reflexivity.
      * exact Hne.
      * rewrite E in H1. apply one_sub in H1.
        eapply one_tok; [exact H1|exact Er|]. destruct tail as [|d tail].
        -- apply Htail.
        -- split; [exact Htd|apply Htail].
      * exact Htd.
Qed.
