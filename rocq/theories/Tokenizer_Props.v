(* Theorems about src/string_tokenizer.c: C12, C13. *)
From Verif Require Import Base Refine Strings_Model Strings_Spec Strings_Proofs.
From Verif Require Import Tokenizer_Model Tokenizer_Spec Tokenizer_Proofs.
Open Scope N_scope.

(** * C12: the tokens are the fields of the text *)

(* For every text in which at most one of the given delimiter characters occurs,
   any number of calls on a new tokenizer yields the fields in order and then
   failure for ever.  Missing for the full property: texts in which several
   delimiters occur (false, see below). *)
Theorem tokenizer_fields_partial : forall text ds n st sp out old o t o1,
  represents st sp -> live sp out = Some old ->
  cstr_ok text -> ds <> [] -> one_delimiter ds text ->
  STRING_TOKENIZER_create_from_char (Some text) o = Some (Some t, o1) -> ~ In false o ->
  exists st' sp' t' o',
    token_loop n st t out ds o1
    = Some ((firstn n (map Some (fields ds text) ++ repeat None n), st', t'), o') /\
    represents st' sp'.
Proof.
  intros text ds n st sp out old o t o1 R L Ht Hds H1 Hc Ho.
  unfold STRING_TOKENIZER_create_from_char, bind in Hc.
  destruct (allocs_spec 2 o) as (ok & o2 & used & E & Hu & Hf). rewrite E in Hc.
  destruct ok; cbn in Hc; [|discriminate]. injection Hc as <- <-.
  apply (tokens_are_fields ds n Hds st sp {| inputString := text; currentPos := 0 |} out old o2);
    try assumption.
  - cbn. lia.
  - intros H. apply Ho. rewrite Hu. apply in_or_app. auto.
Qed.

(* With several delimiters the tokens are not the fields: "a,b;c" cut at any of
   ';' and ',' gives "a,b" and "c". *)
Theorem tokenizer_fields_refuted :
  exists text ds st sp out old t st' t' ys,
    represents st sp /\ live sp out = Some old /\ cstr_ok text /\ ds <> [] /\
    STRING_TOKENIZER_create_from_char (Some text) [] = Some (Some t, []) /\
    token_loop 3 st t out ds [] = Some ((ys, st', t'), []) /\
    ys = [Some (str "a,b"); Some (str "c"); None] /\
    fields ds text = [str "a"; str "b"; str "c"].
Proof.
  exists (str "a,b;c"), (str ";,"), [Some (filled [0])], [Some []], 0%nat, [].
  eexists _, _, _, _.
  split; [constructor; [split; [constructor|exists []; reflexivity]|constructor]|].
  split; [reflexivity|]. split; [apply cstr_okb_ok; reflexivity|]. split; [discriminate|].
  split; [reflexivity|]. split; [reflexivity|]. split; reflexivity.
Qed.

(* ... and this is not an accident of one text: whenever the delimiter listed first
   occurs later than another delimiter, the first token contains that other one. *)
Theorem tokenizer_first_listed_wins_refuted : forall a b c d1 d2 st sp out old,
  represents st sp -> live sp out = Some old ->
  cstr_ok (a ++ d2 :: b ++ d1 :: c) -> a <> [] ->
  ~ In d1 a -> ~ In d2 a -> ~ In d1 b -> d1 <> d2 ->
  exists st' o',
    STRING_TOKENIZER_get_next_token st
      (Some {| inputString := a ++ d2 :: b ++ d1 :: c; currentPos := 0 |})
      (Some out) (Some [d1; d2]) []
    = Some ((true, st', Some {| inputString := a ++ d2 :: b ++ d1 :: c;
                                currentPos := length (a ++ d2 :: b) + 1 |}), o') /\
    represents st' (upd sp out (Some (a ++ d2 :: b))).
Proof.
  intros a b c d1 d2 st sp out old R L Ht Hne H1 H2 H3 Hd.
  destruct (token_cases st sp {| inputString := a ++ d2 :: b ++ d1 :: c; currentPos := 0 |}
              out old [d1; d2] [] R L Ht ltac:(cbn; lia) ltac:(discriminate))
    as (skip & rest & E & Hf & H).
  assert (Hs : skip = []).
  { destruct skip as [|x skip]; [reflexivity|]. exfalso. unfold ahead in E. cbn in E.
    destruct a as [|y a]; [congruence|]. injection E as -> _.
    inversion Hf as [|? ? Hx _]; subst. destruct Hx as [<-|[<-|[]]]; [apply H1|apply H2]; left; reflexivity. }
  subst skip. unfold ahead in E. cbn [skipn app currentPos inputString] in E. subst rest.
  destruct (a ++ d2 :: b ++ d1 :: c) as [|x0 l0] eqn:El; [destruct a; discriminate|].
  destruct H as [_ [(o' & _ & [])|H]]. rewrite <- El in *. clear El x0 l0.
  destruct H as (st' & o' & used & tok & tail & pos' & Es & R' & _ & Er & _ & Htail).
  cbn [inputString] in Es.
  assert (Hin : In d1 (tok ++ tail)).
  { rewrite <- Er. apply in_or_app. right. right. apply in_or_app. right. left. reflexivity. }
  destruct tail as [|d tail].
  { exfalso. destruct Htail as [Hn _]. inversion Hn as [|? ? Hx _]; subst.
    rewrite app_nil_r in Hin. contradiction. }
  destruct Htail as ((ds1 & ds2 & Eds & Hn1) & Hn & Hpos).
  assert (d = d1).
  { destruct ds1 as [|y ds1]; [injection Eds; auto|]. exfalso. injection Eds as <- _.
    inversion Hn1 as [|? ? Hx _]; subst. apply Hx. rewrite Er. exact Hin. }
  subst d.
  assert (tok = a ++ d2 :: b).
  { assert (Hn' : ~ In d1 (a ++ d2 :: b)).
    { intros Hx. apply in_app_or in Hx. destruct Hx as [Hx|[Hx|Hx]]; [auto|congruence|auto]. }
    assert (Er' : (a ++ d2 :: b) ++ d1 :: c = tok ++ d1 :: tail).
    { rewrite <- app_assoc. exact Er. }
    clear - Er' Hn' Hn. revert tok Er' Hn. induction (a ++ d2 :: b) as [|x l IH]; intros tok E Hn.
    - destruct tok as [|y tok]; [reflexivity|]. cbn in E. injection E as -> _. destruct Hn. left. reflexivity.
    - destruct tok as [|y tok]; cbn in E.
      + injection E as -> _. destruct Hn'. left. reflexivity.
      + injection E as -> E. f_equal. apply IH; [intros Hx; apply Hn'; right; exact Hx|exact E|].
        intros Hx. apply Hn. right. exact Hx. }
  subst tok. exists st', o'. split; [|exact R']. rewrite Es. subst pos'. reflexivity.
Qed.

(** * C13: progress, staying inside the text *)

(* One call, whatever the delimiters and whatever allocations fail: it is always
   defined, it never moves backwards nor past the end, and
   - success: what was skipped are delimiters only, the token is a non-empty piece
     of the text right after them that begins with a non-delimiter, the output
     string holds it, the position moves past it;
   - failure with memory available: only delimiters were left, and the position is
     at the end of the text;
   - failure for lack of memory: only delimiters were skipped. *)
Theorem tokenizer_step : forall st sp text pos out old ds o,
  represents st sp -> live sp out = Some old ->
  cstr_ok text -> (pos <= length text)%nat -> ds <> [] ->
  exists r st' sp' pos' o',
    STRING_TOKENIZER_get_next_token st (Some {| inputString := text; currentPos := pos |})
      (Some out) (Some ds) o
    = Some ((r, st', Some {| inputString := text; currentPos := pos' |}), o') /\
    represents st' sp' /\ (pos <= pos' <= length text)%nat /\
    (r = true -> exists skip tok tail,
       skipn pos text = skip ++ tok ++ tail /\ Forall (fun c => In c ds) skip /\
       (exists c tok', tok = c :: tok' /\ ~ In c ds) /\
       sp' = upd sp out (Some tok) /\
       (tail = [] /\ pos' = length text /\ Forall (fun d => ~ In d tok) ds
        \/ exists d tail', tail = d :: tail' /\ In d ds /\ ~ In d tok /\
           pos' = (pos + length skip + length tok + 1)%nat)) /\
    (r = false -> st' = st /\ Forall (fun c => In c ds) (firstn (pos' - pos) (skipn pos text)) /\
       (pos' = length text \/ In false o)).
Proof.
  intros st sp text pos out old ds o R L Ht Hp Hds.
  destruct (token_cases st sp {| inputString := text; currentPos := pos |} out old ds o R L Ht Hp Hds)
    as (skip & rest & E & Hf & H).
  unfold ahead in E. cbn [inputString currentPos] in *.
  pose proof (f_equal (@length N) E) as El. rewrite skipn_length, app_length in El.
  destruct rest as [|c rest'].
  - destruct H as ([ti tp] & Es & Hi & Hc). cbn in Hi, Hc. subst ti tp.
    exists false, st, sp, (length text), o. split; [exact Es|]. split; [exact R|]. split; [lia|].
    split; [discriminate|]. intros _. split; [reflexivity|]. split; [|left; reflexivity].
    rewrite app_nil_r in E. rewrite E. rewrite firstn_all2; [exact Hf|cbn in El; lia].
  - destruct H as [Hc [(o' & Es & Hin)|H]].
    + exists false, st, sp, (pos + length skip)%nat, o'. split; [exact Es|]. split; [exact R|].
      split; [lia|]. split; [discriminate|]. intros _. split; [reflexivity|]. split; [|right; exact Hin].
      rewrite E. replace (pos + length skip - pos)%nat with (length skip) by lia.
      rewrite firstn_app, firstn_all, Nat.sub_diag. cbn. rewrite app_nil_r. exact Hf.
    + destruct H as (st' & o' & used & tok & tail & pos' & Es & R' & Hu & Er & Hne & Htail).
      pose proof (f_equal (@length N) Er) as El2. rewrite app_length in El2.
      exists true, st', (upd sp out (Some tok)), pos', o'. split; [exact Es|]. split; [exact R'|].
      split.
      { destruct tail; [destruct Htail as [_ ->]; lia|]. destruct Htail as (_ & _ & ->). cbn in *. lia. }
      split; [|discriminate]. intros _. exists skip, tok, tail. rewrite <- Er. split; [exact E|].
      split; [exact Hf|]. split.
      { destruct tok as [|x tok]; [congruence|]. injection Er as -> _. exists x, tok. auto. }
      split; [reflexivity|]. destruct tail as [|d tail].
      * left. destruct Htail as [H1 H2]. auto.
      * right. exists d, tail. destruct Htail as ((ds1 & ds2 & -> & _) & Hn & Hpos).
        repeat split; auto. apply in_or_app. right. left. reflexivity.
Qed.

(* A client making calls with varying delimiters. *)
Fixpoint token_calls (st : slots) (t : tokenizer) (out : nat) (calls : list (list N))
    : M (list bool * slots * tokenizer) :=
  match calls with
  | [] => ret ([], st, t)
  | ds :: rest =>
      (x <- STRING_TOKENIZER_get_next_token st (Some t) (Some out) (Some ds) ;;
       match x with
       | (r, st1, Some t1) =>
           w <- token_calls st1 t1 out rest ;;
           match w with (rs, st2, t2) => ret (r :: rs, st2, t2) end
       | (_, _, None) => undef
       end)%m
  end.

(* However the delimiters vary and whichever allocations fail: the calls are all
   defined and at most one per character of the text succeeds. *)
Theorem tokenizer_bounded : forall calls st sp out old text pos o,
  represents st sp -> live sp out = Some old ->
  cstr_ok text -> (pos <= length text)%nat ->
  exists rs st' t' o',
    token_calls st {| inputString := text; currentPos := pos |} out calls o
    = Some ((rs, st', t'), o') /\
    length rs = length calls /\
    (length (filter (fun r => r) rs) <= length text - pos)%nat.
Proof.
  induction calls as [|ds calls IH]; intros st sp out old text pos o R L Ht Hp.
  - eexists _, _, _, _. split; [reflexivity|]. split; [reflexivity|cbn; lia].
  - cbn [token_calls]. unfold bind at 1. destruct ds as [|d0 ds0].
    + assert (Es : STRING_TOKENIZER_get_next_token st (Some {| inputString := text; currentPos := pos |})
                    (Some out) (Some []) o
               = Some ((false, st, Some {| inputString := text; currentPos := pos |}), o)).
      { unfold STRING_TOKENIZER_get_next_token. cbn. destruct (_ =? _)%nat; reflexivity. }
      rewrite Es. destruct (IH st sp out old text pos o R L Ht Hp) as (rs & st2 & t2 & o2 & E2 & Hl & Hb).
      unfold bind. rewrite E2. eexists _, _, _, _. split; [reflexivity|]. cbn. split; [lia|exact Hb].
    + destruct (tokenizer_step st sp text pos out old (d0 :: ds0) o R L Ht Hp ltac:(discriminate))
        as (r & st1 & sp1 & pos1 & o1 & Es & R1 & Hp1 & Hs & Hff).
      rewrite Es.
      assert (L1 : exists old1, live sp1 out = Some old1).
      { destruct r.
        - destruct (Hs eq_refl) as (skip & tok & tail & _ & _ & _ & -> & _).
          exists tok. eapply live_upd, L.
        - exists old. destruct (Hff eq_refl) as [-> _].
          destruct (rep_get _ _ _ _ R L) as (b & Hb & W).
          unfold getb in Hb. destruct (nth_error st out) as [[b'|]|] eqn:En; try discriminate.
          assert (X : exists ot, nth_error sp1 out = Some ot).
          { assert (Hx : (out < length sp1)%nat).
            { rewrite <- (rep_len _ _ R1). apply nth_error_Some. congruence. }
            apply nth_error_Some in Hx. destruct (nth_error sp1 out); [eauto|congruence]. }
          destruct X as [ot Hot]. destruct (Forall2_nth_error _ _ _ _ _ R1 Hot) as (x & Hx & Hm).
          assert (x = Some b') by (change (@nth_error (option block) st out = Some x) in Hx; congruence).
          subst x. injection Hb as ->. destruct ot as [t1|]; [|contradiction].
          unfold live. rewrite Hot. f_equal.
          assert (E1 : ctext b = Some t1) by (apply wf_ctext; exact Hm).
          rewrite (wf_ctext _ _ W) in E1. congruence. }
      destruct L1 as [old1 L1].
      destruct (IH st1 sp1 out old1 text pos1 o1 R1 L1 Ht ltac:(lia)) as (rs & st2 & t2 & o2 & E2 & Hl & Hb).
      unfold bind. rewrite E2. eexists _, _, _, _. split; [reflexivity|]. split; [cbn; lia|].
      destruct r; cbn [filter length]; [|lia].
      destruct (Hs eq_refl) as (skip & tok & tail & Et & _ & (c & tok' & -> & _) & _ & Hpos).
      pose proof (f_equal (@length N) Et) as El. rewrite skipn_length, !app_length in El. cbn in El.
      destruct Hpos as [(-> & -> & _)|(d & tail' & -> & _ & _ & ->)]; cbn in *; lia.
Qed.

(* Without a tokenizer, an output string or delimiters a call fails and changes nothing. *)
Theorem tokenizer_null_arguments : forall st tk out ds o, tk = None \/ out = None \/ ds = None ->
  STRING_TOKENIZER_get_next_token st tk out ds o = Some ((false, st, tk), o).
Proof. intros st [t|] [h|] [d|] o [X | [X | X] ]; try discriminate X; reflexivity. Qed.

(* At the end of the text every further call fails and changes nothing. *)
Theorem tokenizer_end_is_final : forall st text out ds o,
  STRING_TOKENIZER_get_next_token st (Some {| inputString := text; currentPos := length text |})
    (Some out) (Some ds) o
  = Some ((false, st, Some {| inputString := text; currentPos := length text |}), o).
Proof.
  intros. unfold STRING_TOKENIZER_get_next_token. cbn. rewrite Nat.sub_diag. reflexivity.
Qed.

(** * The hypotheses are met *)
Example token_demo :
  token_loop 4 [Some (filled [0])] {| inputString := str ",,ab,c,"; currentPos := 0 |} 0 (str ",") []
  = Some (([Some (str "ab"); Some (str "c"); None; None],
           [Some (filled (str "c" ++ [0]))], {| inputString := str ",,ab,c,"; currentPos := 7 |}), []).
Proof. reflexivity. Qed.
Example token_demo_fields : fields (str ",") (str ",,ab,c,") = [str "ab"; str "c"]
  /\ one_delimiter (str ",") (str ",,ab,c,").
Proof.
  split; [reflexivity|]. exists 44. intros c _ [H|[]]. symmetry. exact H.
Qed.
Example token_demo_first_listed :
  STRING_TOKENIZER_get_next_token [Some (filled [0])]
    (Some {| inputString := str "a,b;c"; currentPos := 0 |}) (Some 0%nat) (Some (str ";,")) []
  = Some ((true, [Some (filled (str "a,b" ++ [0]))],
           Some {| inputString := str "a,b;c"; currentPos := 4 |}), []).
Proof. reflexivity. Qed.

Print Assumptions tokenizer_fields_partial.
Print Assumptions tokenizer_bounded.

(** * The tokens for every list of delimiters *)
Lemma split_at (P : N -> Prop) a : forall b c d s t, Forall P a -> Forall P b -> ~ P c -> ~ P d -> a ++ c :: s = b ++ d :: t -> a = b /\ c = d /\ s = t.
Proof.
  induction a as [|x a IH]; intros [|y b] c d s t Ha Hb Hc Hd E; cbn in E.
  - injection E as -> ->. auto.
  - injection E as -> E. inversion Hb; subst. contradiction.
  - injection E as -> E. inversion Ha; subst. contradiction.
  - injection E as -> E. inversion Ha; inversion Hb; subst. destruct (IH b c d s t) as (-> & -> & ->); auto.
Qed.
Lemma skip_unique (P : N -> Prop) a : forall b c t, Forall P a -> Forall P b -> ~ P c -> a = b ++ c :: t -> False.
Proof. intros b c t Ha Hb Hc E. subst a. apply Forall_app in Ha. destruct Ha as [_ Ha]. inversion Ha; contradiction. Qed.
(* there is one list of tokens for a text *)
Theorem listed_unique ds s xs : listed_tokens ds s xs -> forall ys, listed_tokens ds s ys -> xs = ys.
Proof.
  induction 1 as [skip F|skip c tok F C D|skip c tok d b a rest toks F C E B D H IH]; intros ys L.
  - inversion L as [? F2|skip2 c2 tok2 F2 C2 D2 E2|skip2 c2 tok2 d2 b2 a2 rest2 toks2 F2 C2 E2 B2 D2 H2 E3]; [reflexivity| |].
    + destruct (skip_unique (fun c => In c ds) _ _ _ _ F F2 C2 (eq_sym E2)).
    + destruct (skip_unique (fun c => In c ds) _ _ _ _ F F2 C2 (eq_sym E3)).
  - inversion L as [? F2|skip2 c2 tok2 F2 C2 D2 E2|skip2 c2 tok2 d2 b2 a2 rest2 toks2 F2 C2 E2 B2 D2 H2 E3].
    + destruct (skip_unique (fun c => In c ds) _ _ _ _ F2 F C eq_refl).
    + destruct (split_at (fun c => In c ds) skip2 skip c2 c tok2 tok F2 F C2 C E2) as (_ & -> & ->). reflexivity.
    + destruct (split_at (fun c => In c ds) skip2 skip c2 c _ _ F2 F C2 C E3) as (_ & -> & <-). exfalso. rewrite Forall_forall in D. apply (D d2); [rewrite E2; apply in_or_app; right; left; reflexivity|].
      right. apply in_or_app. right. left. reflexivity.
  - inversion L as [? F2|skip2 c2 tok2 F2 C2 D2 E2|skip2 c2 tok2 d2 b2 a2 rest2 toks2 F2 C2 E2 B2 D2 H2 E3].
    + destruct (skip_unique (fun c => In c ds) _ _ _ _ F2 F C eq_refl).
    + destruct (split_at (fun c => In c ds) skip2 skip c2 c _ _ F2 F C2 C E2) as (_ & -> & X). exfalso. rewrite Forall_forall in D2. apply (D2 d); [rewrite E; apply in_or_app; right; left; reflexivity|].
      rewrite X. right. apply in_or_app. right. left. reflexivity.
    + destruct (split_at (fun c => In c ds) skip2 skip c2 c _ _ F2 F C2 C E3) as (_ & -> & X).
      assert (d2 = d).
      { assert (I1 : In d (c :: tok ++ d :: rest)) by (right; apply in_or_app; right; left; reflexivity).
        assert (I2 : In d2 (c :: tok ++ d :: rest)) by (rewrite <- X; right; apply in_or_app; right; left; reflexivity).
        rewrite X in B2. rewrite Forall_forall in B, B2. clear - E E2 B B2 I1 I2. rewrite E in E2. clear E. revert b2 E2 B2. induction b as [|x b IHb]; intros [|y b2] E2 B2; cbn in E2.
        - congruence.
        - injection E2 as -> _. destruct (B2 y (or_introl eq_refl) I1).
        - injection E2 as <- _. destruct (B x (or_introl eq_refl) I2).
        - injection E2 as -> E2. apply (IHb (fun z Hz => B z (or_intror Hz)) b2 E2 (fun z Hz => B2 z (or_intror Hz))). }
      subst d2. destruct (split_at (fun x => x <> d) tok2 tok d d rest2 rest) as (-> & _ & ->).
      * apply Forall_forall. intros z Hz ->. apply D2. right. exact Hz.
      * apply Forall_forall. intros z Hz ->. apply D. right. exact Hz.
      * intros Q. apply Q. reflexivity.
      * intros Q. apply Q. reflexivity.
      * exact X.
      * f_equal. apply IH. exact H2.
Qed.
(* Whatever the delimiters: with memory the calls give these tokens, and then fail for ever. *)
Theorem tokenizer_tokens : forall text ds n st sp out old o t o1,
  represents st sp -> live sp out = Some old -> cstr_ok text -> ds <> [] ->
  STRING_TOKENIZER_create_from_char (Some text) o = Some (Some t, o1) -> ~ In false o ->
  exists toks st' sp' t' o', listed_tokens ds text toks /\
    token_loop n st t out ds o1 = Some ((firstn n (map Some toks ++ repeat None n), st', t'), o') /\ represents st' sp'.
Proof.
  intros text ds n st sp out old o t o1 R L Ht Hds Hc Ho. unfold STRING_TOKENIZER_create_from_char, bind in Hc.
  destruct (allocs_spec 2 o) as (ok & o2 & used & E & Hu & Hf). rewrite E in Hc. destruct ok; cbn in Hc; [|discriminate]. injection Hc as <- <-.
  assert (Ho2 : ~ In false o2) by (intros H; apply Ho; rewrite Hu; apply in_or_app; auto).
  assert (Ex : forall m s, (length s <= m)%nat -> exists toks, listed_tokens ds s toks).
  { clear - Hds. induction m as [|m IH]; intros s Hs; [destruct s; [|cbn in Hs; lia]; exists []; apply no_more; constructor|].
    destruct (skip_split ds s) as (skip & rest & -> & _ & F & C). destruct rest as [|c rest]; [exists []; rewrite app_nil_r; apply no_more, F|].
    assert (K := eot_spec (c :: rest) ds). destruct (end_of_token (c :: rest) ds) as [k|].
    - destruct K as (b & d & a & x & y & -> & E & _ & D & B). destruct x as [|c' x]; cbn in E; injection E as <- E.
      + destruct C. apply in_or_app. right. left. reflexivity.
      + destruct (IH y) as (toks & H); [rewrite app_length in Hs; cbn in Hs; rewrite E, app_length in Hs; cbn in Hs; lia|]. exists ((c :: x) :: toks). rewrite E in *. eapply cut_token; eauto.
    - exists [c :: rest]. apply last_token; assumption. }
  assert (G : forall n st sp (t : tokenizer) old o toks, represents st sp -> live sp out = Some old -> cstr_ok (inputString t) -> (currentPos t <= length (inputString t))%nat -> ~ In false o ->
    listed_tokens ds (ahead t) toks -> exists st' sp' t' o', token_loop n st t out ds o = Some ((pad n toks, st', t'), o') /\ represents st' sp').
  { clear - Hds. induction n as [|n IH]; intros st sp t old o toks R L Ht Hp Ho Lt; [exists st, sp, t, o; split; [reflexivity|exact R]|].
    destruct (token_cases st sp t out old ds o R L Ht Hp Hds) as (skip & rest & E & Hf & H). cbn [token_loop]. unfold bind at 1. destruct rest as [|c rest'].
    - destruct H as (t' & Es & Hi & Hc). rewrite Es. assert (Ha : ahead t' = []) by (unfold ahead; rewrite Hc, Hi; apply skipn_all).
      assert (toks = []) as -> by (eapply listed_unique; [exact Lt|]; rewrite E, app_nil_r; apply no_more, Hf).
      destruct (IH st sp t' old o [] R L) as (st2 & sp2 & t2 & o2 & E2 & R2); [rewrite Hi; exact Ht|rewrite Hc, Hi; lia|exact Ho|rewrite Ha; apply no_more; constructor|].
      exists st2, sp2, t2, o2. split; [|exact R2]. unfold bind, ret. rewrite E2, pad_nil. reflexivity.
    - destruct H as [Hc [(o' & _ & Hin)|H]]; [contradiction|]. destruct H as (st' & o' & used & tok & tail & pos' & Es & R' & Hu & Er & Hne & Htail). rewrite Es.
      set (t' := {| inputString := inputString t; currentPos := pos' |}). assert (L' : live (upd sp out (Some tok)) out = Some tok) by (eapply live_upd; exact L).
      assert (Ho' : ~ In false o') by (intros Hin; apply Ho; rewrite Hu; apply in_or_app; auto).
      assert (Hlen : length (ahead t) = (length skip + length tok + length tail)%nat) by (rewrite E, Er, !app_length; lia). unfold ahead in Hlen at 1. rewrite skipn_length in Hlen.
      assert (Hpos : (pos' <= length (inputString t))%nat) by (destruct tail; [lia|]; destruct Htail as (_ & _ & ->); cbn in Hlen; lia).
      assert (Hah : ahead t' = skipn 1 tail).
      { unfold ahead, t'. cbn [inputString currentPos]. destruct tail as [|d tail].
        - destruct Htail as [_ ->]. rewrite skipn_all. reflexivity.
        - destruct Htail as (_ & _ & ->). rewrite <- !Nat.add_assoc, !skipn_add. fold (ahead t). rewrite E, Er.
          rewrite skipn_app, skipn_all, Nat.sub_diag. cbn [skipn app]. rewrite skipn_app, skipn_all, Nat.sub_diag. reflexivity. }
      destruct tok as [|c' tok]; [congruence|]. cbn in Er. injection Er as <- Er. 
      assert (T : exists more, toks = (c :: tok) :: more /\ listed_tokens ds (skipn 1 tail) more).
      { destruct tail as [|d tail].
        - exists []. split; [|apply no_more; constructor]. eapply listed_unique; [exact Lt|]. rewrite E, Er, app_nil_r. apply last_token; [exact Hf|exact Hc|apply Htail].
        - cbn [skipn]. destruct Htail as ((b & a & Eds & B) & D & _). assert (X : exists more, listed_tokens ds tail more).
          { clear - Lt E Er Eds B D Hf Hc. rewrite E, Er in Lt. inversion Lt as [? F2 E2|skip2 c2 tok2 F2 C2 D2 E2|skip2 c2 tok2 d2 b2 a2 rest2 toks2 F2 C2 E2 B2 D2 H2 E3].
            - exists []. subst. apply Forall_app in F2. destruct F2 as (_ & F2). inversion F2 as [|? ? F3]; subst. contradiction.
            - exfalso. destruct (split_at (fun c => In c ds) skip2 skip c2 c _ _ F2 Hf C2 Hc E2) as (_ & -> & X). rewrite Forall_forall in D2. apply (D2 d); [rewrite Eds; apply in_or_app; right; left; reflexivity|].
              rewrite X. right. apply in_or_app. right. left. reflexivity.
            - destruct (split_at (fun c => In c ds) skip2 skip c2 c _ _ F2 Hf C2 Hc E3) as (_ & -> & X). rewrite Er, <- X in B.
              assert (d2 = d).
              { assert (I1 : In d (c :: tok2 ++ d2 :: rest2)) by (rewrite X; right; apply in_or_app; right; left; reflexivity).
                assert (I2 : In d2 (c :: tok2 ++ d2 :: rest2)) by (right; apply in_or_app; right; left; reflexivity).
                rewrite Forall_forall in B, B2. clear - Eds E2 B B2 I1 I2. rewrite Eds in E2. clear Eds. revert b2 E2 B2. induction b as [|x b IHb]; intros [|y b2] E2 B2; cbn in E2.
                - congruence.
                - injection E2 as -> _. destruct (B2 y (or_introl eq_refl) I1).
                - injection E2 as <- _. destruct (B x (or_introl eq_refl) I2).
                - injection E2 as -> E2. apply (IHb (fun z Hz => B z (or_intror Hz)) b2 E2 (fun z Hz => B2 z (or_intror Hz))). }
              subst d2. destruct (split_at (fun x => x <> d) tok2 tok d d rest2 tail) as (-> & _ & ->).
              + apply Forall_forall. intros z Hz ->. apply D2. right. exact Hz.
              + apply Forall_forall. intros z Hz ->. apply D. right. exact Hz.
              + intros Q. apply Q. reflexivity.
              + intros Q. apply Q. reflexivity.
              + exact X.
              + exists toks2. exact H2. }
          destruct X as (more & M). exists more. split; [|exact M]. eapply listed_unique; [exact Lt|]. rewrite E, Er. eapply cut_token; eauto. rewrite <- Er. exact B. }
      destruct T as (more & -> & M). destruct (IH st' _ t' (c :: tok) o' more R' L' Ht Hpos Ho') as (st2 & sp2 & t2 & o2 & E2 & R2); [rewrite Hah; exact M|].
      exists st2, sp2, t2, o2. split; [|exact R2]. unfold bind, ret. rewrite (cstr_str_read _ _ _ _ _ R' L'), E2, pad_cons. reflexivity. }
  destruct (Ex (length text) text (Nat.le_refl _)) as (toks & Lt). exists toks.
  destruct (G n st sp {| inputString := text; currentPos := 0 |} old o2 toks) as (st' & sp' & t' & o' & E2 & R2); try assumption; [cbn; lia|].
  exists st', sp', t', o'. split; [exact Lt|]. split; [exact E2|exact R2].
Qed.
Theorem tokenizer_tokens_case : listed_tokens (str ";,") (str ",a,b;c,,") [str "a,b"; str "c"].
Proof.
  change (str ",a,b;c,,") with (str "," ++ ch "a" :: str ",b" ++ ch ";" :: str "c,,"). apply (cut_token _ (str ",") (ch "a") (str ",b") (ch ";") [] (str ",")).
  - constructor; [right; left; reflexivity|constructor].
  - intros [H|[H|[] ] ]; discriminate.
  - reflexivity.
  - constructor.
  - intros [H|[H|[H|[] ] ] ]; discriminate.
  - change (str "c,,") with ([] ++ ch "c" :: [] ++ ch "," :: str ","). apply (cut_token _ [] (ch "c") [] (ch ",") (str ";") []).
    + constructor.
    + intros [H|[H|[] ] ]; discriminate.
    + reflexivity.
    + constructor; [|constructor]. intros [H|[H|[H|[] ] ] ]; discriminate.
    + intros [H|[] ]; discriminate.
    + apply no_more. constructor; [right; left; reflexivity|constructor].
Qed.
