From Verif Require Import Base UMockName_Model UMockName_Spec.

(** * The passes over the string *)
Definition gap (prev : option N) (c : N) : bool := match prev with None => false | Some p => negb (p =? 42)%N && negb (c =? 42)%N end.
(* what is written, character by character *)
Fixpoint auto (prev : option N) (pend : bool) (s : list N) : list N :=
  match s with
  | [] => []
  | c :: s => if isspace c then auto prev true s else (if pend && gap prev c then [32%N] else []) ++ c :: auto (Some c) false s
  end.
Fixpoint span (f : N -> bool) (l : list N) : list N * list N :=
  match l with
  | [] => ([], [])
  | c :: t => if f c then let '(a, b) := span f t in (c :: a, b) else ([], l)
  end.
Lemma span_spec f l a b : span f l = (a, b) -> l = a ++ b /\ forallb f a = true /\ match b with c :: _ => f c = false | [] => True end.
Proof.
  revert a b; induction l as [|c t IH]; intros a b E; cbn in E; [injection E as <- <-; auto|].
  destruct (f c) eqn:F; [|injection E as <- <-; auto]. destruct (span f t) as [a' b'] eqn:S. injection E as <- <-.
  destruct (IH _ _ eq_refl) as (-> & A & B). cbn. now rewrite F.
Qed.
Lemma char_in pre c rest : char_at (pre ++ c :: rest) (length pre) = Some c.
Proof. unfold char_at. rewrite <- app_assoc. rewrite nth_error_app2 by lia. now rewrite Nat.sub_diag. Qed.
Lemma char_end pre : char_at pre (length pre) = Some 0%N.
Proof. unfold char_at. rewrite nth_error_app2 by lia. now rewrite Nat.sub_diag. Qed.
Lemma skip_spaces_at fuel : forall pre sp r1, cstr_ok (pre ++ sp ++ r1) -> forallb isspace sp = true -> match r1 with c :: _ => isspace c = false | [] => True end ->
  length sp < fuel -> skip_spaces fuel (pre ++ sp ++ r1) (length pre) = Some (length (pre ++ sp)).
Proof.
  induction fuel as [|fuel IH]; intros pre sp r1 K A B L; [lia|]. cbn [skip_spaces]. destruct sp as [|c sp].
  - cbn [app] in *. rewrite app_nil_r. destruct r1 as [|c r1].
    + rewrite app_nil_r, char_end. reflexivity.
    + rewrite char_in, B, andb_false_r. reflexivity.
  - cbn [forallb] in A. apply andb_true_iff in A. destruct A as [A1 A2]. cbn [app]. rewrite char_in, A1, andb_true_r.
    assert (Z : (c =? 0)%N = false). { apply N.eqb_neq. unfold cstr_ok in K. rewrite Forall_forall in K. specialize (K c ltac:(rewrite in_app_iff; right; left; auto)). unfold char_ok in K. lia. }
    rewrite Z. cbn [negb]. specialize (IH (pre ++ [c]) sp r1). rewrite <- !app_assoc in IH. cbn [app] in IH. rewrite app_length in IH. cbn in IH.
    rewrite Nat.add_1_r in IH. apply IH; auto. cbn in L. lia.
Qed.
Lemma count_word_at fuel : forall pre w r2 len, cstr_ok (pre ++ w ++ r2) -> forallb (fun c => negb (isspace c)) w = true -> match r2 with c :: _ => isspace c = true | [] => True end ->
  length w < fuel -> count_word fuel (pre ++ w ++ r2) (length pre) len = Some (length (pre ++ w), len + length w).
Proof.
  induction fuel as [|fuel IH]; intros pre w r2 len K A B L; [lia|]. cbn [count_word]. destruct w as [|c w].
  - cbn [app] in *. rewrite app_nil_r, Nat.add_0_r. destruct r2 as [|c r2].
    + rewrite app_nil_r, char_end. reflexivity.
    + rewrite char_in, B, andb_false_r. reflexivity.
  - cbn [forallb] in A. apply andb_true_iff in A. destruct A as [A1 A2]. cbn [app]. rewrite char_in, A1, andb_true_r.
    assert (Z : (c =? 0)%N = false). { apply N.eqb_neq. unfold cstr_ok in K. rewrite Forall_forall in K. specialize (K c ltac:(rewrite in_app_iff; right; left; auto)). unfold char_ok in K. lia. }
    rewrite Z. cbn [negb]. specialize (IH (pre ++ [c]) w r2 (S len)). rewrite <- !app_assoc in IH. cbn [app] in IH. rewrite app_length in IH. cbn in IH.
    rewrite Nat.add_1_r in IH. rewrite IH; auto; [f_equal; f_equal; cbn; lia|cbn in L; lia].
Qed.
Lemma copy_word_at fuel : forall pre w r2 done post, cstr_ok (pre ++ w ++ r2) -> forallb (fun c => negb (isspace c)) w = true -> match r2 with c :: _ => isspace c = true | [] => True end ->
  length w < fuel -> copy_word fuel (pre ++ w ++ r2) (length pre) (filled done ++ fresh (length w) ++ post) (length done)
  = Some (length (pre ++ w), filled (done ++ w) ++ post, length (done ++ w)).
Proof.
  induction fuel as [|fuel IH]; intros pre w r2 done post K A B L; [lia|]. cbn [copy_word]. destruct w as [|c w].
  - cbn [app length fresh repeat] in *. rewrite !app_nil_r. destruct r2 as [|c r2].
    + rewrite app_nil_r, char_end. reflexivity.
    + rewrite char_in, B, andb_false_r. reflexivity.
  - cbn [forallb] in A. apply andb_true_iff in A. destruct A as [A1 A2]. cbn [app]. rewrite char_in, A1, andb_true_r.
    assert (Z : (c =? 0)%N = false). { apply N.eqb_neq. unfold cstr_ok in K. rewrite Forall_forall in K. specialize (K c ltac:(rewrite in_app_iff; right; left; auto)). unfold char_ok in K. lia. }
    rewrite Z. cbn [negb length fresh repeat app].
    pose proof (store_app (filled done) None (repeat None (length w) ++ post) c) as S. rewrite filled_length in S. rewrite S. clear S.
    specialize (IH (pre ++ [c]) w r2 (done ++ [c]) post). unfold filled in *. rewrite map_app in IH. rewrite <- !app_assoc in IH. cbn [app map] in IH. rewrite !app_length in IH. cbn in IH.
    rewrite !Nat.add_1_r in IH. unfold fresh in IH. rewrite IH; auto; [|cbn in L; lia]. now rewrite !app_length.
Qed.

Definition last_of (l : list N) : option N := match rev l with [] => None | c :: _ => Some c end.
Lemma last_of_app l c : last_of (l ++ [c]) = Some c.
Proof. unfold last_of. now rewrite rev_app_distr. Qed.
Lemma auto_spaces prev pend sp r : forallb isspace sp = true -> auto prev pend (sp ++ r) = auto prev (pend || negb (length sp =? 0)) r.
Proof.
  revert pend; induction sp as [|c sp IH]; intros pend A; cbn in A; cbn [app length Nat.eqb negb].
  - now rewrite orb_false_r.
  - apply andb_true_iff in A. destruct A as [A1 A2]. cbn [auto]. rewrite A1, IH by auto. now rewrite orb_true_r.
Qed.
Lemma auto_word prev pend w r : w <> [] -> forallb (fun c => negb (isspace c)) w = true ->
  auto prev pend (w ++ r) = (if pend && gap prev (hd 0%N w) then [32%N] else []) ++ w ++ auto (last_of w) false r.
Proof.
  revert prev pend; induction w as [|c w IH]; intros prev pend N A; [congruence|]. cbn [forallb] in A. apply andb_true_iff in A. destruct A as [A1 A2].
  cbn [app auto hd]. apply negb_true_iff in A1. rewrite A1. do 2 f_equal. destruct w as [|d w]; [reflexivity|].
  rewrite IH by (auto; discriminate). cbn [andb app]. do 3 f_equal. change (c :: d :: w) with ([c] ++ (d :: w)). unfold last_of. rewrite rev_app_distr.
  cbn [rev]. destruct (rev w ++ [d]) eqn:E; [now destruct (rev w)|reflexivity].
Qed.
Lemma last_of_cat a b : b <> [] -> last_of (a ++ b) = last_of b.
Proof. intros N. unfold last_of. rewrite rev_app_distr. destruct (rev b) eqn:E; [|reflexivity]. apply (f_equal (@rev _)) in E. rewrite rev_involutive in E. cbn in E. congruence. Qed.
Lemma char_last pre c rest : pre <> [] -> char_at (pre ++ rest) (length pre - 1) = Some c -> last_of pre = Some c.
Proof.
  intros N H. destruct (exists_last N) as (l & d & ->). rewrite last_of_app. rewrite app_length in H. cbn in H.
  replace (length l + 1 - 1) with (length l) in H by lia. rewrite <- app_assoc in H. cbn in H. rewrite char_in in H. congruence.
Qed.
Lemma no_space_at pre sp r1 : cstr_ok (pre ++ sp ++ r1) ->
  no_space (pre ++ sp ++ r1) (length pre) (length (pre ++ sp)) =
  Some (match r1 with [] => true | c :: _ => negb (gap (last_of pre) c) end).
Proof.
  intros K. unfold no_space. destruct (Nat.eqb_spec (length pre) 0) as [E|E].
  { apply length_zero_iff_nil in E. subst. cbn. now destruct r1. }
  assert (N : pre <> []) by (intros ->; now apply E). destruct (exists_last N) as (l & d & ->).
  assert (P : char_at ((l ++ [d]) ++ sp ++ r1) (length (l ++ [d]) - 1) = Some d).
  { rewrite app_length. cbn. replace (length l + 1 - 1) with (length l) by lia. rewrite <- app_assoc. cbn. apply char_in. }
  rewrite P, last_of_app. destruct r1 as [|c r1].
  - rewrite app_nil_r, char_end. reflexivity.
  - rewrite (app_assoc (l ++ [d]) sp (c :: r1)), char_in.
    assert (Z : (c =? 0)%N = false). { apply N.eqb_neq. unfold cstr_ok in K. rewrite Forall_forall in K. specialize (K c). rewrite !in_app_iff in K. specialize (K ltac:(right; right; left; auto)). unfold char_ok in K. lia. }
    rewrite Z. cbn [orb gap]. now rewrite negb_andb, !negb_involutive.
Qed.

Definition aligned (pre rest : list N) : Prop := pre = [] \/ match rest with c :: _ => isspace c = true | [] => True end.
(* one round of the outer loop *)
Lemma round pre rest : cstr_ok (pre ++ rest) -> rest <> [] -> aligned pre rest ->
  exists sp w r2, rest = sp ++ w ++ r2 /\ forallb isspace sp = true /\ forallb (fun c => negb (isspace c)) w = true /\
    match w ++ r2 with c :: _ => isspace c = false | [] => True end /\ match r2 with c :: _ => isspace c = true | [] => True end /\
    sp ++ w <> [] /\ aligned (pre ++ sp ++ w) r2 /\
    auto (last_of pre) false rest = (match w with [] => [] | c :: _ => if gap (last_of pre) c then [32%N] else [] end) ++ w ++ auto (last_of (pre ++ sp ++ w)) false r2.
Proof.
  intros K N A. destruct (span isspace rest) as [sp r1] eqn:S1. destruct (span (fun c => negb (isspace c)) r1) as [w r2] eqn:S2.
  destruct (span_spec _ _ _ _ S1) as (-> & P1 & Q1). destruct (span_spec _ _ _ _ S2) as (-> & P2 & Q2).
  assert (R2 : match r2 with c :: _ => isspace c = true | [] => True end) by (destruct r2; auto; now apply negb_false_iff in Q2).
  exists sp, w, r2. split; [auto|split; [auto|split; [auto|split; [exact Q1|split; [exact R2|split; [|split] ] ] ] ] ].
  - intros E. apply app_eq_nil in E. destruct E as [-> ->]. cbn in *. destruct r2 as [|c r2]; [now apply N|]. congruence.
  - right. exact R2.
  - rewrite auto_spaces by auto. cbn [orb]. destruct w as [|c w].
    + cbn [app]. destruct r2 as [|c r2]; [reflexivity|]. cbn in Q1. congruence.
    + rewrite auto_word by (auto; discriminate). cbn [hd]. replace (last_of (pre ++ sp ++ c :: w)) with (last_of (c :: w)).
      2:{ rewrite !last_of_cat; auto; try discriminate. intros E. apply app_eq_nil in E. destruct E; discriminate. }
      f_equal. destruct sp as [|d sp]; [|reflexivity]. cbn [length Nat.eqb negb andb]. destruct A as [->|A]; [reflexivity|]. cbn in A, Q1. congruence.
Qed.
Lemma measure_at fuel : forall pre rest len, cstr_ok (pre ++ rest) -> aligned pre rest -> length rest < fuel ->
  measure fuel (pre ++ rest) (length pre) len = Some (len + length (auto (last_of pre) false rest)).
Proof.
  induction fuel as [|fuel IH]; intros pre rest len K A L; [lia|]. cbn [measure]. destruct rest as [|c rest].
  { rewrite app_nil_r, char_end. cbn. f_equal. lia. }
  rewrite char_in. assert (Z : (c =? 0)%N = false). { apply N.eqb_neq. unfold cstr_ok in K. rewrite Forall_forall in K. specialize (K c ltac:(rewrite in_app_iff; right; left; auto)). unfold char_ok in K. lia. }
  rewrite Z. destruct (round pre (c :: rest) K ltac:(discriminate) A) as (sp & w & r2 & E & P1 & P2 & Q1 & Q2 & N & A' & R). rewrite E in *.
  rewrite skip_spaces_at; auto; [|rewrite !app_length; lia]. rewrite no_space_at by auto.
  assert (F : length r2 < fuel). { rewrite !app_length in L. destruct sp, w; cbn in *; try lia. congruence. }
  assert (Kw : cstr_ok ((pre ++ sp) ++ w ++ r2)) by now rewrite <- app_assoc.
  rewrite (app_assoc pre sp). rewrite count_word_at; auto; [|rewrite !app_length; lia]. rewrite R.
  rewrite <- !app_assoc. rewrite <- !app_assoc in Kw. specialize (IH (pre ++ sp ++ w) r2). rewrite <- !app_assoc in IH. rewrite IH; auto. f_equal.
  rewrite !app_length. destruct w as [|d w]; cbn [app]; [destruct r2 as [|d r2]; [cbn; lia|cbn in Q1; congruence]|]. destruct (gap _ d); cbn; lia.
Qed.
Lemma fill_at fuel : forall pre rest done post, cstr_ok (pre ++ rest) -> aligned pre rest -> length rest < fuel ->
  let t := auto (last_of pre) false rest in
  fill fuel (pre ++ rest) (length pre) (filled done ++ fresh (length t) ++ post) (length done) = Some (filled (done ++ t) ++ post, length (done ++ t)).
Proof.
  induction fuel as [|fuel IH]; intros pre rest done post K A L t; [lia|]. cbn [fill]. subst t. destruct rest as [|c rest].
  { rewrite app_nil_r, char_end. cbn. now rewrite app_nil_r. }
  rewrite char_in. assert (Z : (c =? 0)%N = false). { apply N.eqb_neq. unfold cstr_ok in K. rewrite Forall_forall in K. specialize (K c ltac:(rewrite in_app_iff; right; left; auto)). unfold char_ok in K. lia. }
  rewrite Z. destruct (round pre (c :: rest) K ltac:(discriminate) A) as (sp & w & r2 & E & P1 & P2 & Q1 & Q2 & N & A' & R). rewrite E in *.
  rewrite skip_spaces_at; auto; [|rewrite !app_length; lia]. rewrite no_space_at by auto.
  assert (F : length r2 < fuel). { rewrite !app_length in L. destruct sp, w; cbn in *; try lia. congruence. }
  assert (Kw : cstr_ok ((pre ++ sp) ++ w ++ r2)) by now rewrite <- app_assoc.
  rewrite R.
  set (g := match w with [] => [] | d :: _ => if gap (last_of pre) d then [32%N] else [] end) in *.
  set (rest' := auto (last_of (pre ++ sp ++ w)) false r2) in *.
  assert (S : (if match w ++ r2 with [] => true | c0 :: _ => negb (gap (last_of pre) c0) end
     then Some (filled done ++ fresh (length (g ++ w ++ rest')) ++ post, length done)
     else match store (filled done ++ fresh (length (g ++ w ++ rest')) ++ post) (length done) 32%N with Some r => Some (r, S (length done)) | None => None end)
     = Some (filled (done ++ g) ++ fresh (length w) ++ fresh (length rest') ++ post, length (done ++ g))).
  { assert (U : forall n m, fresh (n + m) = fresh n ++ fresh m) by (intros; unfold fresh; apply repeat_app).
    destruct w as [|d w]; cbn [app].
    - destruct r2 as [|d r2]; [subst g; cbn [app length fresh repeat]; now rewrite !app_nil_r|cbn in Q1; congruence].
    - subst g. destruct (gap (last_of pre) d); cbn [negb app length].
      + cbn [fresh repeat app]. pose proof (store_app (filled done) None (repeat None (S (length (w ++ rest'))) ++ post) 32%N) as S. rewrite filled_length in S.
        cbn [repeat app] in S. rewrite S. unfold filled, fresh. rewrite map_app, !app_length, repeat_app. cbn [map length app repeat]. rewrite <- !app_assoc. cbn [app].
        rewrite Nat.add_1_r. reflexivity.
      + rewrite !app_nil_r. rewrite app_length. unfold fresh. cbn [repeat app]. rewrite repeat_app, <- app_assoc. reflexivity. }
  rewrite S. clear S. rewrite (app_assoc pre sp).
  rewrite copy_word_at; auto; [|rewrite !app_length; lia].
  rewrite <- !app_assoc. rewrite <- !app_assoc in Kw. specialize (IH (pre ++ sp ++ w) r2 (done ++ g ++ w) post). rewrite <- !app_assoc in IH. cbn zeta in IH. fold rest' in IH. rewrite IH; auto. now rewrite <- !app_assoc.
Qed.

(** * The characters are those of the specification *)
Lemma white_isspace c : white c = isspace c.
Proof. unfold white, isspace. cbn [existsb]. lia. Qed.
Lemma lex_word s : forall cur, cur <> [] -> exists w ts, lex cur s = Word w :: ts.
Proof.
  induction s as [|c s IH]; intros cur N; cbn [lex].
  - destruct cur; [congruence|]. cbn. eauto.
  - destruct (white c); [destruct cur; [congruence|]; cbn; eauto|]. destruct (c =? 42)%N; [destruct cur; [congruence|]; cbn; eauto|].
    apply IH. now destruct cur.
Qed.
Lemma render_word a ts : render (Word a :: ts) = a ++ match ts with Word _ :: _ => 32%N :: render ts | _ => render ts end.
Proof. reflexivity. Qed.
Lemma auto_lex s :
  (forall cur p, cur <> [] -> p <> 42%N -> render (lex cur s) = cur ++ auto (Some p) false s) /\
  (forall a p, p <> 42%N -> render (Word a :: lex [] s) = a ++ auto (Some p) true s) /\
  (forall prev pend, prev = None \/ prev = Some 42%N -> render (lex [] s) = auto prev pend s).
Proof.
  induction s as [|c s IH].
  - repeat split; intros; cbn; auto. destruct cur; [congruence|]. cbn. reflexivity.
  - destruct IH as (IA & IB & IC). repeat split.
    + intros cur p N P. cbn [lex auto]. rewrite white_isspace. destruct (isspace c) eqn:W.
      { destruct cur as [|d cur]; [congruence|]. cbn [flush app]. now apply (IB (d :: cur)). }
      cbn [andb app]. destruct (N.eqb_spec c 42) as [->|D].
      * destruct cur as [|d cur]; [congruence|]. cbn [flush app]. cbn [render]. cbn [app]. do 3 f_equal. now apply IC; right.
      * rewrite (IA (cur ++ [c]) c); auto; [now rewrite <- app_assoc|]. now destruct cur.
    + intros a p P. cbn [lex auto]. rewrite white_isspace. destruct (isspace c) eqn:W; [cbn [flush app]; now apply IB|].
      cbn [andb gap]. destruct (N.eqb_spec c 42) as [->|D].
      * cbn [flush app]. rewrite render_word. cbn [negb andb]. rewrite andb_false_r. cbn [app render]. do 2 f_equal. apply IC. now right.
      * cbn [app negb]. destruct (N.eqb_spec p 42) as [->|P']; [congruence|]. cbn [negb andb]. rewrite render_word.
        destruct (lex_word s [c]) as (w & ts & E); [discriminate|]. rewrite E. rewrite <- E. rewrite (IA [c] c); auto. discriminate.
    + intros prev pend P. cbn [lex auto]. rewrite white_isspace. destruct (isspace c) eqn:W; [cbn [flush app]; now apply IC|].
      assert (G : gap prev c = false) by (destruct P as [->| ->]; reflexivity). rewrite G, andb_false_r. cbn [app].
      destruct (N.eqb_spec c 42) as [->|D].
      * cbn [flush app render]. f_equal. apply IC. now right.
      * rewrite (IA [c] c); auto. discriminate.
Qed.
Lemma auto_tokens s : auto None false s = render (tokens s).
Proof. symmetry. apply auto_lex. now left. Qed.

(** * umocktypename_normalize (C153) *)
(* the tokens of a text, and that the normal name has the same tokens *)
Definition plain (c : N) : Prop := white c = false /\ c <> 42%N.
Definition proper (ts : list token) : Prop := Forall (fun t => match t with Word w => w <> [] /\ Forall plain w | Star => True end) ts.
Lemma proper_app a b : proper a -> proper b -> proper (a ++ b).
Proof. unfold proper. intros. now apply Forall_app. Qed.
Lemma lex_proper s : forall cur, Forall plain cur -> proper (lex cur s).
Proof.
  assert (F : forall cur, Forall plain cur -> proper (flush cur)) by (intros [|d cur] H; cbn; constructor; [split; [discriminate|auto]|constructor]).
  induction s as [|c s IH]; intros cur H; cbn [lex]; [auto|].
  destruct (white c) eqn:W; [apply proper_app; [apply F; auto|apply IH; constructor]|]. destruct (N.eqb_spec c 42) as [->|D].
  - apply proper_app; [apply F; auto|]. constructor; [exact Logic.I|]. apply IH. constructor.
  - apply IH. apply Forall_app. split; [auto|]. constructor; [split; auto|constructor].
Qed.
Lemma lex_plain w s : Forall plain w -> forall cur, lex cur (w ++ s) = lex (cur ++ w) s.
Proof.
  induction 1 as [|c w [P1 P2] _ IH]; intros cur; [now rewrite app_nil_r|]. cbn [app lex]. rewrite P1. apply N.eqb_neq in P2. rewrite P2, IH, <- app_assoc. reflexivity.
Qed.
Lemma lex_flush s cur : match s with [] => True | c :: _ => white c = true \/ c = 42%N end -> lex cur s = flush cur ++ lex [] s.
Proof. destruct s as [|c s]; cbn [lex]; [now rewrite app_nil_r|]. intros [->| ->]; [reflexivity|]. cbn. reflexivity. Qed.
Lemma lex_render ts : proper ts -> lex [] (render ts) = ts.
Proof.
  induction ts as [|t ts IH]; intros P; [reflexivity|]. inversion P as [|? ? P1 P2]; subst. destruct t as [w|].
  - destruct P1 as [N W]. cbn [render]. rewrite lex_plain by auto. cbn [app]. rewrite lex_flush.
    + replace (flush w) with [Word w] by (now destruct w). cbn [app]. f_equal. destruct ts as [|[v|] ts]; auto.
    + destruct ts as [|[v|] ts]; cbn; auto.
  - cbn [render lex]. cbn. f_equal. auto.
Qed.
Theorem tokens_normal s : tokens (render (tokens s)) = tokens s.
Proof. apply lex_render, lex_proper. constructor. Qed.
Lemma render_nil s : render (tokens s) = [] <-> tokens s = [].
Proof. split; [|now intros ->]. intros H. rewrite <- tokens_normal, H. reflexivity. Qed.

(* The new string is the normal name: it is NULL only for NULL, a name of white space, or no memory; every read
   and write is inside the strings. *)
Theorem normalize_spec name o : (forall s, name = Some s -> cstr_ok s) ->
  exists r o' used, umocktypename_normalize name o = Some (r, o') /\ o = used ++ o' /\
   match name with
   | None => r = None
   | Some s =>
       (tokens s = [] -> r = None) /\ (tokens s <> [] -> r = None -> In false used) /\
       (forall b, r = Some b -> b = filled (render (tokens s) ++ [0%N]))
   end.
Proof.
  intros K. destruct name as [s|]; [|exists None, o, []; auto]. specialize (K s eq_refl).
  cbn [umocktypename_normalize]. unfold bind, lift. pose proof (measure_at (S (length s)) [] s 0 K) as M. cbn [app length last_of rev] in M.
  rewrite M by (try (now left); lia). clear M. rewrite auto_tokens. destruct (Nat.eqb_spec (0 + length (render (tokens s))) 0) as [E|E].
  { cbn in E. apply length_zero_iff_nil, render_nil in E. exists None, o, []. split; [reflexivity|]. split; [reflexivity|]. split; [auto|split; [congruence|discriminate] ]. }
  destruct (alloc_spec o) as (ok & o1 & used & A & U & F). rewrite A. destruct ok; cbn [negb].
  2:{ exists None, o1, used. split; [reflexivity|]. split; [exact U|]. split; [auto|split; [|discriminate] ]. auto. }
  pose proof (fill_at (S (length s)) [] s [] (fresh 1) K) as L. cbn [app length last_of rev filled map] in L. rewrite auto_tokens in L.
  cbn [Nat.add]. replace (fresh (S (length (render (tokens s))))) with (fresh (length (render (tokens s))) ++ fresh 1).
  2:{ unfold fresh. rewrite <- repeat_app. f_equal. lia. }
  rewrite L by (try (now left); lia). cbn [fst snd fresh repeat].
  pose proof (store_app (filled (render (tokens s))) None [] 0%N) as S. rewrite filled_length in S. unfold filled in S. rewrite S.
  eexists _, o1, used. split; [reflexivity|]. split; [exact U|]. split; [|split; [discriminate|] ].
  - intros T. rewrite T in E. cbn in E. congruence.
  - intros b X. injection X as <-. unfold filled. now rewrite map_app.
Qed.
(* Two names have the same normal form exactly when they are the same words and stars; normalising again changes
   nothing. *)
Theorem normalize_same s t : render (tokens s) = render (tokens t) <-> tokens s = tokens t.
Proof. split; [|congruence]. intros H. now rewrite <- (tokens_normal s), H, tokens_normal. Qed.
Theorem normalize_idempotent s : render (tokens (render (tokens s))) = render (tokens s).
Proof. now rewrite tokens_normal. Qed.

Example normalize_case : umocktypename_normalize (Some (str "  const   char *  * x ")) [] = Some (Some (filled (str "const char**x" ++ [0%N])), []) /\
  tokens (str "  const   char *  * x ") = [Word (str "const"); Word (str "char"); Star; Star; Word (str "x")] /\
  umocktypename_normalize (Some (str "   ")) [] = Some (None, []) /\ cstr_ok (str "  const   char *  * x ").
Proof. repeat split; try reflexivity. repeat (constructor; [vm_compute; auto|]). constructor. Qed.
