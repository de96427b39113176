(* The scanning functions on the parts of a reply. *)
From Verif Require Import Base Map_Model HttpHeaders_Spec HttpApiMbed_Model HttpApiMbed_Spec HttpApiMbed_Read.
Local Open Scope Z_scope.

Lemma isspace_iff c : isspace c = true <-> is_space c.
Proof. unfold isspace, is_space. lia. Qed.

Lemma skip_spaces_app sp v : Forall is_space sp -> skip_spaces (sp ++ v) = skip_spaces v.
Proof.
  induction 1 as [|c sp Hc _ IH]; [reflexivity|]. cbn [app skip_spaces].
  rewrite (proj2 (isspace_iff c) Hc). exact IH.
Qed.
Lemma skip_spaces_none c v : ~ is_space c -> skip_spaces (c :: v) = c :: v.
Proof.
  intros NS. cbn [skip_spaces]. destruct (isspace c) eqn:E; [|reflexivity]. now apply isspace_iff in E.
Qed.
(* what skip_spaces leaves *)
Lemma skip_spaces_spec s : exists sp, s = sp ++ skip_spaces s /\ Forall is_space sp /\
  match skip_spaces s with [] => True | c :: _ => ~ is_space c end.
Proof.
  induction s as [|c s (sp & E & F & G)]; [exists []; repeat split; constructor|].
  cbn [skip_spaces]. destruct (isspace c) eqn:S.
  - exists (c :: sp). split; [cbn; now rewrite <- E|]. split; [|exact G]. constructor; [now apply isspace_iff|exact F].
  - exists []. split; [reflexivity|]. split; [constructor|]. intros X. apply isspace_iff in X. congruence.
Qed.

Lemma dec_digit_ok c : is_dec c -> dec_digit c = Some (digit_of c).
Proof.
  unfold is_dec, dec_digit, digit_of. intros I.
  replace ((48 <=? c) && (c <=? 57))%N with true by (symmetry; lia).
  replace (c <=? 57)%N with true by (symmetry; lia). reflexivity.
Qed.
Lemma hex_digit_ok c : is_hex c -> hex_digit c = Some (digit_of c).
Proof.
  unfold is_hex, hex_digit, digit_of. intros [I|[I|I] ].
  - replace ((48 <=? c) && (c <=? 57))%N with true by (symmetry; lia).
    replace (c <=? 57)%N with true by (symmetry; lia). reflexivity.
  - replace ((48 <=? c) && (c <=? 57))%N with false by (symmetry; lia).
    replace ((97 <=? c) && (c <=? 102))%N with true by (symmetry; lia).
    replace (c <=? 57)%N with false by (symmetry; lia).
    replace (c <=? 70)%N with false by (symmetry; lia). reflexivity.
  - replace ((48 <=? c) && (c <=? 57))%N with false by (symmetry; lia).
    replace ((97 <=? c) && (c <=? 102))%N with false by (symmetry; lia).
    replace ((65 <=? c) && (c <=? 70))%N with true by (symmetry; lia).
    replace (c <=? 57)%N with false by (symmetry; lia).
    replace (c <=? 70)%N with true by (symmetry; lia). reflexivity.
Qed.

Section digits.
Context (digit : N -> option Z) (base : Z) (P : N -> Prop).
Hypothesis digit_ok : forall c, P c -> digit c = Some (digit_of c).
Lemma digits_ok ds rest : Forall P ds -> match rest with [] => True | c :: _ => digit c = None end ->
  forall acc, digits digit base acc (ds ++ rest) = (fold_left (fun a c => a * base + digit_of c) ds acc, rest).
Proof.
  induction 1 as [|c ds Hc _ IH]; intros R acc; cbn [app digits fold_left].
  - destruct rest as [|c rest]; [reflexivity|]. cbn [digits]. now rewrite R.
  - rewrite digit_ok by exact Hc. apply IH. exact R.
Qed.
Lemma some_digits_ok ds rest : ds <> [] -> Forall P ds -> match rest with [] => True | c :: _ => digit c = None end ->
  some_digits digit base (ds ++ rest) = Some (numeral base ds, rest).
Proof.
  intros NE F R. destruct ds as [|c ds]; [congruence|]. inversion F as [|? ? Hc F']; subst.
  cbn [app some_digits]. rewrite digit_ok by exact Hc. rewrite digits_ok by assumption.
  unfold numeral. cbn [fold_left]. reflexivity.
Qed.
End digits.

Lemma numeral_nonneg base ds : 0 <= base -> Forall (fun c => 0 <= digit_of c) ds -> 0 <= numeral base ds.
Proof.
  intros B F. unfold numeral. assert (forall a, 0 <= a -> 0 <= fold_left (fun a c => a * base + digit_of c) ds a) as G; [|apply G; lia].
  induction F as [|c ds Hc _ IH]; intros a A; [exact A|]. cbn [fold_left]. apply IH.
  assert (0 <= a * base) by (apply Z.mul_nonneg_nonneg; lia). lia.
Qed.
Lemma dec_nonneg c : is_dec c -> 0 <= digit_of c.
Proof. unfold is_dec, digit_of. intros. replace (c <=? 57)%N with true by (symmetry; lia). lia. Qed.
Lemma hex_nonneg c : is_hex c -> 0 <= digit_of c.
Proof. unfold is_hex, digit_of. intros. destruct (N.leb_spec c 57); [lia|]. destruct (N.leb_spec c 70); lia. Qed.

Lemma sign_digit c v : (c <> 45)%N -> (c <> 43)%N -> sign (c :: v) = (false, c :: v).
Proof.
  intros A B. unfold sign. replace (c =? 45)%N with false by (symmetry; now apply N.eqb_neq).
  replace (c =? 43)%N with false by (symmetry; now apply N.eqb_neq). reflexivity.
Qed.

Lemma scan_d_ok sp ds rest : Forall is_space sp -> decimal ds -> match rest with [] => True | c :: _ => dec_digit c = None end ->
  scan_d (sp ++ ds ++ rest) = Some (Z.min 2147483647 (numeral 10 ds), rest).
Proof.
  intros S (NE & F) R. unfold scan_d. rewrite skip_spaces_app by exact S.
  destruct ds as [|c ds]; [congruence|]. inversion F as [|? ? Hc F']; subst.
  cbn [app]. rewrite skip_spaces_none by (unfold is_dec, is_space in *; lia).
  rewrite sign_digit by (unfold is_dec in Hc; lia).
  change (c :: ds ++ rest) with ((c :: ds) ++ rest).
  rewrite (some_digits_ok dec_digit 10 is_dec dec_digit_ok) by assumption.
  assert (0 <= numeral 10 (c :: ds)).
  { apply numeral_nonneg; [lia|]. eapply Forall_impl; [|exact F]. intros; now apply dec_nonneg. }
  f_equal. f_equal. lia.
Qed.

Lemma skip_spaces_idem s : skip_spaces (skip_spaces s) = skip_spaces s.
Proof.
  destruct (skip_spaces_spec s) as (sp & _ & _ & G). destruct (skip_spaces s) as [|c t]; [reflexivity|].
  now apply skip_spaces_none.
Qed.
Lemma scan_d_skip s : scan_d (skip_spaces s) = scan_d s.
Proof. unfold scan_d. now rewrite skip_spaces_idem. Qed.

Lemma literal_app p s : literal p (p ++ s) = Some s.
Proof. induction p as [|c p IH]; [reflexivity|]. cbn [app literal]. now rewrite N.eqb_refl. Qed.

Lemma scan_status_ok rp : decimal (rp_major rp) -> decimal (rp_minor rp) -> decimal (rp_code rp) ->
  scan_status (status_line rp) = Some (Z.min 2147483647 (numeral 10 (rp_code rp))).
Proof.
  intros A B C. unfold scan_status, status_line. rewrite literal_app.
  change (rp_major rp ++ str "." ++ ?x) with ([] ++ rp_major rp ++ str "." ++ x).
  rewrite (scan_d_ok [] (rp_major rp)) by (auto; reflexivity). rewrite literal_app.
  change (rp_minor rp ++ str " " ++ ?x) with ([] ++ rp_minor rp ++ str " " ++ x).
  rewrite (scan_d_ok [] (rp_minor rp)) by (auto; reflexivity).
  rewrite scan_d_skip. change (str " ") with [32%N] at 1.
  rewrite (scan_d_ok [32%N] (rp_code rp)); [reflexivity| |exact C|reflexivity].
  constructor; [unfold is_space; lia|constructor].
Qed.

Lemma scan_x_ok size ext : size_line_ok size ext -> scan_x (size ++ ext) = Some (Z.min (numeral 16 size) 4294967295).
Proof.
  intros (NE & F & _ & X & _). unfold scan_x. destruct size as [|c ds]; [congruence|]. inversion F as [|? ? Hc F']; subst.
  cbn [app]. rewrite skip_spaces_none by (unfold is_hex, is_space in *; lia).
  rewrite sign_digit by (unfold is_hex in Hc; lia).
  assert (match ext with [] => True | c :: _ => hex_digit c = None /\ c <> 120%N /\ c <> 88%N end) as G.
  { destruct X as [->|(t & [->| ->])]; [exact I| |]; (split; [reflexivity|lia]). }
  assert (skip_0x (c :: ds ++ ext) = c :: ds ++ ext) as S.
  { destruct ds as [|d ds]; cbn [app].
    - destruct ext as [|e ext]; [reflexivity|]. unfold skip_0x. destruct ext as [|e' ext]; [reflexivity|].
      replace ((c =? 48) && ((e =? 120) || (e =? 88)))%N with false by (symmetry; lia). reflexivity.
    - inversion F' as [|? ? Hd _]; subst. unfold skip_0x. destruct (ds ++ ext) as [|e t]; [reflexivity|].
      replace ((c =? 48) && ((d =? 120) || (d =? 88)))%N with false by (symmetry; unfold is_hex in Hd; lia). reflexivity. }
  rewrite S. change (c :: ds ++ ext) with ((c :: ds) ++ ext).
  rewrite (some_digits_ok hex_digit 16 is_hex hex_digit_ok); [reflexivity|congruence|exact F|].
  destruct ext; [exact I|tauto].
Qed.

Lemma text_eqb_iff a b : text_eqb a b = true <-> a = b.
Proof.
  revert b. induction a as [|x a IH]; intros [|y b]; cbn [text_eqb]; try (split; congruence).
  rewrite andb_true_iff, N.eqb_eq, IH. split; [intros (-> & ->); reflexivity|intros [= -> ->]; auto].
Qed.

Lemma colon_app n v : ~ In 58%N n -> colon (n ++ str ":" ++ v) = Some (n, v).
Proof.
  induction n as [|c n IH]; intros NI; [reflexivity|]. cbn [app colon].
  replace (c =? 58)%N with false by (symmetry; apply N.eqb_neq; intros ->; apply NI; now left).
  rewrite IH; [reflexivity|]. intros ?. apply NI. now right.
Qed.

Lemma lower_colon c : lower c = 58%N -> c = 58%N.
Proof. unfold lower. destruct ((65 <=? c) && (c <=? 90))%N eqn:E; lia. Qed.
(* a field line begins with the name p and a colon only if its name is p *)
Lemma prefix_ci_field p n v : ~ In 58%N n -> ~ In 58%N p ->
  prefix_ci (p ++ [58%N]) (n ++ str ":" ++ v) = text_eqb (map lower n) p.
Proof.
  intros Hn Hp. unfold prefix_ci. rewrite app_length. cbn [length].
  revert n Hn. induction p as [|c p IH]; intros n Hn.
  - cbn [app length Nat.add]. destruct n as [|d n]; [reflexivity|].
    cbn [app firstn map text_eqb]. rewrite andb_true_r. apply N.eqb_neq. intros E. apply lower_colon in E. apply Hn. now left.
  - cbn [length Nat.add app]. destruct n as [|d n].
    + change (([] ++ str ":" ++ v)) with (58%N :: v). cbn [firstn map text_eqb app].
      replace (lower 58 =? c)%N with false; [reflexivity|]. symmetry. apply N.eqb_neq. intros E. apply Hp. left.
      change (lower 58) with 58%N in E. now symmetry.
    + cbn [app firstn map text_eqb]. rewrite IH; [reflexivity| |]; intros ?; [apply Hp|apply Hn]; now right.
Qed.

Lemma same_ci_lower n s p : map lower s = p -> (same_ci n s <-> map lower n = p).
Proof. intros <-. reflexivity. Qed.

Lemma ci_length n : same_ci n (str "Content-Length") <-> map lower n = str "content-length".
Proof. apply same_ci_lower. reflexivity. Qed.
Lemma ci_encoding n : same_ci n (str "Transfer-Encoding") <-> map lower n = str "transfer-encoding".
Proof. apply same_ci_lower. reflexivity. Qed.
Lemma ci_chunked n : same_ci n (str "chunked") <-> map lower n = str "chunked".
Proof. apply same_ci_lower. reflexivity. Qed.
