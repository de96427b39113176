(* What the adapter makes of any bytes: scanners, header lines, bodies. *)
From Verif Require Import Base Map_Model HttpHeaders_Spec HttpApiMbed_Model HttpApiMbed_Spec HttpApiMbed_Read HttpApiMbed_Scan HttpApiMbed_Reply HttpApiMbed_Props HttpApiMbed_Any.
Local Open Scope Z_scope.

(** * Numbers *)

Lemma dec_digit_some c d : dec_digit c = Some d -> is_dec c /\ d = digit_of c.
Proof.
  unfold dec_digit. destruct ((48 <=? c) && (c <=? 57))%N eqn:E; [|discriminate]. intros [= <-].
  assert (is_dec c) as D by (unfold is_dec; lia). split; [exact D|]. apply dec_digit_ok in D. unfold dec_digit in D. rewrite E in D. congruence.
Qed.
Lemma dec_digit_none c : dec_digit c = None -> ~ is_dec c.
Proof. intros E D. apply dec_digit_ok in D. congruence. Qed.
Lemma hex_digit_some c d : hex_digit c = Some d -> is_hex c /\ d = digit_of c.
Proof.
  intros E. assert (is_hex c) as D.
  { unfold hex_digit in E. unfold is_hex.
    destruct ((48 <=? c) && (c <=? 57))%N eqn:E1; [lia|]. destruct ((97 <=? c) && (c <=? 102))%N eqn:E2; [lia|].
    destruct ((65 <=? c) && (c <=? 70))%N eqn:E3; [lia|discriminate E]. }
  split; [exact D|]. apply hex_digit_ok in D. congruence.
Qed.
Lemma hex_digit_none c : hex_digit c = None -> ~ is_hex c.
Proof. intros E D. apply hex_digit_ok in D. congruence. Qed.

Section digits.
Context (digit : N -> option Z) (base : Z) (P : N -> Prop).
Hypothesis digit_some : forall c d, digit c = Some d -> P c /\ d = digit_of c.
Hypothesis digit_none : forall c, digit c = None -> ~ P c.
Lemma digits_sound s : forall acc v rest, digits digit base acc s = (v, rest) ->
  exists ds, s = ds ++ rest /\ Forall P ds /\ match rest with [] => True | c :: _ => ~ P c end /\
    v = fold_left (fun a c => a * base + digit_of c) ds acc.
Proof.
  induction s as [|c s IH]; intros acc v rest E; cbn [digits] in E.
  - injection E as <- <-. exists []. repeat split; constructor.
  - destruct (digit c) as [d|] eqn:D.
    + apply digit_some in D. destruct D as (Pc & ->). apply IH in E. destruct E as (ds & -> & F & R & V).
      exists (c :: ds). split; [reflexivity|]. split; [now constructor|]. split; [exact R|exact V].
    + injection E as <- <-. exists []. repeat split; try constructor. now apply digit_none.
Qed.
Lemma some_digits_sound s v rest : some_digits digit base s = Some (v, rest) ->
  exists ds, s = ds ++ rest /\ ds <> [] /\ Forall P ds /\ match rest with [] => True | c :: _ => ~ P c end /\ v = numeral base ds.
Proof.
  destruct s as [|c s]; [discriminate|]. cbn [some_digits]. destruct (digit c) as [d|] eqn:D; [|discriminate].
  intros E. assert (digits digit base d s = (v, rest)) as E' by congruence.
  apply digit_some in D. destruct D as (Pc & ->). apply digits_sound in E'. destruct E' as (ds & -> & F & R & V).
  exists (c :: ds). split; [reflexivity|]. split; [discriminate|]. split; [now constructor|]. split; [exact R|]. exact V.
Qed.
End digits.

Lemma sign_sound s neg t : sign s = (neg, t) -> exists sg, s = sg ++ t /\ sign_of sg neg.
Proof.
  unfold sign, sign_of. destruct s as [|c s]; [intros [= <- <-]; exists []; auto|].
  destruct (N.eqb_spec c 45) as [->|]; [intros [= <- <-]; exists [45%N]; auto|].
  destruct (N.eqb_spec c 43) as [->|]; [intros [= <- <-]; exists [43%N]; auto 6|].
  intros [= <- <-]. exists []. auto.
Qed.

Lemma scan_d_sound s v rest : scan_d s = Some (v, rest) -> int_at s v rest.
Proof.
  unfold scan_d. destruct (skip_spaces_spec s) as (sp & Es & Fs & _).
  destruct (sign (skip_spaces s)) as (neg, t) eqn:ES. apply sign_sound in ES. destruct ES as (sg & Et & SG).
  destruct (some_digits dec_digit 10 t) as [(x, rest')|] eqn:ED; [|discriminate]. intros [= <- <-].
  apply (some_digits_sound dec_digit 10 is_dec dec_digit_some dec_digit_none) in ED. destruct ED as (ds & -> & NE & F & R & ->).
  rewrite Es, Et. apply int_at_intro; auto. split; assumption.
Qed.

Lemma skip_0x_sound s : exists ox, s = ox ++ skip_0x s /\
  (ox = [] /\ (forall x d t, skip_0x s = 48%N :: x :: d :: t -> x = 120%N \/ x = 88%N -> ~ is_hex d) \/ ox = str "0x" \/ ox = str "0X").
Proof.
  unfold skip_0x. destruct s as [|z [|x [|c t] ] ]; try (exists []; split; [reflexivity|left; split; [reflexivity|discriminate]]; fail).
  destruct ((z =? 48) && ((x =? 120) || (x =? 88)))%N eqn:E.
  - destruct (hex_digit c) eqn:D.
    + apply andb_true_iff in E. destruct E as (E1 & E2). apply N.eqb_eq in E1. subst z. apply orb_true_iff in E2.
      destruct E2 as [E2|E2]; apply N.eqb_eq in E2; subst x; [exists (str "0x")|exists (str "0X")]; auto.
    + exists []. split; [reflexivity|]. left. split; [reflexivity|]. intros x' d' t' [= -> -> -> ->] _. now apply hex_digit_none.
  - exists []. split; [reflexivity|]. left. split; [reflexivity|]. intros x' d' t' [= -> -> -> ->] [-> | ->]; discriminate E.
Qed.

Lemma scan_x_sound s n : scan_x s = Some n -> hex_at s n /\ 0 <= n < 4294967296.
Proof.
  unfold scan_x. destruct (skip_spaces_spec s) as (sp & Es & Fs & _).
  destruct (sign (skip_spaces s)) as (neg, t) eqn:ES. apply sign_sound in ES. destruct ES as (sg & Et & SG).
  destruct (skip_0x_sound t) as (ox & Eo & OX).
  destruct (some_digits hex_digit 16 (skip_0x t)) as [(x, rest')|] eqn:ED; [|discriminate]. cbn zeta. intros E.
  apply (some_digits_sound hex_digit 16 is_hex hex_digit_some hex_digit_none) in ED. destruct ED as (ds & Ed & NE & F & R & ->).
  assert (0 <= numeral 16 ds).
  { apply numeral_nonneg; [lia|]. eapply Forall_impl; [|exact F]. intros; now apply hex_nonneg. }
  pose proof (Z.mod_pos_bound (- Z.min (numeral 16 ds) 4294967295) 4294967296 ltac:(lia)) as MB.
  assert (n = (if neg then - Z.min (numeral 16 ds) 4294967295 else Z.min (numeral 16 ds) 4294967295) mod 4294967296) as En.
  { destruct neg; [unfold size32 in E; congruence|]. injection E as <-. symmetry. apply Z.mod_small. lia. }
  split.
  - rewrite Ed in OX. rewrite Es, Et, Eo, Ed, En. now apply hex_at_intro.
  - rewrite En. apply Z.mod_pos_bound. lia.
Qed.

Lemma literal_sound p s t : literal p s = Some t -> s = p ++ t.
Proof.
  revert s. induction p as [|c p IH]; intros s E; cbn [literal] in E; [injection E as ->; reflexivity|].
  destruct s as [|d s]; [discriminate|]. destruct (N.eqb_spec c d) as [->|]; [|discriminate]. apply IH in E. rewrite E. reflexivity.
Qed.

Lemma scan_status_sound s v : scan_status s = Some v -> status_says s v.
Proof.
  unfold scan_status. destruct (literal (str "HTTP/") s) as [a|] eqn:L1; [|discriminate]. apply literal_sound in L1.
  destruct (scan_d a) as [(v1, a1)|] eqn:D1; [|discriminate]. destruct (literal (str ".") a1) as [b|] eqn:L2; [|discriminate].
  apply literal_sound in L2. subst a1. destruct (scan_d b) as [(v2, c)|] eqn:D2; [|discriminate]. rewrite scan_d_skip.
  destruct (scan_d c) as [(v3, rest)|] eqn:D3; [|discriminate]. intros [= <-].
  exists a, v1, b, v2, c, rest. split; [exact L1|]. split; [now apply scan_d_sound|]. split; now apply scan_d_sound.
Qed.

(** * Header lines *)

Lemma prefix_length s : prefix_ci (str "content-length:") s = true <-> same_ci (firstn 15 s) (str "Content-Length:").
Proof. unfold prefix_ci, same_ci. rewrite text_eqb_iff. reflexivity. Qed.
Lemma prefix_encoding s : prefix_ci (str "transfer-encoding:") s = true <-> same_ci (firstn 18 s) (str "Transfer-Encoding:").
Proof. unfold prefix_ci, same_ci. rewrite text_eqb_iff. reflexivity. Qed.

Lemma coding_says t : text_eqb (map lower (skip_spaces t)) (str "chunked") = true <->
  exists sp v, t = sp ++ v /\ Forall is_space sp /\ same_ci v (str "chunked").
Proof.
  rewrite text_eqb_iff. split.
  - intros X. destruct (skip_spaces_spec t) as (sp & Es & Fs & _). exists sp, (skip_spaces t). split; [exact Es|]. split; [exact Fs|].
    now apply (proj2 (ci_chunked _)).
  - intros (sp & v & Ev & Sp & Cv). rewrite Ev, skip_spaces_app by exact Sp. apply (proj1 (ci_chunked _)) in Cv.
    destruct v as [|c v]; [discriminate Cv|]. rewrite skip_spaces_none; [exact Cv|].
    cbn [map str] in Cv. injection Cv as Cc _. intros Sc. unfold is_space in Sc.
    assert (lower c = c) as LC. { unfold lower. replace ((65 <=? c) && (c <=? 90))%N with false by (symmetry; lia). reflexivity. }
    rewrite LC in Cc. rewrite Cc in Sc. change (Base.ch "c"%char) with 99%N in Sc. lia.
Qed.

Definition natural (l : list Z) : Prop := Forall (fun n => 0 <= n) l.

Lemma framing_any s len ch w : natural (w_lens w) -> 0 <= len -> (len = 0 \/ In len (w_lens w)) ->
  (exists c, framing s len ch w = Fail c w) \/
  exists len' ch' lens, framing s len ch w = Ret (len', ch') (set_lens lens w) /\ line_says s len ch len' ch' /\
    natural lens /\ 0 <= len' /\ (len' = 0 \/ In len' lens).
Proof.
  intros NL L0 IL. unfold framing. assert (w = set_lens (w_lens w) w) as W by (destruct w; reflexivity).
  destruct (prefix_ci (str "content-length:") s) eqn:PL.
  - apply (proj1 (prefix_length _)) in PL. rewrite scan_d_skip.
    destruct (scan_d (skipn 15 s)) as [(v, rest)|] eqn:D; [|left; eexists; reflexivity].
    apply scan_d_sound in D. right. exists (size32 v), ch, (size32 v :: w_lens w).
    assert (0 <= size32 v) by (unfold size32; pose proof (Z.mod_pos_bound v 4294967296); lia).
    split; [reflexivity|]. split; [eapply says_a_length; eassumption|]. split; [now constructor|]. split; [assumption|]. right. now left.
  - assert (~ same_ci (firstn 15 s) (str "Content-Length:")) as NL'.
    { intros X. apply (proj2 (prefix_length _)) in X. congruence. }
    right. destruct (prefix_ci (str "transfer-encoding:") s) eqn:PE.
    + apply (proj1 (prefix_encoding _)) in PE.
      destruct (text_eqb (map lower (skip_spaces (skipn 18 s))) (str "chunked")) eqn:K.
      * apply (proj1 (coding_says _)) in K. destruct K as (sp & v & E & F & C).
        exists len, true, (w_lens w). split; [rewrite <- W; reflexivity|]. split; [eapply says_coding; eassumption|]. auto.
      * exists len, ch, (w_lens w). split; [rewrite <- W; reflexivity|]. split; [|auto]. apply says_nothing; [exact NL'|].
        intros (_ & X). apply (proj2 (coding_says _)) in X. congruence.
    + exists len, ch, (w_lens w). split; [rewrite <- W; reflexivity|]. split; [|auto]. apply says_nothing; [exact NL'|].
      intros (X & _). apply (proj2 (prefix_encoding _)) in X. congruence.
Qed.

Lemma colon_some s n v : colon s = Some (n, v) -> s = n ++ 58%N :: v /\ ~ In 58%N n.
Proof.
  revert n. induction s as [|c s IH]; intros n E; cbn [colon] in E; [discriminate|].
  destruct (N.eqb_spec c 58) as [->|N]; [injection E as <- ->; split; [reflexivity|intros []]|].
  destruct (colon s) as [(n', v')|]; [|discriminate]. injection E as <- ->. destruct (IH n' eq_refl) as (-> & NI).
  split; [reflexivity|]. intros [?|?]; [congruence|now apply NI].
Qed.
Lemma colon_none s : colon s = None -> ~ In 58%N s.
Proof.
  induction s as [|c s IH]; intros E; cbn [colon] in E; [intros []|].
  destruct (N.eqb_spec c 58) as [->|N]; [discriminate|]. destruct (colon s) as [(n', v')|]; [discriminate|].
  intros [?|?]; [congruence|now apply (IH eq_refl)].
Qed.

(* what reading the response never changes, and that allocation goes on to succeed *)
Definition calm (w w' : world) : Prop :=
  w_body w' = w_body w /\ w_ptr w' = w_ptr w /\ w_status w' = w_status w /\ w_out w' = w_out w.

Lemma add_header_any r s w : memory w ->
  exists w', add_header r s w = Ret tt w' /\ w_in w' = w_in w /\ w_sched w' = w_sched w /\ memory w' /\ calm w w' /\ w_lens w' = w_lens w /\
    match colon s with
    | Some (n, v) => w_resp w' = if r_response r then put (w_resp w) n v true else w_resp w
    | None => w_resp w' = w_resp w
    end.
Proof.
  intros M. unfold add_header. destruct (colon s) as [(n, v)|].
  - destruct (r_response r).
    + destruct (allocates_ok w M) as (l & E & F). erewrite bind_ret by exact E. eexists. split; [reflexivity|]. repeat split; try reflexivity. exact F.
    + exists w. repeat split; try reflexivity. exact M.
  - exists w. repeat split; try reflexivity. exact M.
Qed.

Definition lines_of (ls : list (list N)) : list N := concat (map (fun l => l ++ CRLF) ls).
Definition good_lines (ls : list (list N)) : Prop := Forall (fun l => raw_line l /\ c_text l <> []) ls.

Lemma headers_loop_any : forall fuel r len ch w x junk,
  w_buf w = x ++ 0%N :: junk -> raw_line x -> no_errors w -> memory w ->
  natural (w_lens w) -> 0 <= len -> (len = 0 \/ In len (w_lens w)) -> (length (w_in w) < fuel)%nat ->
  (exists c w1, headers_loop fuel r len ch w = Fail c w1) \/
  exists lines last len' ch' fs w', headers_loop fuel r len ch w = Ret (len', ch') w' /\
    x ++ CRLF ++ w_in w = lines_of lines ++ last ++ CRLF ++ w_in w' /\
    good_lines lines /\ raw_line last /\ c_text last = [] /\ lines_say lines len ch len' ch' /\ fields_of lines fs /\
    no_errors w' /\ memory w' /\ natural (w_lens w') /\ 0 <= len' /\ (len' = 0 \/ In len' (w_lens w')) /\ calm w w' /\
    w_resp w' = (if r_response r then headers_after fs (w_resp w) else w_resp w).
Proof.
  induction fuel as [|fuel IH]; intros r len ch w x junk B RX NE M NL L0 IL FU; [lia|].
  cbn [headers_loop]. erewrite bind_ret by (eapply buf_text_any; exact B).
  destruct (c_text x) as [|c0 t0] eqn:CT.
  - right. exists [], x, len, ch, [], w. split; [reflexivity|]. split; [reflexivity|]. split; [constructor|]. split; [exact RX|].
    split; [exact CT|]. split; [constructor|]. split; [constructor|]. split; [exact NE|]. split; [exact M|]. split; [exact NL|].
    split; [exact L0|]. split; [exact IL|]. split; [repeat split|]. now destruct (r_response r).
  - rewrite <- CT.
    destruct (framing_any (c_text x) len ch w NL L0 IL) as [(c & E)|(len1 & ch1 & lens & E & LS & NL1 & L1 & IL1)].
    { left. do 2 eexists. erewrite bind_fail by exact E. reflexivity. }
    erewrite bind_ret by exact E. cbn [fst snd].
    destruct (add_header_any r (c_text x) (set_lens lens w) M) as (w1 & E1 & I1 & S1 & M1 & C1 & LE1 & R1).
    erewrite bind_ret by exact E1. cbn [w_in w_sched w_lens set_lens] in I1, S1, LE1.
    destruct (a_line_any w1) as [(w2 & E2)|(y & rest & I2 & RY & E2)].
    { left. do 2 eexists. erewrite bind_fail by exact E2. reflexivity. }
    erewrite bind_ret by exact E2. set (w2 := rd _ _ _ w1) in *.
    destruct (IH r len1 ch1 w2 y (skipn (S (length y)) (w_buf w1))) as [F|(lines & last & len' & ch' & fs & w' & E' & X & GL & RL & CL & LSs & FO & NE' & M' & NL' & L0' & IL' & C' & R')].
    + reflexivity.
    + exact RY.
    + unfold no_errors. subst w2. cbn [w_sched rd set_in set_sched set_buf]. apply forall_skipn. rewrite S1. exact NE.
    + exact M1.
    + unfold w2. cbn [w_lens rd set_in set_sched set_buf]. rewrite LE1. exact NL1.
    + exact L1.
    + unfold w2. cbn [w_lens rd set_in set_sched set_buf]. rewrite LE1. exact IL1.
    + subst w2. cbn [w_in rd set_in]. rewrite <- I1, I2, !app_length in FU. cbn in FU. lia.
    + left. exact F.
    + right. exists (x :: lines), last, len', ch'.
      exists (match colon (c_text x) with Some p => p :: fs | None => fs end), w'.
      split; [exact E'|]. split.
      { rewrite <- I1, I2. subst w2. cbn [w_in rd set_in] in X. rewrite X. unfold lines_of. cbn [map concat]. now rewrite <- !app_assoc. }
      split; [constructor; [split; [exact RX|rewrite CT; discriminate]|exact GL]|]. split; [exact RL|]. split; [exact CL|].
      split; [econstructor; eassumption|]. split.
      { destruct (colon (c_text x)) as [(n, v)|] eqn:CO.
        - apply colon_some in CO. destruct CO. now apply fields_of_some.
        - apply fields_of_none; [now apply colon_none|exact FO]. }
      split; [exact NE'|]. split; [exact M'|]. split; [exact NL'|]. split; [exact L0'|]. split; [exact IL'|]. split.
      { destruct C1 as (? & ? & ? & ?), C' as (? & ? & ? & ?). subst w2. cbn in *. repeat split; congruence. }
      rewrite R'. subst w2. cbn [w_resp rd set_in set_sched set_buf]. cbn [w_resp set_lens] in R1.
      destruct (colon (c_text x)) as [(n, v)|]; rewrite R1; destruct (r_response r); reflexivity.
Qed.
