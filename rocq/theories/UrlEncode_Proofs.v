(* Proofs about the model of src/urlencode.c. *)
From Verif Require Import Base UrlEncode_Model UrlEncode_Spec.
Open Scope N_scope.

Definition upto256 : list N := map N.of_nat (seq 0 256).
Lemma sweep256 (p : N -> bool) :
  forallb p upto256 = true -> forall x, x < 256 -> p x = true.
Proof.
  intros H x Hx. rewrite forallb_forall in H. apply H.
  unfold upto256. apply in_map_iff. exists (N.to_nat x).
  split; [lia|]. apply in_seq. lia.
Qed.

(* Encoding of one character. *)
Definition enc (c : N) : list N := snd (urlEntry c).

Lemma list_eqb_spec (a b : list N) :
  (if list_eq_dec N.eq_dec a b then true else false) = true -> a = b.
Proof. destruct (list_eq_dec N.eq_dec a b); [auto|discriminate]. Qed.

(* Sizes in the table are right: numberOfChars is the length of the literal. *)
Lemma entry_len c : c < 256 -> fst (urlEntry c) = length (enc c).
Proof.
  intros H. apply Nat.eqb_eq.
  exact (sweep256 (fun c => Nat.eqb (fst (urlEntry c)) (length (enc c))) eq_refl c H).
Qed.

Lemma enc_zero : enc 0 = [0].
Proof. reflexivity. Qed.

(* Shape of each encoding. *)
Definition hexok (c : N) : bool := match hexval c with Some _ => true | None => false end.
Definition shape (c : N) (l : list N) : bool :=
  match l with
  | [x] => plain x && (x =? c) && (c <? 128) && negb (x =? 37)
  | [p; h; k] => (p =? 37) && hexok h && hexok k &&
                 match hexval h, hexval k with
                 | Some a, Some b => (16 * a + b =? c) && (c <? 128)
                 | _, _ => false end
  | [p; h; k; p'; h'; k'] =>
      (p =? 37) && (p' =? 37) &&
      match hexval h, hexval k, hexval h', hexval k' with
      | Some a, Some b, Some a', Some b' =>
          (194 <=? 16 * a + b) && (16 * a + b <=? 223) &&
          (128 <=? 16 * a' + b') && (16 * a' + b' <=? 191) &&
          ((16 * a + b - 192) * 64 + (16 * a' + b' - 128) =? c)
      | _, _, _, _ => false end
  | _ => false
  end.

Lemma enc_shape c : 0 < c < 256 -> shape c (enc c) = true.
Proof.
  intros H.
  pose proof (sweep256 (fun c => (c =? 0) || shape c (enc c)) eq_refl c) as E.
  cbn beta in E. specialize (E (proj2 H)).
  destruct (N.eqb_spec c 0) as [->|]; [lia|]. exact E.
Qed.

Lemma shape_effect c l t : shape c l = true ->
  (url_safe t -> url_safe (l ++ t)) /\
  (forall r, url_denotes t = Some r -> url_denotes (l ++ t) = Some (c :: r)).
Proof.
  intros H. unfold shape in H.
  destruct l as [|x1 [|x2 [|x3 [|x4 [|x5 [|x6 [|x7 l]]]]]]]; try discriminate H.
  - (* plain *)
    apply andb_true_iff in H. destruct H as [H H4].
    apply andb_true_iff in H. destruct H as [H H3].
    apply andb_true_iff in H. destruct H as [H1 H2].
    apply N.eqb_eq in H2. subst x1. split.
    + intros Ht. cbn. constructor; assumption.
    + intros r Hr. unfold url_denotes in *. cbn [app percent_decode].
      change (ch "%") with 37. apply negb_true_iff in H4. rewrite H4.
      destruct (percent_decode t) as [bs|]; [|discriminate].
      cbn [utf8_decode]. rewrite H3, Hr. reflexivity.
  - (* three characters *)
    apply andb_true_iff in H. destruct H as [H H4].
    apply andb_true_iff in H. destruct H as [H H3].
    apply andb_true_iff in H. destruct H as [H1 H2].
    apply N.eqb_eq in H1. subst x1. unfold hexok in *.
    destruct (hexval x2) as [a|] eqn:Ea; [|discriminate].
    destruct (hexval x3) as [b|] eqn:Eb; [|discriminate].
    apply andb_true_iff in H4. destruct H4 as [H4 H5]. apply N.eqb_eq in H4.
    split.
    + intros Ht. apply (safe_esc x2 x3 t); [congruence|congruence|exact Ht].
    + intros r Hr. unfold url_denotes in *. cbn [app percent_decode].
      change (37 =? ch "%") with true. cbv iota. rewrite Ea, Eb.
      destruct (percent_decode t) as [bs|]; [|discriminate].
      rewrite H4. cbn [utf8_decode]. rewrite H5, Hr. reflexivity.
  - (* six characters *)
    apply andb_true_iff in H. destruct H as [H H3].
    apply andb_true_iff in H. destruct H as [H1 H2].
    apply N.eqb_eq in H1. apply N.eqb_eq in H2. subst x1 x4.
    destruct (hexval x2) as [a|] eqn:Ea; [|discriminate].
    destruct (hexval x3) as [b|] eqn:Eb; [|discriminate].
    destruct (hexval x5) as [a'|] eqn:Ea'; [|discriminate].
    destruct (hexval x6) as [b'|] eqn:Eb'; [|discriminate].
    apply andb_true_iff in H3. destruct H3 as [H3 H8]. apply N.eqb_eq in H8.
    apply andb_true_iff in H3. destruct H3 as [H3 H7].
    apply andb_true_iff in H3. destruct H3 as [H3 H6].
    split.
    + intros Ht. apply (safe_esc x2 x3); [congruence|congruence|].
      apply (safe_esc x5 x6); [congruence|congruence|exact Ht].
    + intros r Hr. unfold url_denotes in *. cbn [app percent_decode].
      change (37 =? ch "%") with true. cbv iota. rewrite Ea, Eb, Ea', Eb'.
      destruct (percent_decode t) as [bs|]; [|discriminate].
      cbn [utf8_decode].
      apply andb_true_iff in H3. destruct H3 as [H3a H3b].
      destruct (N.ltb_spec (16 * a + b) 128) as [L|L]; [lia|].
      rewrite H3a, H3b, H6, H7. cbn [andb]. rewrite Hr, H8. reflexivity.
Qed.

Definition encode_all (s : list N) : list N := flat_map enc s.

Lemma encode_all_safe s : cstr_ok s -> url_safe (encode_all s).
Proof.
  induction 1 as [|c s Hc Hs IH]; cbn; [constructor|].
  apply (proj1 (shape_effect c (enc c) _ (enc_shape c Hc))), IH.
Qed.

Lemma encode_all_denotes s : cstr_ok s -> url_denotes (encode_all s) = Some s.
Proof.
  induction 1 as [|c s Hc Hs IH]; [reflexivity|].
  cbn [encode_all flat_map]. apply (proj2 (shape_effect c (enc c) _ (enc_shape c Hc))), IH.
Qed.

Lemma measure_spec s : cstr_ok s -> measure (s ++ [0]) = length (encode_all s ++ [0]).
Proof.
  induction 1 as [|c s Hc Hs IH]; [reflexivity|].
  cbn [app measure]. unfold char_ok in Hc.
  destruct (N.eqb_spec c 0) as [->|_]; [lia|].
  rewrite IH, entry_len by lia. cbn [encode_all flat_map].
  rewrite !app_length. fold (encode_all s). lia.
Qed.

Lemma emit_spec s : cstr_ok s -> forall b pos,
  emit (s ++ [0]) b pos = store_all b pos (encode_all s ++ [0]).
Proof.
  induction 1 as [|c s Hc Hs IH]; intros b pos.
  - cbn [app emit encode_all flat_map store_all].
    change (urlEntry 0) with (1%nat, [0]). cbn [Nat.eqb hd app].
    destruct (store b pos 0); reflexivity.
  - cbn [app emit]. unfold char_ok in Hc.
    pose proof (entry_len c ltac:(lia)) as Hl.
    pose proof (enc_shape c Hc) as Hsh.
    unfold enc in *. destruct (urlEntry c) as [n e] eqn:Ee. cbn [fst snd] in Hl, Hsh.
    destruct (N.eqb_spec c 0) as [->|_]; [lia|].
    cbn [encode_all flat_map]. unfold enc at 1. rewrite Ee. cbn [snd].
    fold (encode_all s). rewrite <- app_assoc, store_all_cat.
    destruct (Nat.eqb_spec n 1) as [->|Hn].
    + destruct e as [|x [|y e]]; cbn in Hl; try discriminate. cbn [hd app store_all length].
      destruct (store b pos x) as [b'|]; [|reflexivity]. apply IH.
    + unfold memcpy_lit. rewrite Hl. replace (length e <=? length e + 1)%nat with true by lia.
      rewrite firstn_app, Nat.sub_diag, firstn_all, firstn_O, app_nil_r.
      destruct (store_all b pos e) as [b'|]; [|reflexivity]. apply IH.
Qed.

Lemma url_encode_cases s o : cstr_ok s ->
  (exists o', URL_Encode (Some s) o = Some (None, o') /\ In false o) \/
  (exists o', URL_Encode (Some s) o = Some (Some (filled (encode_all s ++ [0])), o')).
Proof.
  intros H. unfold URL_Encode. rewrite emit_spec, measure_spec by assumption.
  rewrite store_all_exact by apply fresh_length.
  unfold bind, alloc, lift, ret.
  destruct o as [|[|] [|[|] o]]; cbn [negb];
    try (right; eexists; reflexivity);
    left; eexists; (split; [reflexivity|cbn; auto]).
Qed.

Lemma url_encode_string_cases s o : cstr_ok s ->
  (exists o', URL_EncodeString (Some s) o = Some (None, o') /\ In false o) \/
  (exists o', URL_EncodeString (Some s) o = Some (Some (filled (encode_all s ++ [0])), o')).
Proof.
  intros H. unfold URL_EncodeString, bind at 1 2, alloc at 1.
  destruct o as [|[|] o]; cbn [negb].
  - cbn [alloc negb]. destruct (url_encode_cases s [] H) as [(? & _ & [])|X]. right. exact X.
  - unfold alloc. destruct o as [|[|] o]; cbn [negb].
    + destruct (url_encode_cases s [] H) as [(? & _ & [])|X]. right. exact X.
    + destruct (url_encode_cases s o H) as [(o' & X & Y)|X]; [left|right; exact X].
      exists o'. split; [exact X|cbn; auto].
    + left. eexists. split; [reflexivity|cbn; auto].
  - left. eexists. split; [reflexivity|cbn; auto].
Qed.

Lemma encode_all_cstr s : cstr_ok s -> cstr_ok (encode_all s).
Proof.
  intros H. pose proof (encode_all_safe s H) as S. induction S as [|c t Hc S IH|h l t Hh Hl S IH].
  - constructor.
  - constructor; [|exact IH]. unfold plain, is_digit, is_upper, is_lower in Hc.
    unfold char_ok. cbn in Hc. lia.
  - assert (X : forall x, hexval x <> None -> char_ok x).
    { intros x Hx. unfold hexval, is_digit in Hx. unfold char_ok.
      destruct ((48 <=? x) && (x <=? 57)) eqn:E1; [lia|].
      destruct ((97 <=? x) && (x <=? 102)) eqn:E2; [lia|congruence]. }
    repeat constructor; try (apply X; assumption). exact IH.
Qed.

Lemma url_main s o : cstr_ok s ->
  (exists o', URL_EncodeString (Some s) o = Some (None, o') /\ In false o) \/
  (exists t o', URL_EncodeString (Some s) o = Some (Some (filled (t ++ [0])), o')
     /\ cstr_ok t /\ url_safe t /\ url_denotes t = Some s).
Proof.
  intros H. destruct (url_encode_string_cases s o H) as [X|(o' & X)]; [left; exact X|right].
  exists (encode_all s), o'. split; [exact X|].
  split; [apply encode_all_cstr, H|]. split; [apply encode_all_safe, H|apply encode_all_denotes, H].
Qed.

Lemma url_main_handle s o : cstr_ok s ->
  (exists o', URL_Encode (Some s) o = Some (None, o') /\ In false o) \/
  (exists t o', URL_Encode (Some s) o = Some (Some (filled (t ++ [0])), o')
     /\ cstr_ok t /\ url_safe t /\ url_denotes t = Some s).
Proof.
  intros H. destruct (url_encode_cases s o H) as [X|(o' & X)]; [left; exact X|right].
  exists (encode_all s), o'. split; [exact X|].
  split; [apply encode_all_cstr, H|]. split; [apply encode_all_safe, H|apply encode_all_denotes, H].
Qed.

Lemma url_injective s1 s2 o1 o2 b o1' o2' : cstr_ok s1 -> cstr_ok s2 ->
  URL_EncodeString (Some s1) o1 = Some (Some b, o1') ->
  URL_EncodeString (Some s2) o2 = Some (Some b, o2') -> s1 = s2.
Proof.
  intros H1 H2 E1 E2.
  destruct (url_encode_string_cases s1 o1 H1) as [(? & X & _)|(? & X)]; [congruence|].
  destruct (url_encode_string_cases s2 o2 H2) as [(? & Y & _)|(? & Y)]; [congruence|].
  assert (E : filled (encode_all s1 ++ [0]) = filled (encode_all s2 ++ [0])) by congruence.
  apply filled_inj in E. apply app_inv_tail in E.
  pose proof (encode_all_denotes s1 H1) as D1. pose proof (encode_all_denotes s2 H2) as D2.
  congruence.
Qed.

Lemma url_plain_verbatim s : forallb plain s = true -> cstr_ok s -> encode_all s = s.
Proof.
  intros Hp H. induction H as [|c s Hc Hs IH]; [reflexivity|].
  cbn in Hp. apply andb_true_iff in Hp. destruct Hp as [Hp1 Hp2].
  cbn [encode_all flat_map]. fold (encode_all s). rewrite IH by assumption.
  assert (E : enc c = [c]); [|rewrite E; reflexivity].
  pose proof (sweep256 (fun c => negb (plain c) ||
    if list_eq_dec N.eq_dec (enc c) [c] then true else false) eq_refl c) as E.
  cbn beta in E. unfold char_ok in Hc. specialize (E ltac:(lia)). rewrite Hp1 in E.
  apply list_eqb_spec. exact E.
Qed.

Lemma url_plain_unchanged s o b o' : cstr_ok s -> forallb plain s = true ->
  URL_EncodeString (Some s) o = Some (Some b, o') -> b = filled (s ++ [0]).
Proof.
  intros H Hp E. destruct (url_encode_string_cases s o H) as [(? & X & _)|(? & X)]; [congruence|].
  rewrite url_plain_verbatim in X by assumption. congruence.
Qed.
