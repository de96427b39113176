(* Proofs about adapters/httpapi_curl.c. *)
From Verif Require Import Base Map_Model Map_Spec HttpHeaders_Model HttpHeaders_Spec HttpApiCurl_Model HttpApiCurl_Spec.
From Verif Require HttpHeaders_Props Map_Props.
Local Open Scope N_scope.

(** * Init and Deinit *)

Fixpoint run_api (h : list api_call) (n : N) : list global_call * N :=
  match h with
  | [] => ([], n)
  | Init ok :: h => let '(cs, _, n) := HTTPAPI_Init n ok in
                    let '(cs', n) := run_api h n in (cs ++ cs', n)
  | Deinit :: h => let '(cs, n) := HTTPAPI_Deinit n in
                   let '(cs', n) := run_api h n in (cs ++ cs', n)
  end.

Lemma curl_up_app up cs cs' : curl_up up (cs ++ cs') =
  match curl_up up cs with Some up => curl_up up cs' | None => None end.
Proof.
  revert up. induction cs as [|c cs IH]; intros up; [reflexivity|].
  cbn [app curl_up]. destruct c; destruct up; auto.
Qed.

(* C65: after any history libcurl is up exactly when there are users, it was never initialised
   twice nor cleaned up when down, and it is initialised and cleaned up only when the number
   of users is 0 before, 0 after. *)
Theorem init_deinit_counted : forall h,
  snd (run_api h 0) = N.of_nat (users h 0) /\
  curl_up false (fst (run_api h 0)) = Some (0 <? N.of_nat (users h 0)).
Proof.
  assert (forall h n, snd (run_api h (N.of_nat n)) = N.of_nat (users h n) /\
    curl_up (0 <? N.of_nat n) (fst (run_api h (N.of_nat n))) = Some (0 <? N.of_nat (users h n))) as E.
  { induction h as [|c h IH]; intros n; [split; reflexivity|].
    destruct c as [ok|]; cbn [run_api users].
    - unfold HTTPAPI_Init. destruct n as [|n].
      + change (N.of_nat 0) with 0. change (0 =? 0) with true. cbn iota. destruct ok; cbn [negb].
        * specialize (IH 1%nat). destruct (run_api h (0 + 1)) as [cs' k] eqn:R.
          change (N.of_nat 1) with (0 + 1) in IH. rewrite R in IH. exact IH.
        * specialize (IH 0%nat). destruct (run_api h 0) as [cs' k] eqn:R.
          change (N.of_nat 0) with 0 in IH. rewrite R in IH. exact IH.
      + replace (N.of_nat (S n) =? 0) with false by (symmetry; apply N.eqb_neq; lia).
        specialize (IH (S (S n))). replace (N.of_nat (S n) + 1) with (N.of_nat (S (S n))) by lia.
        destruct (run_api h (N.of_nat (S (S n)))) as [cs' k] eqn:R. cbn [app fst snd] in *.
        replace (0 <? N.of_nat (S n)) with true by (symmetry; apply N.ltb_lt; lia).
        replace (0 <? N.of_nat (S (S n))) with true in IH by (symmetry; apply N.ltb_lt; lia).
        exact IH.
    - unfold HTTPAPI_Deinit. destruct n as [|n].
      + change (N.of_nat 0) with 0. change (0 <? 0) with false. cbn iota. specialize (IH 0%nat). change (N.of_nat 0) with 0 in IH.
        cbn [pred]. destruct (run_api h 0) as [cs' k]. exact IH.
      + replace (0 <? N.of_nat (S n)) with true by (symmetry; apply N.ltb_lt; lia).
        replace (N.of_nat (S n) - 1) with (N.of_nat n) by lia.
        specialize (IH n). cbn [pred]. destruct n as [|n].
        * change (N.of_nat 0) with 0 in *. change (0 =? 0) with true. cbn iota. destruct (run_api h 0) as [cs' k]. exact IH.
        * replace (N.of_nat (S n) =? 0) with false by (symmetry; apply N.eqb_neq; lia).
          destruct (run_api h (N.of_nat (S n))) as [cs' k]. cbn [app fst snd] in *.
          replace (0 <? N.of_nat (S n)) with true in IH by (symmetry; apply N.ltb_lt; lia).
          exact IH. }
  intros h. exact (E h 0%nat).
Qed.

(* the result code tells whether the call counts *)
Theorem init_result : forall h ok,
  let '(_, res, _) := HTTPAPI_Init (snd (run_api h 0)) ok in
  res = (if (users h 0 <? users (h ++ [Init ok]) 0)%nat then HTTPAPI_OK else HTTPAPI_INIT_FAILED).
Proof.
  intros h ok. rewrite (proj1 (init_deinit_counted h)).
  assert (forall c n, users (h ++ [c]) n = users [c] (users h n)) as E.
  { induction h as [|x h IH]; intros c n; [reflexivity|]. destruct x; cbn [app users]; apply IH. }
  rewrite E. destruct (users h 0) as [|k]; cbn [users].
  - destruct ok; reflexivity.
  - unfold HTTPAPI_Init. replace (N.of_nat (S k) =? 0) with false by (symmetry; apply N.eqb_neq; lia).
    replace (S k <? S (S k))%nat with true by (symmetry; apply Nat.ltb_lt; lia). reflexivity.
Qed.

(* two users, a failed first attempt, and one Deinit too many *)
Example init_example :
  run_api [Init false; Init true; Init false; Deinit; Deinit; Deinit; Init true] 0 =
    ([GlobalInit false; GlobalInit true; GlobalCleanup; GlobalInit true], 1).
Proof. reflexivity. Qed.

(** * Response headers *)

(* The header list of the model changes as the specification of src/httpheaders.c says. *)
Theorem put_is_add : forall sp h l n v m,
  hlive sp h = Some l -> cstr_okb n = true -> cstr_okb v = true ->
  exists code, hsp_put sp (Some h) (Some n) (HStr v) false m = Some (HRC code, upd sp h (Some (put l n v m))).
Proof.
  intros sp h l n v m L N V. unfold hsp_put, put. rewrite N. cbn [negb].
  assert (upd sp h (Some l) = sp) as U.
  { unfold hlive in L. destruct (nth_error sp h) as [o|] eqn:G; [|discriminate].
    destruct o as [l'|]; [|discriminate]. injection L as ->.
    clear -G. revert h G. induction sp as [|x sp IH]; intros [|h] G; cbn in *; try discriminate.
    - now injection G as ->.
    - now rewrite IH. }
  destruct (legal_name n); cbn [negb].
  2: { eexists. rewrite U. reflexivity. }
  rewrite L. cbn [hdenote]. rewrite V. unfold hset.
  destruct m; cbn [negb]; destruct (lookup n l); eexists; rewrite ?U; reflexivity.
Qed.

(* The text of a C string as the model computes it. *)
Lemma c_string_text : forall l s, c_string_of l = Some s <-> exists rest, l = s ++ 0 :: rest /\ ~ In 0 s.
Proof.
  intros l. induction l as [|c l IH]; intros s; cbn [c_string_of].
  - split; [discriminate|]. intros (rest & E & _). now destruct s.
  - destruct (N.eqb_spec c 0) as [->|Hc].
    + split.
      * intros [= <-]. exists l. split; [reflexivity|intros []].
      * intros (rest & E & F). destruct s as [|d s]; [reflexivity|].
        cbn in E. injection E as <- _. exfalso. apply F. now left.
    + destruct (c_string_of l) as [t|] eqn:T.
      * split.
        -- intros [= <-]. destruct (proj1 (IH t) eq_refl) as (rest & -> & F).
           exists rest. split; [reflexivity|]. intros [?|?]; auto.
        -- intros (rest & E & F). destruct s as [|d s].
           ++ cbn in E. injection E as -> _. now destruct Hc.
           ++ cbn in E. injection E as -> E.
              assert (Some t = Some s) as X. { apply IH. exists rest. split; [exact E|]. intros I. apply F. now right. }
              now injection X as ->.
      * split; [discriminate|]. intros (rest & E & F). destruct s as [|d s].
        -- cbn in E. injection E as -> _. now destruct Hc.
        -- cbn in E. injection E as -> E. exfalso.
           assert (None = Some s) as X. { apply IH. exists rest. split; [exact E|]. intros I. apply F. now right. }
           discriminate.
Qed.

Lemma split_colon_field : forall s,
  match split_colon s with
  | Some (n, v) => field s n v
  | None => ~ In 58 s
  end.
Proof.
  induction s as [|c s IH]; cbn [split_colon]; [intros []|].
  change (ch ":") with 58. destruct (N.eqb_spec c 58) as [->|Hc].
  - split; [reflexivity|intros []].
  - destruct (split_colon s) as [[n v]|].
    + destruct IH as [-> F]. split; [reflexivity|]. intros [?|?]; auto.
    + intros [?|?]; auto.
Qed.

(* The specification: every text has exactly one list of fields. *)
Theorem fields_total : forall ls, exists fs, fields ls fs.
Proof.
  induction ls as [|l ls [fs IH]]; [exists []; constructor|].
  pose proof (split_colon_field l) as S. destruct (split_colon l) as [[n v]|].
  - exists ((n, v) :: fs). now constructor.
  - exists fs. now constructor.
Qed.
Lemma field_unique l n v n' v' : field l n v -> field l n' v' -> n = n' /\ v = v'.
Proof.
  intros [-> F] [E F']. revert n' E F'. induction n as [|c n IH]; intros [|d n'] E F'; cbn in E.
  - now injection E.
  - injection E as <- _. exfalso. apply F'. now left.
  - injection E as -> _. exfalso. apply F. now left.
  - injection E as <- E. destruct (IH (fun H => F (or_intror H)) n' E (fun H => F' (or_intror H))) as [-> ->]. auto.
Qed.
Theorem fields_unique : forall ls fs fs', fields ls fs -> fields ls fs' -> fs = fs'.
Proof.
  intros ls fs fs' F. revert fs'. induction F as [|l n v ls fs F A IH|l ls fs F A IH]; intros fs' B.
  - now inversion B.
  - inversion B as [|? n' v' ? gs F' B'|? ? gs F' B']; subst.
    + destruct (field_unique _ _ _ _ _ F F') as [-> ->]. f_equal. now apply IH.
    + exfalso. apply F'. destruct F as [-> _]. apply in_or_app. right. now left.
  - inversion B as [|? n' v' ? gs F' B'|? ? gs F' B']; subst.
    + exfalso. apply F. destruct F' as [-> _]. apply in_or_app. right. now left.
    + now apply IH.
Qed.

Lemma lines_of_cons s : exists l ls, lines_of s = l :: ls.
Proof.
  destruct s as [|c s]; cbn [lines_of]; [eauto|].
  destruct ((c =? 13) || (c =? 10)); [eauto|]. destruct (lines_of s); eauto.
Qed.
Lemma skip_fields s fs : fields (lines_of (skip_delims s)) fs -> fields (lines_of s) fs.
Proof.
  induction s as [|c s IH]; cbn [skip_delims lines_of]; [auto|].
  unfold crlf. destruct ((c =? 13) || (c =? 10)) eqn:E.
  - intros F. apply fields_none; [intros []|]. now apply IH.
  - cbn [lines_of]. rewrite E. auto.
Qed.
Lemma take_lines s : let '(tok, rest) := take_token s in
  lines_of s = tok :: lines_of rest \/ rest = [] /\ lines_of s = [tok].
Proof.
  induction s as [|c s IH]; cbn [take_token lines_of]; [right; auto|].
  unfold crlf. destruct ((c =? 13) || (c =? 10)); [now left|].
  destruct (take_token s) as [tok rest]. destruct IH as [-> | [-> ->] ]; [now left|now right].
Qed.
Lemma take_length s : (length (snd (take_token s)) <= length s)%nat.
Proof.
  induction s as [|c s IH]; cbn [take_token]; [auto|]. destruct (crlf c); cbn [snd length]; [lia|].
  destruct (take_token s); cbn [snd] in *. lia.
Qed.
Lemma skip_length s : (length (skip_delims s) <= length s)%nat.
Proof. induction s as [|c s IH]; cbn [skip_delims]; [auto|]. destruct (crlf c); cbn [length]; lia. Qed.
Lemma skip_head s c t : skip_delims s = c :: t -> crlf c = false.
Proof.
  induction s as [|d s IH]; cbn [skip_delims]; [discriminate|]. destruct (crlf d) eqn:E; [auto|].
  now intros [= <- _].
Qed.

(* The answers still to come after w' are a suffix of those after w. *)
Definition later (w w' : world) : Prop := exists used, w_oracle w = used ++ w_oracle w'.
Lemma later_refl w : later w w.
Proof. now exists []. Qed.
Lemma later_trans a b c : later a b -> later b c -> later a c.
Proof. intros [x X] [y Y]. exists (x ++ y). now rewrite X, Y, app_assoc. Qed.

Lemma answer_spec w : exists b w', answer w = Some (b, w') /\ w' = with_oracle w (w_oracle w') /\
  later w w' /\ (b = false -> In false (w_oracle w)).
Proof.
  unfold answer. destruct w as [e o r c rb er li se]. cbn. destruct o as [|b o].
  - exists true. eexists. repeat split; [now exists []|discriminate].
  - exists b. eexists. repeat split; [now exists [b]|]. intros ->. now left.
Qed.

Lemma added_weaken (P Q : Prop) fs l l' : (P -> Q) -> added P fs l l' -> added Q fs l l'.
Proof. intros H. induction 1; [constructor|now constructor|apply added_oom; auto]. Qed.
Lemma added_app P fs gs l l' l'' : added P fs l l' -> added P gs l' l'' -> added P (fs ++ gs) l l''.
Proof. induction 1; intros G; cbn [app]; [auto|apply added_put; auto|apply added_oom; auto]. Qed.
Lemma later_in w w' b : later w w' -> In b (w_oracle w') -> In b (w_oracle w).
Proof. intros [u ->] I. apply in_or_app. now right. Qed.
(* without memory problems the result is one and the same *)
Lemma added_all fs l l' : added False fs l l' <-> l' = fold_left (fun l p => put l (fst p) (snd p) true) fs l.
Proof.
  split.
  - induction 1 as [|? ? ? ? ? ? IH|? ? ? ? ? []]; [reflexivity|exact IH].
  - intros ->. revert l. induction fs as [|[n v] fs IH]; intros l; cbn [fold_left]; constructor. apply IH.
Qed.

Lemma header_tokens_spec : forall fuel s w, (length s <= fuel)%nat ->
  exists w' fs, header_tokens fuel s w = Some (tt, w') /\
    w' = with_oracle (with_response w (w_response w')) (w_oracle w') /\ later w w' /\
    fields (lines_of s) fs /\ added (In false (w_oracle w)) fs (w_response w) (w_response w').
Proof.
  induction fuel as [|fuel IH]; intros s w L.
  - destruct s; [|cbn in L; lia]. exists w, []. cbn [header_tokens].
    split; [reflexivity|]. split; [now destruct w|]. split; [apply later_refl|]. split; [|constructor].
    apply fields_none; [intros []|constructor].
  - cbn [header_tokens]. unfold strtok. destruct (skip_delims s) as [|c t] eqn:E.
    { exists w, []. split; [reflexivity|]. split; [now destruct w|]. split; [apply later_refl|]. split; [|constructor].
      apply skip_fields. rewrite E. apply fields_none; [intros []|constructor]. }
    rewrite <- E. pose proof (skip_head _ _ _ E) as Hc.
    assert (let '(tok, rest) := take_token (skip_delims s) in (length rest <= fuel)%nat) as R.
    { rewrite E. cbn [take_token]. rewrite Hc. pose proof (take_length t).
      pose proof (skip_length s) as L2. rewrite E in L2. cbn [length] in L2.
      destruct (take_token t); cbn [snd] in *. lia. }
    pose proof (take_lines (skip_delims s)) as T.
    destruct (take_token (skip_delims s)) as [tok rest]. clear E Hc.
    assert (forall fs, fields (tok :: lines_of rest) fs -> fields (lines_of s) fs) as Fs.
    { intros fs F. apply skip_fields. destruct T as [-> | [-> ->] ]; [exact F|].
      cbn [lines_of] in F. inversion F as [|? n v ? gs A B|? ? gs A B]; subst.
      - constructor; [exact A|]. inversion B as [|? n' v' ? gs' A' B'|? ? gs' A' B']; subst; [|exact B'].
        destruct A' as [A' _]. now destruct n'.
      - apply fields_none; [exact A|]. inversion B as [|? n' v' ? gs' A' B'|? ? gs' A' B']; subst; [|exact B'].
        destruct A' as [A' _]. now destruct n'. }
    pose proof (split_colon_field tok) as S. destruct (split_colon tok) as [[n v]|].
    + destruct (answer_spec w) as (m & w1 & A1 & A2 & A3 & A4).
      set (w2 := with_response w1 (put (w_response w1) n v m)).
      destruct (IH rest w2 R) as (w' & fs & B1 & B2 & B3 & B4 & B5).
      exists w', ((n, v) :: fs).
      unfold bindC. rewrite A1. cbn [change]. fold w2. rewrite B1.
      assert (later w w') as La. { eapply later_trans; [exact A3|]. destruct B3 as [u B3]. exists u. exact B3. }
      split; [reflexivity|]. split.
      { rewrite B2. unfold w2. rewrite A2. destruct w; reflexivity. }
      split; [exact La|]. split. { apply Fs. now constructor. }
      assert (w_response w1 = w_response w) as Rw. { rewrite A2. now destruct w. }
      assert (added (In false (w_oracle w)) fs (w_response w2) (w_response w')) as B6.
      { eapply added_weaken; [|exact B5]. intros I. eapply later_in; [exact A3|exact I]. }
      unfold w2 in B6. cbn [with_response w_response] in B6. rewrite Rw in B6.
      destruct m.
      * now apply added_put.
      * apply added_oom; [auto|]. unfold put in B6. destruct (negb (legal_name n)); exact B6.
    + destruct (IH rest w R) as (w' & fs & B1 & B2 & B3 & B4 & B5).
      exists w', fs. unfold bindC, done. rewrite B1.
      split; [reflexivity|]. split; [exact B2|]. split; [exact B3|]. split; [|exact B5].
      apply Fs. now apply fields_none.
Qed.

(* C67: whatever bytes a header line has, the headers gain exactly the fields of its lines: those
   with a colon, cut at the first; when there is no memory for one it is left out. *)
Theorem header_line_fields_partial : forall line after s w, line_text line after s ->
  exists w' fs, HeadersWriteFunction line after w = Some (tt, w') /\
    w' = with_oracle (with_response w (w_response w')) (w_oracle w') /\
    fields (lines_of s) fs /\ added (In false (w_oracle w)) fs (w_response w) (w_response w').
Proof.
  intros line after s w T. unfold HeadersWriteFunction.
  rewrite (proj2 (c_string_text (line ++ after) s) T).
  destruct (header_tokens_spec (length s) s w (le_n _)) as (w' & fs & A & B & _ & D & E).
  now exists w', fs.
Qed.

Lemma lines_of_plain s rest : (forall c, In c s -> c <> 13 /\ c <> 10) ->
  lines_of (s ++ 13 :: rest) = s :: lines_of rest.
Proof.
  intros F. induction s as [|c s IH]; [reflexivity|]. cbn [app lines_of].
  destruct (F c (or_introl eq_refl)) as [X Y].
  rewrite (proj2 (N.eqb_neq _ _) X), (proj2 (N.eqb_neq _ _) Y). cbn [orb].
  rewrite IH; [reflexivity|]. intros d I. apply F. now right.
Qed.

(* C67: the line "name:value CR LF", followed by a 0, adds the header (name, value). *)
Theorem header_line_one : forall name value rest w,
  (forall c, In c (name ++ value) -> c <> 13 /\ c <> 10 /\ c <> 0) -> ~ In 58 name ->
  ~ In false (w_oracle w) ->
  exists w', HeadersWriteFunction (name ++ 58 :: value ++ [13; 10]) (0 :: rest) w = Some (tt, w') /\
    w_response w' = put (w_response w) name value true.
Proof.
  intros name value rest w F C O.
  destruct (header_line_fields_partial (name ++ 58 :: value ++ [13; 10]) (0 :: rest)
              (name ++ 58 :: value ++ [13; 10]) w) as (w' & fs & A & B & D & E).
  { exists rest. split; [reflexivity|]. intros I. apply in_app_or in I as [I|[I|I] ]; [| |apply in_app_or in I as [I|I] ].
    - destruct (F 0) as (_ & _ & X); [apply in_or_app; auto|auto].
    - discriminate.
    - destruct (F 0) as (_ & _ & X); [apply in_or_app; auto|auto].
    - destruct I as [I|[I|[] ] ]; discriminate. }
  exists w'. split; [exact A|].
  replace (name ++ 58 :: value ++ [13; 10]) with ((name ++ 58 :: value) ++ 13 :: [10]) in D
    by (now rewrite <- app_assoc).
  rewrite lines_of_plain in D.
  2: { intros c I. apply in_app_or in I as [I|[<-|I] ]; [| |].
       - destruct (F c) as (X & Y & _); [apply in_or_app; auto|auto].
       - split; discriminate.
       - destruct (F c) as (X & Y & _); [apply in_or_app; auto|auto]. }
  cbn in D.
  assert (fs = [(name, value)]) as ->.
  { eapply fields_unique; [exact D|]. constructor; [split; auto|].
    apply fields_none; [intros []|]. apply fields_none; [intros []|constructor]. }
  eapply added_weaken in E; [|exact O]. now apply added_all in E.
Qed.

(* C67: a line without a colon (a status line, an empty line) adds nothing. *)
Theorem header_line_none : forall line rest w,
  (forall c, In c line -> c <> 58 /\ c <> 0) ->
  exists w', HeadersWriteFunction line (0 :: rest) w = Some (tt, w') /\ w_response w' = w_response w.
Proof.
  intros line rest w F.
  destruct (header_line_fields_partial line (0 :: rest) line w) as (w' & fs & A & B & D & E).
  { exists rest. split; [reflexivity|]. intros I. now destruct (F 0 I). }
  exists w'. split; [exact A|].
  assert (forall l, In l (lines_of line) -> ~ In 58 l) as G.
  { clear -F. induction line as [|c line IH]; cbn [lines_of].
    - intros l [<-|[] ] [].
    - assert (forall d, In d line -> d <> 58 /\ d <> 0) as F2 by (intros d I; apply F; now right).
      specialize (IH F2). destruct (F c (or_introl eq_refl)) as [Hc _].
      destruct ((c =? 13) || (c =? 10)).
      + intros l [<-|I]; [intros []|auto].
      + destruct (lines_of line) as [|x ls].
        * intros l [<-|[] ] [I|[] ]; auto.
        * intros l [<-|I]; [|apply IH; now right]. intros [I|I]; [auto|]. now apply (IH x (or_introl eq_refl)). }
  assert (fs = []) as ->.
  { eapply fields_unique; [exact D|]. clear -G. induction (lines_of line) as [|l ls IH]; [constructor|].
    apply fields_none; [apply G; now left|]. apply IH. intros x I. apply G. now right. }
  now inversion E.
Qed.

Definition idle : easy :=
  {| o_verbose := 0; o_timeout := 0; o_lslimit := 0; o_lstime := 0; o_fresh := 0; o_forbid := 0;
     o_url := None; o_version := false; o_req := REQ_GET; o_custom := None; o_headers := None;
     o_body := None; o_size := 0; o_hdata := None; o_hfun := false; o_wdata := None; o_wfun := false |}.
Definition fresh (o : list bool) : world :=
  {| w_easy := idle; w_oracle := o; w_response := []; w_content := []; w_rbuf := Null;
     w_error := false; w_live := 0; w_sent := [] |}.

Example header_line_example :
  match HeadersWriteFunction (str "Content-Type:  text/plain; a:b" ++ [13; 10]) [0] (fresh []) with
  | Some (_, w) => w_response w = [(str "Content-Type", str "text/plain; a:b")]
  | None => False
  end.
Proof. reflexivity. Qed.

(* Refuted: libcurl does not promise a 0 after the line (CURLOPT_HEADERFUNCTION: "the header data is
   not null-terminated"); then what lies behind it in its buffer is taken for headers as well,
   and without any 0 the function reads past the end. *)
Theorem header_line_length_refuted : exists line after w,
  match HeadersWriteFunction line after w with
  | Some (_, w') => w_response w' = [(str "A", str "1"); (str "Leftover", str "2")]
  | None => False
  end /\ line = str "A: 1" ++ [13; 10] /\ HeadersWriteFunction line [] w = None.
Proof.
  exists (str "A: 1" ++ [13; 10]), (str "Leftover: 2" ++ [0]), (fresh []).
  split; [reflexivity|]. split; reflexivity.
Qed.
