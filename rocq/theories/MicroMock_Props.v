(* Proofs about the matching of calls. *)
From Verif Require Import Base MicroMock_Model MicroMock_Spec.
From Coq Require Import Permutation.

Definition view (e : expected_call) : expectation :=
  {| x_call := e_call e; x_only_actions := only_actions e; x_ignore_all := ignore_all e; x_times := expected_times e; x_exact := exact e; x_ret := ret e; x_fail := fail_ret e |}.
Definition room (e : expected_call) : nat := expected_times e - matched_times e.
Definition open (es : list expected_call) : list expectation := flat_map (fun e => repeat (view e) (room e)) es.
(* exactness does not matter in order; out of order it must not be asked for *)
Definition good (plain : bool) (e : expected_call) : Prop :=
  only_actions e = false /\ ignore_all e = false /\ (plain = true -> exact e = false) /\ 1 <= expected_times e /\ matched_times e <= expected_times e /\ (has_match (e_matched e) = true <-> matched_times e = expected_times e).
Lemma open_app a b : open (a ++ b) = open a ++ open b.
Proof. apply flat_map_app. Qed.
Lemma not_wants e a : call_equal (e_call e) a = false -> forall n, Forall (fun y => ~ wants y a) (repeat (view e) n).
Proof. intros E n. apply Forall_forall. intros y I. apply repeat_spec in I. subst y. unfold wants. cbn. congruence. Qed.
Lemma good_once p e k : good p e -> matched_times e < expected_times e -> good p (match_once e k).
Proof.
  intros (A & B & C & D & E & F) L. unfold good, match_once. cbn [only_actions ignore_all exact expected_times matched_times e_matched]. do 4 (split; [assumption|]). split; [lia|].
  destruct (Nat.eqb_spec (S (matched_times e)) (expected_times e)); cbn [has_match]; [split; intros _; [assumption|reflexivity] |]. rewrite F. split; lia.
Qed.
Lemma open_once e k : matched_times e < expected_times e -> repeat (view e) (room e) = view e :: repeat (view (match_once e k)) (room (match_once e k)).
Proof. intros L. unfold room. change (view (match_once e k)) with (view e). cbn [match_once expected_times matched_times]. replace (expected_times e - matched_times e) with (S (expected_times e - S (matched_times e))) by lia. reflexivity. Qed.
Lemma full_room p e : good p e -> has_match (e_matched e) = true -> room e = 0.
Proof. intros (_ & _ & _ & _ & _ & F) H. apply F in H. unfold room. lia. Qed.
Lemma unordered_at es : forall i k a, Forall (good true) es -> exists es' m x, unordered es i k a = (es', m, false, x) /\ Forall (good true) es' /\ length es' = length es /\
  ((m = None /\ x = None /\ es' = es /\ Forall (fun y => ~ wants y a) (open es)) \/
   exists j e' s1 s2, m = Some (i + j) /\ x = Some (i + j) /\ nth_error es' j = Some e' /\ open es = s1 ++ view e' :: s2 /\ Forall (fun y => ~ wants y a) s1 /\ wants (view e') a /\ open es' = s1 ++ s2).
Proof.
  induction es as [|e es IH]; intros i k a G.
  - exists [], None, None. split; [reflexivity|]. split; [constructor|]. split; [reflexivity|]. left. repeat split. constructor.
  - apply Forall_cons_iff in G. destruct G as (g & G). pose proof g as (A & B & C & D & E & F). specialize (C eq_refl). cbn [unordered]. rewrite A, B, C. cbn [andb negb orb]. rewrite orb_false_r, andb_true_r.
    destruct (negb (has_match (e_matched e)) && call_equal (e_call e) a) eqn:Q.
    + apply andb_true_iff in Q. destruct Q as (Q1 & Q2). apply negb_true_iff in Q1. destruct (Nat.ltb_spec (matched_times e) (expected_times e)) as [L|L]; [|assert (has_match (e_matched e) = true) by (apply F; lia); congruence].
      eexists _, _, _. split; [reflexivity|]. split; [constructor; [apply good_once; assumption|exact G]|]. split; [reflexivity|]. right. exists 0, (match_once e k), [], (repeat (view (match_once e k)) (room (match_once e k)) ++ open es).
      rewrite Nat.add_0_r. split; [reflexivity|]. split; [reflexivity|]. split; [reflexivity|]. split; [cbn [open flat_map app]; rewrite (open_once e k) by exact L; reflexivity|]. split; [constructor|]. split; [exact Q2|reflexivity].
    + destruct (IH (S i) k a G) as (es' & m & x & E1 & E2 & E3 & E4). rewrite E1. exists (e :: es'), m, x. split; [reflexivity|]. split; [constructor; assumption|]. split; [cbn; lia|].
      assert (N : Forall (fun y => ~ wants y a) (repeat (view e) (room e))).
      { apply andb_false_iff in Q. destruct Q as [Q|Q]; [apply negb_false_iff in Q; rewrite (full_room true e g Q); constructor|apply not_wants; exact Q]. }
      destruct E4 as [(-> & -> & -> & W)|(j & e' & s1 & s2 & -> & -> & W1 & W2 & W3 & W4 & W5)].
      * left. split; [reflexivity|]. split; [reflexivity|]. split; [reflexivity|]. cbn [open flat_map]. apply Forall_app. split; assumption.
      * right. exists (S j), e', (repeat (view e) (room e) ++ s1), s2. split; [f_equal; lia|]. split; [f_equal; lia|]. split; [exact W1|]. cbn [open flat_map]. change (flat_map (fun e => repeat (view e) (room e)) es) with (open es). change (flat_map (fun e => repeat (view e) (room e)) es') with (open es').
        rewrite W2, W5, <- !app_assoc. split; [reflexivity|]. split; [apply Forall_app; split; assumption|]. split; [exact W4|reflexivity].
Qed.
Lemma no_action p es a : Forall (good p) es -> forall i, last_action es i a None = None.
Proof. induction 1 as [|e es (A & _) _ IH]; intros i; [reflexivity|]. cbn [last_action]. rewrite A. apply IH. Qed.
Definition fresh_expected (x : expectation) : expected_call := {| e_call := x_call x; e_matched := None; only_actions := x_only_actions x; ignore_all := x_ignore_all x; expected_times := x_times x; matched_times := 0; exact := x_exact x; ret := x_ret x; fail_ret := x_fail x |}.
Lemma fresh_good p x : asks x -> (p = true -> x_exact x = false) -> good p (fresh_expected x).
Proof. intros (A & B & C) E. unfold good, fresh_expected. cbn. repeat split; try assumption; try lia; discriminate. Qed.
Lemma fresh_open x : open [fresh_expected x] = slots x.
Proof. unfold open, room, view, slots. cbn. rewrite Nat.sub_0_r, app_nil_r. destruct x; reflexivity. Qed.

Lemma map_rep {A B} (f : A -> B) x n : map f (repeat x n) = repeat (f x) n.
Proof. induction n; cbn; congruence. Qed.
(* the reports of a recorder *)
Lemma missing_at p es : Forall (good p) es -> written_out (map (fun e => (e_call e, if 1 <? expected_times e - matched_times e then Some (expected_times e - matched_times e) else None)) (filter IsMissingCall es)) = map x_call (open es).
Proof.
  induction 1 as [|e es g _ IH]; [reflexivity|]. pose proof g as (A & B & C & D & E & F). cbn [filter open flat_map]. rewrite map_app, map_rep. change (flat_map (fun e => repeat (view e) (room e)) es) with (open es). rewrite <- IH.
  unfold IsMissingCall at 1. rewrite A, B. replace (0 <? expected_times e) with true by (symmetry; apply Nat.ltb_lt; lia). rewrite !andb_true_r.
  destruct (has_match (e_matched e)) eqn:H; cbn [negb]; [rewrite (full_room p e g H); reflexivity|]. cbn [map written_out flat_map fst snd].
  assert (R : 1 <= room e) by (unfold room; destruct (Nat.eq_dec (matched_times e) (expected_times e)) as [Q|Q]; [apply F in Q; congruence|lia]). change (expected_times e - matched_times e) with (room e).
  f_equal. destruct (Nat.ltb_spec 1 (room e)); [reflexivity|]. replace (room e) with 1 by lia. reflexivity.
Qed.

(* one run in any order *)
Definition matched_with (l : list (method_call * option expectation)) (acts : list actual_call) : Prop :=
  Forall2 (fun p a => a_call a = fst p /\ always_report a = false /\ has_match (a_matched a) = match snd p with Some _ => true | None => false end) l acts.
Lemma any_order_at c : c <> StrictOrdered -> forall h r, Forall (fun x => asks x /\ x_exact x = false) (expectations h) -> Forall (good true) (expected r) ->
  exists l rest acts r', any_order (open (expected r)) h l rest /\ play c r h = (map (fun p => answer (snd p)) l, r') /\ actual r' = actual r ++ acts /\ matched_with l acts /\ Forall (good true) (expected r') /\ open (expected r') = rest.
Proof.
  intros NO. induction h as [|[x|a] h IH]; intros r X G.
  - exists [], (open (expected r)), [], r. split; [constructor|]. split; [reflexivity|]. split; [symmetry; apply app_nil_r|]. split; [constructor|]. auto.
  - cbn [expectations flat_map app] in X. apply Forall_cons_iff in X. destruct X as ((X1 & X2) & X). destruct (IH (RecordExpectedCall r x) X) as (l & rest & acts & r' & P1 & P2 & P3 & P4 & P5 & P6).
    { cbn [RecordExpectedCall expected]. apply Forall_app. split; [exact G|constructor; [apply fresh_good; auto|constructor] ]. }
    exists l, rest, acts, r'. split; [constructor; cbn [RecordExpectedCall expected] in P1; change ({| e_call := x_call x; e_matched := None; only_actions := x_only_actions x; ignore_all := x_ignore_all x; expected_times := x_times x; matched_times := 0; exact := x_exact x; ret := x_ret x; fail_ret := x_fail x |}) with (fresh_expected x) in P1; rewrite open_app, fresh_open in P1; exact P1|]. auto.
  - destruct (unordered_at (expected r) 0 (length (actual r)) a G) as (es' & m & x & E1 & E2 & E3 & E4).
    assert (E : RecordActualCall c r a = (let '(v, failed) := match x with Some j => match nth_error es' j with Some e => match fail_ret e with Some f => (Some f, true) | None => (ret e, false) end | None => (None, false) end | None => (None, false) end in
      (v, failed, {| expected := es'; actual := actual r ++ [{| a_call := a; a_matched := m; always_report := false |}]; m_ExpectedCallIndex := m_ExpectedCallIndex r |}))).
    { unfold RecordActualCall, match_unordered. rewrite E1, (no_action true es' a E2). destruct c; [reflexivity|congruence|reflexivity]. }
    cbn [play]. rewrite E. set (r1 := {| expected := es'; actual := actual r ++ [{| a_call := a; a_matched := m; always_report := false |}]; m_ExpectedCallIndex := m_ExpectedCallIndex r |}).
    destruct (IH r1 X E2) as (l & rest & acts & r' & P1 & P2 & P3 & P4 & P5 & P6). cbn [r1 expected actual] in P1, P3.
    destruct E4 as [(-> & -> & -> & W)|(j & e' & s1 & s2 & -> & -> & W1 & W2 & W3 & W4 & W5)].
    + exists ((a, None) :: l), rest, ({| a_call := a; a_matched := None; always_report := false |} :: acts), r'. split; [apply any_miss; assumption|]. rewrite P2. split; [reflexivity|]. split; [rewrite P3, <- app_assoc; reflexivity|]. split; [constructor; [repeat split|exact P4]|]. auto.
    + cbn [Nat.add]. rewrite W1. exists ((a, Some (view e')) :: l), rest, ({| a_call := a; a_matched := Some j; always_report := false |} :: acts), r'. split; [rewrite W2; apply any_hit; [exact W3|exact W4|rewrite <- W5; exact P1]|].
      destruct (fail_ret e') eqn:Q; rewrite P2; (split; [cbn [map snd answer view x_fail x_ret]; rewrite Q; reflexivity|]); (split; [rewrite P3, <- app_assoc; reflexivity|]); (split; [constructor; [repeat split|exact P4]|]); auto.
Qed.
Lemma unexpected_at l acts : matched_with l acts -> map a_call (filter (IsUnexpectedCall StrictUnordered) acts) = unmatched l /\ map a_call (filter (IsUnexpectedCall StrictOrdered) acts) = unmatched l /\ filter (IsUnexpectedCall Nice) acts = [].
Proof.
  induction 1 as [|p a l acts (A & B & C) _ (I1 & I2 & I3)]; [auto|]. unfold unmatched. cbn [filter IsUnexpectedCall]. rewrite B, C. destruct (snd p) eqn:Q; cbn [negb map]; [auto|]. cbn [IsUnexpectedCall] in I1, I2, I3. rewrite I1, I2, A. auto.
Qed.
(* With the strict comparer, expectations may be met in any order: each call uses up the first expectation that still wants it, the
   others are reported as unexpected, and what was not used up is reported as missing, as many times as it is missing. *)
Theorem any_order_partial h : Forall (fun x => asks x /\ x_exact x = false) (expectations h) ->
  exists l rest r, any_order [] h l rest /\ play StrictUnordered new_recorder h = (map (fun p => answer (snd p)) l, r) /\ GetUnexpectedCalls StrictUnordered r = unmatched l /\ written_out (GetMissingCalls r) = map x_call rest.
Proof.
  intros X. destruct (any_order_at StrictUnordered ltac:(discriminate) h new_recorder X ltac:(constructor)) as (l & rest & acts & r & P1 & P2 & P3 & P4 & P5 & P6). exists l, rest, r. split; [exact P1|]. split; [exact P2|].
  cbn [new_recorder actual app] in P3. unfold GetUnexpectedCalls, GetMissingCalls. rewrite P3, (missing_at true), P6 by exact P5. split; [apply unexpected_at; exact P4|reflexivity].
Qed.
(* The nice comparer: the same, but nothing is unexpected. *)
Theorem nice_partial h : Forall (fun x => asks x /\ x_exact x = false) (expectations h) ->
  exists l rest r, any_order [] h l rest /\ play Nice new_recorder h = (map (fun p => answer (snd p)) l, r) /\ GetUnexpectedCalls Nice r = [] /\ written_out (GetMissingCalls r) = map x_call rest.
Proof.
  intros X. destruct (any_order_at Nice ltac:(discriminate) h new_recorder X ltac:(constructor)) as (l & rest & acts & r & P1 & P2 & P3 & P4 & P5 & P6). exists l, rest, r. split; [exact P1|]. split; [exact P2|].
  cbn [new_recorder actual app] in P3. unfold GetUnexpectedCalls, GetMissingCalls. rewrite P3, (missing_at true), P6 by exact P5. destruct (unexpected_at l acts P4) as (_ & _ & N). rewrite N. split; reflexivity.
Qed.

(* one run in order: the first [index] expectations are used up *)
Definition at_index (r : recorder) : Prop := exists used left, expected r = used ++ left /\ length used = m_ExpectedCallIndex r /\ open used = [] /\ (forall e, hd_error left = Some e -> has_match (e_matched e) = false) /\ (forall e, In e (tl left) -> matched_times e = 0).
Lemma in_order_at h : forall r, Forall asks (expectations h) -> Forall (good false) (expected r) -> at_index r ->
  exists l rest acts r', in_order (open (expected r)) h l rest /\ play StrictOrdered r h = (map (fun p => answer (snd p)) l, r') /\ actual r' = actual r ++ acts /\ (Forall2 (fun p a => a_call a = fst p /\ has_match (a_matched a) = match snd p with Some _ => true | None => false end) l acts) /\ Forall (good false) (expected r') /\ open (expected r') = rest.
Proof.
  induction h as [|[x|a] h IH]; intros r X G AT.
  - exists [], (open (expected r)), [], r. split; [constructor|]. split; [reflexivity|]. split; [symmetry; apply app_nil_r|]. split; [constructor|]. auto.
  - cbn [expectations flat_map app] in X. apply Forall_cons_iff in X. destruct X as (X1 & X). destruct (IH (RecordExpectedCall r x) X) as (l & rest & acts & r' & P1 & P2 & P3 & P4 & P5 & P6).
    { cbn [RecordExpectedCall expected]. apply Forall_app. split; [exact G|constructor; [apply fresh_good; [exact X1|discriminate]|constructor] ]. }
    { destruct AT as (used & left & A1 & A2 & A3 & A4 & A5). exists used, (left ++ [fresh_expected x]). cbn [RecordExpectedCall expected m_ExpectedCallIndex]. split; [rewrite A1, <- app_assoc; reflexivity|]. split; [exact A2|]. split; [exact A3|].
      destruct left as [|e left]; [split; [intros e E; injection E as <-; reflexivity|intros e []]|]. split; [exact A4|]. cbn [app tl]. intros e' I. apply in_app_or in I. destruct I as [I|[<-|[] ] ]; [apply A5; exact I|reflexivity]. }
    exists l, rest, acts, r'. split; [constructor; cbn [RecordExpectedCall expected] in P1; change ({| e_call := x_call x; e_matched := None; only_actions := x_only_actions x; ignore_all := x_ignore_all x; expected_times := x_times x; matched_times := 0; exact := x_exact x; ret := x_ret x; fail_ret := x_fail x |}) with (fresh_expected x) in P1; rewrite open_app, fresh_open in P1; exact P1|]. auto.
  - destruct AT as (used & left & A1 & A2 & A3 & A4 & A5). pose proof G as G'. rewrite A1 in G'. apply Forall_app in G'. destruct G' as (GU & GL).
    assert (SK : skip_actions (skipn (m_ExpectedCallIndex r) (expected r)) (m_ExpectedCallIndex r) = m_ExpectedCallIndex r).
    { rewrite A1, <- A2, skipn_app, skipn_all, Nat.sub_diag. cbn [app skipn]. destruct left as [|e left]; [reflexivity|]. cbn [skip_actions]. apply Forall_cons_iff in GL. destruct GL as ((Q & _) & _). rewrite Q. reflexivity. }
    cbn [play]. unfold RecordActualCall, match_ordered. rewrite SK.
    assert (NT : nth_error (expected r) (m_ExpectedCallIndex r) = hd_error left) by (rewrite A1, <- A2, nth_error_app2, Nat.sub_diag by lia; destruct left; reflexivity).
    assert (OP : open (expected r) = open left) by (rewrite A1, open_app, A3; reflexivity). rewrite NT, OP.
    destruct left as [|e left]; cbn [hd_error].
    { rewrite (no_action false (expected r)) by exact G. set (r1 := {| expected := expected r; actual := actual r ++ [{| a_call := a; a_matched := None; always_report := false |}]; m_ExpectedCallIndex := m_ExpectedCallIndex r |}).
      destruct (IH r1 X G) as (l & rest & acts & r' & P1 & P2 & P3 & P4 & P5 & P6); [exists used, []; auto|]. cbn [r1 expected actual] in P1, P3. rewrite OP in P1.
      exists ((a, None) :: l), rest, ({| a_call := a; a_matched := None; always_report := false |} :: acts), r'. split; [apply in_miss; [discriminate|exact P1]|]. rewrite P2. split; [reflexivity|]. split; [rewrite P3, <- app_assoc; reflexivity|]. split; [constructor; [repeat split|exact P4]|]. auto. }
    apply Forall_cons_iff in GL. destruct GL as (g & GL). pose proof g as (Q1 & Q2 & Q3 & Q4 & Q5 & Q6). specialize (A4 e eq_refl). rewrite Q2, A4. cbn [andb negb].
    assert (L : matched_times e < expected_times e) by (destruct (Nat.eq_dec (matched_times e) (expected_times e)) as [Q|Q]; [apply Q6 in Q; congruence|lia]).
    destruct (call_equal (e_call e) a) eqn:CE.
    + replace (matched_times e <? expected_times e) with true by (symmetry; apply Nat.ltb_lt; exact L).
      assert (UP : upd (expected r) (m_ExpectedCallIndex r) (match_once e (length (actual r))) = used ++ match_once e (length (actual r)) :: left).
      { rewrite A1, <- A2. clear. induction used as [|u used IH]; [reflexivity|]. cbn. f_equal. exact IH. }
      set (e1 := match_once e (length (actual r))) in *. assert (NE : nth_error (upd (expected r) (m_ExpectedCallIndex r) e1) (m_ExpectedCallIndex r) = Some e1) by (rewrite UP, <- A2, nth_error_app2, Nat.sub_diag by lia; reflexivity).
      assert (G1 : Forall (good false) (used ++ e1 :: left)) by (apply Forall_app; split; [exact GU|constructor; [apply good_once; assumption|exact GL] ]).
      rewrite NE. rewrite UP. rewrite (no_action false (used ++ e1 :: left)) by exact G1.
      set (r1 := {| expected := used ++ e1 :: left; actual := actual r ++ [{| a_call := a; a_matched := Some (m_ExpectedCallIndex r); always_report := false |}]; m_ExpectedCallIndex := if S (matched_times e) =? expected_times e then S (m_ExpectedCallIndex r) else m_ExpectedCallIndex r |}).
      assert (AT1 : at_index r1).
      { unfold at_index, r1. cbn [expected m_ExpectedCallIndex]. destruct (Nat.eqb_spec (S (matched_times e)) (expected_times e)) as [Q|Q].
        - exists (used ++ [e1]), left. split; [rewrite <- app_assoc; reflexivity|]. split; [rewrite app_length; cbn [length]; lia|]. split; [rewrite open_app, A3; unfold open, room, e1; cbn [flat_map match_once expected_times matched_times app]; replace (expected_times e - S (matched_times e)) with 0 by lia; reflexivity|].
          assert (Z : forall y, In y left -> has_match (e_matched y) = false) by (intros y I; pose proof (A5 y I) as M0; rewrite Forall_forall in GL; destruct (GL y I) as (_ & _ & _ & Y4 & _ & Y6); destruct (has_match (e_matched y)); [assert (matched_times y = expected_times y) by tauto; lia|reflexivity]).
          split; [intros y E; apply Z; destruct left; [discriminate E|injection E as <-; left; reflexivity]|]. intros y I. apply A5. destruct left; [destruct I|right; exact I].
        - exists used, (e1 :: left). split; [reflexivity|]. split; [exact A2|]. split; [exact A3|]. split; [|exact A5]. intros y E. injection E as <-. unfold e1. cbn [match_once e_matched]. apply Nat.eqb_neq in Q. rewrite Q. exact A4. }
      destruct (IH r1 X G1 AT1) as (l & rest & acts & r' & P1 & P2 & P3 & P4 & P5 & P6). cbn [r1 expected actual] in P1, P3. rewrite open_app, A3 in P1. cbn [app] in P1.
      exists ((a, Some (view e)) :: l), rest, ({| a_call := a; a_matched := Some (m_ExpectedCallIndex r); always_report := false |} :: acts), r'.
      split; [cbn [open flat_map]; rewrite (open_once e (length (actual r))) by exact L; cbn [app]; apply in_hit; [exact CE|exact P1]|].
      replace (if matched_times e1 =? expected_times e1 then Some (m_ExpectedCallIndex r) else Some (m_ExpectedCallIndex r)) with (Some (m_ExpectedCallIndex r)) by (destruct (matched_times e1 =? expected_times e1); reflexivity).
      rewrite UP in NE. rewrite NE. change (fail_ret e1) with (fail_ret e). change (ret e1) with (ret e). fold r1.
      destruct (fail_ret e) eqn:Q; rewrite P2; (split; [cbn [map snd answer view x_fail x_ret]; rewrite Q; reflexivity|]); (split; [rewrite P3, <- app_assoc; reflexivity|]); (split; [constructor; [repeat split|exact P4]|]); auto.
    + rewrite (no_action false (expected r)) by exact G. set (r1 := {| expected := expected r; actual := actual r ++ [{| a_call := a; a_matched := None; always_report := false |}]; m_ExpectedCallIndex := m_ExpectedCallIndex r |}).
      destruct (IH r1 X G) as (l & rest & acts & r' & P1 & P2 & P3 & P4 & P5 & P6); [exists used, (e :: left); split; [exact A1|]; split; [exact A2|]; split; [exact A3|]; split; [intros y E; injection E as <-; exact A4|exact A5]|]. cbn [r1 expected actual] in P1, P3. rewrite OP in P1.
      exists ((a, None) :: l), rest, ({| a_call := a; a_matched := None; always_report := false |} :: acts), r'. split; [apply in_miss; [|exact P1]|].
      { intros x. cbn [open flat_map]. rewrite (open_once e 0) by exact L. intros E. injection E as <-. unfold wants. cbn. congruence. }
      rewrite P2. split; [reflexivity|]. split; [rewrite P3, <- app_assoc; reflexivity|]. split; [constructor; [repeat split|exact P4]|]. auto.
Qed.
Lemma at_new : at_index new_recorder.
Proof. exists [], []. repeat split; try (intros; discriminate). intros e []. Qed.
(* With the ordered comparer only the first expectation that is left counts. *)
Theorem in_order_partial h : Forall asks (expectations h) ->
  exists l rest r, in_order [] h l rest /\ play StrictOrdered new_recorder h = (map (fun p => answer (snd p)) l, r) /\ GetUnexpectedCalls StrictOrdered r = unmatched l /\ written_out (GetMissingCalls r) = map x_call rest.
Proof.
  intros X. destruct (in_order_at h new_recorder X ltac:(constructor) at_new) as (l & rest & acts & r & P1 & P2 & P3 & P4 & P5 & P6). exists l, rest, r. split; [exact P1|]. split; [exact P2|].
  cbn [new_recorder actual app] in P3. unfold GetUnexpectedCalls, GetMissingCalls. rewrite P3, (missing_at false), P6 by exact P5. split; [|reflexivity]. clear - P4.
  induction P4 as [|p a l acts (A & C) _ IH]; [reflexivity|]. unfold unmatched. cbn [filter IsUnexpectedCall]. rewrite C. destruct (snd p) eqn:Q; cbn [negb map]; [exact IH|]. cbn [IsUnexpectedCall] in IH. rewrite IH, A. reflexivity.
Qed.

(* expectations first, then the calls: when is nothing reported? *)
Lemma expects_of xs as_ : expectations (map Expect xs ++ map Call as_) = xs.
Proof. unfold expectations. rewrite flat_map_app. replace (flat_map _ (map Call as_)) with (@nil expectation) by (induction as_; cbn; congruence). rewrite app_nil_r. induction xs; cbn; congruence. Qed.
Lemma any_expects xs : forall open as_ l rest, any_order open (map Expect xs ++ map Call as_) l rest -> any_order (open ++ flat_map slots xs) (map Call as_) l rest.
Proof. induction xs as [|x xs IH]; intros o as_ l rest H; cbn in *; [rewrite app_nil_r; exact H|]. inversion H as [|? ? ? ? ? K| |]; subst. apply IH in K. rewrite <- app_assoc in K. exact K. Qed.
Lemma in_expects xs : forall open as_ l rest, in_order open (map Expect xs ++ map Call as_) l rest -> in_order (open ++ flat_map slots xs) (map Call as_) l rest.
Proof. induction xs as [|x xs IH]; intros o as_ l rest H; cbn in *; [rewrite app_nil_r; exact H|]. inversion H as [|? ? ? ? ? K| |]; subst. apply IH in K. rewrite <- app_assoc in K. exact K. Qed.
Lemma nothing_missing r : written_out (GetMissingCalls r) = [] <-> GetMissingCalls r = [].
Proof.
  split; [|intros ->; reflexivity]. unfold GetMissingCalls. destruct (filter IsMissingCall (expected r)) as [|e l]; [reflexivity|]. cbn [map written_out flat_map fst snd]. intros H. exfalso. revert H.
  destruct (1 <? expected_times e - matched_times e) eqn:Q; [|discriminate]. destruct (expected_times e - matched_times e); [discriminate Q|discriminate].
Qed.
Lemma in_green as_ : forall open l rest, in_order open (map Call as_) l rest -> (unmatched l = [] /\ rest = [] <-> Forall2 wants open as_).
Proof.
  induction as_ as [|a as_ IH]; intros o l rest H; cbn in H; inversion H as [|? ? ? ? ? K|x after ? ? l' ? W K|? ? ? l' ? N K]; subst.
  - split; [intros (_ & ->); constructor|intros F; inversion F; auto].
  - apply IH in K. split.
    + intros (A & B). constructor; [assumption|]. apply K. split; [exact A|exact B].
    + intros F. inversion F; subst. apply K. assumption.
  - split; [intros (A & _); discriminate A|]. intros F. inversion F as [|x ? y ? W]; subst. destruct (N x eq_refl W).
Qed.
(* Nothing is reported exactly when the calls are the ones asked for, in that order. *)
Theorem in_order_green_partial xs as_ answers r : Forall asks xs -> play StrictOrdered new_recorder (map Expect xs ++ map Call as_) = (answers, r) ->
  (GetMissingCalls r = [] /\ GetUnexpectedCalls StrictOrdered r = [] <-> Forall2 wants (flat_map slots xs) as_).
Proof.
  intros X E. destruct (in_order_partial (map Expect xs ++ map Call as_)) as (l & rest & r' & P1 & P2 & P3 & P4); [rewrite expects_of; exact X|]. rewrite E in P2. injection P2 as _ <-.
  rewrite <- nothing_missing, P3, P4. apply in_expects in P1. cbn [app] in P1. apply in_green in P1. rewrite <- P1. destruct rest; cbn [map]; intuition discriminate.
Qed.
Lemma equal_exact a b : no_wildcard a -> no_wildcard b -> (call_equal a b = true <-> a = b).
Proof.
  intros A B. assert (X : forall l r, Forall (fun v => ignored v = false) l -> Forall (fun v => ignored v = false) r -> length l = length r -> (args_equal l r = true <-> l = r)).
  { induction l as [|x l IH]; intros [|y r] L R Q; try discriminate Q; [cbn; tauto|]. apply Forall_cons_iff in L, R. destruct L as (L1 & L), R as (R1 & R). injection Q as Q. cbn [args_equal]. unfold arg_equal. rewrite L1, R1. cbn [negb andb].
    rewrite andb_true_iff, (IH r L R Q). destruct x as [x i], y as [y j]. cbn in *. subst. destruct (Nat.eqb_spec x y); split; intros H; try (destruct H; congruence); [injection H as <-; auto|injection H as H _; contradiction]. }
  unfold call_equal. rewrite !andb_true_iff, !Nat.eqb_eq. split.
  - intros ((M & L) & E). apply X in E; [|assumption..]. destruct a, b; cbn in *; congruence.
  - intros ->. split; [split; reflexivity|]. apply X; [assumption..|reflexivity|reflexivity].
Qed.
Lemma any_green as_ : Forall no_wildcard as_ -> forall open l rest, Forall (fun x => no_wildcard (x_call x)) open -> any_order open (map Call as_) l rest -> (unmatched l = [] /\ rest = [] <-> Permutation (map x_call open) as_).
Proof.
  induction 1 as [|a as_ A _ IH]; intros o l rest O H; cbn in H; inversion H as [|? ? ? ? ? H1|before x after ? ? l' ? N W H1|? ? ? l' ? N H1]; subst.
  - split; [intros (_ & ->); constructor|]. intros P. apply Permutation_sym, Permutation_nil in P. destruct rest; [auto|discriminate P].
  - apply Forall_app in O. destruct O as (O1 & O2). apply Forall_cons_iff in O2. destruct O2 as (O2 & O3). apply IH in H1; [|apply Forall_app; auto]. apply equal_exact in W; [|assumption..].
    change (unmatched ((a, Some x) :: l')) with (unmatched l'). rewrite H1, !map_app. cbn [map]. rewrite W. split; intros P; [apply Permutation_sym, Permutation_cons_app, Permutation_sym; exact P|apply Permutation_sym in P; apply Permutation_cons_app_inv in P; apply Permutation_sym; exact P].
  - split; [intros (Z & _); discriminate Z|]. intros P. apply Permutation_sym in P. assert (I : In a (map x_call o)) by (eapply Permutation_in; [exact P|left; reflexivity]). apply in_map_iff in I. destruct I as (x & E & I). rewrite Forall_forall in N, O. destruct (N x I). apply equal_exact; auto.
Qed.
(* Nothing is reported exactly when the calls are the ones asked for, in some order. *)
Theorem any_order_green_partial xs as_ answers r : Forall (fun x => asks x /\ x_exact x = false /\ no_wildcard (x_call x)) xs -> Forall no_wildcard as_ -> play StrictUnordered new_recorder (map Expect xs ++ map Call as_) = (answers, r) ->
  (GetMissingCalls r = [] /\ GetUnexpectedCalls StrictUnordered r = [] <-> Permutation (map x_call (flat_map slots xs)) as_).
Proof.
  intros X A E. destruct (any_order_partial (map Expect xs ++ map Call as_)) as (l & rest & r' & P1 & P2 & P3 & P4); [rewrite expects_of; eapply Forall_impl; [|exact X]; intros y (Y1 & Y2 & _); split; assumption|]. rewrite E in P2. injection P2 as _ <-.
  rewrite <- nothing_missing, P3, P4. apply any_expects in P1. cbn [app] in P1. apply any_green in P1; [|exact A|].
  - rewrite <- P1. destruct rest; cbn [map]; intuition discriminate.
  - apply Forall_forall. intros y I. apply in_flat_map in I. destruct I as (x & I & J). apply repeat_spec in J. subst y. rewrite Forall_forall in X. apply X. exact I.
Qed.

(* ---- what goes wrong ---- *)
Definition f (v : nat) : method_call := {| method := 1; arguments := [{| value := v; ignored := false |}] |}.
Definition f_any : method_call := {| method := 1; arguments := [{| value := 0; ignored := true |}] |}.
Definition expects (c : method_call) (n : nat) (e : bool) (v : option nat) : expectation := {| x_call := c; x_only_actions := false; x_ignore_all := false; x_times := n; x_exact := e; x_ret := v; x_fail := None |}.
Theorem any_order_case : let h := [Expect (expects (f 1) 2 false (Some 7)); Expect (expects (f 2) 1 false (Some 8)); Call (f 2); Call (f 1); Call (f 3)] in
  Forall (fun x => asks x /\ x_exact x = false) (expectations h) /\ exists r, play StrictUnordered new_recorder h = ([(Some 8, false); (Some 7, false); (None, false)], r) /\ GetMissingCalls r = [(f 1, None)] /\ GetUnexpectedCalls StrictUnordered r = [f 3].
Proof. split; [cbn; repeat constructor|]. eexists. split; [vm_compute; reflexivity|]. split; reflexivity. Qed.
Theorem in_order_case : let h := [Expect (expects (f 1) 2 false (Some 7)); Expect (expects f_any 1 false (Some 8)); Call (f 1); Call (f 2); Call (f 1); Call (f 9)] in
  Forall asks (expectations h) /\ exists r, play StrictOrdered new_recorder h = ([(Some 7, false); (None, false); (Some 7, false); (Some 8, false)], r) /\ GetMissingCalls r = [] /\ GetUnexpectedCalls StrictOrdered r = [f 2].
Proof. split; [cbn; repeat constructor|]. eexists. split; [vm_compute; reflexivity|]. split; reflexivity. Qed.
(* An expectation that ignores its argument takes a call that another needs: calls that could all be matched are reported. *)
Theorem wildcard_refuted : exists xs as_ answers r, Forall asks xs /\ Permutation [f 1; f 2] as_ /\ (exists ys, Permutation ys (flat_map slots xs) /\ Forall2 wants ys as_) /\
  play StrictUnordered new_recorder (map Expect xs ++ map Call as_) = (answers, r) /\ GetMissingCalls r = [(f 1, None)] /\ GetUnexpectedCalls StrictUnordered r = [f 2].
Proof.
  exists [expects f_any 1 false None; expects (f 1) 1 false None], [f 1; f 2]. eexists _, _. split; [repeat constructor|]. split; [reflexivity|]. split; [|split; [vm_compute; reflexivity|split; reflexivity] ].
  exists [expects (f 1) 1 false None; expects f_any 1 false None]. split; [apply perm_swap|]. repeat constructor.
Qed.
(* Two expectations of exactly one call, and two calls: one is missing and one unexpected. *)
Theorem exactly_twice_refuted : exists answers r, play StrictUnordered new_recorder [Expect (expects (f 1) 1 true None); Expect (expects (f 1) 1 true None); Call (f 1); Call (f 1)] = (answers, r) /\ GetMissingCalls r = [(f 1, None)] /\ GetUnexpectedCalls StrictUnordered r = [f 1].
Proof. eexists _, _. split; [vm_compute; reflexivity|]. split; reflexivity. Qed.
(* NeverInvoked stops the ordered comparer: the expectations after it are never met. *)
Theorem never_invoked_refuted : exists answers r, play StrictOrdered new_recorder [Expect (expects (f 2) 0 true None); Expect (expects (f 1) 1 false None); Call (f 1)] = (answers, r) /\ GetMissingCalls r = [(f 1, None)] /\ GetUnexpectedCalls StrictOrdered r = [f 1].
Proof. eexists _, _. split; [vm_compute; reflexivity|]. split; reflexivity. Qed.
(* ExpectedAtLeastTimes(1), and two calls: the second is unexpected. *)
Theorem at_least_refuted : exists answers r, play StrictUnordered new_recorder [Expect (expects (f 1) 1 false None); Call (f 1); Call (f 1)] = (answers, r) /\ GetUnexpectedCalls StrictUnordered r = [f 1].
Proof. eexists _, _. split; [vm_compute; reflexivity|]. reflexivity. Qed.

(* ---- resets ---- *)
Definition same_calls (r r' : recorder) : Prop := expected r = expected r' /\ actual r = actual r'.
Lemma play_same c h : c <> StrictOrdered -> forall r r', same_calls r r' -> fst (play c r h) = fst (play c r' h) /\ same_calls (snd (play c r h)) (snd (play c r' h)).
Proof.
  intros N. induction h as [|[x|a] h IH]; intros r r' (A & B); [split; [reflexivity|split; assumption]|cbn [play]; apply IH; split; cbn; congruence|].
  cbn [play]. destruct (RecordActualCall c r a) as ((v & b) & r1) eqn:E. destruct (RecordActualCall c r' a) as ((v' & b') & r1') eqn:E'.
  assert (Q : v = v' /\ b = b' /\ same_calls r1 r1').
  { unfold RecordActualCall in E, E'. rewrite A, B in E. destruct c; [|congruence|]; destruct (match_unordered (expected r') (length (actual r')) a) as (((es & m) & w) & x); destruct (match x with Some j => match nth_error es j with Some e => match fail_ret e with Some f => (Some f, true) | None => (ret e, false) end | None => (None, false) end | None => (None, false) end); injection E as <- <- <-; injection E' as <- <- <-; repeat split; reflexivity. }
  destruct Q as (<- & <- & Q). destruct (IH r1 r1' Q) as (I1 & I2). destruct (play c r1 h), (play c r1' h). cbn in *. split; [congruence|exact I2].
Qed.
(* After ResetAllCalls the unordered comparers behave as at the beginning. *)
Theorem reset_partial c r h : c <> StrictOrdered ->
  let after := play c (ResetAllCalls r) h in let new := play c new_recorder h in
  fst after = fst new /\ GetMissingCalls (snd after) = GetMissingCalls (snd new) /\ GetUnexpectedCalls c (snd after) = GetUnexpectedCalls c (snd new).
Proof.
  intros N. destruct (play_same c h N (ResetAllCalls r) new_recorder) as (A & B & C); [split; reflexivity|]. cbv zeta. unfold GetMissingCalls, GetUnexpectedCalls. rewrite A, B, C. auto.
Qed.
(* The ordered comparer goes on where it was; and after ResetActualCalls an expectation that was met cannot be met again. *)
Theorem ordered_reset_refuted : exists answers r, play StrictOrdered (ResetAllCalls (snd (play StrictOrdered new_recorder [Expect (expects (f 1) 1 false None); Call (f 1)]))) [Expect (expects (f 1) 1 false None); Call (f 1)] = (answers, r) /\
  GetMissingCalls r = [(f 1, None)] /\ GetUnexpectedCalls StrictOrdered r = [f 1].
Proof. eexists _, _. split; [vm_compute; reflexivity|]. split; reflexivity. Qed.
Theorem reset_actual_refuted : exists answers r, play StrictUnordered (ResetActualCalls (snd (play StrictUnordered new_recorder [Expect (expects (f 1) 1 false None); Call (f 1)]))) [Call (f 1)] = (answers, r) /\
  GetMissingCalls r = [(f 1, None)] /\ GetUnexpectedCalls StrictUnordered r = [f 1].
Proof. eexists _, _. split; [vm_compute; reflexivity|]. split; reflexivity. Qed.

(** * Expectations of every kind *)
(* an expected call and the expectation with what it still asks for *)
Definition entry_of (e : expected_call) (y : entry) : Prop :=
  e_call e = x_call (fst y) /\ only_actions e = x_only_actions (fst y) /\ ignore_all e = x_ignore_all (fst y) /\ expected_times e = x_times (fst y) /\
  exact e = x_exact (fst y) /\ ret e = x_ret (fst y) /\ fail_ret e = x_fail (fst y) /\ matched_times e + snd y = x_times (fst y) /\
  (x_ignore_all (fst y) = false -> has_match (e_matched e) = (0 <? x_times (fst y)) && (snd y =? 0)).
Definition is_matched (o : outcome) : bool := match o with TooMany _ => false | _ => true end.
Lemma before_cons y before a : ~ concerns y a -> Forall (fun y => ~ concerns y a) before -> Forall (fun y => ~ concerns y a) (y :: before).
Proof. constructor; assumption. Qed.
Lemma one_call_skip y open a o open' : ~ concerns y a -> one_call open a o open' -> one_call (y :: open) a o (y :: open').
Proof.
  intros N H. revert N. destruct H as [op b F|before x n after b F W I|before x n after b F W I O|before x after b F C I]; intros N.
  - apply call_nobody. constructor; assumption.
  - apply (call_allowed (y :: before)); auto.
  - apply (call_meets (y :: before)); auto.
  - apply (call_too_many (y :: before)); auto.
Qed.
Lemma unordered_entries k a es open : Forall2 entry_of es open -> forall i, exists o open', one_call open a o open' /\
  let '(es', m, w, x) := unordered es i k a in Forall2 entry_of es' open' /\ has_match m = is_matched o /\ w = (match o with TooMany e => e | _ => false end) /\
  match o with Meets q => exists j n, x = Some (i + j) /\ nth_error open' j = Some (q, n) | _ => x = None end.
Proof.
  induction 1 as [|e y es open E F IH]; intros i.
  - exists (TooMany false), []. split; [apply call_nobody; constructor|]. cbn. auto.
  - destruct y as [x n]. pose proof E as (E1 & E2 & E3 & E4 & E5 & E6 & E7 & E8 & E9). cbn [fst snd] in *. cbn [unordered]. rewrite E1, E2, E3, E4, E5.
    destruct (x_ignore_all x) eqn:I; [destruct (call_equal (x_call x) a) eqn:Q|]; cbn [andb].
    + exists Allowed, ((x, n) :: open). split; [apply (call_allowed []); [constructor|exact Q|exact I] |]. cbn. split; [|auto]. constructor; [|exact F].
      do 7 (split; [cbn; congruence|]). split; [cbn; lia|]. cbn. intros H. congruence.
    + rewrite Bool.andb_false_r. destruct (IH (Datatypes.S i)) as (o & open' & O & R). exists o, ((x, n) :: open'). split; [apply one_call_skip; [|exact O]; intros (W & _); unfold wants in W; cbn in W; congruence|].
      destruct (unordered es (Datatypes.S i) k a) as (((es' & m) & w) & z). destruct R as (R1 & R2 & R3 & R4). split; [constructor; assumption|]. split; [exact R2|]. split; [exact R3|].
      destruct o; try exact R4. destruct R4 as (j & nn & R4 & R5). exists (Datatypes.S j), nn. split; [rewrite R4; f_equal; lia|exact R5].
    + specialize (E9 eq_refl). rewrite E9. destruct (x_only_actions x) eqn:OA; cbn [negb]; [rewrite Bool.andb_false_r; cbn [andb]|rewrite Bool.andb_true_r].
      * destruct (IH (Datatypes.S i)) as (o & open' & O & R). exists o, ((x, n) :: open'). split; [apply one_call_skip; [|exact O]; intros (W & [C|[C _] ]); cbn in C; congruence|].
        destruct (unordered es (Datatypes.S i) k a) as (((es' & m) & w) & z). destruct R as (R1 & R2 & R3 & R4). split; [constructor; assumption|]. split; [exact R2|]. split; [exact R3|].
        destruct o; try exact R4. destruct R4 as (j & nn & R4 & R5). exists (Datatypes.S j), nn. split; [rewrite R4; f_equal; lia|exact R5].
      * destruct ((negb ((0 <? x_times x) && (n =? 0)) || x_exact x) && call_equal (x_call x) a) eqn:Q.
        -- apply andb_prop in Q. destruct Q as (Q1 & Q). destruct n as [|n].
           ++ assert (T : (matched_times e <? x_times x) = false) by (apply Nat.ltb_ge; lia). rewrite T. exists (TooMany (x_exact x)), ((x, 0) :: open). split.
              { apply (call_too_many []); [constructor| |exact I]. split; [exact Q|]. right. split; [exact OA|]. right. cbn. rewrite Nat.eqb_refl, Bool.andb_true_r in Q1. apply Bool.orb_prop in Q1. destruct Q1 as [Q1|Q1]; [right|left; exact Q1].
                apply Bool.negb_true_iff in Q1. apply Nat.ltb_ge in Q1. lia. }
              cbn. split; [constructor; assumption|auto].
           ++ assert (T : (matched_times e <? x_times x) = true) by (apply Nat.ltb_lt; lia). rewrite T. exists (Meets x), ((x, n) :: open). split; [apply (call_meets []); [constructor|exact Q|exact I|exact OA] |].
              cbn. split; [|split; [reflexivity|split; [reflexivity|] ] ].
              { constructor; [|exact F]. do 7 (split; [cbn; congruence|]). split; [cbn; lia|]. cbn [e_matched match_once fst snd]. intros _. rewrite E4.
                destruct (Nat.eqb_spec (Datatypes.S (matched_times e)) (x_times x)) as [Z|Z]; cbn [has_match].
                - symmetry. apply andb_true_intro. split; [apply Nat.ltb_lt; lia|apply Nat.eqb_eq; lia].
                - rewrite E9. cbn [Nat.eqb]. rewrite Bool.andb_false_r. symmetry. apply Bool.andb_false_iff. right. apply Nat.eqb_neq. lia. }
              exists 0, n. split; [f_equal; lia|reflexivity].
        -- destruct (IH (Datatypes.S i)) as (o & open' & O & R). exists o, ((x, n) :: open'). split.
           { apply one_call_skip; [|exact O]. intros (W & C). unfold wants in W. cbn in W, C. rewrite W, Bool.andb_true_r in Q. apply Bool.orb_false_iff in Q. destruct Q as (Q & X). apply Bool.negb_false_iff in Q. apply andb_prop in Q. destruct Q as (Q & Z).
             apply Nat.ltb_lt in Q. apply Nat.eqb_eq in Z. destruct C as [C|(_ & [C|[C|C] ])]; try congruence; lia. }
           destruct (unordered es (Datatypes.S i) k a) as (((es' & m) & w) & z). destruct R as (R1 & R2 & R3 & R4). split; [constructor; assumption|]. split; [exact R2|]. split; [exact R3|].
           destruct o; try exact R4. destruct R4 as (j & nn & R4 & R5). exists (Datatypes.S j), nn. split; [rewrite R4; f_equal; lia|exact R5].
Qed.
Lemma last_action_at a es open : Forall2 entry_of es open -> forall i found,
  match hd_error (rev (filter (fun y => x_only_actions (fst y) && call_equal (x_call (fst y)) a) open)) with
  | Some y => exists j, last_action es i a found = Some (i + j) /\ nth_error open j = Some y
  | None => last_action es i a found = found
  end.
Proof.
  induction 1 as [|e y es open E F IH]; intros i found; [reflexivity|]. pose proof E as (E1 & E2 & _). cbn [last_action filter]. rewrite E1, E2.
  specialize (IH (Datatypes.S i)). destruct (x_only_actions (fst y) && call_equal (x_call (fst y)) a) eqn:P.
  - cbn [rev]. specialize (IH (Some i)). match type of IH with context [rev ?u] => destruct (rev u) as [|z t] end; cbn [hd_error app] in *.
    + exists 0. rewrite IH, Nat.add_0_r. auto.
    + destruct IH as (j & IH & N). exists (Datatypes.S j). split; [rewrite IH; f_equal; lia|exact N].
  - specialize (IH found). match type of IH with context [rev ?u] => destruct (rev u) as [|z t] end; cbn [hd_error] in *; [exact IH|]. destruct IH as (j & IH & N). exists (Datatypes.S j). split; [rewrite IH; f_equal; lia|exact N].
Qed.
Lemma entries_nth es open : Forall2 entry_of es open -> forall j y, nth_error open j = Some y -> exists e, nth_error es j = Some e /\ ret e = x_ret (fst y) /\ fail_ret e = x_fail (fst y).
Proof.
  induction 1 as [|e y es open E F IH]; intros [|j] z N; cbn in N; try discriminate; [|apply IH; exact N]. injection N as <-. exists e. split; [reflexivity|]. destruct E as (_ & _ & _ & _ & _ & E6 & E7 & _). auto.
Qed.
Lemma missing_entries es open : Forall2 entry_of es open ->
  map (fun e => (e_call e, if 1 <? expected_times e - matched_times e then Some (expected_times e - matched_times e) else None)) (filter IsMissingCall es) = missing open.
Proof.
  unfold missing. induction 1 as [|e [x n] es open E F IH]; [reflexivity|]. destruct E as (E1 & E2 & E3 & E4 & E5 & E6 & E7 & E8 & E9). cbn [filter fst snd] in *. unfold IsMissingCall at 1. rewrite E2, E3, E4.
  destruct (x_ignore_all x) eqn:I; cbn [negb andb]; [rewrite Bool.andb_false_r; exact IH|]. rewrite (E9 eq_refl). destruct (x_only_actions x); cbn [negb andb]; [rewrite Bool.andb_false_r; exact IH|]. rewrite !Bool.andb_true_r.
  destruct n as [|n].
  - cbn [Nat.eqb]. rewrite Bool.andb_true_r. change (0 <? 0) with false. cbn iota. destruct (0 <? x_times x); cbn; exact IH.
  - cbn [Nat.eqb]. rewrite Bool.andb_false_r. cbn [negb andb]. assert (T : (0 <? x_times x) = true) by (apply Nat.ltb_lt; lia). rewrite T. change (0 <? Datatypes.S n) with true. cbn iota. cbn [map]. rewrite IH. f_equal.
    rewrite E1, E4. replace (x_times x - matched_times e) with (Datatypes.S n) by lia. reflexivity.
Qed.
(* a recorded call and what became of it *)
Definition call_of (a : actual_call) (p : method_call * outcome * option expectation) : Prop :=
  a_call a = fst (fst p) /\ has_match (a_matched a) = is_matched (snd (fst p)) /\ always_report a = (match snd (fst p) with TooMany e => e | _ => false end).
Lemma unexpected_calls c acts l : c <> StrictOrdered -> Forall2 call_of acts l -> map a_call (filter (IsUnexpectedCall c) acts) = unexpected c l.
Proof.
  intros N. unfold unexpected. induction 1 as [|a p acts l (A & B & C) F IH]; [reflexivity|]. cbn [filter]. unfold IsUnexpectedCall at 1, reported at 1. rewrite B, C.
  destruct c; [| contradiction|]; destruct (snd (fst p)) as [| |[|] ]; cbn [is_matched negb]; cbn [map]; rewrite ?IH, ?A; reflexivity.
Qed.
Lemma every_kind_at c : c <> StrictOrdered -> forall h r open done, Forall2 entry_of (expected r) open -> Forall2 call_of (actual r) done ->
  exists l rest r', every_kind open h l rest /\ play c r h = (map (fun p => answer (snd p)) l, r') /\ Forall2 entry_of (expected r') rest /\ Forall2 call_of (actual r') (done ++ l).
Proof.
  intros N. induction h as [|[x|a] h IH]; intros r open done F A.
  - exists [], open, r. split; [constructor|]. rewrite app_nil_r. auto.
  - destruct (IH (RecordExpectedCall r x) (open ++ [(x, x_times x)]) done) as (l & rest & r' & K & P & F' & A').
    + apply Forall2_app; [exact F|]. constructor; [|constructor]. do 7 (split; [reflexivity|]). split; [cbn; lia|]. cbn. intros _. destruct (x_times x); reflexivity.
    + exact A.
    + exists l, rest, r'. split; [apply kind_expect; exact K|]. auto.
  - destruct (unordered_entries (length (actual r)) a _ _ F 0) as (o & open' & O & R). cbn [play]. unfold RecordActualCall.
    assert (X : forall {A} (u v : A), match c with StrictOrdered => u | _ => v end = v) by (intros; destruct c; congruence). rewrite X. clear X. unfold match_unordered.
    destruct (unordered (expected r) 0 (length (actual r)) a) as (((es & m) & w) & z). destruct R as (R1 & R2 & R3 & R4). pose proof (last_action_at a _ _ R1 0 None) as L.
    assert (V : (let '(v, failed) := match match last_action es 0 a None with Some j => Some j | None => z end with
        | Some j => match nth_error es j with Some e => match fail_ret e with Some f => (Some f, true) | None => (ret e, false) end | None => (None, false) end
        | None => (None, false) end in (v, failed)) = answer (who open' a o)).
    { unfold who. match type of L with context [hd_error ?u] => destruct (hd_error u) as [y|] end.
      - destruct L as (j & L & J). rewrite L. cbn [Nat.add]. destruct (entries_nth _ _ R1 _ _ J) as (e & Ne & Re & Fe). rewrite Ne, Re, Fe. cbn. destruct (x_fail (fst y)); reflexivity.
      - rewrite L. destruct o as [|q|b]; try (rewrite R4; reflexivity). destruct R4 as (j & n & -> & J). cbn [Nat.add]. destruct (entries_nth _ _ R1 _ _ J) as (e & Ne & Re & Fe). rewrite Ne, Re, Fe. cbn. destruct (x_fail q); reflexivity. }
    destruct (match match last_action es 0 a None with Some j => Some j | None => z end with Some _ => _ | None => _ end) as (v & failed).
    set (r1 := {| expected := es; actual := actual r ++ [{| a_call := a; a_matched := m; always_report := w |}]; m_ExpectedCallIndex := m_ExpectedCallIndex r |}).
    destruct (IH r1 open' (done ++ [(a, o, who open' a o)]) R1) as (l & rest & r' & K & P & F' & A').
    + apply Forall2_app; [exact A|]. constructor; [|constructor]. repeat split; cbn; assumption.
    + exists ((a, o, who open' a o) :: l), rest, r'. split; [apply (kind_call _ _ _ open'); assumption|]. split; [rewrite P; cbn [map snd]; rewrite <- V; reflexivity|]. split; [exact F'|]. rewrite <- app_assoc in A'. exact A'.
Qed.
(* Whatever is expected, with the unordered and the nice comparer. *)
Theorem every_kind_of_expectation c h : c <> StrictOrdered -> exists l rest r, every_kind [] h l rest /\
  play c new_recorder h = (map (fun p => answer (snd p)) l, r) /\ GetUnexpectedCalls c r = unexpected c l /\ GetMissingCalls r = missing rest.
Proof.
  intros N. destruct (every_kind_at c N h new_recorder [] []) as (l & rest & r & K & P & F & A); [constructor|constructor|]. exists l, rest, r. split; [exact K|]. split; [exact P|].
  split; [apply unexpected_calls; [exact N|exact A] | apply missing_entries; exact F].
Qed.
(* the specification determines what happens *)
Lemma concerned_first open : forall before y after before' y' after' a, Forall (fun y => ~ concerns y a) before -> Forall (fun y => ~ concerns y a) before' -> concerns y a -> concerns y' a ->
  open = before ++ y :: after -> open = before' ++ y' :: after' -> before = before' /\ y = y' /\ after = after'.
Proof.
  induction open as [|z open IH]; intros [|b before] y after [|b' before'] y' after' a F F' C C' E E'; cbn in E, E'; try discriminate.
  - injection E as <- <-. injection E' as <- <-. auto.
  - injection E as <- <-. injection E' as <- _. inversion F'; contradiction.
  - injection E' as <- <-. injection E as <- _. inversion F; contradiction.
  - injection E as <- E. injection E' as <- E'. inversion F; inversion F'; subst. destruct (IH before y after before' y' after' a) as (-> & -> & ->); auto.
Qed.
Lemma concerned_none open before y after a : Forall (fun y => ~ concerns y a) open -> concerns y a -> open = before ++ y :: after -> False.
Proof. intros F C ->. apply Forall_app in F. destruct F as (_ & F). inversion F; contradiction. Qed.
Lemma one_call_cases open a o open' : one_call open a o open' ->
  Forall (fun y => ~ concerns y a) open /\ o = TooMany false /\ open' = open \/
  exists before x n after, open = before ++ (x, n) :: after /\ Forall (fun y => ~ concerns y a) before /\ concerns (x, n) a /\
    (o, open') = (if x_ignore_all x then (Allowed, open) else match n with 0 => (TooMany (x_exact x), open) | Datatypes.S m => (Meets x, before ++ (x, m) :: after) end).
Proof.
  intros [op b F|before x n after b F W I|before x n after b F W I O|before x after b F C I]; [left; auto|right; exists before, x, n, after|right; exists before, x, (Datatypes.S n), after|right; exists before, x, 0, after]; rewrite I.
  - repeat split; auto.
  - split; [reflexivity|]. split; [exact F|]. split; [split; [exact W|]; right; split; [exact O|]; left; cbn; lia|reflexivity].
  - auto.
Qed.
Lemma one_call_unique open a o open' : one_call open a o open' -> forall o2 open2, one_call open a o2 open2 -> o = o2 /\ open' = open2.
Proof.
  intros H o2 open2 H2. apply one_call_cases in H. apply one_call_cases in H2.
  destruct H as [(F & -> & ->)|(before & x & n & after & E & F & C & R)]; destruct H2 as [(F2 & -> & ->)|(before2 & x2 & n2 & after2 & E2 & F2 & C2 & R2)]; auto.
  - destruct (concerned_none _ _ _ _ _ F C2 E2).
  - destruct (concerned_none _ _ _ _ _ F2 C E).
  - destruct (concerned_first open _ _ _ _ _ _ a F F2 C C2 E E2) as (-> & X & ->). injection X as -> ->. rewrite <- R2 in R. injection R as -> ->. auto.
Qed.
Theorem every_kind_unique open h l rest : every_kind open h l rest -> forall l2 rest2, every_kind open h l2 rest2 -> l = l2 /\ rest = rest2.
Proof.
  induction 1 as [open|open x h l rest K IH|open a o open' h l rest O K IH]; intros l2 rest2 H; inversion H; subst; auto.
  match goal with O2 : one_call open a _ _ |- _ => destruct (one_call_unique _ _ _ _ O _ _ O2) as (-> & ->) end.
  match goal with K2 : every_kind _ h _ _ |- _ => destruct (IH _ _ K2) as (-> & ->) end. auto.
Qed.
Theorem every_kind_case : let never := expects (f 2) 0 true None in let exactly := expects (f 1) 1 true (Some 7) in
  exists r, play Nice new_recorder [Expect never; Expect exactly; Call (f 1); Call (f 3); Call (f 2); Call (f 1)] = ([(Some 7, false); (None, false); (None, false); (None, false)], r) /\
  GetUnexpectedCalls Nice r = [f 2; f 1] /\ GetMissingCalls r = [].
Proof. eexists. split; [vm_compute; reflexivity|]. split; reflexivity. Qed.

(** * Expectations of every kind, in order *)
Definition left_open (y : entry) : Prop := x_ignore_all (fst y) = false -> 1 <= snd y \/ x_times (fst y) = 0.
Lemma skip_at es open : Forall2 entry_of es open -> forall i, exists acts rest es1 es2, open = acts ++ rest /\ es = es1 ++ es2 /\ Forall acting acts /\ Forall2 entry_of es1 acts /\ Forall2 entry_of es2 rest /\
  skip_actions es i = i + length es1 /\ (forall y, hd_error rest = Some y -> x_only_actions (fst y) = false).
Proof.
  induction 1 as [|e y es open E F IH]; intros i.
  - exists [], [], [], []. repeat split; try constructor; [cbn; lia|discriminate].
  - cbn [skip_actions]. pose proof E as (_ & E2 & _). rewrite E2. destruct (x_only_actions (fst y)) eqn:O.
    + destruct (IH (Datatypes.S i)) as (acts & rest & es1 & es2 & -> & -> & A & F1 & F2 & K & H). exists (y :: acts), rest, (e :: es1), es2. repeat split; try (constructor; assumption); try assumption. rewrite K. cbn. lia.
    + exists [], (y :: open), [], (e :: es). repeat split; try constructor; try assumption; [cbn; lia|]. intros z [= <-]. exact O.
Qed.
Lemma nth_middle {A} (l : list A) x r : nth_error (l ++ x :: r) (length l) = Some x.
Proof. rewrite nth_error_app2, Nat.sub_diag by lia. reflexivity. Qed.
Lemma upd_middle {A} (l : list A) x y r : upd (l ++ x :: r) (length l) y = l ++ y :: r.
Proof. induction l as [|z l IH]; cbn; [reflexivity|]. rewrite IH. reflexivity. Qed.
Definition given (x : option nat) (es : list expected_call) : option nat * bool :=
  match x with
  | Some j => match nth_error es j with Some e => match fail_ret e with Some f => (Some f, true) | None => (ret e, false) end | None => (None, false) end
  | None => (None, false)
  end.
Lemma given_at a es open o x : Forall2 entry_of es open -> match o with Meets q => exists j n, x = Some j /\ nth_error open j = Some (q, n) | _ => x = None end ->
  given (match last_action es 0 a None with Some j => Some j | None => x end) es = answer (who open a o).
Proof.
  intros F X. pose proof (last_action_at a _ _ F 0 None) as L. unfold who. match type of L with context [hd_error ?u] => destruct (hd_error u) as [y|] end.
  - destruct L as (j & L & J). rewrite L. cbn [Nat.add]. destruct (entries_nth _ _ F _ _ J) as (e & Ne & Re & Fe). unfold given. rewrite Ne, Re, Fe. reflexivity.
  - rewrite L. destruct o as [|q|b]; try (rewrite X; reflexivity). destruct X as (j & n & -> & J). destruct (entries_nth _ _ F _ _ J) as (e & Ne & Re & Fe). unfold given. rewrite Ne, Re, Fe. reflexivity.
Qed.
Lemma ordered_at k a es past open i : i = length past -> Forall2 entry_of es (past ++ open) -> Forall left_open open ->
  exists o past' open' v, next_call past open a o past' open' v /\
  let '(es', m, w, x, i') := match_ordered es i k a in
    i' = length past' /\ Forall2 entry_of es' (past' ++ open') /\ Forall left_open open' /\ has_match m = is_matched o /\ w = (match o with TooMany e => e | _ => false end) /\ given x es' = answer v.
Proof.
  intros -> F0 L. pose proof (Forall2_app_inv_r _ _ F0) as (ups & lefts & U & F & ->). assert (LU : length ups = length past) by (clear - U; induction U; cbn; congruence).
  unfold match_ordered. cbv zeta. rewrite <- LU. rewrite (skipn_app (length ups)), skipn_all, Nat.sub_diag. cbn [skipn app].
  destruct (skip_at _ _ F (length ups)) as (acts & rest & es1 & es2 & -> & -> & A & F1 & F2 & K & H). rewrite K. assert (L1 : length es1 = length acts) by (clear - F1; induction F1; cbn; congruence).
  assert (FA : Forall2 entry_of (ups ++ es1) (past ++ acts)) by (apply Forall2_app; assumption).
  apply Forall_app in L. destruct L as (_ & L). inversion F2 as [|e y es3 after E F3 Q1 Q2]; subst.
  - (* nothing left *)
    rewrite (proj2 (nth_error_None _ _)) by (rewrite !app_length; cbn; lia). exists (TooMany false), (past ++ acts), [], (who (past ++ acts) a (TooMany false)). rewrite !app_nil_r in *. split; [apply next_nothing; exact A|].
    split; [rewrite app_length; lia|]. split; [exact FA|]. split; [constructor|]. split; [reflexivity|]. split; [reflexivity|]. apply given_at; [exact FA|reflexivity].
  - specialize (H _ eq_refl). destruct y as [x n]. cbn [fst] in H. assert (N : nth_error (ups ++ es1 ++ e :: es3) (length ups + length es1) = Some e) by (rewrite app_assoc, <- app_length; apply nth_middle). rewrite N.
    pose proof E as (E1 & E2 & E3 & E4 & E5 & E6 & E7 & E8 & E9). cbn [fst snd] in *. rewrite E1, E3, E4, E5. assert (FW : Forall2 entry_of (ups ++ es1 ++ e :: es3) (past ++ acts ++ (x, n) :: after)) by (rewrite !app_assoc, <- (app_assoc past), <- (app_assoc ups), !app_assoc; apply Forall2_app; [exact FA|exact F2]).
    assert (G : forall e', upd (ups ++ es1 ++ e :: es3) (length ups + length es1) e' = (ups ++ es1) ++ e' :: es3) by (intros; rewrite app_assoc, <- app_length; apply upd_middle).
    destruct (call_equal (x_call x) a) eqn:W; [destruct (x_ignore_all x) eqn:I|].
    + (* ignored *)
      cbn [andb]. rewrite G. assert (FM : Forall2 entry_of ((ups ++ es1) ++ match_whole e k :: es3) ((past ++ acts) ++ (x, n) :: after)).
      { apply Forall2_app; [exact FA|]. constructor; [|exact F3]. do 7 (split; [cbn; congruence|]). split; [cbn; lia|]. cbn. intros Z. congruence. }
      exists Allowed, (past ++ acts), ((x, n) :: after), (who (past ++ acts ++ (x, n) :: after) a Allowed). split; [apply next_allowed; assumption|].
      split; [rewrite app_length; lia|]. split; [exact FM|]. split; [exact L|]. split; [reflexivity|]. split; [reflexivity|]. rewrite (app_assoc past). apply given_at; [exact FM|reflexivity].
    + specialize (E9 eq_refl). cbn [andb]. inversion L as [|? ? L0 L2]; subst. destruct (L0 I) as [P|P]; cbn [fst snd] in P.
      * destruct n as [|n]; [lia|]. rewrite E9. change (Datatypes.S n =? 0) with false. rewrite Bool.andb_false_r. cbn [negb andb]. assert (T : (matched_times e <? x_times x) = true) by (apply Nat.ltb_lt; lia). rewrite T, G.
        assert (FM : Forall2 entry_of ((ups ++ es1) ++ match_once e k :: es3) ((past ++ acts) ++ (x, n) :: after)).
        { apply Forall2_app; [exact FA|]. constructor; [|exact F3]. do 7 (split; [cbn; congruence|]). split; [cbn; lia|]. cbn [e_matched match_once fst snd]. intros _. rewrite E4.
          destruct (Nat.eqb_spec (Datatypes.S (matched_times e)) (x_times x)) as [Z|Z]; cbn [has_match].
          - symmetry. apply andb_true_intro. split; [apply Nat.ltb_lt; lia|apply Nat.eqb_eq; lia].
          - rewrite E9. cbn [Nat.eqb]. rewrite Bool.andb_false_r. symmetry. apply Bool.andb_false_iff. right. apply Nat.eqb_neq. lia. }
        assert (NM : nth_error ((ups ++ es1) ++ match_once e k :: es3) (length ups + length es1) = Some (match_once e k)) by (rewrite <- app_length; apply nth_middle).
        cbv zeta. rewrite NM. cbn [matched_times expected_times match_once]. rewrite E4. destruct n as [|n].
        -- rewrite (proj2 (Nat.eqb_eq _ _)) by lia. exists (Meets x), (past ++ acts ++ [(x, 0)]), after, (Some x). split; [apply next_last; assumption|].
           split; [rewrite !app_length; cbn; lia|]. split; [rewrite <- !app_assoc in *; exact FM|]. split; [exact L2|]. split; [reflexivity|]. split; [reflexivity|].
           unfold given. rewrite NM. cbn [fail_ret match_once ret answer]. rewrite E6, E7. reflexivity.
        -- rewrite (proj2 (Nat.eqb_neq _ _)) by lia. exists (Meets x), (past ++ acts), ((x, Datatypes.S n) :: after), (who (past ++ acts ++ (x, n) :: after) a (Meets x)). split; [apply next_meets; assumption|].
           split; [rewrite app_length; lia|]. split; [exact FM|]. split; [constructor; [intros _; left; cbn; lia|exact L2] |]. split; [reflexivity|]. split; [reflexivity|].
           replace (who (past ++ acts ++ (x, n) :: after) a (Meets x)) with (who ((past ++ acts) ++ (x, Datatypes.S n) :: after) a (Meets x)).
           { apply given_at; [exact FM|]. exists (length ups + length es1), (Datatypes.S n). split; [reflexivity|]. rewrite LU, L1, <- app_length. apply nth_middle. }
           unfold who. rewrite <- app_assoc. rewrite !filter_app. cbn [filter fst]. rewrite H. reflexivity.
      * rewrite E9, P. cbn [Nat.ltb Nat.leb andb negb]. assert (n = 0) as -> by lia. exists (TooMany (x_exact x)), (past ++ acts), ((x, 0) :: after), (who (past ++ acts ++ (x, 0) :: after) a (TooMany (x_exact x))). split; [apply next_never; assumption|].
        split; [rewrite app_length; lia|]. split; [rewrite <- app_assoc; exact FW|]. split; [exact L|]. split; [reflexivity|]. split; [reflexivity|]. apply given_at; [exact FW|reflexivity].
    + rewrite !Bool.andb_false_r. exists (TooMany false), (past ++ acts), ((x, n) :: after), (who (past ++ acts ++ (x, n) :: after) a (TooMany false)). split; [apply next_other; [exact A|exact H|unfold wants; congruence] |].
      split; [rewrite app_length; lia|]. split; [rewrite <- app_assoc; exact FW|]. split; [exact L|]. split; [reflexivity|]. split; [reflexivity|]. apply given_at; [exact FW|reflexivity].
Qed.
Lemma every_kind_in_order_at : forall h r past open done, m_ExpectedCallIndex r = length past -> Forall2 entry_of (expected r) (past ++ open) -> Forall left_open open -> Forall2 call_of (actual r) done -> Forall (fun y => x_only_actions (fst y) = true \/ snd y = 0) past ->
  exists l rest past' r', every_kind_in_order past open h l rest /\ play StrictOrdered r h = (map (fun p => answer (snd p)) l, r') /\ Forall2 entry_of (expected r') (past' ++ rest) /\ Forall2 call_of (actual r') (done ++ l) /\ Forall (fun y => x_only_actions (fst y) = true \/ snd y = 0) past'.
Proof.
  induction h as [|[x|a] h IH]; intros r past open done X F L A Q.
  - exists [], open, past, r. split; [constructor|]. rewrite app_nil_r. auto.
  - destruct (IH (RecordExpectedCall r x) past (open ++ [(x, x_times x)]) done X) as (l & rest & past' & r' & K & P & F' & A' & Q').
    + rewrite app_assoc. apply Forall2_app; [exact F|]. constructor; [|constructor]. do 7 (split; [reflexivity|]). split; [cbn; lia|]. cbn. intros _. destruct (x_times x); reflexivity.
    + apply Forall_app. split; [exact L|]. constructor; [|constructor]. intros _. cbn. lia.
    + exact A.
    + exact Q.
    + exists l, rest, past', r'. split; [apply ordered_expect; exact K|]. auto.
  - destruct (ordered_at (length (actual r)) a _ _ _ _ X F L) as (o & past1 & open1 & v & O & R). cbn [play]. unfold RecordActualCall.
    destruct (match_ordered (expected r) (m_ExpectedCallIndex r) (length (actual r)) a) as ((((es & m) & w) & z) & i). destruct R as (R1 & R2 & R3 & R4 & R5 & R6). fold (given z es). destruct (given z es) as (u & failed).
    assert (Q1 : Forall (fun y => x_only_actions (fst y) = true \/ snd y = 0) past1).
    { assert (QA : forall acts, Forall acting acts -> Forall (fun y => x_only_actions (fst y) = true \/ snd y = 0) acts) by (intros; eapply Forall_impl; [|eassumption]; intros y Y; left; exact Y).
      clear - O Q QA. destruct O; repeat (apply Forall_app; split); auto. }
    set (r1 := {| expected := es; actual := actual r ++ [{| a_call := a; a_matched := m; always_report := w |}]; m_ExpectedCallIndex := i |}).
    destruct (IH r1 past1 open1 (done ++ [(a, o, v)]) R1 R2 R3) as (l & rest & past' & r' & K & P & F' & A' & Q').
    + apply Forall2_app; [exact A|]. constructor; [|constructor]. repeat split; cbn; assumption.
    + exact Q1.
    + exists ((a, o, v) :: l), rest, past', r'. split; [apply (ordered_call _ _ _ _ past1 open1); assumption|]. split; [rewrite P; cbn [map snd]; rewrite <- R6; reflexivity|]. split; [exact F'|]. split; [rewrite <- app_assoc in A'; exact A'|exact Q'].
Qed.
Lemma missing_past past : Forall (fun y : entry => x_only_actions (fst y) = true \/ snd y = 0) past -> forall rest, missing (past ++ rest) = missing rest.
Proof.
  intros Q rest. unfold missing. induction Q as [|y past [Y|Y] _ IH]; [reflexivity| |]; cbn [app filter]; rewrite Y; cbn [negb]; change (0 <? 0) with false; rewrite ?Bool.andb_false_r; exact IH.
Qed.
(* Whatever is expected, with the ordered comparer. *)
Theorem every_kind_of_expectation_in_order h : exists l rest r, every_kind_in_order [] [] h l rest /\
  play StrictOrdered new_recorder h = (map (fun p => answer (snd p)) l, r) /\ GetUnexpectedCalls StrictOrdered r = unexpected StrictOrdered l /\ GetMissingCalls r = missing rest.
Proof.
  destruct (every_kind_in_order_at h new_recorder [] [] []) as (l & rest & past & r & K & P & F & A & Q); try constructor. exists l, rest, r. split; [exact K|]. split; [exact P|]. split.
  - exact (unexpected_calls StrictUnordered _ _ ltac:(discriminate) A).
  - unfold GetMissingCalls. rewrite (missing_entries _ _ F). apply missing_past. exact Q.
Qed.
(* the specification determines what happens *)
Lemma next_call_cases past open a o past' open' v : next_call past open a o past' open' v -> exists acts rest, open = acts ++ rest /\ Forall acting acts /\ (forall y, hd_error rest = Some y -> x_only_actions (fst y) = false) /\
  (o, past', open', v) = match rest with
    | [] => (TooMany false, past ++ acts, [], who (past ++ acts) a (TooMany false))
    | (x, n) :: after =>
      if call_equal (x_call x) a then
        if x_ignore_all x then (Allowed, past ++ acts, rest, who (past ++ acts ++ rest) a Allowed)
        else match n with
          | 0 => (TooMany (x_exact x), past ++ acts, rest, who (past ++ acts ++ rest) a (TooMany (x_exact x)))
          | 1 => (Meets x, past ++ acts ++ [(x, 0)], after, Some x)
          | Datatypes.S m => (Meets x, past ++ acts, (x, m) :: after, who (past ++ acts ++ (x, pred m) :: after) a (Meets x))
          end
      else (TooMany false, past ++ acts, rest, who (past ++ acts ++ rest) a (TooMany false))
    end.
Proof.
  assert (HD : forall x n (after : list entry), x_only_actions x = false -> forall y, hd_error ((x, n) :: after) = Some y -> x_only_actions (fst y) = false) by (intros x n after H y [= <-]; exact H).
  intros [p acts b A|p acts x n after b A O W|p acts x n after b A O W I|p acts x n after b A O W I|p acts x after b A O W I|p acts x after b A O W I].
  - exists acts, []. rewrite app_nil_r. repeat split; [exact A|discriminate].
  - exists acts, ((x, n) :: after). repeat split; [exact A|eauto|]. unfold wants in W. destruct (call_equal (x_call x) b); [congruence|reflexivity].
  - exists acts, ((x, n) :: after). repeat split; [exact A|eauto|]. unfold wants in W. rewrite W, I. reflexivity.
  - exists acts, ((x, Datatypes.S (Datatypes.S n)) :: after). repeat split; [exact A|eauto|]. unfold wants in W. rewrite W, I. reflexivity.
  - exists acts, ((x, 1) :: after). repeat split; [exact A|eauto|]. unfold wants in W. rewrite W, I. reflexivity.
  - exists acts, ((x, 0) :: after). repeat split; [exact A|eauto|]. unfold wants in W. rewrite W, I. reflexivity.
Qed.
Lemma acts_unique acts : forall rest acts2 rest2, Forall acting acts -> Forall acting acts2 -> (forall y, hd_error rest = Some y -> x_only_actions (fst y) = false) -> (forall y, hd_error rest2 = Some y -> x_only_actions (fst y) = false) ->
  acts ++ rest = acts2 ++ rest2 -> acts = acts2 /\ rest = rest2.
Proof.
  induction acts as [|y acts IH]; intros rest [|z acts2] rest2 A A2 H H2 E; cbn in E.
  - auto.
  - subst rest. inversion A2 as [|? ? Z]; subst. unfold acting in Z. rewrite (H z eq_refl) in Z. discriminate.
  - subst rest2. inversion A as [|? ? Z]; subst. unfold acting in Z. rewrite (H2 y eq_refl) in Z. discriminate.
  - injection E as <- E. inversion A; inversion A2; subst. destruct (IH rest acts2 rest2) as (-> & ->); auto.
Qed.
Theorem every_kind_in_order_unique past open h l rest : every_kind_in_order past open h l rest -> forall l2 rest2, every_kind_in_order past open h l2 rest2 -> l = l2 /\ rest = rest2.
Proof.
  induction 1 as [past open|past open x h l rest K IH|past open a o past' open' v h l rest O K IH]; intros l2 rest2 H; inversion H as [|? ? ? ? ? ? K2|? ? ? o2 past2 open2 v2 ? l3 ? O2 K2]; subst; auto.
  apply next_call_cases in O. apply next_call_cases in O2. destruct O as (acts & r & E & A & HD & R). destruct O2 as (acts2 & r2 & E2 & A2 & HD2 & R2). rewrite E in E2.
  destruct (acts_unique _ _ _ _ A A2 HD HD2 E2) as (<- & <-). rewrite <- R2 in R. injection R as -> -> -> ->. destruct (IH _ _ K2) as (-> & ->). auto.
Qed.
Theorem every_kind_in_order_case : let twice := expects (f 1) 2 true (Some 7) in let any := {| x_call := f 2; x_only_actions := false; x_ignore_all := true; x_times := 0; x_exact := false; x_ret := None; x_fail := None |} in
  exists r, play StrictOrdered new_recorder [Expect twice; Expect any; Call (f 1); Call (f 2); Call (f 1); Call (f 2); Call (f 2); Call (f 1)] = ([(Some 7, false); (None, false); (Some 7, false); (None, false); (None, false); (None, false)], r) /\
  GetUnexpectedCalls StrictOrdered r = [f 2; f 1] /\ GetMissingCalls r = [].
Proof. eexists. split; [vm_compute; reflexivity|]. split; reflexivity. Qed.
