(* Proofs for the test runner. *)
From Verif Require Import Base Strings_Model Strings_Props UMockTypes_Model UMockTypes_Props MockText_Props Ctest_Model Ctest_Spec.
Local Open Scope Z_scope.

Lemma scan_at {W} k (l : list (function_data W)) : forall i found, scan k l i found = match rev (filter (fun x => same_type (FunctionType (snd x)) k) (combine (seq i (length l)) l)) with [] => found | x :: _ => Some x end.
Proof.
  induction l as [|f l IH]; intros i found; [reflexivity|]. cbn [scan length seq combine filter snd]. rewrite IH. destruct (same_type (FunctionType f) k); [|reflexivity].
  cbn [rev]. destruct (rev (filter _ (combine (seq (S i) (length l)) l))) as [|x r] eqn:E; reflexivity.
Qed.
Lemma scan_the {W} k (l : list (function_data W)) : suite_ok l -> k <> CTEST_TEST_FUNCTION -> scan k l 0 None = the k l.
Proof.
  intros K N. rewrite scan_at. specialize (K k N). unfold the, of_kind in *. destruct (filter _ _) as [|x [|y r] ]; cbn in *; try reflexivity. lia.
Qed.
Lemma call_at {W} (s : st W) i f w b : TestFunction f (world s) = (w, b) ->
  let '(s1, j) := call s i f in j = b /\ world s1 = w /\ log s1 = log s ++ [Called i] /\ g_CurrentTestFunction s1 = g_CurrentTestFunction s /\ g_ExceptionJump s1 = g_ExceptionJump s /\
   (forall k, TestResult s1 k = TestResult s k || (b && match g_CurrentTestFunction s with Some c => (k =? c)%nat | None => false end)).
Proof.
  intros E. unfold call. rewrite E. destruct b; cbn [g_CurrentTestFunction].
  - destruct (g_CurrentTestFunction s) as [c|] eqn:C; cbn; rewrite ?C; repeat split; auto; intros k; rewrite ?orb_false_r; auto. destruct (Nat.eqb_spec k c); [now rewrite orb_true_r|now rewrite orb_false_r].
  - cbn. repeat split; auto. intros k. now rewrite orb_false_r.
Qed.
Lemma maybe_at {W} (x : option (nat * function_data W)) (s : st W) j : g_CurrentTestFunction s = None ->
  exists c b w s1, (match x with Some (i, f) => call (setjmp s j) i f | None => (s, false) end) = (s1, b) /\ maybe x (world s) c b w /\ world s1 = w /\ log s1 = log s ++ map Called c /\ g_CurrentTestFunction s1 = None /\
   (forall k, TestResult s1 k = TestResult s k) /\ g_ExceptionJump s1 = match x with Some _ => Some j | None => g_ExceptionJump s end.
Proof.
  intros N. destruct x as [ [i f]|].
  - destruct (TestFunction f (world s)) as [w b] eqn:E. pose proof (call_at (setjmp s j) i f w b E) as C. destruct (call (setjmp s j) i f) as [s1 b']. cbn [setjmp log g_CurrentTestFunction g_ExceptionJump TestResult] in C. rewrite N in C.
    destruct C as (-> & C1 & C2 & C3 & C4 & C5). exists [i], b, w, s1. split; [reflexivity|]. split; [constructor; exact E|]. repeat split; auto. intros k. rewrite C5, andb_false_r. apply orb_false_r.
  - exists [], false, (world s), s. split; [reflexivity|]. split; [constructor|]. cbn. rewrite app_nil_r. auto.
Qed.
Lemma run_test_at {W} init cleanup (s : st W) i f : g_CurrentTestFunction s = None -> TestResult s i = false ->
  exists c v cb w lg, test_goes init cleanup i f (world s) c v cb w /\
   let s1 := run_test init cleanup s i f in world s1 = w /\ log s1 = log s ++ lg /\ calls_in lg = c /\ output_in lg ++ [if is_bad (TestFunctionName f, v) then Failed else Succeeded] = said (TestFunctionName f, v) /\
   g_CurrentTestFunction s1 = None /\ TestResult s1 i = is_bad (TestFunctionName f, v) /\ (forall k, k <> i -> TestResult s1 k = TestResult s k) /\ g_ExceptionJump s1 = Some InTest.
Proof.
  intros N R. unfold run_test.
  destruct (maybe_at init s InTest N) as (c1 & b1 & w1 & s1 & E1 & M1 & W1 & L1 & N1 & T1 & J1).
  assert (Q : (match init with Some (j, g) => let '(s0, failed) := call (setjmp s InTest) j g in if failed then (print s0 [FunctionInitFailed], true) else (s0, false) | None => (s, false) end) = if b1 then (print s1 [FunctionInitFailed], true) else (s1, false)).
  { destruct init as [ [j g]|]; [rewrite E1; reflexivity|]. injection E1 as <- <-. reflexivity. }
  assert (CC : forall c, calls_in (map Called c) = c) by (clear; intros c; unfold calls_in, output_in; induction c as [|a c IH]; [reflexivity|cbn; now rewrite ?IH]).
  assert (OC : forall c, output_in (map Called c) = []) by (clear; intros c; unfold calls_in, output_in; induction c as [|a c IH]; [reflexivity|cbn; now rewrite ?IH]).
  assert (CA : forall a b, calls_in (a ++ b) = calls_in a ++ calls_in b) by (intros; apply flat_map_app).
  assert (OA : forall a b, output_in (a ++ b) = output_in a ++ output_in b) by (intros; apply filter_app).
  rewrite Q. clear Q E1. destruct b1.
  - exists c1, NotRun, false, w1, (map Called c1 ++ [FunctionInitFailed; NotExecuting (TestFunctionName f)]). split; [constructor; exact M1|]. cbv zeta. cbn [print fail_result world log g_CurrentTestFunction TestResult g_ExceptionJump].
    split; [exact W1|]. split; [rewrite L1, <- !app_assoc; reflexivity|]. split; [rewrite CA, CC; cbn; apply app_nil_r|].
    split; [rewrite OA, OC; reflexivity|].
    split; [exact N1|]. rewrite Nat.eqb_refl. split; [reflexivity|]. split.
    + intros k Nk. destruct (Nat.eqb_spec k i); [congruence|]. apply T1.
    + rewrite J1. inversion M1. reflexivity.
  - destruct (TestFunction f w1) as [w2 b] eqn:E2.
    pose proof (call_at (setjmp (set_current (print s1 [Executing (TestFunctionName f)]) (Some i)) InTest) i f w2 b) as C2. cbn [setjmp set_current print world log g_CurrentTestFunction TestResult g_ExceptionJump] in C2. rewrite W1 in C2. specialize (C2 E2).
    destruct (call _ i f) as [s2 b']. destruct C2 as (-> & W2 & L2 & N2 & J2 & T2).
    destruct (maybe_at cleanup (set_current s2 None) InTest eq_refl) as (c3 & b3 & w3 & s3 & E3 & M3 & W3 & L3 & N3 & T3 & J3). cbn [set_current world log TestResult] in M3, L3, T3. rewrite W2 in M3.
    set (s4 := match cleanup with Some (j, g) => fst (call (setjmp (set_current s2 None) InTest) j g) | None => setjmp (set_current s2 None) InTest end).
    assert (S4 : world s4 = world s3 /\ log s4 = log s3 /\ g_CurrentTestFunction s4 = None /\ (forall k, TestResult s4 k = TestResult s2 k) /\ g_ExceptionJump s4 = Some InTest).
    { unfold s4. clearbody s4. destruct cleanup as [ [j g]|]; [rewrite E3; auto|]. injection E3 as <- <-. cbn. auto. }
    destruct S4 as (S1 & S2 & S3 & S4 & S5).
    exists (c1 ++ [i] ++ c3), (if b then Bad else Good), b3, w3, (map Called c1 ++ [Executing (TestFunctionName f); Called i] ++ map Called c3).
    split; [econstructor; eassumption|]. cbv zeta. split; [congruence|]. split; [rewrite S2, L3, L2, L1, <- !app_assoc; reflexivity|].
    split; [rewrite !CA, !CC; reflexivity|]. split; [rewrite !OA, !OC; destruct b; reflexivity|]. split; [exact S3|]. split; [|split; [|exact S5] ].
    + rewrite S4, T2, T1, R, Nat.eqb_refl. destruct b; reflexivity.
    + intros k Nk. rewrite S4, T2, T1. destruct (Nat.eqb_spec k i); [congruence|]. rewrite andb_false_r. apply orb_false_r.
Qed.
Lemma run_tests_at {W} init cleanup (l : list (function_data W)) : forall (s : st W) i total failed, g_CurrentTestFunction s = None -> (forall k, (i <= k)%nat -> TestResult s k = false) ->
  let ts := filter (fun x => same_type (FunctionType (snd x)) CTEST_TEST_FUNCTION) (combine (seq i (length l)) l) in
  exists c vs cb w lg s1, tests_go init cleanup ts (world s) c vs cb w /\
   run_tests init cleanup s l i total failed = (s1, total + length vs, failed + length (filter is_bad vs))%nat /\ world s1 = w /\ log s1 = log s ++ lg /\ calls_in lg = c /\ output_in lg = concat (map said vs) /\
   g_CurrentTestFunction s1 = None /\ g_ExceptionJump s1 = match ts with [] => g_ExceptionJump s | _ => Some InTest end.
Proof.
  induction l as [|f l IH]; intros s i total failed N R; cbn [length seq combine filter snd].
  - exists [], [], false, (world s), [], s. split; [constructor|]. cbn. rewrite !Nat.add_0_r, app_nil_r. auto 10.
  - destruct (same_type (FunctionType f) CTEST_TEST_FUNCTION) eqn:K; cbn [run_tests]; rewrite K.
    + destruct (run_test_at init cleanup s i f N (R i (le_n i))) as (c & v & cb & w & lg & G & W1 & L1 & C1 & O1 & N1 & T1 & T2 & J1). set (s1 := run_test init cleanup s i f) in *. clearbody s1.
      set (word := if TestResult s1 i then Failed else Succeeded).
      destruct (IH (print s1 [word]) (S i) (S total) (if TestResult s1 i then S failed else failed)) as (c2 & vs & cb2 & w2 & lg2 & s2 & G2 & E2 & W2 & L2 & C2 & O2 & N2 & J2).
      { exact N1. }
      { intros k Lk. cbn [print TestResult]. rewrite T2 by lia. apply R. lia. }
      cbn [print world log g_ExceptionJump] in *. rewrite W1 in G2.
      exists (c ++ c2), ((TestFunctionName f, v) :: vs), (cb || cb2), w2, (lg ++ [word] ++ lg2), s2. split; [econstructor; eassumption|].
      split. { unfold word in E2. cbn [filter length]. rewrite <- T1. destruct (TestResult s1 i); rewrite E2; cbn [length]; f_equal; try (f_equal; lia); lia. }
      split; [exact W2|]. split; [rewrite L2, L1, <- !app_assoc; reflexivity|]. split; [unfold calls_in in *; rewrite !flat_map_app, C1, C2; unfold word; destruct (TestResult s1 i); reflexivity|].
      split; [unfold output_in in *; rewrite !filter_app, O2; cbn [map concat]; rewrite <- O1, <- T1; unfold word; rewrite <- app_assoc; destruct (TestResult s1 i); reflexivity|].
      split; [exact N2|]. rewrite J2, J1. destruct (filter _ _); reflexivity.
    + destruct (IH s (S i) total failed N) as (c & vs & cb & w & lg & s1 & X); [intros k Lk; apply R; lia|]. exists c, vs, cb, w, lg, s1. exact X.
Qed.
(* A suite run for the first time, whose cleanup asserts nothing: what was called in which order, what was printed,
   and what is returned. *)
Theorem run_tests_partial {W} (l : list (function_data W)) w : suite_ok l ->
  exists c r cb sb w', suite_goes l w c r cb sb w' /\
   (sb = false -> exists s, RunTests l (begin_with w) = Some (suite_answer r, s) /\ world s = w' /\ calls_in (log s) = c /\ output_in (log s) = suite_output r) /\
   (sb = true -> RunTests l (begin_with w) = None \/ (tests l = [] /\ exists s, RunTests l (begin_with w) = Some (1%nat, s))).
Proof.
  intros K. unfold RunTests. rewrite !scan_the by (assumption || discriminate). set (s0 := print (set_current (begin_with w) None) [Started]).
  destruct (maybe_at (the CTEST_TEST_SUITE_INITIALIZE l) s0 InSuiteInit eq_refl) as (c1 & b1 & w1 & s1 & E1 & M1 & W1 & L1 & N1 & T1 & J1).
  assert (CC : forall c, calls_in (map Called c) = c) by (clear; intros c; unfold calls_in, output_in; induction c as [|a c IH]; [reflexivity|cbn; now rewrite ?IH]).
  assert (OC : forall c, output_in (map Called c) = []) by (clear; intros c; unfold calls_in, output_in; induction c as [|a c IH]; [reflexivity|cbn; now rewrite ?IH]).
  assert (CA : forall a b, calls_in (a ++ b) = calls_in a ++ calls_in b) by (intros; apply flat_map_app).
  assert (OA : forall a b, output_in (a ++ b) = output_in a ++ output_in b) by (intros; apply filter_app).
  change (world s0) with w in M1. change (log s0) with [Started] in L1. rewrite E1. destruct b1.
  - exists c1, None, false, false, w1. split; [constructor; exact M1|]. split; [|discriminate]. intros _. eexists. split; [reflexivity|]. cbn [print world log]. split; [exact W1|]. rewrite L1, !CA, !OA, CC, OC. split; [cbn; apply app_nil_r|reflexivity].
  - destruct (run_tests_at (the CTEST_TEST_FUNCTION_INITIALIZE l) (the CTEST_TEST_FUNCTION_CLEANUP l) l s1 0 0 0 N1) as (c2 & vs & cb & w2 & lg & s2 & G & E2 & W2 & L2 & C2 & O2 & N2 & J2); [intros k _; apply T1|].
    rewrite E2. rewrite W1 in G. destruct (maybe_at (the CTEST_TEST_SUITE_CLEANUP l) s2 InTest N2) as (c3 & b3 & w3 & s3 & E3 & M3 & W3 & L3 & N3 & T3 & J3). rewrite W2 in M3.
    exists (c1 ++ c2 ++ c3), (Some vs), cb, b3, w3. split; [econstructor; eassumption|]. split.
    2:{ intros ->. destruct (the CTEST_TEST_SUITE_CLEANUP l) as [ [j g]|] eqn:SC; [|inversion M3]. inversion M3 as [|? ? ? ? ? E4]. subst.
        pose proof (call_at s2 j g _ _ E4) as C4. destruct (call s2 j g) as [s4 b5]. destruct C4 as (-> & Wx & Lx & _ & Jx & _). rewrite Jx, J2. fold (of_kind CTEST_TEST_FUNCTION l). fold (tests l).
        destruct (tests l); [|auto]. destruct (g_ExceptionJump s1) as [ [|]|]; eauto. }
    intros ->.
    assert (LEN : (length vs - length (filter is_bad vs) = length (filter (fun x => negb (is_bad x)) vs))%nat).
    { clear. induction vs as [|x vs IH]; [reflexivity|]. cbn [filter length]. assert (length (filter is_bad vs) <= length vs)%nat by (clear; induction vs; cbn; [lia|destruct (is_bad a); cbn; lia]). destruct (is_bad x); cbn [negb length]; lia. }
    destruct (the CTEST_TEST_SUITE_CLEANUP l) as [ [j g]|] eqn:SC.
    + destruct (TestFunction g (world s2)) as [w4 b4] eqn:E4. pose proof (call_at s2 j g w4 b4 E4) as C4. pose proof (call_at (setjmp s2 InTest) j g w4 b4 E4) as C5. rewrite E3 in C5. destruct (call s2 j g) as [s4 b5]. destruct C4 as (-> & Wx & Lx & _). destruct C5 as (<- & Wy & _).
      eexists. split; [reflexivity|]. cbn [print world log]. split; [congruence|]. rewrite Lx, L2, L1, !CA, !OA, CC, OC, C2, O2. inversion M3. subst. split; [cbn; rewrite ?app_nil_r, <- ?app_assoc; reflexivity|]. cbn [suite_output]. rewrite !Nat.add_0_l, LEN. cbn. rewrite ?app_nil_r, <- ?app_assoc. reflexivity.
    + injection E3 as <-. eexists. split; [reflexivity|]. cbn [print world log]. inversion M3. subst. split; [congruence|]. rewrite L2, L1, !CA, !OA, CC, OC, O2. split; [cbn; rewrite ?app_nil_r, <- ?app_assoc; reflexivity|]. cbn [suite_output]. rewrite !Nat.add_0_l, LEN. cbn. rewrite ?app_nil_r, <- ?app_assoc. reflexivity.
Qed.
(* RunTests answers 0: every test was called, and no assertion failed in the suite's initialisation, before a test, in
   a test or in the suite's cleanup. *)
Theorem green_partial {W} (l : list (function_data W)) w s : suite_ok l -> RunTests l (begin_with w) = Some (0%nat, s) ->
  exists c vs cb w', suite_goes l w c (Some vs) cb false w' /\ Forall (fun x => snd x = Good) vs /\ map fst vs = map (fun x => TestFunctionName (snd x)) (tests l) /\ calls_in (log s) = c /\ forall i f, In (i, f) (tests l) -> In i c.
Proof.
  intros K E. destruct (run_tests_partial l w K) as (c & r & cb & sb & w' & G & A & B). destruct sb.
  { destruct (B eq_refl) as [X|(_ & s' & X)]; rewrite E in X; discriminate X. }
  destruct (A eq_refl) as (s' & X & _ & C & _). rewrite E in X. injection X as Z <-. inversion G as [|c1 w1 c2 vs ? w2 c3 ? ? M1 T M3]; subst; [discriminate Z|].
  exists (c1 ++ c2 ++ c3), vs, cb, w'. split; [rewrite H; exact G|]. split; [|split; [|split; [auto|] ] ].
  - apply Forall_forall. intros x I. symmetry in Z. cbn in Z. apply length_zero_iff_nil in Z. destruct (is_bad x) eqn:Q; [|unfold is_bad in Q; destruct (snd x); congruence].
    assert (J : In x (filter is_bad vs)) by (apply filter_In; auto). rewrite Z in J. destruct J.
  - clear - T. induction T; cbn; congruence.
  - assert (GOOD : filter is_bad vs = []) by (symmetry in Z; cbn in Z; now apply length_zero_iff_nil in Z).
    assert (Y : forall i f, In (i, f) (tests l) -> In i c2).
    { clear - T GOOD. induction T as [|i f l0 w c v cb0 w1 cs vs cbs w2 TG T IH]; [intros ? ? []|]. cbn [filter] in GOOD. destruct (is_bad (TestFunctionName f, v)) eqn:Q; [discriminate GOOD|].
      intros k g [H|H]; [|apply in_or_app; right; eapply IH; eassumption]. injection H as <- <-. apply in_or_app. left. inversion TG; subst; [discriminate Q|]. apply in_or_app. right. left. reflexivity. }
    intros i f I. apply in_or_app. right. apply in_or_app. left. eapply Y. exact I.
Qed.

(* a suite with everything in it *)
Definition fn {W} (k : function_type) (n : N) (b : W -> W * bool) : function_data W := {| TestFunction := b; TestFunctionName := [n]; FunctionType := k |}.
Definition quiet {W} (w : W) : W * bool := (w, false).
Definition asserts {W} (w : W) : W * bool := (w, true).
Theorem run_tests_case : let l := [fn CTEST_TEST_SUITE_CLEANUP 1 quiet; fn CTEST_TEST_FUNCTION 2 quiet; fn CTEST_TEST_FUNCTION_CLEANUP 3 quiet; fn CTEST_TEST_FUNCTION 4 asserts; fn CTEST_TEST_FUNCTION_INITIALIZE 5 quiet; fn CTEST_TEST_SUITE_INITIALIZE 6 quiet] in
  suite_ok l /\ exists s, RunTests l (begin_with tt) = Some (1%nat, s) /\
   log s = [Started; Called 5; Called 4; Executing [2%N]; Called 1; Called 2; Succeeded; Called 4; Executing [4%N]; Called 3; Called 2; Failed; Called 0; Summary 2 1 1].
Proof. split; [intros [] N; cbn; (congruence || lia)|]. eexists. split; vm_compute; reflexivity. Qed.
(* An assertion that fails in the cleanup of a test is printed and otherwise lost. *)
Theorem cleanup_assertion_refuted : exists (l : list (function_data unit)) s, suite_ok l /\ RunTests l (begin_with tt) = Some (0%nat, s) /\ exists f, In f l /\ FunctionType f = CTEST_TEST_FUNCTION_CLEANUP /\ TestFunction f tt = (tt, true) /\ In (Called 1) (log s).
Proof.
  exists [fn CTEST_TEST_FUNCTION 2 quiet; fn CTEST_TEST_FUNCTION_CLEANUP 3 asserts]. eexists. split; [intros [] N; cbn; (congruence || lia)|]. split; [vm_compute; reflexivity|].
  eexists. split; [right; left; reflexivity|]. split; [reflexivity|]. split; [reflexivity|]. vm_compute. tauto.
Qed.
(* One that fails in the cleanup of the suite jumps back into the last test, whose counters are then indeterminate; with
   no test, the suite's initialisation is said to have failed. *)
Theorem suite_cleanup_assertion_refuted :
  RunTests [fn CTEST_TEST_FUNCTION 2 quiet; fn CTEST_TEST_SUITE_CLEANUP 3 asserts] (begin_with tt) = None /\
  exists s, RunTests [fn CTEST_TEST_SUITE_INITIALIZE 2 quiet; fn CTEST_TEST_SUITE_CLEANUP 3 asserts] (begin_with tt) = Some (1%nat, s) /\ In SuiteInitFailed (log s).
Proof. split; [vm_compute; reflexivity|]. eexists. split; [vm_compute; reflexivity|]. vm_compute. tauto. Qed.
(* A suite run again: a test that failed the first time is still failed though nothing fails now. *)
Theorem second_run_refuted : exists (l : list (function_data nat)) s1 s2, suite_ok l /\ RunTests l (begin_with 0%nat) = Some (1%nat, s1) /\ RunTests l s1 = Some (1%nat, s2) /\ forall f, In f l -> snd (TestFunction f (world s1)) = false.
Proof.
  exists [fn CTEST_TEST_FUNCTION 2 (fun w => match w with O => (1%nat, true) | _ => (w, false) end)]. eexists _, _. split; [intros [] N; cbn; (congruence || lia)|].
  split; [vm_compute; reflexivity|]. split; [vm_compute; reflexivity|]. intros f [<-|[] ]. reflexivity.
Qed.

(* ---- assertions ---- *)
Theorem int_compare_spec a b : int_Compare a b = 0 <-> a = b.
Proof. unfold int_Compare. destruct (Z.eqb_spec a b); intuition discriminate. Qed.
Theorem char_ptr_compare_partial a b : (b = None -> a = None) -> exists z, char_ptr_Compare a b = Some z /\ (z = 0 <-> a = b).
Proof.
  intros H. destruct a as [a|], b as [b|]; cbn [char_ptr_Compare].
  - eexists. split; [reflexivity|]. rewrite strcmp_eq. split; congruence.
  - discriminate (H eq_refl).
  - eexists. split; [reflexivity|]. split; discriminate.
  - eexists. split; [reflexivity|]. tauto.
Qed.
Theorem char_ptr_compare_refuted : exists a, char_ptr_Compare (Some a) None = None.
Proof. exists [104%N]. reflexivity. Qed.
Lemma cstr_firstn n t : cstr_ok t -> cstr_ok (firstn n t).
Proof. intros H. rewrite <- (firstn_skipn n t) in H. apply Forall_app in H. tauto. Qed.
(* what is printed of a string: its first 1023 characters with a C99 library, all of it elsewhere when it is shorter *)
Theorem shown_string_partial c t : cstr_ok t -> c = C99 \/ (length t < 1024)%nat -> shown_string c t = Some (firstn 1023 t).
Proof.
  intros K H. unfold shown_string, snprintf.
  assert (X : forall u, cstr_ok u -> (length u < 1024)%nat -> match store_all (fresh 1024) 0 (u ++ [0%N]) with Some b => string_in b | None => None end = Some u).
  { intros u Ku L. rewrite store_all_prefix by (rewrite app_length, fresh_length; cbn [length]; lia). apply string_in_more. exact Ku. }
  destruct c.
  - change (1024 =? 0)%nat with false. cbv iota. change (1024 - 1)%nat with 1023%nat. apply X; [apply cstr_firstn; exact K|]. rewrite firstn_length. lia.
  - destruct H as [H|H]; [discriminate H|]. destruct (Nat.ltb_spec (length t) 1024); [|lia]. rewrite firstn_all2 by lia. apply X; assumption.
  - destruct H as [H|H]; [discriminate H|]. rewrite firstn_all2 by lia. apply X; assumption.
Qed.
Theorem shown_string_refuted : exists t, cstr_ok t /\ shown_string Msvc t = None /\ shown_string Own t = None.
Proof. exists (repeat 97%N 1024). split; [apply Forall_forall; intros x I; apply repeat_spec in I; subst; unfold char_ok; lia|]. split; vm_compute; reflexivity. Qed.
