(* Model of testtools/ctest/src/ctest.c and inc/ctest.h: running a test suite.  A test's function is what it does to
   the state of the world W and whether one of its assertions failed (:186-201: the result of the current test is set
   to TEST_FAILED when there is one, and longjmp leaves the function). *)
From Verif Require Import Base Strings_Model UMockTypes_Model.
Local Open Scope Z_scope.

(* ctest.h:46-69 *)
Inductive function_type := CTEST_TEST_FUNCTION | CTEST_TEST_SUITE_INITIALIZE | CTEST_TEST_SUITE_CLEANUP | CTEST_TEST_FUNCTION_INITIALIZE | CTEST_TEST_FUNCTION_CLEANUP.
Definition same_type (a b : function_type) : bool :=
  match a, b with
  | CTEST_TEST_FUNCTION, CTEST_TEST_FUNCTION | CTEST_TEST_SUITE_INITIALIZE, CTEST_TEST_SUITE_INITIALIZE | CTEST_TEST_SUITE_CLEANUP, CTEST_TEST_SUITE_CLEANUP
  | CTEST_TEST_FUNCTION_INITIALIZE, CTEST_TEST_FUNCTION_INITIALIZE | CTEST_TEST_FUNCTION_CLEANUP, CTEST_TEST_FUNCTION_CLEANUP => true
  | _, _ => false
  end.
Record function_data (W : Type) := { TestFunction : W -> W * bool; TestFunctionName : list N; FunctionType : function_type }.
Arguments TestFunction {W}. Arguments TestFunctionName {W}. Arguments FunctionType {W}.
(* what is printed, and which function of the list was called *)
Inductive event :=
| Started | SuiteInitFailed | NoneRan | FunctionInitFailed | NotExecuting (name : list N) | Executing (name : list N) | Failed | Succeeded | Summary (ran failed succeeded : nat)
| Called (i : nat).
(* the last setjmp(g_ExceptionJump) executed: at :51 or a later one *)
Inductive jump := InSuiteInit | InTest.
Record st (W : Type) := { world : W; TestResult : nat -> bool (* TEST_FAILED, by place in the list *); g_CurrentTestFunction : option nat; g_ExceptionJump : option jump; log : list event }.
Arguments world {W}. Arguments TestResult {W}. Arguments g_CurrentTestFunction {W}. Arguments g_ExceptionJump {W}. Arguments log {W}.
Definition print {W} (s : st W) (l : list event) : st W := {| world := world s; TestResult := TestResult s; g_CurrentTestFunction := g_CurrentTestFunction s; g_ExceptionJump := g_ExceptionJump s; log := log s ++ l |}.
Definition set_current {W} (s : st W) (c : option nat) : st W := {| world := world s; TestResult := TestResult s; g_CurrentTestFunction := c; g_ExceptionJump := g_ExceptionJump s; log := log s |}.
Definition setjmp {W} (s : st W) (j : jump) : st W := {| world := world s; TestResult := TestResult s; g_CurrentTestFunction := g_CurrentTestFunction s; g_ExceptionJump := Some j; log := log s |}.
Definition fail_result {W} (s : st W) (i : nat) : st W := {| world := world s; TestResult := fun k => if (k =? i)%nat then true else TestResult s k; g_CurrentTestFunction := g_CurrentTestFunction s; g_ExceptionJump := g_ExceptionJump s; log := log s |}.
(* a function of the list is called; the answer says whether it left by longjmp *)
Definition call {W} (s : st W) (i : nat) (f : function_data W) : st W * bool :=
  let '(w, failed) := TestFunction f (world s) in
  let s := {| world := w; TestResult := TestResult s; g_CurrentTestFunction := g_CurrentTestFunction s; g_ExceptionJump := g_ExceptionJump s; log := log s ++ [Called i] |} in
  (if failed then match g_CurrentTestFunction s with Some c => fail_result s c | None => s end else s, failed).
(* ctest.c:24-46: the last entry of each kind *)
Fixpoint scan {W} (k : function_type) (l : list (function_data W)) (i : nat) (found : option (nat * function_data W)) : option (nat * function_data W) :=
  match l with [] => found | f :: l => scan k l (S i) (if same_type (FunctionType f) k then Some (i, f) else found) end.
(* :72-131, one entry that is a test *)
Definition run_test {W} (init cleanup : option (nat * function_data W)) (s : st W) (i : nat) (f : function_data W) : st W :=
  let '(s, testFunctionInitializeFailed) :=
    match init with
    | Some (j, g) => let '(s, failed) := call (setjmp s InTest) j g in if failed then (print s [FunctionInitFailed], true) else (s, false)
    | None => (s, false)
    end in
  if testFunctionInitializeFailed then print (fail_result s i) [NotExecuting (TestFunctionName f)]
  else
    let s := set_current (print s [Executing (TestFunctionName f)]) (Some i) in
    let '(s, _) := call (setjmp s InTest) i f in
    let s := setjmp (set_current s None) InTest in
    match cleanup with Some (j, g) => fst (call s j g) | None => s end.
Fixpoint run_tests {W} (init cleanup : option (nat * function_data W)) (s : st W) (l : list (function_data W)) (i totalTestCount failedTestCount : nat) : st W * nat * nat :=
  match l with
  | [] => (s, totalTestCount, failedTestCount)
  | f :: l =>
      if same_type (FunctionType f) CTEST_TEST_FUNCTION then
        let s := run_test init cleanup s i f in
        if TestResult s i then run_tests init cleanup (print s [Failed]) l (S i) (S totalTestCount) (S failedTestCount)
        else run_tests init cleanup (print s [Succeeded]) l (S i) (S totalTestCount) failedTestCount
      else run_tests init cleanup s l (S i) totalTestCount failedTestCount
  end.
(* :8-150 RunTests: what it returns.  A failed assertion in the suite's cleanup (:140) jumps to the last setjmp: totalTestCount
   has changed since then when a test ran and is not volatile, so its value is indeterminate; with no setjmp before, the jump
   itself is undefined; with that of the suite's initialisation only, RunTests goes on as if it had failed. *)
Definition RunTests {W} (l : list (function_data W)) (s : st W) : option (nat * st W) :=
  let suite_init := scan CTEST_TEST_SUITE_INITIALIZE l 0 None in
  let suite_cleanup := scan CTEST_TEST_SUITE_CLEANUP l 0 None in
  let init := scan CTEST_TEST_FUNCTION_INITIALIZE l 0 None in
  let cleanup := scan CTEST_TEST_FUNCTION_CLEANUP l 0 None in
  let s := print (set_current s None) [Started] in
  let '(s, testSuiteInitializeFailed) := match suite_init with Some (j, g) => call (setjmp s InSuiteInit) j g | None => (s, false) end in
  if testSuiteInitializeFailed then Some (1%nat, print s [SuiteInitFailed; NoneRan])
  else
    let '(s, total, failed) := run_tests init cleanup s l 0 0 0 in
    match suite_cleanup with
    | None => Some (failed, print s [Summary total failed (total - failed)])
    | Some (j, g) =>
        let '(s, jumped) := call s j g in
        if jumped then match g_ExceptionJump s with Some InSuiteInit => Some (1%nat, print s [SuiteInitFailed; NoneRan]) | _ => None end
        else Some (failed, print s [Summary total failed (total - failed)])
    end.
(* before main: TestResult is static, so TEST_SUCCESS; g_ExceptionJump was never set *)
Definition begin_with {W} (w : W) : st W := {| world := w; TestResult := fun _ => false; g_CurrentTestFunction := None; g_ExceptionJump := None; log := [] |}.

(* ctest.c:203-241 int_Compare and the like *)
Definition int_Compare (left right : Z) : Z := if left =? right then 0 else 1.
(* :243-262 char_ptr_Compare: the third case tests left again *)
Definition char_ptr_Compare (left right : option (list N)) : option Z :=
  match left, right with
  | None, None => Some 0
  | None, _ => Some (-1)
  | Some l, Some r => Some (strcmp l r)
  | Some _, None => None (* strcmp(left, NULL) *)
  end.
(* ctest.h:28-38 and ctest.c:352-369: snprintf of a text into a buffer of n characters.  C99's; on Windows _snprintf, which does
   not end a text that fills the buffer; elsewhere one that ignores n. *)
Inductive libc := C99 | Msvc | Own.
Definition snprintf (c : libc) (n : nat) (t : list N) : option block :=
  match c with
  | C99 => if (n =? 0)%nat then Some [] else store_all (fresh n) 0 (firstn (n - 1) t ++ [0%N])
  | Msvc => store_all (fresh n) 0 (if (length t <? n)%nat then t ++ [0%N] else firstn n t)
  | Own => store_all (fresh n) 0 (t ++ [0%N])
  end.
(* :192-195 char_ptr_ToString into the 1024 characters of ctest.h:213-216, and printf's %s of the buffer *)
Definition shown_string (c : libc) (t : list N) : option (list N) := match snprintf c 1024 t with Some b => string_in b | None => None end.
