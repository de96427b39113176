(* What a test suite is, as its author reads it: test functions with optional functions around each test and around
   the suite. *)
From Verif Require Import Base Ctest_Model.

Definition of_kind {W} (k : function_type) (l : list (function_data W)) : list (nat * function_data W) :=
  filter (fun x => same_type (FunctionType (snd x)) k) (combine (seq 0 (length l)) l).
Definition tests {W} (l : list (function_data W)) := of_kind CTEST_TEST_FUNCTION l.
Definition the {W} (k : function_type) (l : list (function_data W)) : option (nat * function_data W) := hd_error (of_kind k l).
(* the compiler allows one of each *)
Definition suite_ok {W} (l : list (function_data W)) : Prop := forall k, k <> CTEST_TEST_FUNCTION -> length (of_kind k l) <= 1.

(* a function that may be missing is called: the calls, whether an assertion failed, the world after *)
Inductive maybe {W} : option (nat * function_data W) -> W -> list nat -> bool -> W -> Prop :=
| no_function w : maybe None w [] false w
| function i f w w' b : TestFunction f w = (w', b) -> maybe (Some (i, f)) w [i] b w'.
(* one test: what is called, and how it ends *)
Inductive verdict := NotRun | Bad | Good.
Inductive test_goes {W} (init cleanup : option (nat * function_data W)) (i : nat) (f : function_data W) : W -> list nat -> verdict -> bool (* an assertion of the cleanup failed *) -> W -> Prop :=
| not_ready w c w' : maybe init w c true w' -> test_goes init cleanup i f w c NotRun false w'
| goes w c1 w1 w2 b c2 w3 cb : maybe init w c1 false w1 -> TestFunction f w1 = (w2, b) -> maybe cleanup w2 c2 cb w3 ->
    test_goes init cleanup i f w (c1 ++ [i] ++ c2) (if b then Bad else Good) cb w3.
(* every test, one after the other *)
Inductive tests_go {W} (init cleanup : option (nat * function_data W)) : list (nat * function_data W) -> W -> list nat -> list (list N * verdict) -> bool -> W -> Prop :=
| go_nil w : tests_go init cleanup [] w [] [] false w
| go_cons i f l w c v cb w1 cs vs cbs w2 : test_goes init cleanup i f w c v cb w1 -> tests_go init cleanup l w1 cs vs cbs w2 ->
    tests_go init cleanup ((i, f) :: l) w (c ++ cs) ((TestFunctionName f, v) :: vs) (cb || cbs) w2.
(* a suite *)
Inductive suite_goes {W} (l : list (function_data W)) (w : W) : list nat -> option (list (list N * verdict)) -> bool -> bool -> W -> Prop :=
| stopped c w' : maybe (the CTEST_TEST_SUITE_INITIALIZE l) w c true w' -> suite_goes l w c None false false w'
| went c1 w1 c2 vs cb w2 c3 sb w3 : maybe (the CTEST_TEST_SUITE_INITIALIZE l) w c1 false w1 ->
    tests_go (the CTEST_TEST_FUNCTION_INITIALIZE l) (the CTEST_TEST_FUNCTION_CLEANUP l) (tests l) w1 c2 vs cb w2 ->
    maybe (the CTEST_TEST_SUITE_CLEANUP l) w2 c3 sb w3 -> suite_goes l w (c1 ++ c2 ++ c3) (Some vs) cb sb w3.

(* what is to be read off the output *)
Definition calls_in (l : list event) : list nat := flat_map (fun e => match e with Called i => [i] | _ => [] end) l.
Definition is_bad (x : list N * verdict) : bool := match snd x with Good => false | _ => true end.
Definition said (x : list N * verdict) : list event :=
  match snd x with
  | NotRun => [FunctionInitFailed; NotExecuting (fst x); Failed]
  | Bad => [Executing (fst x); Failed]
  | Good => [Executing (fst x); Succeeded]
  end.
Definition output_in (l : list event) : list event := filter (fun e => match e with Called _ => false | _ => true end) l.
Definition suite_output (r : option (list (list N * verdict))) : list event :=
  match r with
  | None => [Started; SuiteInitFailed; NoneRan]
  | Some vs => [Started] ++ concat (map said vs) ++ [Summary (length vs) (length (filter is_bad vs)) (length (filter (fun x => negb (is_bad x)) vs))]
  end.
Definition suite_answer (r : option (list (list N * verdict))) : nat := match r with None => 1 | Some vs => length (filter is_bad vs) end.
