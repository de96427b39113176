(* Model of testtools/micromock: which calls of a mock match which expectations.  mockcallrecorder.cpp:16-247,
   mockmethodcallbase.cpp:29-121, strictunorderedcallcomparer.h:16-123, strictorderedcallcomparer.h:19-128, nicecallcomparer.h:17-28.
   The locks are left out (one thread), as are the destructor, the exceptions for a missing comparer, and the buffers of an argument
   (mockcallargument.h:58-79 without validations).  A recorded call is named by its place in its vector: calls are deleted only with
   the whole vector, and then every pointer to them is set to NULL. *)
From Verif Require Import Base.

(* mockcallargument.h:55-89 *)
Record arg := { value : nat; ignored : bool }.
Definition arg_equal (l r : arg) : bool := if negb (ignored l) && negb (ignored r) then value l =? value r else true.
Record method_call := { method : nat; arguments : list arg }.
(* mockmethodcallbase.cpp:93-109 operator== *)
Fixpoint args_equal (l r : list arg) : bool :=
  match l, r with
  | a :: l, b :: r => (if arg_equal a b then true else false) && args_equal l r
  | _, _ => true
  end.
Definition call_equal (l r : method_call) : bool :=
  (method l =? method r) && (length (arguments l) =? length (arguments r)) && args_equal (arguments l) (arguments r).

(* mockmethodcallbase.h:33-50, what matters of an expected and of an actual call *)
Record expected_call := { e_call : method_call; e_matched : option nat; only_actions : bool; ignore_all : bool; expected_times : nat; matched_times : nat; exact : bool; ret : option nat; fail_ret : option nat }.
Record actual_call := { a_call : method_call; a_matched : option nat; always_report : bool }.
Definition match_whole (e : expected_call) (k : nat) : expected_call :=
  {| e_call := e_call e; e_matched := Some k; only_actions := only_actions e; ignore_all := ignore_all e; expected_times := expected_times e; matched_times := matched_times e; exact := exact e; ret := ret e; fail_ret := fail_ret e |}.
(* the lines that take one of the expected times: strictunorderedcallcomparer.h:85-93, strictorderedcallcomparer.h:75-82 *)
Definition match_once (e : expected_call) (k : nat) : expected_call :=
  {| e_call := e_call e; e_matched := if S (matched_times e) =? expected_times e then Some k else e_matched e; only_actions := only_actions e; ignore_all := ignore_all e; expected_times := expected_times e; matched_times := S (matched_times e); exact := exact e; ret := ret e; fail_ret := fail_ret e |}.
Definition has_match {A} (m : option A) : bool := match m with Some _ => true | None => false end.

(* strictunorderedcallcomparer.h:59-110, the first loop: the expected calls after it, what the actual call (number k) is matched with,
   whether it is always reported, and the result *)
Fixpoint unordered (es : list expected_call) (i k : nat) (a : method_call) : list expected_call * option nat * bool * option nat :=
  match es with
  | [] => ([], None, false, None)
  | e :: r =>
      if ignore_all e && call_equal (e_call e) a then (match_whole e k :: r, Some i, false, None)
      else if (negb (has_match (e_matched e)) || exact e) && negb (only_actions e) && call_equal (e_call e) a then
        if matched_times e <? expected_times e then (match_once e k :: r, Some i, false, Some i)
        else (e :: r, None, exact e, None)
      else let '(r, m, w, x) := unordered r (S i) k a in (e :: r, m, w, x)
  end.
(* :111-119, the last expectation that only says what to do *)
Fixpoint last_action (es : list expected_call) (i : nat) (a : method_call) (found : option nat) : option nat :=
  match es with
  | [] => found
  | e :: r => last_action r (S i) a (if only_actions e && call_equal (e_call e) a then Some i else found)
  end.
Definition match_unordered (es : list expected_call) (k : nat) (a : method_call) : list expected_call * option nat * bool * option nat :=
  let '(es', m, w, x) := unordered es 0 k a in
  (es', m, w, match last_action es' 0 a None with Some j => Some j | None => x end).

(* strictorderedcallcomparer.h:50-54 *)
Fixpoint skip_actions (es : list expected_call) (index : nat) : nat :=
  match es with e :: r => if only_actions e then skip_actions r (S index) else index | [] => index end.
(* :44-127; the last component is m_ExpectedCallIndex *)
Definition match_ordered (es : list expected_call) (index k : nat) (a : method_call) : list expected_call * option nat * bool * option nat * nat :=
  let index := skip_actions (skipn index es) index in
  let '(es, m, w, x, index) :=
    match nth_error es index with
    | None => (es, None, false, None, index)
    | Some e =>
        if ignore_all e && call_equal (e_call e) a then (upd es index (match_whole e k), Some index, false, None, index)
        else if negb (has_match (e_matched e)) && call_equal (e_call e) a then
          if matched_times e <? expected_times e then
            (upd es index (match_once e k), Some index, false, Some index, if S (matched_times e) =? expected_times e then S index else index)
          else (es, None, exact e, None, index)
        else (es, None, false, None, index)
    end in
  (* :105-123: the second loop is left out only when the expected call is used up *)
  let used_up := match x with Some j => match nth_error es j with Some e => matched_times e =? expected_times e | None => false end | None => false end in
  (es, m, w, if used_up then x else match last_action es 0 a None with Some j => Some j | None => x end, index).

Inductive comparer := StrictUnordered | StrictOrdered | Nice.
Record recorder := { expected : list expected_call; actual : list actual_call; m_ExpectedCallIndex : nat }.
Definition new_recorder := {| expected := []; actual := []; m_ExpectedCallIndex := 0 |}.

(* the call modifiers of mockmethodcall.h:26-171, given together with RecordExpectedCall (mockcallrecorder.cpp:52-57) *)
Record expectation := { x_call : method_call; x_only_actions : bool; x_ignore_all : bool; x_times : nat; x_exact : bool; x_ret : option nat; x_fail : option nat }.
Definition RecordExpectedCall (r : recorder) (x : expectation) : recorder :=
  {| expected := expected r ++ [{| e_call := x_call x; e_matched := None; only_actions := x_only_actions x; ignore_all := x_ignore_all x; expected_times := x_times x; matched_times := 0; exact := x_exact x; ret := x_ret x; fail_ret := x_fail x |}];
     actual := actual r; m_ExpectedCallIndex := m_ExpectedCallIndex r |}.
(* mockcallrecorder.cpp:59-116: the value the mock is to give (None: none was set), and *failed *)
Definition RecordActualCall (c : comparer) (r : recorder) (a : method_call) : option nat * bool * recorder :=
  let k := length (actual r) in
  let '(es, m, w, x, index) :=
    match c with
    | StrictOrdered => match_ordered (expected r) (m_ExpectedCallIndex r) k a
    | _ => let '(es, m, w, x) := match_unordered (expected r) k a in (es, m, w, x, m_ExpectedCallIndex r)
    end in
  let '(v, failed) :=
    match x with
    | Some j => match nth_error es j with Some e => match fail_ret e with Some f => (Some f, true) | None => (ret e, false) end | None => (None, false) end
    | None => (None, false)
    end in
  (v, failed, {| expected := es; actual := actual r ++ [{| a_call := a; a_matched := m; always_report := w |}]; m_ExpectedCallIndex := index |}).

(* the comparers' IsUnexpectedCall and IsMissingCall *)
Definition IsUnexpectedCall (c : comparer) (a : actual_call) : bool :=
  match c with Nice => always_report a | _ => negb (has_match (a_matched a)) end.
Definition IsMissingCall (e : expected_call) : bool :=
  negb (has_match (e_matched e)) && (0 <? expected_times e) && negb (ignore_all e) && negb (only_actions e).
(* mockcallrecorder.cpp:125-151: the calls reported *)
Definition GetUnexpectedCalls (c : comparer) (r : recorder) : list method_call := map a_call (filter (IsUnexpectedCall c) (actual r)).
(* :153-186: the calls reported, with the number after "(x" *)
Definition GetMissingCalls (r : recorder) : list (method_call * option nat) :=
  map (fun e => (e_call e, if 1 <? expected_times e - matched_times e then Some (expected_times e - matched_times e) else None)) (filter IsMissingCall (expected r)).
(* :188-230; the comparer is not told *)
Definition ResetExpectedCalls (r : recorder) : recorder :=
  {| expected := []; actual := map (fun a => {| a_call := a_call a; a_matched := None; always_report := always_report a |}) (actual r); m_ExpectedCallIndex := m_ExpectedCallIndex r |}.
Definition ResetActualCalls (r : recorder) : recorder :=
  {| expected := map (fun e => {| e_call := e_call e; e_matched := None; only_actions := only_actions e; ignore_all := ignore_all e; expected_times := expected_times e; matched_times := matched_times e; exact := exact e; ret := ret e; fail_ret := fail_ret e |}) (expected r);
     actual := []; m_ExpectedCallIndex := m_ExpectedCallIndex r |}.
Definition ResetAllCalls (r : recorder) : recorder := ResetExpectedCalls (ResetActualCalls r).
