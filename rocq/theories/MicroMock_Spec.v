(* What a test with mocks means: expectations ask for calls, each as often as they say, and calls use them up. *)
From Verif Require Import Base MicroMock_Model.
From Coq Require Import Permutation.

Inductive event := Expect (x : expectation) | Call (a : method_call).
(* an expectation that asks for calls, at least one of them *)
Definition asks (x : expectation) : Prop := x_only_actions x = false /\ x_ignore_all x = false /\ 1 <= x_times x.
Definition slots (x : expectation) : list expectation := repeat x (x_times x).
Definition wants (x : expectation) (a : method_call) : Prop := call_equal (x_call x) a = true.
(* in any order: a call uses up the first slot that wants it.  [open]: the slots not used up yet; the calls with what they
   used up; the slots left *)
Inductive any_order : list expectation -> list event -> list (method_call * option expectation) -> list expectation -> Prop :=
| any_end open : any_order open [] [] open
| any_expect open x h l rest : any_order (open ++ slots x) h l rest -> any_order open (Expect x :: h) l rest
| any_hit before x after a h l rest : Forall (fun y => ~ wants y a) before -> wants x a -> any_order (before ++ after) h l rest -> any_order (before ++ x :: after) (Call a :: h) ((a, Some x) :: l) rest
| any_miss open a h l rest : Forall (fun y => ~ wants y a) open -> any_order open h l rest -> any_order open (Call a :: h) ((a, None) :: l) rest.
(* in order: only the first slot counts *)
Inductive in_order : list expectation -> list event -> list (method_call * option expectation) -> list expectation -> Prop :=
| in_end open : in_order open [] [] open
| in_expect open x h l rest : in_order (open ++ slots x) h l rest -> in_order open (Expect x :: h) l rest
| in_hit x after a h l rest : wants x a -> in_order after h l rest -> in_order (x :: after) (Call a :: h) ((a, Some x) :: l) rest
| in_miss open a h l rest : (forall x, hd_error open = Some x -> ~ wants x a) -> in_order open h l rest -> in_order open (Call a :: h) ((a, None) :: l) rest.

(* what is to be answered to a call that uses up a slot *)
Definition answer (o : option expectation) : option nat * bool :=
  match o with Some x => match x_fail x with Some f => (Some f, true) | None => (x_ret x, false) end | None => (None, false) end.
Definition unmatched (l : list (method_call * option expectation)) : list method_call := map fst (filter (fun p => match snd p with None => true | _ => false end) l).
(* a report "[f(1)](x3)" written out: f(1), f(1), f(1) *)
Definition written_out (l : list (method_call * option nat)) : list method_call := flat_map (fun p => repeat (fst p) (match snd p with Some n => n | None => 1 end)) l.

(* a history played on a recorder: the answers to the calls, and the recorder *)
Fixpoint play (c : comparer) (r : recorder) (h : list event) : list (option nat * bool) * recorder :=
  match h with
  | [] => ([], r)
  | Expect x :: h => play c (RecordExpectedCall r x) h
  | Call a :: h => let '(v, f, r) := RecordActualCall c r a in let '(vs, r) := play c r h in ((v, f) :: vs, r)
  end.
Definition expectations (h : list event) : list expectation := flat_map (fun e => match e with Expect x => [x] | Call _ => [] end) h.
Definition calls (h : list event) : list method_call := flat_map (fun e => match e with Call a => [a] | Expect _ => [] end) h.
(* no argument is ignored *)
Definition no_wildcard (a : method_call) : Prop := Forall (fun v => ignored v = false) (arguments a).

(* ---- expectations of every kind ---- *)
(* An expectation with the number of calls it still asks for.  Those that ignore all calls ask for none; those that only say what
   to do ask for none either. *)
Definition entry := (expectation * nat)%type.
Definition concerns (y : entry) (a : method_call) : Prop :=
  wants (fst y) a /\ (x_ignore_all (fst y) = true \/ x_only_actions (fst y) = false /\ (1 <= snd y \/ x_exact (fst y) = true \/ x_times (fst y) = 0)).
(* a call is allowed by an expectation that ignores all calls, meets an expectation, or is one too many: for one of exactly so
   many calls, or not *)
Inductive outcome := Allowed | Meets (x : expectation) | TooMany (exactly : bool).
(* the first expectation that the call concerns decides *)
Inductive one_call : list entry -> method_call -> outcome -> list entry -> Prop :=
| call_nobody open a : Forall (fun y => ~ concerns y a) open -> one_call open a (TooMany false) open
| call_allowed before x n after a : Forall (fun y => ~ concerns y a) before -> wants x a -> x_ignore_all x = true ->
    one_call (before ++ (x, n) :: after) a Allowed (before ++ (x, n) :: after)
| call_meets before x n after a : Forall (fun y => ~ concerns y a) before -> wants x a -> x_ignore_all x = false -> x_only_actions x = false ->
    one_call (before ++ (x, Datatypes.S n) :: after) a (Meets x) (before ++ (x, n) :: after)
| call_too_many before x after a : Forall (fun y => ~ concerns y a) before -> concerns (x, 0) a -> x_ignore_all x = false ->
    one_call (before ++ (x, 0) :: after) a (TooMany (x_exact x)) (before ++ (x, 0) :: after).
(* who says what the mock does: the last expectation for the call that only says what to do, or else the one the call meets *)
Definition who (open : list entry) (a : method_call) (o : outcome) : option expectation :=
  match hd_error (rev (filter (fun y => x_only_actions (fst y) && call_equal (x_call (fst y)) a) open)) with
  | Some y => Some (fst y)
  | None => match o with Meets x => Some x | _ => None end
  end.
Inductive every_kind : list entry -> list event -> list (method_call * outcome * option expectation) -> list entry -> Prop :=
| kind_end open : every_kind open [] [] open
| kind_expect open x h l rest : every_kind (open ++ [(x, x_times x)]) h l rest -> every_kind open (Expect x :: h) l rest
| kind_call open a o open' h l rest : one_call open a o open' -> every_kind open' h l rest -> every_kind open (Call a :: h) ((a, o, who open' a o) :: l) rest.
(* what is reported: by the strict comparer every call too many, by the nice one those for expectations of exactly so many *)
Definition reported (c : comparer) (o : outcome) : bool := match o with TooMany exactly => match c with Nice => exactly | _ => true end | _ => false end.
Definition unexpected (c : comparer) (l : list (method_call * outcome * option expectation)) : list method_call :=
  map (fun p => fst (fst p)) (filter (fun p => reported c (snd (fst p))) l).
(* what is missing, with the number after "(x" *)
Definition missing (open : list entry) : list (method_call * option nat) :=
  map (fun y => (x_call (fst y), if 1 <? snd y then Some (snd y) else None))
    (filter (fun y => negb (x_ignore_all (fst y)) && negb (x_only_actions (fst y)) && (0 <? snd y)) open).

(* ---- the same in order ---- *)
(* The entries are those passed over and those that are left; those that only say what to do are passed over at the next call.  Only
   the first that is left can be met; it is passed over when it asks for no more calls. *)
Definition acting (y : entry) : Prop := x_only_actions (fst y) = true.
Inductive next_call : list entry -> list entry -> method_call -> outcome -> list entry -> list entry -> option expectation -> Prop :=
| next_nothing past acts a : Forall acting acts -> next_call past acts a (TooMany false) (past ++ acts) [] (who (past ++ acts) a (TooMany false))
| next_other past acts x n after a : Forall acting acts -> x_only_actions x = false -> ~ wants x a ->
    next_call past (acts ++ (x, n) :: after) a (TooMany false) (past ++ acts) ((x, n) :: after) (who (past ++ acts ++ (x, n) :: after) a (TooMany false))
| next_allowed past acts x n after a : Forall acting acts -> x_only_actions x = false -> wants x a -> x_ignore_all x = true ->
    next_call past (acts ++ (x, n) :: after) a Allowed (past ++ acts) ((x, n) :: after) (who (past ++ acts ++ (x, n) :: after) a Allowed)
| next_meets past acts x n after a : Forall acting acts -> x_only_actions x = false -> wants x a -> x_ignore_all x = false ->
    next_call past (acts ++ (x, Datatypes.S (Datatypes.S n)) :: after) a (Meets x) (past ++ acts) ((x, Datatypes.S n) :: after) (who (past ++ acts ++ (x, n) :: after) a (Meets x))
(* the last call that is asked for is answered by the expectation met, whatever else is said *)
| next_last past acts x after a : Forall acting acts -> x_only_actions x = false -> wants x a -> x_ignore_all x = false ->
    next_call past (acts ++ (x, 1) :: after) a (Meets x) (past ++ acts ++ [(x, 0)]) after (Some x)
(* one of no calls is never passed over *)
| next_never past acts x after a : Forall acting acts -> x_only_actions x = false -> wants x a -> x_ignore_all x = false ->
    next_call past (acts ++ (x, 0) :: after) a (TooMany (x_exact x)) (past ++ acts) ((x, 0) :: after) (who (past ++ acts ++ (x, 0) :: after) a (TooMany (x_exact x))).
Inductive every_kind_in_order : list entry -> list entry -> list event -> list (method_call * outcome * option expectation) -> list entry -> Prop :=
| ordered_end past open : every_kind_in_order past open [] [] open
| ordered_expect past open x h l rest : every_kind_in_order past (open ++ [(x, x_times x)]) h l rest -> every_kind_in_order past open (Expect x :: h) l rest
| ordered_call past open a o past' open' v h l rest : next_call past open a o past' open' v -> every_kind_in_order past' open' h l rest ->
    every_kind_in_order past open (Call a :: h) ((a, o, v) :: l) rest.
