(* A test with mocks, as its writer reads it: expectations with what each asks of the arguments and what it returns,
   and calls nobody expected. *)
From Verif Require Import Base MockFn_Model.
Local Open Scope Z_scope.

(* one argument of an expected call: its value, whether the value is compared, the bytes the actual argument has to
   point to, the bytes written where the actual argument points *)
Record wanted := { w_value : nat; w_checked : bool; w_points_to : option (list N); w_fills : option (list N) }.
Record expectation := { e_mock : nat; e_args : list wanted; e_return : option nat; e_fail : option nat }.
(* a call nobody expected; the last two say whether the memory of its call data happened to have certain bits set *)
Definition extra_call := (nat * list nat * bool * bool)%type.
Record mtest := { on : bool; done : list expectation; due : list expectation; extra : list extra_call; hook : nat -> bool; fallback : nat -> nat }.
Definition mtest_start := {| on := false; done := []; due := []; extra := []; hook := fun _ => false; fallback := fun _ => 0%nat |}.

(* "[0xAB 0xCD]" *)
Definition hex (d : N) : N := (if d <? 10 then 48 + d else 55 + d)%N.
Definition byte_text (b : N) : list N := [48; 120; hex (b / 16); hex (b mod 16)]%N.
Fixpoint join (sep : N) (l : list (list N)) : list N :=
  match l with [] => [] | [t] => t | t :: l => t ++ [sep] ++ join sep l end.
Definition buffer_text (bytes : list N) : list N := ([91] ++ join 32 (map byte_text bytes) ++ [93])%N.
(* what is written for an argument: the bytes it has to point to, or what its type's function makes of its value *)
Definition arg_text (v : outside) (f i : nat) (x : nat) (bytes : option (list N)) : option (list N) :=
  match bytes with Some b => Some (buffer_text b) | None => type_text v f i x end.
Fixpoint arg_texts (v : outside) (f i : nat) (l : list (nat * option (list N))) : option (list (list N)) :=
  match l with
  | [] => Some []
  | (x, b) :: l => match arg_text v f i x b, arg_texts v f (S i) l with Some t, Some r => Some (t :: r) | _, _ => None end
  end.
(* "[name(argument,argument)]" *)
Definition call_words (F : nat -> mock) (v : outside) (f : nat) (l : list (nat * option (list N))) : option (list N) :=
  match arg_texts v f 0 l with Some ts => Some ([91] ++ m_name (F f) ++ [40] ++ join 44 ts ++ [41; 93])%N | None => None end.
Definition expectation_words (F : nat -> mock) (v : outside) (e : expectation) := call_words F v (e_mock e) (map (fun w => (w_value w, w_points_to w)) (e_args e)).
Definition extra_words (F : nat -> mock) (v : outside) (x : extra_call) := let '(f, vals, _, _) := x in call_words F v f (map (fun a => (a, None)) vals).
Fixpoint all_words (l : list (option (list N))) : option (list N) :=
  match l with [] => Some [] | Some t :: l => match all_words l with Some r => Some (t ++ r) | None => None end | None :: _ => None end.

(* does an actual argument agree with what is wanted?  None: its type's function could not tell *)
Definition points_to (v : outside) (p : nat) (bytes : list N) : Prop := exists rest, bytes_at v p = Some (bytes ++ rest).
Definition agrees (v : outside) (f i : nat) (w : wanted) (x : nat) : Prop :=
  (forall b, w_points_to w = Some b -> points_to v x b) /\ (w_checked w = true -> type_equal v f i (w_value w) x = 1).
Definition differs (v : outside) (f i : nat) (w : wanted) (x : nat) : Prop :=
  (exists b, w_points_to w = Some b /\ ~ points_to v x b) \/ (w_checked w = true /\ type_equal v f i (w_value w) x = 0).
Definition unclear (v : outside) (f i : nat) (w : wanted) (x : nat) : Prop :=
  w_checked w = true /\ type_equal v f i (w_value w) x <> 0 /\ type_equal v f i (w_value w) x <> 1.
Definition all_agree (v : outside) (e : expectation) (vals : list nat) : Prop :=
  forall i w x, nth_error (e_args e) i = Some w -> nth_error vals i = Some x -> agrees v (e_mock e) i w x.
Definition some_arg (P : nat -> wanted -> nat -> Prop) (e : expectation) (vals : list nat) : Prop :=
  exists i w x, nth_error (e_args e) i = Some w /\ nth_error vals i = Some x /\ P i w x.

(* values given back when a call is forgotten *)
Fixpoint give_back (f i : nat) (vals : list nat) : list mevent := match vals with [] => [] | x :: vals => FreeArg f i x :: give_back f (S i) vals end.
Definition when (b : bool) (e : mevent) : list mevent := if b then [e] else [].
Definition forget (F : nat -> mock) (e : expectation) : list mevent :=
  give_back (e_mock e) 0 (map w_value (e_args e)) ++
  (if gives (F (e_mock e)) then match e_return e with Some x => [FreeReturn (e_mock e) (Some x)] | None => [] end ++ match e_fail e with Some x => [FreeReturn (e_mock e) (Some x)] | None => [] end else []).
Definition forget_call (F : nat -> mock) (f : nat) (vals : list nat) (g1 g2 : bool) : list mevent :=
  give_back f 0 vals ++ when (gives (F f) && g1) (FreeReturn f None) ++ when (gives (F f) && g2) (FreeReturn f None).
Definition forget_extra (F : nat -> mock) (x : extra_call) : list mevent := let '(f, vals, g1, g2) := x in forget_call F f vals g1 g2.

(* what a call returns when no expectation decides it, and whether the hook runs *)
Definition otherwise (F : nat -> mock) (T : mtest) (f : nat) (vals : list nat) (h : nat) : option nat * list mevent :=
  (if gives (F f) then Some (if hook T f then h else fallback T f) else None, when (hook T f) (HookCalled f vals)).
Definition met_result (F : nat -> mock) (T : mtest) (e : expectation) (vals : list nat) (h : nat) : option nat * list mevent :=
  if gives (F (e_mock e)) then match e_return e with Some x => (Some x, []) | None => otherwise F T (e_mock e) vals h end else (None, []).
Fixpoint fill_in (l : list wanted) (vals : list nat) : list mevent :=
  match l, vals with
  | w :: l, p :: vals => match w_fills w with Some b => [Written p b] | None => [] end ++ fill_in l vals
  | _, _ => []
  end.

(* what a modifier does to the last expected call, and what it complains of *)
Fixpoint at_place (i : nat) (g : wanted -> wanted) (l : list wanted) : list wanted :=
  match l, i with [], _ => [] | w :: l, O => g w :: l | w :: l, Datatypes.S i => w :: at_place i g l end.
Definition checked (b : bool) (w : wanted) : wanted := {| w_value := w_value w; w_checked := b; w_points_to := w_points_to w; w_fills := w_fills w |}.
Definition must_point_to (b : list N) (w : wanted) : wanted := {| w_value := w_value w; w_checked := false; w_points_to := Some b; w_fills := w_fills w |}.
Definition is_filled (b : list N) (w : wanted) : wanted := {| w_value := w_value w; w_checked := false; w_points_to := w_points_to w; w_fills := Some b |}.
Definition change_args (e : expectation) (g : list wanted -> list wanted) : expectation := {| e_mock := e_mock e; e_args := g (e_args e); e_return := e_return e; e_fail := e_fail e |}.
Definition effect (m : modifier) (e : expectation) : expectation :=
  match m with
  | IgnoreAllArguments => change_args e (map (checked false))
  | ValidateAllArguments => change_args e (map (checked true))
  | IgnoreArgument i => change_args e (at_place (i - 1) (checked false))
  | ValidateArgument i => change_args e (at_place (i - 1) (checked true))
  | IgnoreArgument_ i => change_args e (at_place i (checked false))
  | ValidateArgument_ i => change_args e (at_place i (checked true))
  | SetReturn x => {| e_mock := e_mock e; e_args := e_args e; e_return := Some x; e_fail := e_fail e |}
  | SetFailReturn x => {| e_mock := e_mock e; e_args := e_args e; e_return := e_return e; e_fail := Some x |}
  | CopyOutArgumentBuffer i (Some b) => change_args e (at_place (i - 1) (is_filled b))
  | ValidateArgumentBuffer i (Some b) => change_args e (at_place (i - 1) (must_point_to b))
  | _ => e
  end.
Definition in_range (F : nat -> mock) (f i : nat) : bool := ((1 <=? i) && (i <=? arity (F f)))%nat.
Definition complaint (F : nat -> mock) (f : nat) (m : modifier) (none : bool) : option error_code :=
  match m with
  | CopyOutArgumentBuffer i b | ValidateArgumentBuffer i b =>
      if negb (in_range F f i) then Some ArgIndexOutOfRange
      else match b with None | Some [] => Some InvalidArgumentBuffer | Some _ => if none then Some Error else None end
  | IgnoreArgument i | ValidateArgument i => if none then Some Error else if negb (in_range F f i) then Some ArgIndexOutOfRange else None
  | CopyOutArgument | IgnoreAllCalls => None
  | _ => if none then Some Error else None
  end.
Fixpoint map_last (g : expectation -> expectation) (l : list expectation) : list expectation :=
  match l with [] => [] | [e] => [g e] | e :: l => e :: map_last g l end.
Definition with_lists (T : mtest) (b : bool) (d u : list expectation) (x : list extra_call) : mtest := {| on := b; done := d; due := u; extra := x; hook := hook T; fallback := fallback T |}.
Definition change_last (T : mtest) (g : expectation -> expectation) : mtest :=
  match due T with [] => with_lists T (on T) (map_last g (done T)) [] (extra T) | _ => with_lists T (on T) (done T) (map_last g (due T)) (extra T) end.
Definition last_expectation (T : mtest) : option expectation := last (map Some (done T ++ due T)) None.
Definition none_expected (T : mtest) : bool := match done T ++ due T with [] => true | _ => false end.

(* What each step of a test answers and does *)
Inductive msays (F : nat -> mock) (v : outside) (T : mtest) : mop -> manswer -> list mevent -> mtest -> Prop :=
| m_init : on T = false -> msays F v T MInit (AInt 0) [] (with_lists T true (done T) (due T) (extra T))
| m_init_again z : on T = true -> z <> 0 -> msays F v T MInit (AInt z) [] T
| m_deinit : on T = true -> msays F v T MDeinit ANone [] (with_lists T false [] [] [])
| m_deinit_not : on T = false -> msays F v T MDeinit ANone [] T
| m_reset : on T = true -> msays F v T MReset ANone (concat (map (forget F) (done T ++ due T)) ++ concat (map (forget_extra F) (extra T))) (with_lists T true [] [] [])
| m_reset_not : on T = false -> msays F v T MReset ANone [] T
| m_expected : msays F v T MExpected (AText (if on T then all_words (map (expectation_words F v) (due T)) else None)) [] T
| m_actuals : msays F v T MActuals (AText (if on T then all_words (map (extra_words F v) (extra T)) else None)) [] T
| m_expect f strict vals : on T = true ->
    msays F v T (MExpect f strict vals) ANone []
      (with_lists T true (done T) (due T ++ [{| e_mock := f; e_args := map (fun x => {| w_value := x; w_checked := strict; w_points_to := None; w_fills := None |}) vals; e_return := None; e_fail := None |}]) (extra T))
| m_modify f m : complaint F f m (none_expected T) = None -> msays F v T (MModify f m) ANone [] (change_last T (effect m))
| m_complain f m c : complaint F f m (none_expected T) = Some c -> msays F v T (MModify f m) ANone [Errors c] T
| m_call_met f vals g1 g2 h e rest r ev : on T = true -> due T = e :: rest -> e_mock e = f -> all_agree v e vals -> met_result F T e vals h = (r, ev) ->
    msays F v T (MCall f vals g1 g2 h) (AResult r) (forget_call F f vals g1 g2 ++ ev ++ fill_in (e_args e) vals) (with_lists T true (done T ++ [e]) rest (extra T))
| m_call_extra f vals g1 g2 h r ev : on T = true -> (forall e rest, due T = e :: rest -> e_mock e = f -> some_arg (differs v f) e vals) -> otherwise F T f vals h = (r, ev) ->
    msays F v T (MCall f vals g1 g2 h) (AResult r) ev (with_lists T true (done T) (due T) (extra T ++ [(f, vals, g1, g2)]))
| m_call_unclear f vals g1 g2 h e rest r ev : on T = true -> due T = e :: rest -> e_mock e = f -> some_arg (unclear v f) e vals -> otherwise F T f vals h = (r, ev) ->
    msays F v T (MCall f vals g1 g2 h) (AResult r) (forget_call F f vals g1 g2 ++ [Errors CompareCallError] ++ ev) T
| m_hook f b : msays F v T (MHook f b) ANone [] {| on := on T; done := done T; due := due T; extra := extra T; hook := fun g => if Nat.eq_dec g f then b else hook T g; fallback := fallback T |}
| m_return f x : msays F v T (MReturn f x) ANone [] {| on := on T; done := done T; due := due T; extra := extra T; hook := hook T; fallback := fun g => if Nat.eq_dec g f then x else fallback T g |}.

(* A test, which chooses what to do by what it has seen, and what it may do: the library is initialised before
   expectations and mocks are used; modifiers are those the compiler has for this mock, are used on the last
   expected call only, and IgnoreAllArguments only when there is one; arguments that have to point to bytes or are
   filled in do point to enough memory. *)
Inductive muser := MStop | MDo (v : outside) (op : mop) (next : manswer -> list mevent -> muser).
Fixpoint mplay (F : nat -> mock) (s : mocks) (p : muser) : M (list (outside * mop * manswer * list mevent) * mocks) :=
  match p with
  | MStop => ret ([], s)
  | MDo v op next => (x <- mstep F v s op ;; let '(a, e, s) := x in y <- mplay F s (next a e) ;; ret ((v, op, a, e) :: fst y, snd y))%m
  end.
Inductive mexplained (F : nat -> mock) : mtest -> list (outside * mop * manswer * list mevent) -> mtest -> Prop :=
| mx_nil T : mexplained F T [] T
| mx_cons T v op a e T1 tr T2 : msays F v T op a e T1 -> mexplained F T1 tr T2 -> mexplained F T ((v, op, a, e) :: tr) T2.
Definition room (v : outside) (p n : nat) : Prop := exists m, bytes_at v p = Some m /\ (n <= length m)%nat.
Definition well_pointed (v : outside) (e : expectation) (vals : list nat) : Prop :=
  forall i w x b, nth_error (e_args e) i = Some w -> nth_error vals i = Some x -> w_points_to w = Some b \/ w_fills w = Some b -> room v x (length b).
Definition available (F : nat -> mock) (f : nat) (m : modifier) : Prop :=
  match m with
  | SetReturn _ | SetFailReturn _ => gives (F f) = true
  | IgnoreArgument_ i | ValidateArgument_ i => (i < arity (F f))%nat
  | IgnoreAllCalls => True
  | _ => (0 < arity (F f))%nat
  end.
(* bytes are below 256 *)
Definition modifier_ok (m : modifier) : Prop :=
  match m with CopyOutArgumentBuffer _ (Some b) | ValidateArgumentBuffer _ (Some b) => bytes_ok b | _ => True end.
Definition mallowed (F : nat -> mock) (v : outside) (T : mtest) (op : mop) : Prop :=
  match op with
  | MExpect f _ vals => on T = true /\ length vals = arity (F f)
  | MModify f m => available F f m /\ modifier_ok m /\ match last_expectation T with Some e => e_mock e = f | None => m <> IgnoreAllArguments end
  | MCall f vals _ _ _ => on T = true /\ length vals = arity (F f) /\ forall e rest, due T = e :: rest -> e_mock e = f -> well_pointed v e vals
  | _ => True
  end.
Definition outside_ok (v : outside) : Prop := forall f i x t, type_text v f i x = Some t -> cstr_ok t.
Fixpoint mcareful (F : nat -> mock) (T : mtest) (p : muser) : Prop :=
  match p with
  | MStop => True
  | MDo v op next => outside_ok v /\ mallowed F v T op /\ forall a e T', msays F v T op a e T' -> mcareful F T' (next a e)
  end.
