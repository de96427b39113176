(* A test with mocks, as its writer sees it: calls it made, calls it expects, calls that came unexpected. *)
From Verif Require Import Base UMock_Model.
Local Open Scope Z_scope.

Record test := { ready : bool;             (* umock_c_init succeeded *)
                 types_on : bool;          (* the types module is initialised *)
                 made : list call;         (* every call ever created, by its handle's number *)
                 mine : list nat;          (* calls the test still owns *)
                 met : list nat;           (* expected calls that came *)
                 pending : list nat;       (* expected calls that have not come yet *)
                 unexpected : list nat;    (* actual calls nobody expected *)
                 gone : list nat }.        (* calls destroyed, in that order *)
Definition test_start := {| ready := false; types_on := false; made := []; mine := []; met := []; pending := []; unexpected := []; gone := [] |}.
Definition live (t : test) : list nat := mine t ++ met t ++ pending t ++ unexpected t.

(* "[name(arguments)]" *)
Definition text_of (w : world) (c : call) : option (list N) :=
  match str_of w (data_stringify c) (umockcall_data c) with
  | Some args => Some ([91] ++ function_name c ++ [40] ++ args ++ [41; 93])%N
  | None => None
  end.
Fixpoint texts_of (w : world) (cs : list (option call)) : option (list N) :=
  match cs with
  | [] => Some []
  | None :: _ => None
  | Some c :: cs => match text_of w c, texts_of w cs with Some a, Some b => Some (a ++ b) | _, _ => None end
  end.
Definition texts (w : world) (t : test) (hs : list nat) : option (list N) := texts_of w (map (nth_error (made t)) hs).
(* 1 the same call, 0 another, anything else an error *)
Definition same (w : world) (a b : call) : Z :=
  if (Nat.eq_dec (data_are_equal a) (data_are_equal b)) then
    if list_eq_dec N.eq_dec (function_name a) (function_name b) then
      let z := eq_of w (data_are_equal a) (umockcall_data a) (umockcall_data b) in if (z =? 0) || (z =? 1) then z else -1
    else 0
  else 0.

Definition drop (h : nat) (l : list nat) : list nat := remove Nat.eq_dec h l.
Definition no_calls (t : test) (r y : bool) : test :=
  {| ready := r; types_on := y; made := made t; mine := mine t; met := []; pending := []; unexpected := []; gone := gone t ++ met t ++ pending t ++ unexpected t |}.
Definition started (t : test) (r y : bool) : test :=
  {| ready := r; types_on := y; made := made t; mine := mine t; met := met t; pending := pending t; unexpected := unexpected t; gone := gone t |}.
Definition add_made (t : test) (c : call) : test :=
  {| ready := ready t; types_on := types_on t; made := made t ++ [c]; mine := mine t ++ [length (made t)]; met := met t; pending := pending t; unexpected := unexpected t; gone := gone t |}.
Definition destroyed (t : test) (h : nat) : test :=
  {| ready := ready t; types_on := types_on t; made := made t; mine := drop h (mine t); met := met t; pending := pending t; unexpected := unexpected t; gone := gone t ++ [h] |}.
Definition expect (t : test) (h : nat) : test :=
  {| ready := ready t; types_on := types_on t; made := made t; mine := drop h (mine t); met := met t; pending := pending t ++ [h]; unexpected := unexpected t; gone := gone t |}.
Definition surprise (t : test) (h : nat) : test :=
  {| ready := ready t; types_on := types_on t; made := made t; mine := drop h (mine t); met := met t; pending := pending t; unexpected := unexpected t ++ [h]; gone := gone t |}.
(* the first pending call has come as h *)
Definition meet (t : test) (e : nat) (p : list nat) (h : nat) : test :=
  {| ready := ready t; types_on := types_on t; made := made t; mine := drop h (mine t); met := met t ++ [e]; pending := p; unexpected := unexpected t; gone := gone t ++ [h] |}.

(* What a call of the library may answer and do; the last argument says whether memory ran out. *)
Inductive says (w : world) (t : test) : uop -> uret -> test -> bool -> Prop :=
| s_init : ready t = false -> types_on t = false -> says w t UInit (UInt 0) (started t true true) false
| s_init_twice z : ready t = true \/ types_on t = true -> z <> 0 -> says w t UInit (UInt z) t false
| s_init_memory z : ready t = false -> types_on t = false -> z <> 0 -> says w t UInit (UInt z) (started t false true) true
| s_deinit : ready t = true -> says w t UDeinit UNone (no_calls t false false) false
| s_deinit_not : ready t = false -> says w t UDeinit UNone t false
| s_reset : ready t = true -> says w t UReset UNone (no_calls t true (types_on t)) false
| s_reset_not : ready t = false -> says w t UReset UNone t false
| s_create n d f s e : says w t (UCreate (Some n) (Some d) (Some f) (Some s) (Some e)) (UHandle (Some (length (made t))))
    (add_made t {| function_name := n; umockcall_data := d; data_free := f; data_stringify := s; data_are_equal := e |}) false
| s_create_null n d f s e : n = None \/ d = None \/ f = None \/ s = None \/ e = None -> says w t (UCreate n d f s e) (UHandle None) t false
| s_create_memory n d f s e : says w t (UCreate n d f s e) (UHandle None) t true
| s_destroy h : says w t (UDestroy (Some h)) UNone (destroyed t h) false
| s_destroy_null : says w t (UDestroy None) UNone t false
| s_equal_null : says w t (UAreEqual None None) (UInt 1) t false
| s_equal_one l r : l = None \/ r = None -> l <> r -> says w t (UAreEqual l r) (UInt 0) t false
| s_equal_self h : says w t (UAreEqual (Some h) (Some h)) (UInt 1) t false
| s_equal l r a b : l <> r -> nth_error (made t) l = Some a -> nth_error (made t) r = Some b -> says w t (UAreEqual (Some l) (Some r)) (UInt (same w a b)) t false
| s_text h : says w t (UStringify (Some h)) (UText (texts w t [h])) t false
| s_text_null : says w t (UStringify None) (UText None) t false
| s_text_memory h : says w t (UStringify h) (UText None) t true
| s_data h c : nth_error (made t) h = Some c -> says w t (UData (Some h)) (UHandle (Some (umockcall_data c))) t false
| s_data_null : says w t (UData None) (UHandle None) t false
| s_expect h : ready t = true -> says w t (UExpect (Some h)) (UInt 0) (expect t h) false
| s_expect_not h z : ready t = false \/ h = None -> z <> 0 -> says w t (UExpect h) (UInt z) t false
| s_expect_memory h z : ready t = true -> z <> 0 -> says w t (UExpect h) (UInt z) t true
| s_actual_met h e p a b : ready t = true -> pending t = e :: p -> nth_error (made t) e = Some a -> nth_error (made t) h = Some b -> same w a b = 1 ->
    says w t (UActual (Some h) true) (UMatch 0 (Some (Some e))) (meet t e p h) false
| s_actual_other h e p a b : ready t = true -> pending t = e :: p -> nth_error (made t) e = Some a -> nth_error (made t) h = Some b -> same w a b = 0 ->
    says w t (UActual (Some h) true) (UMatch 0 (Some None)) (surprise t h) false
| s_actual_none h : ready t = true -> pending t = [] -> says w t (UActual (Some h) true) (UMatch 0 (Some None)) (surprise t h) false
| s_actual_error h e p a b z : ready t = true -> pending t = e :: p -> nth_error (made t) e = Some a -> nth_error (made t) h = Some b -> same w a b <> 1 -> same w a b <> 0 -> z <> 0 ->
    says w t (UActual (Some h) true) (UMatch z (Some None)) t false
| s_actual_not h m z : ready t = false \/ h = None \/ m = false -> z <> 0 -> says w t (UActual h m) (UMatch z None) t false
| s_actual_memory h z : ready t = true -> z <> 0 -> says w t (UActual (Some h) true) (UMatch z (Some None)) t true
| s_expected : ready t = true -> says w t UExpected (UText (texts w t (pending t))) t false
| s_expected_not : ready t = false -> says w t UExpected (UText None) t false
| s_expected_memory : says w t UExpected (UText None) t true
| s_actuals : ready t = true -> says w t UActuals (UText (texts w t (unexpected t))) t false
| s_actuals_not : ready t = false -> says w t UActuals (UText None) t false
| s_actuals_memory : says w t UActuals (UText None) t true
| s_last : ready t = true -> says w t ULast (UHandle (last (map Some (met t ++ pending t)) None)) t false
| s_last_not : ready t = false -> says w t ULast (UHandle None) t false.

(* A test chooses what to do next by what it was answered. *)
Inductive user := Stop | Do (w : world) (op : uop) (next : uret -> user).
Fixpoint play (s : umock) (p : user) : M (list (world * uop * uret) * umock) :=
  match p with
  | Stop => ret ([], s)
  | Do w op next => (x <- ustep w s op ;; let '(r, s) := x in y <- play s (next r) ;; ret ((w, op, r) :: fst y, snd y))%m
  end.
Inductive explained : test -> list (world * uop * uret) -> test -> bool -> Prop :=
| x_nil t : explained t [] t false
| x_cons t w op r t1 m1 tr t2 m2 : says w t op r t1 m1 -> explained t1 tr t2 m2 -> explained t ((w, op, r) :: tr) t2 (m1 || m2).

(* What a test may do: it gives away or destroys only calls it owns, asks only about calls not destroyed; names and
   argument texts are C strings. *)
Definition owns (t : test) (h : option nat) : Prop := match h with Some h => In h (mine t) | None => True end.
Definition sees (t : test) (h : option nat) : Prop := match h with Some h => In h (live t) | None => True end.
Definition allowed (t : test) (op : uop) : Prop :=
  match op with
  | UDestroy h | UExpect h | UActual h _ => owns t h
  | UAreEqual l r => sees t l /\ sees t r
  | UStringify h | UData h => sees t h
  | UCreate (Some n) _ _ _ _ => cstr_ok n
  | _ => True
  end.
Definition world_ok (w : world) : Prop := forall f d a, str_of w f d = Some a -> cstr_ok a.
Fixpoint careful (t : test) (p : user) : Prop :=
  match p with
  | Stop => True
  | Do w op next => world_ok w /\ allowed t op /\ forall r t' m, says w t op r t' m -> careful t' (next r)
  end.
