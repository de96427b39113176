(* Model of testtools/micromock/inc/timediscretemicromock.h and of the classes callNArg in timediscretemicromockcallmacros.h: the
   calls a test lets a mock make at given ticks.  A stimulus is a player (an object callNArg, numbered as registered) and a number
   that stands for its arguments.  What a called function does is not modelled.  A thrown exception is None. *)
From Verif Require Import Base.

Definition UNSET : N := 4294967295%N.
Definition MAXTICK : nat := 1000 * 1000.
(* timediscretemicromockcallmacros.h:495-506, class timeS *)
Record timeS := { time : nat; order : N; call : nat }.
(* allPlayers is shared by all mocks (:386), maxOrder belongs to one (:419); the player's calls are its member allCalls *)
Record world := { players : nat; allCalls : nat -> list timeS; maxOrder : nat -> nat -> N }.
Definition set {A} (f : nat -> A) (i : nat) (a : A) (j : nat) : A := if j =? i then a else f j.
(* :425-436 the constructor, of all mocks, and registerCallXArg :388-391 of all their players *)
Definition new_world (n : nat) : world := {| players := n; allCalls := fun _ => []; maxOrder := fun _ _ => UNSET |}.

(* :474-495 *)
Definition getAndIncOrder (w : world) (mock time : nat) : option (world * N) :=
  if time <? MAXTICK then
    let o := if N.eqb (maxOrder w mock time) UNSET then 0%N else ((maxOrder w mock time + 1) mod 2 ^ 32)%N in
    Some ({| players := players w; allCalls := allCalls w; maxOrder := set (maxOrder w) mock (set (maxOrder w mock) time o) |}, o)
  else None.
(* callmacros.h:542-547 operator() *)
Definition record_call (w : world) (p c : nat) : world :=
  {| players := players w; allCalls := set (allCalls w) p (allCalls w p ++ [{| time := 0; order := 0; call := c |}]); maxOrder := maxOrder w |}.
(* callmacros.h:528-540 SetTime: the last call *)
Definition SetTime (w : world) (p t : nat) (o : N) : option world :=
  match rev (allCalls w p) with
  | [] => None
  | s :: r => Some {| players := players w; allCalls := set (allCalls w) p (rev r ++ [{| time := t; order := o; call := call s |}]); maxOrder := maxOrder w |}
  end.
(* callmacros.h:175 STIM_CALL_AT(var, time, name(args)) *)
Definition STIM_CALL_AT (w : world) (mock p c t : nat) : option world :=
  match getAndIncOrder (record_call w p c) mock t with Some (w, o) => SetTime w p t o | None => None end.

Inductive event := Play (p c : nat) | Task (tick : nat).
(* callmacros.h:517-526 PlayTick of a player *)
Definition play_calls (p : nat) (l : list timeS) (tick : nat) (o : N) : list event :=
  map (fun s => Play p (call s)) (filter (fun s => (time s =? tick) && N.eqb (order s) o) l).
(* :399-405 *)
Definition PlayTick (w : world) (tick : nat) (o : N) : list event := flat_map (fun p => play_calls p (allCalls w p) tick o) (seq 0 (players w)).
(* :444-466: one turn of the loop, then all of them *)
Definition one_tick (w : world) (mock i : nat) : list event :=
  (if N.eqb (maxOrder w mock i) UNSET then [] else flat_map (fun o => PlayTick w i (N.of_nat o)) (seq 0 (S (N.to_nat (maxOrder w mock i))))) ++ [Task i].
Definition RunUntilTick (w : world) (mock nTick : nat) : option (list event) :=
  if nTick <? MAXTICK then Some (flat_map (one_tick w mock) (seq 0 (S nTick))) else None.
(* :394-397: the destructor of a mock forgets the players of all *)
Definition destroy_mock (w : world) : world := {| players := 0; allCalls := allCalls w; maxOrder := maxOrder w |}.
