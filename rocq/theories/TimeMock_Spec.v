(* What is played: at each tick the stimuli scheduled for it, in the order they were scheduled, then the task. *)
From Verif Require Import Base TimeMock_Model.
(* the ticks a mock has *)
Definition ticks : nat := 1000 * 1000.
Record stimulus := { at_tick : nat; player : nat; which : nat }.
Definition expected_trace (l : list stimulus) (nTick : nat) : list event :=
  flat_map (fun t => map (fun s => Play (player s) (which s)) (filter (fun s => at_tick s =? t) l) ++ [Task t]) (seq 0 (S nTick)).
(* the stimuli given with STIM_CALL_AT; [owner]: the mock a player belongs to *)
Fixpoint schedule (owner : nat -> nat) (l : list stimulus) (w : world) : option world :=
  match l with [] => Some w | s :: l => match STIM_CALL_AT w (owner (player s)) (player s) (which s) (at_tick s) with Some w => schedule owner l w | None => None end end.
(* the events of one mock *)
Definition of_mock (owner : nat -> nat) (m : nat) (e : event) : bool := match e with Play p _ => owner p =? m | Task _ => true end.
