(* What the values kept by mocks are to be, in terms of what the test gave. *)
From Verif Require Import Base MockVal_Model.
Local Open Scope nat_scope.

(* An array value: the elements found at the last pointer given. *)
Definition next_value {A} (n : nat) (now : option (list A)) (p : pointer A) : option (list A) :=
  match p with Null => None | At l => Some (firstn n l) | Own => now end.
Definition last_value {A} (n : nat) (first : option (list A)) (ps : list (pointer A)) : option (list A) :=
  fold_left (next_value n) ps (option_map (firstn n) first).
Definition enough {A} (n : nat) (p : pointer A) : Prop := match p with At l => n <= length l | _ => True end.
(* the calls of SetValue in turn, with memory *)
Fixpoint set_arrays {A} (n : nat) (ps : list (pointer A)) (v : array_value) (m : heap A) : option (array_value * heap A) :=
  match ps with
  | [] => Some (v, m)
  | p :: t => match set_array n p true v m with Returns v m => set_arrays n t v m | _ => None end
  end.
(* addresses from [next] on were never used *)
Definition fresh_above {A} (m : heap A) : Prop := forall i, next m <= i -> cells m i = None.

(* What the calls scheduled for a player are to be given: NULL, the value behind the pointer, or the elements of the array. *)
Definition given_step {A} (done : list (option (list A))) (c : call A) : list (option (list A)) :=
  match c with
  | Stim v _ => done ++ [option_map (fun a => [a]) v]
  | ArraySize n content => match n, done with 0, _ | _, [] => done | _, _ => removelast done ++ [Some (firstn n content)] end
  end.
Definition given {A} (cs : list (call A)) : list (option (list A)) := fold_left given_step cs [].
(* a size is set for an argument that is not NULL and has as many elements *)
Definition proper {A} (done : list (option (list A))) (c : call A) : Prop :=
  match c with Stim _ _ => True | ArraySize n content => n = 0 \/ (n <= length content /\ last done (Some []) <> None) end.
Fixpoint all_proper {A} (done : list (option (list A))) (cs : list (call A)) : Prop :=
  match cs with [] => True | c :: t => proper done c /\ all_proper (given_step done c) t end.

(* Mocks alive after the events; [refused]: the constructor throws. *)
Definition alive (e : life) (refused : bool) (l : list nat) : list nat :=
  match e with Born x => if refused then l else x :: l | Dies x => filter (fun y => negb (y =? x)) l end.
