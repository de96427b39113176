(* What the mutexes and the semaphore of the test tools are for. *)
From Verif Require Import Base TestMutex_Model.

(* a history of the test mutex with the results *)
Inductive mutex_runs : list (mutex_step * nat) -> mutex -> Prop :=
| mruns_none : mutex_runs [] CreateMutexW
| mruns_step h m s r m' : mutex_runs h m -> mutex_do s m = Some (r, m') -> mutex_runs (h ++ [(s, r)]) m'.
(* how often a thread has the mutex, by what it was told: 0 from acquire, not 0 from release *)
Definition told (t : nat) (e : mutex_step * nat) (n : nat) : nat :=
  match e with
  | (Acquire u, r) => if (u =? t) && (r =? 0) then S n else n
  | (Release u, r) => if (u =? t) && negb (r =? 0) then pred n else n
  | (Ends u, _) => if u =? t then 0 else n
  end.
Definition has (h : list (mutex_step * nat)) (t : nat) : nat := fold_left (fun n e => told t e n) h 0.

(* a history of the processes with what they reported *)
Inductive runs : list (step * bool) -> world -> Prop :=
| runs_none : runs [] start
| runs_step h w s r w' : runs h w -> do_step s w = Done w' r -> runs (h ++ [(s, r)]) w'.
Definition process (s : step) : nat := match s with Creates p | Acquires p | Releases p | Destroys p | Killed p => p end.
(* a process runs its tests: its last step is to acquire *)
Definition testing (h : list (step * bool)) (p : nat) : Prop :=
  exists a r b, h = a ++ (Acquires p, r) :: b /\ forall s r, In (s, r) b -> process s <> p.
