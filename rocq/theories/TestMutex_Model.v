(* Model of testtools/testrunnerswitcher/src/testmutex.c, testtools/micromock/src/micromocktestmutex.cpp and of the macros
   INITIALIZE_MEMORY_DEBUG and DEINITIALIZE_MEMORY_DEBUG of testrunnerswitcher.h:94-119, all for Windows.  The kernel's mutexes and
   semaphores behave as documented; each call is one step.  Without Windows the mutexes are constants and nothing is excluded. *)
From Verif Require Import Base.

(* ---- a mutex: the thread that has it and how often, and whether its last owner ended without giving it back ---- *)
Record mutex := { owner : option (nat * nat); abandoned : bool }.
Inductive wait := WAIT_OBJECT_0 | WAIT_ABANDONED.
(* testmutex_create, testmutex.c:10-13; MicroMockCreateMutex, micromocktestmutex.cpp:11-14 *)
Definition CreateMutexW : mutex := {| owner := None; abandoned := false |}.
(* WaitForSingleObject(mutex, INFINITE); None: it does not return as long as nothing changes *)
Definition WaitForSingleObject (t : nat) (m : mutex) : option (wait * mutex) :=
  match owner m with
  | None => Some (if abandoned m then WAIT_ABANDONED else WAIT_OBJECT_0, {| owner := Some (t, 1); abandoned := false |})
  | Some (u, n) => if t =? u then Some (WAIT_OBJECT_0, {| owner := Some (u, S n); abandoned := abandoned m |}) else None
  end.
Definition ReleaseMutex (t : nat) (m : mutex) : nat * mutex :=
  match owner m with
  | Some (u, n) => if t =? u then (1, {| owner := match n with S (S k) => Some (u, S k) | _ => None end; abandoned := abandoned m |}) else (0, m)
  | None => (0, m)
  end.
Definition thread_ends (t : nat) (m : mutex) : mutex :=
  match owner m with Some (u, _) => if t =? u then {| owner := None; abandoned := true |} else m | None => m end.
(* testmutex.c:15-18, 25-28 *)
Definition testmutex_acquire (t : nat) (m : mutex) : option (nat * mutex) :=
  match WaitForSingleObject t m with Some (WAIT_OBJECT_0, m) => Some (0, m) | Some (_, m) => Some (1, m) | None => None end.
Definition testmutex_release (t : nat) (m : mutex) : nat * mutex := ReleaseMutex t m.
(* micromocktestmutex.cpp:32-36, 61-64 *)
Definition MicroMockAcquireMutex (t : nat) (m : mutex) : option (nat * mutex) :=
  match WaitForSingleObject t m with Some (WAIT_OBJECT_0, m) => Some (1, m) | Some (_, m) => Some (0, m) | None => None end.
Definition MicroMockReleaseMutex (t : nat) (m : mutex) : nat * mutex := ReleaseMutex t m.

Inductive mutex_step := Acquire (t : nat) | Release (t : nat) | Ends (t : nat).
(* the test mutex; the result of a step of a thread that ends is 0 *)
Definition mutex_do (s : mutex_step) (m : mutex) : option (nat * mutex) :=
  match s with Acquire t => testmutex_acquire t m | Release t => Some (testmutex_release t m) | Ends t => Some (0, thread_ends t m) end.

(* ---- the semaphore "MICROMOCK_DLL_BY_DLL" shared by the processes that run tests ---- *)
Definition SEMAPHORE_HIGH_WATER : N := 1000000.
(* where a process is: before INITIALIZE_MEMORY_DEBUG, after its first line, after all of it, after the ReleaseSemaphore of DEINITIALIZE_MEMORY_DEBUG *)
Inductive stage := Outside | Opened | Testing | Released.
(* the object, while a handle of it is open: its count, and the open handles *)
Record world := { object : option (N * nat); stages : nat -> stage }.
Definition start : world := {| object := None; stages := fun _ => Outside |}.
Definition goes (w : world) (p : nat) (s : stage) (o : option (N * nat)) : world := {| object := o; stages := fun q => if q =? p then s else stages w q |}.
Definition close_handle (o : option (N * nat)) : option (N * nat) := match o with Some (c, S (S k)) => Some (c, S k) | _ => None end.
Inductive step := Creates (p : nat) | Acquires (p : nat) | Releases (p : nat) | Destroys (p : nat) | Killed (p : nat).
(* Cannot: the process is not there, or it waits; with [Done], whether memory leaks are reported *)
Inductive result := Cannot | Undefined | Done (w : world) (reports : bool).
Definition do_step (s : step) (w : world) : result :=
  match s with
  | Creates p => (* micromocktestmutex.cpp:16-30: the count is given to a new object only; testrunnerswitcher.h:110-111 *)
    match stages w p with Outside => Done (goes w p Opened (match object w with None => Some (SEMAPHORE_HIGH_WATER, 1) | Some (c, k) => Some (c, S k) end)) false | _ => Cannot end
  | Acquires p => (* micromocktestmutex.cpp:38-42; testrunnerswitcher.h:112 *)
    match stages w p, object w with
    | Opened, Some (c, k) => if (c =? 0)%N then Cannot else Done (goes w p Testing (Some ((c - 1)%N, k))) false
    | Opened, None => Undefined
    | _, _ => Cannot
    end
  | Releases p => (* micromocktestmutex.cpp:44-49; testrunnerswitcher.h:115-118: prev is not written when ReleaseSemaphore fails *)
    match stages w p, object w with
    | Testing, Some (c, k) => if (c <? SEMAPHORE_HIGH_WATER)%N then Done (goes w p Released (Some ((c + 1)%N, k))) (c =? SEMAPHORE_HIGH_WATER - 1)%N else Undefined
    | Testing, None => Undefined
    | _, _ => Cannot
    end
  | Destroys p => (* micromocktestmutex.cpp:51-54; testrunnerswitcher.h:119 *)
    match stages w p with Released => Done (goes w p Outside (close_handle (object w))) false | _ => Cannot end
  | Killed p => (* the kernel closes the handle *)
    match stages w p with Outside => Cannot | _ => Done (goes w p Outside (close_handle (object w))) false end
  end.
