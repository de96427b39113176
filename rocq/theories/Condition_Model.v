(* Model of adapters/condition_pthreads.c and adapters/lock_pthreads.c.

   Handles are addresses (None = NULL).  Every function is given the answers
   of the functions it calls and returns the calls it makes, in order, with
   its result.  Signed overflow is undefined behaviour (None).  time_t and
   long have 64 bits, int 32 (the Linux x86-64 ABI).  The log is not
   modelled. *)
From Verif Require Import Base.
Local Open Scope Z_scope.

Inductive COND_RESULT := COND_OK | COND_INVALID_ARG | COND_ERROR | COND_TIMEOUT.
Inductive LOCK_RESULT := LOCK_OK | LOCK_ERROR.

(* Calls of the C library and of pthreads. *)
Inductive call :=
| Malloc (got : option N)
| Free (p : N)
| ClockGettime (clock : Z)
| AttrSetclock (clock : Z)
| CondInit (cond : N)
| CondDestroy (cond : N)
| CondBroadcast (cond : N)
| CondSignal (cond : N)
| CondWait (cond mutex : N)
| CondTimedwait (cond mutex : N) (sec nsec : Z)
| MutexInit (m : N)
| MutexLock (m : N)
| MutexUnlock (m : N)
| MutexDestroy (m : N).

(* errno.h *)
Definition ETIMEDOUT : Z := 110.
(* time.h *)
Definition CLOCK_MONOTONIC : Z := 1.

(* condition_pthreads.c:19-27: CLOCK_MONOTONIC is defined on Linux; the
   search for another clock (:32-38) is therefore not entered. *)
Definition time_basis : Z := CLOCK_MONOTONIC.

(* condition_pthreads.c:29-53; the answers of the pthread functions are
   ignored by the code *)
Definition Condition_Init (got : option N) : list call * option N :=
  match got with
  | None => ([Malloc None], None)
  | Some p => ([Malloc (Some p); AttrSetclock time_basis; CondInit p], Some p)
  end.

(* condition_pthreads.c:55-76 *)
Definition Condition_Post (handle : option N) (answer : Z) : list call * COND_RESULT :=
  match handle with
  | None => ([], COND_INVALID_ARG)
  | Some h => ([CondBroadcast h], if answer =? 0 then COND_OK else COND_ERROR)
  end.

(* condition_pthreads.c:79-81 *)
Definition NANOSECONDS_IN_1_SECOND : Z := 1000000000.
Definition MILLISECONDS_IN_1_SECOND : Z := 1000.
Definition NANOSECONDS_IN_1_MILLISECOND : Z := 1000000.

(* arithmetic in long / time_t (64 bits, signed) *)
Definition i64 (z : Z) : option Z :=
  if (-(2^63) <=? z) && (z <? 2^63) then Some z else None.
Notation "x <- m ;; f" := (match m with Some x => f | None => None end)
  (at level 61, m at next level, right associativity).

(* condition_pthreads.c:82-136.  [now] is what clock_gettime stores,
   [answer] what the pthread function returns. *)
Definition Condition_Wait (handle lock : option N) (timeout_milliseconds : Z)
    (now : Z * Z) (answer : Z) : option (list call * COND_RESULT) :=
  match handle, lock with
  | Some h, Some l =>
      if timeout_milliseconds >? 0 then
        let '(tv_sec, tv_nsec) := now in                                      (* :98 *)
        tv_nsec <- i64 (tv_nsec + Z.rem timeout_milliseconds MILLISECONDS_IN_1_SECOND
                                  * NANOSECONDS_IN_1_MILLISECOND) ;;         (* :99 *)
        tv_sec <- i64 (tv_sec + Z.quot timeout_milliseconds MILLISECONDS_IN_1_SECOND) ;; (* :100 *)
        tv_sec <- i64 (tv_sec + Z.quot tv_nsec NANOSECONDS_IN_1_SECOND) ;;    (* :102 *)
        let tv_nsec := Z.rem tv_nsec NANOSECONDS_IN_1_SECOND in               (* :103 *)
        Some ([ClockGettime time_basis; CondTimedwait h l tv_sec tv_nsec],    (* :104 *)
              if answer =? ETIMEDOUT then COND_TIMEOUT
              else if answer =? 0 then COND_OK
              else COND_ERROR)
      else
        Some ([CondWait h l], if negb (answer =? 0) then COND_ERROR else COND_OK) (* :123-132 *)
  | _, _ => Some ([], COND_INVALID_ARG)
  end.

(* condition_pthreads.c:138-148 *)
Definition Condition_Deinit (handle : option N) : list call :=
  match handle with
  | None => []
  | Some h => [CondDestroy h; Free h]
  end.

(* lock_pthreads.c:12-27 *)
Definition Lock_Init (got : option N) (answer : Z) : list call * option N :=
  match got with
  | None => ([Malloc None], None)
  | Some p =>
      if negb (answer =? 0) then ([Malloc (Some p); MutexInit p; Free p], None)
      else ([Malloc (Some p); MutexInit p], Some p)
  end.

(* lock_pthreads.c:30-54 *)
Definition Lock (handle : option N) (answer : Z) : list call * LOCK_RESULT :=
  match handle with
  | None => ([], LOCK_ERROR)
  | Some h => ([MutexLock h], if answer =? 0 then LOCK_OK else LOCK_ERROR)
  end.

(* lock_pthreads.c:55-79 *)
Definition Unlock (handle : option N) (answer : Z) : list call * LOCK_RESULT :=
  match handle with
  | None => ([], LOCK_ERROR)
  | Some h => ([MutexUnlock h], if answer =? 0 then LOCK_OK else LOCK_ERROR)
  end.

(* lock_pthreads.c:81-106 *)
Definition Lock_Deinit (handle : option N) (answer : Z) : list call * LOCK_RESULT :=
  match handle with
  | None => ([], LOCK_ERROR)
  | Some h =>
      if answer =? 0 then ([MutexDestroy h; Free h], LOCK_OK)
      else ([MutexDestroy h], LOCK_ERROR)
  end.
