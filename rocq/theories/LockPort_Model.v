(* Model of adapters/lock_win32.c, lock_rtx_mbed.cpp, condition_rtx_mbed.cpp and the platform_*.c
   files of Windows and mbed.

   The recursive mutex of the system (CRITICAL_SECTION, RTX Mutex) is modelled by its documentation
   as a machine any number of threads use.  The log is left out. *)
From Verif Require Import Base Condition_Model.

Inductive os := Windows | Mbed.
(* the system's mutex: who has it and how often *)
Record section := mks { owner : option nat; depth : nat }.
(* a lock is made, or it was deleted *)
Record lock := mkl { made : bool; sect : section; waiting : list nat; blocks : nat }.

(* lock_win32.c:22-35, lock_rtx_mbed.cpp:16-21: [memory] malloc succeeds; operator new does not fail.  Result: the handle is not NULL *)
Definition Lock_Init (s : os) (memory : bool) : option lock :=
  match s with
  | Windows => if memory then Some (mkl true (mks None 0) [] 1) else None
  | Mbed => Some (mkl true (mks None 0) [] 1)
  end.

(* EnterCriticalSection / Mutex::lock by thread t: None: t has to wait *)
Definition enter (t : nat) (s : section) : option section :=
  match owner s with
  | None => Some (mks (Some t) 1)
  | Some o => if o =? t then Some (mks (Some t) (S (depth s))) else None
  end.
(* LeaveCriticalSection / Mutex::unlock by thread t: None: t does not have it *)
Definition leave (t : nat) (s : section) : option section :=
  match owner s with
  | Some o =>
      if o =? t then
        match depth s with
        | S (S n) => Some (mks (Some t) (S n))
        | _ => Some (mks None 0)
        end
      else None
  | None => None
  end.

(* what a call does: returns, with a result; waits; or its behaviour is undefined *)
Inductive outcome := Returns (r : LOCK_RESULT) (l : option lock) | Waits | Undefined.

Definition set_sect s l := mkl (made l) s (waiting l) (blocks l).
(* lock_win32.c:38-53, lock_rtx_mbed.cpp:24-49; RTX answers osOK when the mutex is had *)
Definition Lock (s : os) (handle : option lock) (t : nat) : outcome :=
  match handle with
  | None => Returns LOCK_ERROR None
  | Some l =>
      if made l then
        match enter t (sect l) with
        | Some c => Returns LOCK_OK (Some (set_sect c l))
        | None => Waits
        end
      else Undefined
  end.
(* lock_win32.c:55-71, lock_rtx_mbed.cpp:50-75: RTX answers osErrorResource to a thread that does not have it; Windows leaves that undefined *)
Definition Unlock (s : os) (handle : option lock) (t : nat) : outcome :=
  match handle with
  | None => Returns LOCK_ERROR None
  | Some l =>
      if made l then
        match leave t (sect l) with
        | Some c => Returns LOCK_OK (Some (set_sect c l))
        | None => match s with Windows => Undefined | Mbed => Returns LOCK_ERROR (Some l) end
        end
      else Undefined
  end.
(* lock_win32.c:73-88, lock_rtx_mbed.cpp:77-95 *)
Definition Lock_Deinit (s : os) (handle : option lock) : outcome :=
  match handle with
  | None => Returns LOCK_ERROR None
  | Some l => if made l then Returns LOCK_OK (Some (mkl false (sect l) (waiting l) (blocks l - 1))) else Undefined
  end.

(* What threads do with one lock; the result of each call *)
Inductive op := OLock | OUnlock.
Record event := mke { thread : nat; what : op; result : LOCK_RESULT }.
(* A call that waits does not happen yet. *)
Inductive runs (s : os) : list event -> lock -> lock -> Prop :=
| runs_nil l : runs s [] l l
| runs_lock t r l k m es : Lock s (Some l) t = Returns r (Some k) -> runs s es k m -> runs s (mke t OLock r :: es) l m
| runs_unlock t r l k m es : Unlock s (Some l) t = Returns r (Some k) -> runs s es k m -> runs s (mke t OUnlock r :: es) l m.

(* condition_rtx_mbed.cpp:12-15 *)
Definition Condition_Init_mbed : option N := None.
(* condition_rtx_mbed.cpp:17-29: the result it works out is not returned *)
Definition Condition_Post_mbed (handle : option N) : list call * COND_RESULT := ([], COND_ERROR).
(* condition_rtx_mbed.cpp:31-43 *)
Definition Condition_Wait_mbed (handle lock : option N) (timeout_milliseconds : Z) : list call * COND_RESULT :=
  match handle with None => ([], COND_INVALID_ARG) | Some _ => ([], COND_ERROR) end.
(* condition_rtx_mbed.cpp:45-50 *)
Definition Condition_Deinit_mbed (handle : option N) : list call := [].

(* platform_mbed.cpp.  The network interface is initialised, and connected or not *)
Record net := mkn { initialised : bool; connected : bool; clock_set : bool }.
Definition nothing : net := mkn false false false.
(* EthernetInterface::connect; [up]: it succeeds.  It needs init. *)
Definition connect (up : bool) (n : net) : bool * net :=
  if initialised n && up then (true, mkn (initialised n) true (clock_set n)) else (false, n).
Definition disconnect (n : net) : net := mkn (initialised n) false (clock_set n).
(* platform_mbed.cpp:14-39; [ntp]: setTime succeeds *)
Definition setupRealTime (up ntp : bool) (n : net) : bool * net :=
  let (ok, n) := connect up n in
  if ok then
    let n := if ntp then mkn (initialised n) (connected n) true else n in
    (ntp, disconnect n)
  else (false, n).
(* platform_mbed.cpp:41-63 *)
Definition platform_init_mbed (init up1 ntp up2 : bool) (n : net) : bool * net :=
  if init then
    let n := mkn true (connected n) (clock_set n) in
    let (ok, n) := setupRealTime up1 ntp n in
    if ok then connect up2 n else (false, n)
  else (false, n).
(* platform_mbed.cpp:70-73 *)
Definition platform_deinit_mbed (n : net) : net := disconnect n.
(* platform_win32.c: WSAStartup and WSACleanup count *)
Definition platform_init_win (ok : bool) (started : nat) : bool * nat := if ok then (true, S started) else (false, started).
Definition platform_deinit_win (started : nat) : nat := started - 1.
