(* Model of adapters/threadapi_pthreads.c.

   The world holds the THREAD_INSTANCE blocks and the pthreads made from
   them; an execution is a sequence of events in any order: calls of the API
   by any thread, a new thread starting to run, a running thread ending.
   Block addresses are indices and are never reused.  What pthread_create and
   pthread_join answer is part of the event.  ThreadAPI_Exit is modelled for
   threads made by ThreadAPI_Create only. *)
From Verif Require Import Base.
Local Open Scope Z_scope.

Inductive THREADAPI_RESULT :=
  THREADAPI_OK | THREADAPI_INVALID_ARG | THREADAPI_NO_MEMORY | THREADAPI_ERROR.

(* errno.h *)
Definition EAGAIN : Z := 11.

(* A thread function and its argument are just names. *)
Definition func := N.
Definition arg := N.

(* threadapi_pthreads.c:24-29; Pthread_handle is an index into [pthreads] *)
Record THREAD_INSTANCE := inst {
  Pthread_handle : nat;
  ThreadStartFunc : func;
  Arg : arg }.

Inductive pthread :=
| Starting (i : nat)              (* about to run ThreadWrapper(instance i) *)
| Running (f : func) (a : arg)    (* inside the thread function *)
| Ended (value : Z)               (* its exit value: a void* *)
| Joined.

(* What the user can see. *)
Inductive event_seen :=
| SawCreate (h : nat) (f : func) (a : arg)    (* ThreadAPI_Create stored handle h *)
| SawRun (h : nat) (f : func) (a : arg)       (* the thread of h runs f with a *)
| SawEnd (h : nat) (r : Z)                    (* the thread of h returned r, or called ThreadAPI_Exit(r) *)
| SawJoin (h : nat) (code : THREADAPI_RESULT) (res : option Z).  (* and what was stored in *res *)

Record world := mk {
  blocks : list (option THREAD_INSTANCE);   (* None: freed *)
  pthreads : list (pthread * nat);          (* with the instance it was made for *)
  log : list event_seen }.                  (* newest first *)

Definition init : world := mk [] [] [].

(* int to intptr_t to pointer, lines :35 and :124: sign extension to 64 bits *)
Definition int_to_ptr (r : Z) : Z := r mod 2^64.
(* (int)(intptr_t)ptr, line :110: the low 32 bits as a signed number (gcc) *)
Definition ptr_to_int (p : Z) : Z :=
  let w := p mod 2^32 in if w <? 2^31 then w else w - 2^32.

Fixpoint put {A} (l : list A) (i : nat) (x : A) : list A :=
  match l, i with
  | [], _ => []
  | _ :: t, O => x :: t
  | y :: t, S j => y :: put t j x
  end.

Inductive outcome A := Next (a : A) | Blocked | Undefined.
Arguments Next {A}. Arguments Blocked {A}. Arguments Undefined {A}.

(* threadapi_pthreads.c:38-86.  [handle]: threadHandle is not NULL.  On
   success the handle is the index of the new block. *)
Definition ThreadAPI_Create (handle : bool) (f : option func) (a : arg)
    (memory : bool) (createResult : Z) (w : world) : THREADAPI_RESULT * option nat * world :=
  match handle, f with
  | true, Some f =>
      if negb memory then (THREADAPI_NO_MEMORY, None, w)                (* :51-55 *)
      else
        let h := length (blocks w) in
        if createResult =? 0 then                                       (* :70-73 *)
          (THREADAPI_OK, Some h,
           mk (blocks w ++ [Some (inst (length (pthreads w)) f a)])
              (pthreads w ++ [(Starting h, h)])
              (SawCreate h f a :: log w))
        else if createResult =? EAGAIN then                             (* :75-80 *)
          (THREADAPI_NO_MEMORY, None, mk (blocks w ++ [None]) (pthreads w) (log w))
        else                                                            (* :63-68 *)
          (THREADAPI_ERROR, None, mk (blocks w ++ [None]) (pthreads w) (log w))
  | _, _ => (THREADAPI_INVALID_ARG, None, w)                            (* :42-47 *)
  end.

(* threadapi_pthreads.c:31-36, up to the call of the thread function *)
Definition ThreadWrapper_start (t : nat) (w : world) : outcome world :=
  match nth_error (pthreads w) t with
  | Some (Starting i, h) =>
      match nth_error (blocks w) i with
      | Some (Some x) =>
          Next (mk (blocks w) (put (pthreads w) t (Running (ThreadStartFunc x) (Arg x), h))
                   (SawRun h (ThreadStartFunc x) (Arg x) :: log w))
      | _ => Undefined     (* the instance was freed *)
      end
  | _ => Blocked
  end.

(* threadapi_pthreads.c:34-35 (the thread function returns r) and :122-125
   (it calls ThreadAPI_Exit(r)): pthreads keeps the pointer *)
Definition thread_ends (t : nat) (r : Z) (w : world) : outcome world :=
  match nth_error (pthreads w) t with
  | Some (Running _ _, h) =>
      Next (mk (blocks w) (put (pthreads w) t (Ended (int_to_ptr r), h)) (SawEnd h r :: log w))
  | _ => Blocked
  end.

(* threadapi_pthreads.c:88-120.  [res]: the pointer is not NULL.
   pthread_join waits for the thread to end, or fails with [answer]. *)
Definition ThreadAPI_Join (threadHandle : option nat) (res : bool) (answer : Z) (w : world)
  : outcome (THREADAPI_RESULT * world) :=
  match threadHandle with
  | None => Next (THREADAPI_INVALID_ARG, w)                              (* :93-97 *)
  | Some h =>
      match nth_error (blocks w) h with
      | Some (Some x) =>
          let t := Pthread_handle x in
          if negb (answer =? 0) then                                      (* :101-105, :116 *)
            Next (THREADAPI_ERROR,
                  mk (put (blocks w) h None) (pthreads w)
                     (SawJoin h THREADAPI_ERROR None :: log w))
          else
            match nth_error (pthreads w) t with
            | Some (Ended v, h') =>
                Next (THREADAPI_OK,
                  mk (put (blocks w) h None)                              (* :116 *)
                     (put (pthreads w) t (Joined, h'))
                     (SawJoin h THREADAPI_OK
                        (if res then Some (ptr_to_int v) else None) :: log w))  (* :108-113 *)
            | Some (Joined, _) | None => Undefined   (* joining a joined thread *)
            | Some _ => Blocked
            end
      | _ => Undefined    (* :101 reads the freed block *)
      end
  end.

Inductive event :=
| Create (handle : bool) (f : option func) (a : arg) (memory : bool) (createResult : Z)
| Start (t : nat)
| Ends (t : nat) (r : Z)
| Join (threadHandle : option nat) (res : bool) (answer : Z).

Definition step (e : event) (w : world) : outcome world :=
  match e with
  | Create hd f a m c => Next (snd (ThreadAPI_Create hd f a m c w))
  | Start t => ThreadWrapper_start t w
  | Ends t r => thread_ends t r w
  | Join h res a =>
      match ThreadAPI_Join h res a w with
      | Next (_, w) => Next w
      | Blocked => Blocked
      | Undefined => Undefined
      end
  end.

(* an event that is not possible yet is skipped *)
Fixpoint run (es : list event) (w : world) : outcome world :=
  match es with
  | [] => Next w
  | e :: es =>
      match step e w with
      | Next w => run es w
      | Blocked => run es w
      | Undefined => Undefined
      end
  end.

(* threadapi_pthreads.c:127-137: the timespec handed to nanosleep; unsigned
   int arithmetic modulo 2^32 *)
Definition ThreadAPI_Sleep (milliseconds : Z) : Z * Z :=
  let seconds := milliseconds / 1000 in                                   (* :132 *)
  let nsRemainder := ((milliseconds mod 1000) * 1000000) mod 2^32 in      (* :133 *)
  (seconds, nsRemainder).                                                 (* :134-135 *)

(* nanosleep returns after the time asked for, or earlier when a signal
   handler ran (EINTR); the answer is ignored by :135.  [interrupted]: after
   how many nanoseconds, if at all.  The time ThreadAPI_Sleep takes, in ns: *)
Definition sleep_time (milliseconds : Z) (interrupted : option Z) : Z :=
  let '(s, n) := ThreadAPI_Sleep milliseconds in
  match interrupted with
  | Some t => Z.min t (s * 1000000000 + n)
  | None => s * 1000000000 + n
  end.
