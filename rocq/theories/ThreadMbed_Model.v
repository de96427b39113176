(* Model of adapters/threadapi_rtx_mbed.cpp.

   Threads run in any order: an execution is a list of steps, each made by some thread.  The
   RTX Thread object is its identity; a step of the kernel lets a created thread begin.  A
   mailbox (Queue<int, 1>) holds at most one value; put on a full one is refused (its result
   is ignored by the code), get on an empty one waits, so a join of an empty mailbox is not a
   step.  `new` does not fail.  The log is not modelled. *)
From Verif Require Import Base.
Local Open Scope nat_scope.

Inductive THREADAPI_RESULT := THREADAPI_OK | THREADAPI_INVALID_ARG | THREADAPI_NO_MEMORY | THREADAPI_ERROR.

Definition MAX_THREADS : nat := 4.     (* threadapi_rtx_mbed.cpp:15 *)

(* threadapi_rtx_mbed.cpp:18-24 *)
Record slot := mkslot {
  thrd : option nat;                   (* the Thread object: the thread it is *)
  id : option nat;
  result : option Z }.

Inductive status := Created | Running | Returned | Terminated.
(* A thread: what it is to run and the slot in its create_param (:26-31). *)
Record thread := mkthread { t_func : N; t_arg : N; t_slot : nat; t_status : status }.

(* What the user sees. *)
Inductive seen :=
| SawCreate (t : nat) (func arg : N) (res : THREADAPI_RESULT) (handle : option nat)
| SawRun (t : nat) (func arg : N)
| SawExit (t : nat) (value : Z)
| SawJoin (handle : nat) (value : Z).

Record world := mk {
  slots : list slot;
  threads : list thread;               (* by identity; never forgotten *)
  log : list seen }.                   (* newest first *)

(* :24 *)
Definition init : world := mk (repeat (mkslot None None None) MAX_THREADS) [] [].

Fixpoint put {A} (l : list A) (i : nat) (x : A) : list A :=
  match l, i with [], _ => [] | _ :: t, O => x :: t | y :: t, S j => y :: put t j x end.

(* :52-57 the first slot without an id (here: from index [n] on) *)
Fixpoint free_slot (l : list slot) (n : nat) : option nat :=
  match l with
  | [] => None
  | s :: l => match id s with None => Some n | Some _ => free_slot l (S n) end
  end.

(* :41-85 with a handle pointer and a function; [memory]: malloc succeeds.  The thread made has
   the next identity; when no thread is made the identity in the log has no meaning. *)
Definition create (func arg : N) (memory : bool) (w : world) : world :=
  let t := length (threads w) in
  match free_slot (slots w) 0 with
  | None => mk (slots w) (threads w) (SawCreate t func arg THREADAPI_NO_MEMORY None :: log w)
  | Some i =>
      if memory then
        match nth_error (slots w) i with
        | Some s => mk (put (slots w) i (mkslot (Some t) (id s) (result s)))                 (* :67 *)
                       (threads w ++ [mkthread func arg i Created])
                       (SawCreate t func arg THREADAPI_OK (Some i) :: log w)                 (* :68-69 *)
        | None => w
        end
      else mk (slots w) (threads w) (SawCreate t func arg THREADAPI_NO_MEMORY None :: log w)
  end.

(* :33-39 up to the call of the function *)
Definition begin (t : nat) (w : world) : option world :=
  match nth_error (threads w) t with
  | Some (mkthread f a i Created) =>
      match nth_error (slots w) i with
      | Some s => Some (mk (put (slots w) i (mkslot (thrd s) (Some t) (result s)))
                           (put (threads w) t (mkthread f a i Running))
                           (SawRun t f a :: log w))
      | None => None
      end
  | _ => None
  end.

(* :116-127: the first slot with this id *)
Fixpoint slot_of (l : list slot) (t n : nat) : option nat :=
  match l with
  | [] => None
  | s :: l => match id s with
              | Some u => if u =? t then Some n else slot_of l t (S n)
              | None => slot_of l t (S n)
              end
  end.
(* ThreadAPI_Exit called by thread t, which goes on running afterwards *)
Definition exit (t : nat) (value : Z) (w : world) : option world :=
  match nth_error (threads w) t with
  | Some (mkthread _ _ _ Running) =>
      match slot_of (slots w) t 0 with
      | Some i =>
          match nth_error (slots w) i with
          | Some s =>
              Some (mk (match result s with
                        | None => put (slots w) i (mkslot (thrd s) (id s) (Some value))
                        | Some _ => slots w
                        end) (threads w) (SawExit t value :: log w))
          | None => None
          end
      | None => Some (mk (slots w) (threads w) (SawExit t value :: log w))
      end
  | _ => None
  end.

(* the thread function returns (:37-38) *)
Definition return_ (t : nat) (w : world) : option world :=
  match nth_error (threads w) t with
  | Some (mkthread f a i Running) => Some (mk (slots w) (put (threads w) t (mkthread f a i Returned)) (log w))
  | _ => None
  end.

(* :87-114 for a handle that Create gave; the value is there *)
Definition join (i : nat) (w : world) : option world :=
  match nth_error (slots w) i with
  | Some s =>
      match result s with
      | Some v =>
          let ts := match thrd s with
                    | Some t => match nth_error (threads w) t with
                                | Some (mkthread f a j _) => put (threads w) t (mkthread f a j Terminated)   (* :100 *)
                                | None => threads w
                                end
                    | None => threads w
                    end in
          Some (mk (put (slots w) i (mkslot (thrd s) (id s) None)) ts (SawJoin i v :: log w))
      | None => None
      end
  | None => None
  end.

Inductive step : world -> world -> Prop :=
| step_create w f a m : step w (create f a m w)
| step_begin w t w' : begin t w = Some w' -> step w w'
| step_exit w t v w' : exit t v w = Some w' -> step w w'
| step_return w t w' : return_ t w = Some w' -> step w w'
| step_join w i w' : join i w = Some w' -> step w w'.
Inductive steps : world -> world -> Prop :=
| steps_none w : steps w w
| steps_more w w' w'' : steps w w' -> step w' w'' -> steps w w''.

(* threadapi_rtx_mbed.cpp:129-144: the waits.  Unsigned division; 2^32 / 30000 fits an int. *)
Definition sleep_waits (millisec : Z) : list Z :=
  repeat 30000%Z (Z.to_nat (millisec / 30000)) ++ [(millisec mod 30000)%Z].
