(* Model of the reference counting of inc/azure_c_shared_utility/refcount.h as used by
   src/constbuffer.c and src/constmap.c, run by any number of threads.  One object; its
   steps are those that touch shared memory: the atomic increment and decrement of the
   uint32_t counter, the read of the content, and the two frees of the thread that saw
   the counter reach zero.  Any interleaving of these steps may happen (sequentially
   consistent memory).  C is the type of the content (the bytes, or the map). *)
From Verif Require Import Base.
Open Scope N_scope.

(* refcount.h:84-99: C11 atomics and gcc's __sync builtins (also Windows) differ in
   what the decrement returns.  The REFCOUNT_ATOMIC_DONTCARE macros of lines 102-105
   do not compile (increment of an address) and are not modelled. *)
Inductive atomics := C11 | Sync.

Definition two32 : N := 2 ^ 32.

(* refcount.h:87, 93, 98 INC_REF: the counter afterwards *)
Definition inc_ref (c : N) : N := (c + 1) mod two32.
(* refcount.h:88, 94, 99 DEC_REF: the counter afterwards *)
Definition dec_ref (c : N) : N := (c + (two32 - 1)) mod two32.
(* refcount.h:86-99: DEC_REF(...) == DEC_RETURN_ZERO *)
Definition dec_hits_zero (a : atomics) (c : N) : bool :=
  match a with C11 => c =? 1 | Sync => dec_ref c =? 0 end.

Section Object.
  Context {C : Type}.

  (* refcount.h:44-49: the counted type and the counter, one block; None in [inner]
     means that what the content points to has been freed, [outer] = false that the
     block itself has. *)
  Record object := { inner : option C; outer : bool; counter : N }.

  (* Where a thread is inside Destroy: about to free the content (constbuffer.c:148,
     constmap.c:65), then the block (constbuffer.c:149, constmap.c:66). *)
  Inductive pc := Idle | FreeInner | FreeOuter.

  (* A thread: where it is, and how many references (handles it got from Create or
     Clone, or was given by another thread, and has not destroyed) it holds. *)
  Record thread := { at_ : pc; refs : nat }.

  Record system := { obj : object; threads : list thread }.

  Inductive event :=
  | EClone (t : nat)             (* CONSTBUFFER_Clone / ConstMap_Clone *)
  | ERead (t : nat)              (* GetContent / Get... and reading the result *)
  | EDestroy (t : nat)           (* CONSTBUFFER_Destroy / ConstMap_Destroy up to the decrement *)
  | ERun (t : nat)               (* the next step inside Destroy *)
  | EGive (t u : nat).           (* thread t hands a reference to thread u *)

  (* Stuck: the event is not possible, or its thread holds no reference (such a call
     is outside the contract); UB: freed memory is touched; Next: the new state and,
     for a read, the content seen. *)
  Inductive outcome := Stuck | UB | Next (s : system) (seen : option C).

  Definition set_thread (s : system) (t : nat) (x : thread) : system :=
    {| obj := obj s; threads := upd (threads s) t x |}.
  Definition set_obj (s : system) (o : object) : system := {| obj := o; threads := threads s |}.

  (* a thread that is not inside Destroy and holds a reference *)
  Definition holder (s : system) (t : nat) : option thread :=
    match nth_error (threads s) t with
    | Some x => match at_ x, refs x with Idle, S _ => Some x | _, _ => None end
    | None => None
    end.

  Definition rc_step (a : atomics) (s : system) (e : event) : outcome :=
    match e with
    | EClone t =>                                (* constbuffer.c:106-119, constmap.c:72-86 *)
        match holder s t with
        | None => Stuck
        | Some x =>
            if outer (obj s)
            then Next (set_thread (set_obj s {| inner := inner (obj s); outer := true;
                                                counter := inc_ref (counter (obj s)) |})
                                  t {| at_ := Idle; refs := S (refs x) |}) None
            else UB
        end
    | ERead t =>                                 (* constbuffer.c:121-136, constmap.c:127-229 *)
        match holder s t with
        | None => Stuck
        | Some _ => if outer (obj s) then match inner (obj s) with
                                          | Some c => Next s (Some c)
                                          | None => UB
                                          end
                    else UB
        end
    | EDestroy t =>                              (* constbuffer.c:144, constmap.c:62 *)
        match holder s t with
        | None => Stuck
        | Some x =>
            if outer (obj s)
            then Next (set_thread (set_obj s {| inner := inner (obj s); outer := true;
                                                counter := dec_ref (counter (obj s)) |})
                                  t {| at_ := if dec_hits_zero a (counter (obj s)) then FreeInner else Idle;
                                       refs := pred (refs x) |}) None
            else UB
        end
    | ERun t =>
        match nth_error (threads s) t with
        | Some x =>
            match at_ x with
            | Idle => Stuck
            | FreeInner =>                       (* constbuffer.c:148, constmap.c:65 *)
                if outer (obj s) then
                  match inner (obj s) with
                  | Some _ => Next (set_thread (set_obj s {| inner := None; outer := true;
                                                             counter := counter (obj s) |})
                                               t {| at_ := FreeOuter; refs := refs x |}) None
                  | None => UB
                  end
                else UB
            | FreeOuter =>                       (* constbuffer.c:149, constmap.c:66 *)
                if outer (obj s)
                then Next (set_thread (set_obj s {| inner := inner (obj s); outer := false;
                                                    counter := counter (obj s) |})
                                      t {| at_ := Idle; refs := refs x |}) None
                else UB
            end
        | None => Stuck
        end
    | EGive t u =>
        match holder s t with
        | None => Stuck
        | Some x =>
            match nth_error (threads s) u with
            | None => Stuck
            | Some y =>
                if (t =? u)%nat then Stuck
                else Next (set_thread (set_thread s t {| at_ := Idle; refs := pred (refs x) |})
                                      u {| at_ := at_ y; refs := S (refs y) |}) None
            end
        end
    end.

  (* refcount.h:50-58 and the Create functions: thread 0 of n+1 threads has made the
     object with content c *)
  Definition created (c : C) (n : nat) : system :=
    {| obj := {| inner := Some c; outer := true; counter := 1 |};
       threads := {| at_ := Idle; refs := 1 |} :: repeat {| at_ := Idle; refs := 0 |} n |}.

  (* a schedule: the states gone through; None when an event is Stuck *)
  Fixpoint rc_run (a : atomics) (s : system) (es : list event) : outcome :=
    match es with
    | [] => Next s None
    | e :: t => match rc_step a s e with
                | Next s' _ => rc_run a s' t
                | x => x
                end
    end.
End Object.
Arguments object : clear implicits.
Arguments system : clear implicits.
Arguments outcome : clear implicits.
