(* Models of adapters/threadapi_c11.c, threadapi_win32.c (create and join) and uniqueid_win32.c.
   What the operating system answers is part of each call.  The log
   is not modelled. *)
From Verif Require Import Base UniqueId_Model ThreadMbed_Model.
Local Open Scope nat_scope.

(* ------------------------------------------------------------------ *)
(** * Threads *)

(* The threads that were made, in order: the value each will end with, and whether it can still
   be joined; and the handles: for C11 malloc'ed blocks that hold the thrd_t, for Windows the
   kernel's handles.  None: freed or closed. *)
Record tworld := mkt {
  made : list Z;                       (* by number *)
  handles : list (option nat) }.       (* the thread each open handle is for *)

(* what was stored in *threadHandle: nothing, NULL, or a handle *)
Inductive stored := Nothing | Null | Handle (h : nat).

(* threadapi_c11.c:23-58.  [args]: threadHandle and func are not NULL; [started]: the exit value of the
   new thread when thrd_create succeeds *)
Definition c11_create (args memory : bool) (started : option Z) (w : tworld) : THREADAPI_RESULT * stored * tworld :=
  if args then
    if memory then
      match started with
      | Some v => (THREADAPI_OK, Handle (length (handles w)), mkt (made w ++ [v]) (handles w ++ [Some (length (made w))]))
      | None => (THREADAPI_ERROR, Nothing, mkt (made w) (handles w ++ [None]))      (* :46: freed *)
      end
    else (THREADAPI_NO_MEMORY, Nothing, w)
  else (THREADAPI_INVALID_ARG, Nothing, w).

(* thrd_join: it waits for the end of the thread, or fails *)
Inductive join_answer := thrd_success | thrd_error | thrd_nomem | thrd_other.
Definition close {A} (l : list (option A)) (h : nat) : list (option A) := firstn h l ++ match skipn h l with [] => [] | _ :: t => None :: t end.

(* threadapi_c11.c:60-95; None: undefined behaviour.  [res]: res is not NULL *)
Definition c11_join (h : option nat) (res : bool) (answer : join_answer) (w : tworld)
  : option (THREADAPI_RESULT * option Z * tworld) :=
  match h with
  | None => Some (THREADAPI_INVALID_ARG, None, w)
  | Some h =>
      match nth_error (handles w) h with
      | Some (Some t) =>
          match nth_error (made w) t with
          | Some v =>
              let w' := mkt (made w) (close (handles w) h) in          (* :91 free *)
              Some (match answer with
                    | thrd_success => (THREADAPI_OK, if res then Some v else None, w')
                    | thrd_nomem => (THREADAPI_NO_MEMORY, None, w')
                    | thrd_error | thrd_other => (THREADAPI_ERROR, None, w')
                    end)
          | None => None
          end
      | _ => None                                                      (* a freed block is read *)
      end
  end.

(* threadapi_win32.c:14-38; [started]: CreateThread succeeds *)
Definition win_create (args : bool) (started : option Z) (w : tworld) : THREADAPI_RESULT * stored * tworld :=
  if args then
    match started with
    | Some v => (THREADAPI_OK, Handle (length (handles w)), mkt (made w ++ [v]) (handles w ++ [Some (length (made w))]))
    | None => (THREADAPI_OK, Null, w)          (* :26: threadHandle, not *threadHandle, is compared *)
    end
  else (THREADAPI_INVALID_ARG, Nothing, w).

(* threadapi_win32.c:40-68; a closed handle: WaitForSingleObject and CloseHandle fail (or hit
   another object: undefined here) *)
Definition win_join (h : option nat) (res waited got : bool) (w : tworld)
  : option (THREADAPI_RESULT * option Z * tworld) :=
  match h with
  | None => Some (THREADAPI_INVALID_ARG, None, w)
  | Some h =>
      match nth_error (handles w) h with
      | Some (Some t) =>
          match nth_error (made w) t with
          | Some v =>
              let w' := mkt (made w) (close (handles w) h) in          (* :64 *)
              Some (if negb waited then (THREADAPI_ERROR, None, w')
                    else if res then if got then (THREADAPI_OK, Some v, w') else (THREADAPI_ERROR, None, w')
                    else (THREADAPI_OK, None, w'))
          | None => None
          end
      | _ => None
      end
  end.

(* ------------------------------------------------------------------ *)
(** * uniqueid_win32.c *)

(* What the two calls of RPC answer: UuidCreate's status is one of the two accepted ones or not;
   the string UuidToStringA makes is a block of its own, text and 0. *)
(* memcpy: reads len cells of the source *)
Definition copy (dst : list (option N)) (src : list N) (len : nat) : option (list (option N)) :=
  if (len <=? length src) && (len <=? length dst) then Some (map Some (firstn len src) ++ skipn len dst) else None.
(* uniqueid_win32.c:13-57.  cpyLen (:45-49) is computed and not used. *)
Definition UniqueId_Generate_win (uid : option (list (option N))) (len : nat) (created : bool) (text : option (list N))
  : option (UNIQUEID_RESULT * option (list (option N))) :=
  match uid with
  | None => Some (UNIQUEID_INVALID_ARG, None)
  | Some blk =>
      if len <? 37 then Some (UNIQUEID_INVALID_ARG, Some blk)
      else if negb created then Some (UNIQUEID_ERROR, Some blk)
      else
        match text with
        | None => Some (UNIQUEID_ERROR, Some blk)
        | Some t =>
            (* :44 memset *)
            if len <=? length blk then
              match copy (repeat (Some 0%N) len ++ skipn len blk) (t ++ [0%N]) len with   (* :50 *)
              | Some blk => Some (UNIQUEID_OK, Some blk)
              | None => None
              end
            else None
        end
  end.
