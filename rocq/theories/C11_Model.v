(* Model of adapters/lock_c11.c, condition_c11.c, threadapi_c11.c (join, create, sleep) and
   uniqueid_linux.c.

   As in Condition_Model.v, every function is given the answers of the functions it calls
   and returns the calls it makes with its result; handles are addresses (None = NULL).
   unsigned long has at least 32 bits and time() is below 2^31 - 2147484; the double of
   get_difftime is then exact.  The log is not modelled. *)
From Verif Require Import Base Condition_Model ThreadApi_Model UniqueId_Model.
Local Open Scope Z_scope.

(* thr/threads.h *)
Inductive thrd_result := thrd_success | thrd_nomem | thrd_timedout | thrd_busy | thrd_error.
Definition is_success (r : thrd_result) : bool := match r with thrd_success => true | _ => false end.

(* The calls are those of Condition_Model.v with mtx_*/cnd_* for pthread_*; time() is
   ClockGettime 0. *)

(* lock_c11.c:17-32 *)
Definition Lock_Init_c11 (got : option N) (answer : thrd_result) : list call * option N :=
  match got with
  | None => ([Malloc None], None)
  | Some p =>
      if negb (is_success answer) then ([Malloc (Some p); MutexInit p; Free p], None)
      else ([Malloc (Some p); MutexInit p], Some p)
  end.
(* lock_c11.c:35-59 *)
Definition Lock_c11 (handle : option N) (answer : thrd_result) : list call * LOCK_RESULT :=
  match handle with
  | None => ([], LOCK_ERROR)
  | Some h => ([MutexLock h], if is_success answer then LOCK_OK else LOCK_ERROR)
  end.
(* lock_c11.c:60-84 *)
Definition Unlock_c11 (handle : option N) (answer : thrd_result) : list call * LOCK_RESULT :=
  match handle with
  | None => ([], LOCK_ERROR)
  | Some h => ([MutexUnlock h], if is_success answer then LOCK_OK else LOCK_ERROR)
  end.
(* lock_c11.c:86-105 *)
Definition Lock_Deinit_c11 (handle : option N) : list call * LOCK_RESULT :=
  match handle with
  | None => ([], LOCK_ERROR)
  | Some h => ([MutexDestroy h; Free h], LOCK_OK)
  end.

(* condition_c11.c:17-27; the answer of cnd_init is ignored *)
Definition Condition_Init_c11 (got : option N) (answer : thrd_result) : list call * option N :=
  match got with
  | None => ([Malloc None], None)
  | Some p => ([Malloc (Some p); CondInit p], Some p)
  end.
(* condition_c11.c:29-51 *)
Definition Condition_Post_c11 (handle : option N) (answer : thrd_result) : list call * COND_RESULT :=
  match handle with
  | None => ([], COND_INVALID_ARG)
  | Some h => ([CondBroadcast h], if is_success answer then COND_OK else COND_ERROR)
  end.
(* condition_c11.c:53-106; [now]: what get_time returns, whole seconds *)
Definition Condition_Wait_c11 (handle lock : option N) (timeout_milliseconds now : Z) (answer : thrd_result)
  : list call * COND_RESULT :=
  match handle, lock with
  | Some h, Some l =>
      if timeout_milliseconds >? 0 then
        let sec := now + Z.quot timeout_milliseconds 1000 in           (* :73 *)
        let nsec := Z.rem timeout_milliseconds 1000 * 1000000 in       (* :74 *)
        ([ClockGettime 0; CondTimedwait h l sec nsec],
         match answer with
         | thrd_timedout => COND_TIMEOUT
         | thrd_success => COND_OK
         | _ => COND_ERROR
         end)
      else ([CondWait h l], if is_success answer then COND_OK else COND_ERROR)
  | _, _ => ([], COND_INVALID_ARG)
  end.
(* condition_c11.c:108-118 *)
Definition Condition_Deinit_c11 (handle : option N) : list call :=
  match handle with
  | None => []
  | Some h => [CondDestroy h; Free h]
  end.

(* threadapi_c11.c:104-117: what is waited for: milliseconds, or nothing when no event can
   be created *)
Definition ThreadAPI_Sleep_c11 (milliseconds : Z) (event : bool) : option Z :=
  if event then Some (if milliseconds =? 0 then 1 else milliseconds) else None.

(* uniqueid_linux.c:13-35; [uuid]: what uuid_generate stores.  uuid_unparse writes the text of
   RFC 4122, lower case (libuuid), and a 0. *)
Definition hex_lower (n : N) : N := nth (N.to_nat n) (str "0123456789abcdef") 0%N.
Definition uuid_unparse (o : list N) : list N :=
  let h b := [hex_lower (b / 16); hex_lower (b mod 16)]%N in
  let g i n := concat (map h (firstn n (skipn i o))) in
  (g 0 4 ++ str "-" ++ g 4 2 ++ str "-" ++ g 6 2 ++ str "-" ++ g 8 2 ++ str "-" ++ g 10 6)%nat.
Definition UniqueId_Generate_linux (uid : option (list (option N))) (len : N) (uuid : list N)
  : option (UNIQUEID_RESULT * option (list (option N))) :=
  match uid with
  | None => Some (UNIQUEID_INVALID_ARG, None)
  | Some blk =>
      if (len <? 37)%N then Some (UNIQUEID_INVALID_ARG, Some blk)
      else
        match store_all blk 0 (repeat 0%N (N.to_nat len)) with             (* :30 *)
        | None => None
        | Some blk =>
            match store_all blk 0 (uuid_unparse uuid ++ [0%N]) with        (* :31 *)
            | None => None
            | Some blk => Some (UNIQUEID_OK, Some blk)
            end
        end
  end.
