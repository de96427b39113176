(* Models of adapters/tickcounter_win32.c and adapters/tickcounter_mbed.cpp.
   (adapters/tickcounter_tirtos.c:17-77 is, line for line, the program of
   tickcounter_linux.c modelled in TickCounter_Model.)

   What the operating system answers is part of each call.  Undefined
   behaviour is None.  The log is not modelled. *)
From Verif Require Import Base.
From Verif Require TickCounter_Model.
Local Open Scope Z_scope.

Definition uint64 (z : Z) : Z := z mod 2^64.
(* the range of LONGLONG *)
Definition int64_ok (z : Z) : bool := (- 2^63 <=? z) && (z <? 2^63).

(* ------------------------------------------------------------------ *)
(** * Windows *)

Definition INVALID_TIME_VALUE : Z := -1.    (* tickcounter_win32.c:16 *)

(* tickcounter_win32.c:17-23; fields never written are 0 here: perf_freqency
   and last_perf_counter are only read when backup_time_value is invalid *)
Record win := mkwin {
  perf_freqency : Z;
  last_perf_counter : Z;
  backup_time_value : Z;
  current_ms : Z }.

(* tickcounter_win32.c:25-60.  [freq], [counter]: what QueryPerformanceFrequency
   and QueryPerformanceCounter give (None: they fail); [time]: time(NULL) *)
Definition win_create (memory : bool) (freq counter : option Z) (time : Z) : option win :=
  if memory then
    match freq with
    | None => if time =? INVALID_TIME_VALUE then None else Some (mkwin 0 0 time 0)
    | Some f =>
        match counter with
        | None => None
        | Some c => Some (mkwin f c INVALID_TIME_VALUE 0)
        end
    end
  else None.

(* tickcounter_win32.c:70-117.  Result: the return value, what is stored in
   *current_ms, the counter.  The product overflows a LONGLONG: undefined
   (C11 6.5/5); a quotient by 0 as well. *)
Definition win_get (c : option win) (out : bool) (counter : option Z) (time : Z)
  : option (Z * option Z * option win) :=
  match c, out with
  | Some c, true =>
      if backup_time_value c =? INVALID_TIME_VALUE then           (* :81 *)
        match counter with
        | None => Some (88, None, Some c)
        | Some k =>
            let d := (k - last_perf_counter c) in
            if int64_ok d && int64_ok (d * 1000000) && negb (perf_freqency c =? 0) then   (* :93 *)
              let us := Z.quot (d * 1000000) (perf_freqency c) in                        (* :94 *)
              let cur := uint64 (current_ms c + us) in                                   (* :95 *)
              Some (0, Some (cur / 1000), Some (mkwin (perf_freqency c) k (backup_time_value c) cur))  (* :96-98 *)
            else None
        end
      else
        if time =? INVALID_TIME_VALUE then Some (106, None, Some c)
        else
          match TickCounter_Model.to_uint64 (TickCounter_Model.rne (TickCounter_Model.difftime time (backup_time_value c) * 1000)) with  (* :110 *)
          | Some ms => Some (0, Some ms, Some (mkwin (perf_freqency c) (last_perf_counter c) (backup_time_value c) ms))
          | None => None
          end
  | _, _ => Some (76, None, c)
  end.

(* ------------------------------------------------------------------ *)
(** * mbed *)

(* clock_t is an unsigned 32-bit type and CLOCKS_PER_SEC a positive int: all
   arithmetic is modulo 2^32. *)
Definition uint32 (z : Z) : Z := z mod 2^32.

(* tickcounter_mbed.cpp:15-20 *)
Record mbed := mkmbed { last_clock_value : Z; m_current_ms : Z }.

(* tickcounter_mbed.cpp:22-29; [clock]: what clock() answers *)
Definition mbed_create (cps clock : Z) : mbed :=
  mkmbed clock (uint32 (clock * 1000) / cps).

(* tickcounter_mbed.cpp:39-59 *)
Definition mbed_get (cps : Z) (c : option mbed) (out : bool) (clock : Z) : Z * option Z * option mbed :=
  match c, out with
  | Some c, true =>
      let cur := uint64 (m_current_ms c + uint32 (uint32 (clock - last_clock_value c) * 1000) / cps) in   (* :52 *)
      (0, Some cur, Some (mkmbed clock cur))                                                              (* :53-56 *)
  | _, _ => (44, None, c)
  end.
