(* Model of adapters/tickcounter_linux.c.

   time_t is a signed 64-bit number.  The values of type double that occur
   are integers; [rne] rounds an integer to the nearest double (53
   significant bits, ties to even), which is what IEEE 754 prescribes for
   difftime's conversion of the exact difference and for the product by 1000
   (no overflow: the product is below 2^74).  The log is not modelled. *)
From Verif Require Import Base.
Local Open Scope Z_scope.

(* the double nearest to a non-negative integer *)
Definition rne_nonneg (z : Z) : Z :=
  if z <? 2^53 then z
  else
    let u := 2 ^ (Z.log2 z - 52) in       (* the unit in the last place *)
    let q := z / u in
    let r := z mod u in
    if 2 * r <? u then q * u
    else if 2 * r =? u then (if Z.even q then q * u else (q + 1) * u)
    else (q + 1) * u.
Definition rne (z : Z) : Z := if z <? 0 then - rne_nonneg (- z) else rne_nonneg z.

(* glibc's difftime: the difference of two time_t as a double *)
Definition difftime (t1 t0 : Z) : Z := rne (t1 - t0).

(* conversion of an integral double to uint64_t: undefined out of range *)
Definition to_uint64 (d : Z) : option Z :=
  if (0 <=? d) && (d <? 2^64) then Some d else None.

(* tickcounter_linux.c:16 *)
Definition INVALID_TIME_VALUE : Z := -1.

(* tickcounter_linux.c:17-21 *)
Record TICK_COUNTER_INSTANCE := tc { init_time_value : Z; current_ms : Z }.

(* tickcounter_linux.c:23-41; [time] is the answer of time(NULL).  Result:
   the counter (None: NULL). *)
Definition tickcounter_create (memory : bool) (time : Z) : option TICK_COUNTER_INSTANCE :=
  if memory then
    if time =? INVALID_TIME_VALUE then None      (* :29-34: freed *)
    else Some (tc time 0)
  else None.

(* tickcounter_linux.c:51-77.  [out]: current_ms is not NULL.  Result: the
   return value, what is stored in *current_ms, the counter. *)
Definition tickcounter_get_current_ms (c : option TICK_COUNTER_INSTANCE) (out : bool) (time : Z)
  : option (Z * option Z * option TICK_COUNTER_INSTANCE) :=
  match c, out with
  | Some c, true =>
      if time =? INVALID_TIME_VALUE then Some (65, None, Some c)
      else
        match to_uint64 (rne (difftime time (init_time_value c) * 1000)) with   (* :70 *)
        | Some ms => Some (0, Some ms, Some (tc (init_time_value c) ms))        (* :70-72 *)
        | None => None
        end
  | _, _ => Some (58, None, c)
  end.
