(* Model of src/gballoc.c.  The underlying malloc/calloc/realloc/free and the lock are the
   environment: every call carries the answers they will give (env).  The ALLOCATION nodes
   are numbered in the order of their creation (None once freed; numbers are not reused),
   data blocks are known by their addresses.  size_t is 64 bits; realloc(p, 0) of a block
   frees it and returns NULL, as in glibc. *)
From Verif Require Import Base Mem.
Open Scope N_scope.

(* gballoc.c:17-22 *)
Record ALLOCATION := { a_size : N; a_ptr : N; a_next : option nat }.

(* gballoc.c:30-35; heap = the data blocks the underlying allocator has handed out, with
   their sizes (not part of gballoc.c) *)
Record gstate := { nodes : list (option ALLOCATION); head : option nat; totalSize : N; maxSize : N;
                   initialized : bool; heap : list (N * N) }.

(* the answers of the environment: does Lock (or Lock_Init) succeed, does the malloc of an
   ALLOCATION succeed, what does the malloc/calloc/realloc of the data return *)
Record env := { lock_ok : bool; node_ok : bool; answer : option N }.

Inductive gret := GP (p : option N) | GI (ok : bool) | GN (n : N) | GU.
Inductive gop :=
| GInit (e : env)
| GDeinit
| GMalloc (n : N) (e : env)
| GCalloc (k n : N) (e : env)
| GRealloc (p : option N) (n : N) (e : env)
| GFree (p : option N) (e : env)
| GMax (e : env)
| GCurrent (e : env).

(* Impossible: the environment gives an answer no allocator gives (an address in use);
   UB: undefined behaviour. *)
Inductive outcome (A : Type) := Impossible | UB | Ok (a : A).
Arguments Impossible {A}. Arguments UB {A}. Arguments Ok {A} a.
Definition obind {A B} (m : outcome A) (f : A -> outcome B) : outcome B :=
  match m with Impossible => Impossible | UB => UB | Ok a => f a end.

Definition in_heap (h : list (N * N)) (p : N) : bool := existsb (fun b => fst b =? p) h.
Definition heap_remove (h : list (N * N)) (p : N) : list (N * N) := filter (fun b => negb (fst b =? p)) h.

(* the C allocator *)
Definition c_malloc (h : list (N * N)) (n : N) (a : option N) : outcome (option N * list (N * N)) :=
  match a with
  | None => Ok (None, h)
  | Some p => if in_heap h p then Impossible else Ok (Some p, (p, n) :: h)
  end.
Definition c_free (h : list (N * N)) (p : option N) : outcome (list (N * N)) :=
  match p with
  | None => Ok h
  | Some p => if in_heap h p then Ok (heap_remove h p) else UB
  end.
Definition c_realloc (h : list (N * N)) (p : option N) (n : N) (a : option N) : outcome (option N * list (N * N)) :=
  match p with
  | None => c_malloc h n a
  | Some p =>
      if negb (in_heap h p) then UB
      else if n =? 0 then Ok (None, heap_remove h p)
      else match a with
           | None => Ok (None, h)
           | Some q => if in_heap (heap_remove h p) q then Impossible else Ok (Some q, (q, n) :: heap_remove h p)
           end
  end.

Definition with_heap (st : gstate) (h : list (N * N)) : gstate :=
  {| nodes := nodes st; head := head st; totalSize := totalSize st; maxSize := maxSize st;
     initialized := initialized st; heap := h |}.

(* gballoc.c:118-123 and 173-178 and 266-272: totalSize += size, then maxSize; total = the
   value before the addition *)
Definition count_more (st : gstate) (nds : list (option ALLOCATION)) (hd : option nat) (total size : N) (h : list (N * N)) : gstate :=
  let t := wrap (total + size) in
  {| nodes := nds; head := hd; totalSize := t; maxSize := if maxSize st <? t then t else maxSize st;
     initialized := initialized st; heap := h |}.

(* gballoc.c:113-123: a new tracked block *)
Definition track (st : gstate) (p size : N) (h : list (N * N)) : gstate :=
  count_more st (nodes st ++ [Some {| a_size := size; a_ptr := p; a_next := head st |}]) (Some (length (nodes st)))
    (totalSize st) size h.

(* gballoc.c:37-65 gballoc_init *)
Definition gballoc_init (st : gstate) (e : env) : outcome (gret * gstate) :=
  if initialized st then Ok (GI false, st)
  else if negb (lock_ok e) then Ok (GI false, st)
  else Ok (GI true, {| nodes := nodes st; head := head st; totalSize := 0; maxSize := 0; initialized := true; heap := heap st |}).

(* gballoc.c:67-76 gballoc_deinit *)
Definition gballoc_deinit (st : gstate) : outcome (gret * gstate) :=
  Ok (GU, {| nodes := nodes st; head := head st; totalSize := totalSize st; maxSize := maxSize st;
             initialized := false; heap := heap st |}).

(* gballoc.c:78-131 gballoc_malloc and 133-186 gballoc_calloc; size is what is counted and
   real the number of bytes requested (calloc does not wrap nmemb * size) *)
Definition gballoc_alloc (st : gstate) (real size : N) (e : env) : outcome (gret * gstate) :=
  if negb (initialized st) then
    obind (c_malloc (heap st) real (answer e)) (fun x => Ok (GP (fst x), with_heap st (snd x)))
  else if negb (lock_ok e) then Ok (GP None, st)
  else if negb (node_ok e) then Ok (GP None, st)
  else
    obind (c_malloc (heap st) real (answer e)) (fun x =>
      match fst x with
      | None => Ok (GP None, with_heap st (snd x))
      | Some p => Ok (GP (Some p), track st p size (snd x))
      end).
Definition gballoc_malloc (st : gstate) (n : N) (e : env) := gballoc_alloc st n n e.
Definition gballoc_calloc (st : gstate) (k n : N) (e : env) := gballoc_alloc st (k * n) (wrap (k * n)) e.

(* gballoc.c:215-227 and 301-323: the walk from curr (prev = the node before it); Ok None =
   not found.  A walk over a freed node is undefined; fuel bounds the number of nodes. *)
Fixpoint walk (fuel : nat) (nds : list (option ALLOCATION)) (curr prev : option nat) (p : option N)
    : outcome (option (nat * option nat)) :=
  match curr with
  | None => Ok None
  | Some i =>
      match fuel with
      | O => UB
      | S f =>
          match nth_error nds i with
          | Some (Some a) => if match p with Some q => a_ptr a =? q | None => false end
                             then Ok (Some (i, prev)) else walk f nds (a_next a) (Some i) p
          | _ => UB
          end
      end
  end.
Definition get_node (st : gstate) (i : nat) : outcome ALLOCATION :=
  match nth_error (nodes st) i with Some (Some a) => Ok a | _ => UB end.

(* gballoc.c:188-280 gballoc_realloc *)
Definition gballoc_realloc (st : gstate) (p : option N) (n : N) (e : env) : outcome (gret * gstate) :=
  if negb (initialized st) then
    obind (c_realloc (heap st) p n (answer e)) (fun x => Ok (GP (fst x), with_heap st (snd x)))
  else if negb (lock_ok e) then Ok (GP None, st)
  else match p with
       | None =>
           if negb (node_ok e) then Ok (GP None, st)
           else obind (c_realloc (heap st) None n (answer e)) (fun x =>
                  match fst x with
                  | None => Ok (GP None, with_heap st (snd x))
                  | Some q => Ok (GP (Some q), track st q n (snd x))
                  end)
       | Some q =>
           obind (walk (length (nodes st)) (nodes st) (head st) None p) (fun w =>
             match w with
             | None => Ok (GP None, st)
             | Some (i, _) =>
                 obind (get_node st i) (fun a =>
                 obind (c_realloc (heap st) p n (answer e)) (fun x =>
                   match fst x with
                   | None => Ok (GP None, with_heap st (snd x))
                   | Some r =>
                       Ok (GP (Some r),
                           count_more st (upd (nodes st) i (Some {| a_size := n; a_ptr := r; a_next := a_next a |}))
                             (head st) (wrap (totalSize st + (two64 - a_size a))) n (snd x))
                   end))
             end)
       end.

(* gballoc.c:293-333: the part of gballoc_free that runs under the lock; curr = what line
   284 read from head before the lock was taken *)
Definition gballoc_free_locked (st : gstate) (curr : option nat) (p : option N) (e : env) : outcome (gret * gstate) :=
  if negb (lock_ok e) then Ok (GU, st)
  else
    obind (walk (length (nodes st)) (nodes st) curr None p) (fun w =>
      match w with
      | None => Ok (GU, st)
      | Some (i, prev) =>
          obind (get_node st i) (fun a =>
          obind (c_free (heap st) p) (fun h =>
          obind (match prev with
                 | None => Ok (nodes st, a_next a)
                 | Some j => obind (get_node st j) (fun b =>
                     Ok (upd (nodes st) j (Some {| a_size := a_size b; a_ptr := a_ptr b; a_next := a_next a |}), head st))
                 end) (fun y =>
            Ok (GU, {| nodes := upd (fst y) i None; head := snd y;
                       totalSize := wrap (totalSize st + (two64 - a_size a));
                       maxSize := maxSize st; initialized := initialized st; heap := h |}))))
      end).

(* gballoc.c:282-334 gballoc_free *)
Definition gballoc_free (st : gstate) (p : option N) (e : env) : outcome (gret * gstate) :=
  if negb (initialized st) then obind (c_free (heap st) p) (fun h => Ok (GU, with_heap st h))
  else gballoc_free_locked st (head st) p e.

(* gballoc.c:336-361 and 363-388 *)
Definition gballoc_getMaximumMemoryUsed (st : gstate) (e : env) : outcome (gret * gstate) :=
  Ok (GN (if initialized st && lock_ok e then maxSize st else two64 - 1), st).
Definition gballoc_getCurrentMemoryUsed (st : gstate) (e : env) : outcome (gret * gstate) :=
  Ok (GN (if initialized st && lock_ok e then totalSize st else two64 - 1), st).

Definition gstep (st : gstate) (op : gop) : outcome (gret * gstate) :=
  match op with
  | GInit e => gballoc_init st e
  | GDeinit => gballoc_deinit st
  | GMalloc n e => gballoc_malloc st n e
  | GCalloc k n e => gballoc_calloc st k n e
  | GRealloc p n e => gballoc_realloc st p n e
  | GFree p e => gballoc_free st p e
  | GMax e => gballoc_getMaximumMemoryUsed st e
  | GCurrent e => gballoc_getCurrentMemoryUsed st e
  end.

Fixpoint grun (st : gstate) (ops : list gop) : outcome (list gret * gstate) :=
  match ops with
  | [] => Ok ([], st)
  | op :: t => obind (gstep st op) (fun x => obind (grun (snd x) t) (fun y => Ok (fst x :: fst y, snd y)))
  end.

(* gballoc.c:30-35: the statics when the program starts *)
Definition gstart : gstate :=
  {| nodes := []; head := None; totalSize := 0; maxSize := 0; initialized := false; heap := [] |}.

(** * Threads *)

(* Everything but line 284 and the reads of gballocState runs under the lock, so a call is
   one step of its thread, except that gballoc_free is two: the read of head, then the part
   under the lock.  A thread is idle or between the two steps. *)
Record tstate := { shared : gstate; waiting : list (option (option nat * option N)) }.
Inductive tevent :=
| TCall (t : nat) (op : gop)                (* any call but gballoc_free *)
| TFree1 (t : nat) (p : option N)           (* gballoc.c:284 *)
| TFree2 (t : nat) (e : env).               (* gballoc.c:287-333 *)

Definition idle (s : tstate) (t : nat) : bool :=
  match nth_error (waiting s) t with Some None => true | _ => false end.

Definition tstep (s : tstate) (ev : tevent) : outcome tstate :=
  match ev with
  | TCall t op =>
      if idle s t then
        match op with
        | GFree _ _ => Impossible
        | _ => obind (gstep (shared s) op) (fun x => Ok {| shared := snd x; waiting := waiting s |})
        end
      else Impossible
  | TFree1 t p =>
      if idle s t then Ok {| shared := shared s; waiting := upd (waiting s) t (Some (head (shared s), p)) |}
      else Impossible
  | TFree2 t e =>
      match nth_error (waiting s) t with
      | Some (Some (curr, p)) =>
          obind (if initialized (shared s) then gballoc_free_locked (shared s) curr p e else gballoc_free (shared s) p e)
            (fun x => Ok {| shared := snd x; waiting := upd (waiting s) t None |})
      | _ => Impossible
      end
  end.
Fixpoint trun (s : tstate) (evs : list tevent) : outcome tstate :=
  match evs with
  | [] => Ok s
  | ev :: r => obind (tstep s ev) (fun s' => trun s' r)
  end.
