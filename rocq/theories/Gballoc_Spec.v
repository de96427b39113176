(* Specification of gballoc, in terms of the blocks its clients hold: the blocks obtained
   while it was initialised and not freed (the most recent first), the ones obtained while it was not, whether it is
   initialised, and the largest total since the last initialisation. *)
From Verif Require Import Base Mem Gballoc_Model.
Open Scope N_scope.

Record gspec := { blocks : list (N * N); loose : list (N * N); on : bool; peak : N }.

Definition total (l : list (N * N)) : N := fold_right (fun b s => snd b + s) 0 l.
Definition holds_block (l : list (N * N)) (p : N) : bool := existsb (fun b => fst b =? p) l.
Definition without (l : list (N * N)) (p : N) : list (N * N) := filter (fun b => negb (fst b =? p)) l.
Definition resized (l : list (N * N)) (p q n : N) : list (N * N) :=
  map (fun b => if fst b =? p then (q, n) else b) l.

Definition free_addr (sp : gspec) (p : N) : bool := negb (holds_block (blocks sp ++ loose sp) p).
Definition set_blocks (sp : gspec) (l : list (N * N)) : gspec :=
  {| blocks := l; loose := loose sp; on := true; peak := N.max (peak sp) (total l) |}.
Definition set_loose (sp : gspec) (l : list (N * N)) : gspec :=
  {| blocks := blocks sp; loose := l; on := on sp; peak := peak sp |}.

(* a new block of n bytes, if the allocator gives one (at an address not in use; the total
   number of bytes handed out stays below 2^64) *)
Definition give (sp : gspec) (n : N) (a : option N) : option (gret * gspec) :=
  match a with
  | None => Some (GP None, sp)
  | Some p =>
      if free_addr sp p && (total (blocks sp) + n <? 2 ^ 64) then
        Some (GP (Some p), if on sp then set_blocks sp ((p, n) :: blocks sp) else set_loose sp ((p, n) :: loose sp))
      else None
  end.

(* None = a broken precondition: an impossible address; freeing or resizing a block that is
   not held; resizing to 0 bytes; gballoc_deinit with tracked blocks left (see C40). *)
Definition gspec_step (sp : gspec) (op : gop) : option (gret * gspec) :=
  match op with
  | GInit e => Some (if on sp || negb (lock_ok e) then (GI false, sp)
                     else (GI true, {| blocks := blocks sp; loose := loose sp; on := true; peak := 0 |}))
  | GDeinit => match blocks sp with
               | [] => Some (GU, {| blocks := []; loose := loose sp; on := false; peak := peak sp |})
               | _ => None
               end
  | GMalloc n e =>
      if on sp && negb (lock_ok e && node_ok e) then Some (GP None, sp) else give sp n (answer e)
  | GCalloc k n e =>
      if on sp && negb (lock_ok e && node_ok e) then Some (GP None, sp) else give sp (k * n) (answer e)
  | GRealloc None n e =>
      if on sp && negb (lock_ok e && node_ok e) then Some (GP None, sp) else give sp n (answer e)
  | GRealloc (Some p) n e =>
      if on sp && negb (lock_ok e) then Some (GP None, sp)
      else if n =? 0 then None
      else if on sp then
        if holds_block (blocks sp) p then
          match answer e with
          | None => Some (GP None, sp)
          | Some q => if (free_addr sp q || (q =? p)) && (total (without (blocks sp) p) + n <? 2 ^ 64)
                      then Some (GP (Some q), set_blocks sp (resized (blocks sp) p q n)) else None
          end
        else if holds_block (loose sp) p then Some (GP None, sp) else None
      else
        if holds_block (loose sp) p then
          match answer e with
          | None => Some (GP None, sp)
          | Some q => if free_addr sp q || (q =? p)
                      then Some (GP (Some q), set_loose sp ((q, n) :: without (loose sp) p)) else None
          end
        else None
  | GFree None e => Some (GU, sp)
  | GFree (Some p) e =>
      if on sp then
        if negb (lock_ok e) then Some (GU, sp)
        else if holds_block (blocks sp) p then Some (GU, set_blocks sp (without (blocks sp) p))
        else if holds_block (loose sp) p then Some (GU, sp) else None
      else if holds_block (loose sp) p then Some (GU, set_loose sp (without (loose sp) p)) else None
  | GMax e => Some (GN (if on sp && lock_ok e then peak sp else 2 ^ 64 - 1), sp)
  | GCurrent e => Some (GN (if on sp && lock_ok e then total (blocks sp) else 2 ^ 64 - 1), sp)
  end.

Fixpoint gspec_run (sp : gspec) (ops : list gop) : option (list gret * gspec) :=
  match ops with
  | [] => Some ([], sp)
  | op :: t => match gspec_step sp op with
               | Some (r, sp1) => match gspec_run sp1 t with Some (rs, sp2) => Some (r :: rs, sp2) | None => None end
               | None => None
               end
  end.

Definition nothing : gspec := {| blocks := []; loose := []; on := false; peak := 0 |}.
