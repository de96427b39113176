(* Specification of the BUFFER module on byte sequences: slot i is the content of
   handle i (None once deleted).  A content is [Some l] when storage exists and
   [None] when there is none (a new or unbuilt buffer: no bytes).  A byte is None
   when it was never given a value (after pre_build or enlarge). *)
From Verif Require Import Base Buffer_Model.
Open Scope N_scope.

Definition contents := list (option (option (list (option N)))).

Definition blive (sp : contents) (h : nat) : option (option (list (option N))) :=
  match nth_error sp h with Some (Some c) => Some c | _ => None end.

Definition bytes_of (c : option (list (option N))) : list (option N) :=
  match c with Some l => l | None => [] end.

Definition lenN {A} (l : list A) : N := N.of_nat (length l).

(* The n bytes at a source. *)
Definition bdenote (sp : contents) (s : bsrc) (n : N) : option (list (option N)) :=
  match s with
  | BSNull => if n =? 0 then Some [] else None
  | BSBytes l => if n <=? lenN l then Some (map Some (firstn (N.to_nat n) l)) else None
  | BSOf h k => match blive sp h with
                | Some (Some l) => if N.of_nat k + n <=? lenN l
                                   then Some (firstn (N.to_nat n) (skipn k l)) else None
                | _ => None
                end
  end.

Definition bcreate (sp : contents) (m : bool) (c : option (list (option N))) : option (bret * contents) :=
  if m then Some (BRH (Some (length sp)), sp ++ [Some c]) else Some (BRH None, sp).
Definition bassign (sp : contents) (m : bool) (h : nat) (c : option (list (option N)))
    : option (bret * contents) :=
  if m then Some (BRI true, upd sp h (Some c)) else Some (BRI false, sp).


(* the source lies inside the buffer [h] itself *)
Definition lies_inside (s : bsrc) (h : nat) : bool := match s with BSOf g _ => (g =? h)%nat | _ => false end.

(* None = the call breaks a precondition: a deleted handle, a source that does not
   have n bytes or lies in the buffer being rebuilt, a total size of 2^64 or more, or
   appending nothing to nothing (both storages of 0 bytes). *)
Definition bsp_step (sp : contents) (op : bop) (m : bool) : option (bret * contents) :=
  match op with
  | BNew => bcreate sp m None
  | BCreate BSNull n => Some (BRH None, sp)
  | BCreate s n =>
      if n <? two64 then
        match bdenote sp s n with Some l => bcreate sp m (Some l) | None => None end
      else None
  | BDelete None => Some (BRI true, sp)
  | BDelete (Some h) => match blive sp h with Some _ => Some (BRI true, upd sp h None) | None => None end
  | BBuild None _ _ => Some (BRI false, sp)
  | BBuild (Some h) s n =>
      match blive sp h with
      | None => None
      | Some _ =>
          if n =? 0 then Some (BRI true, upd sp h (Some None))
          else if is_null s then Some (BRI false, sp)
          else if lies_inside s h then None
          else if n <? two64 then
            match bdenote sp s n with Some l => bassign sp m h (Some l) | None => None end
          else None
      end
  | BPreBuild None _ => Some (BRI false, sp)
  | BPreBuild (Some h) n =>
      match blive sp h with
      | None => None
      | Some c =>
          if n =? 0 then Some (BRI false, sp)
          else match c with
               | Some _ => Some (BRI false, sp)
               | None => if n <? two64 then bassign sp m h (Some (repeat None (N.to_nat n))) else None
               end
      end
  | BContent None => Some (BRI false, sp)
  | BContent (Some h) => match blive sp h with Some c => Some (BRP c, sp) | None => None end
  | BUChar None => Some (BRP None, sp)
  | BUChar (Some h) => match blive sp h with Some c => Some (BRP c, sp) | None => None end
  | BUnbuild None => Some (BRI false, sp)
  | BUnbuild (Some h) =>
      match blive sp h with
      | None => None
      | Some None => Some (BRI false, sp)
      | Some (Some _) => Some (BRI true, upd sp h (Some None))
      end
  | BEnlarge None _ => Some (BRI false, sp)
  | BEnlarge (Some h) n =>
      match blive sp h with
      | None => None
      | Some c =>
          if n =? 0 then Some (BRI false, sp)
          else if lenN (bytes_of c) + n <? two64
          then bassign sp m h (Some (bytes_of c ++ repeat None (N.to_nat n)))
          else None
      end
  | BSize None => Some (BRI false, sp)
  | BSize (Some h) => match blive sp h with Some c => Some (BRN (lenN (bytes_of c)), sp) | None => None end
  | BLength None => Some (BRN 0, sp)
  | BLength (Some h) => match blive sp h with Some c => Some (BRN (lenN (bytes_of c)), sp) | None => None end
  | BAppend (Some h1) (Some h2) =>
      if (h1 =? h2)%nat then Some (BRI false, sp)
      else match blive sp h1, blive sp h2 with
           | Some (Some l1), Some (Some l2) =>
               if (0 <? lenN l1 + lenN l2) && (lenN l1 + lenN l2 <? two64)
               then bassign sp m h1 (Some (l1 ++ l2)) else None
           | Some _, Some _ => Some (BRI false, sp)
           | _, _ => None
           end
  | BAppend _ _ => Some (BRI false, sp)
  | BPrepend (Some h1) (Some h2) =>
      if (h1 =? h2)%nat then Some (BRI false, sp)
      else match blive sp h1, blive sp h2 with
           | Some (Some l1), Some (Some l2) =>
               if lenN l1 + lenN l2 <? two64
               then bassign sp m h1 (Some (l2 ++ l1)) else None
           | Some _, Some _ => Some (BRI false, sp)
           | _, _ => None
           end
  | BPrepend _ _ => Some (BRI false, sp)
  | BClone None => Some (BRH None, sp)
  | BClone (Some h) =>
      match blive sp h with Some c => bcreate sp m (Some (bytes_of c)) | None => None end
  | BPoke h i v =>
      match blive sp h with
      | Some (Some l) => if (i <? length l)%nat
                         then Some (BRI true, upd sp h (Some (Some (upd l i (Some v))))) else None
      | _ => None
      end
  end.

(* The block of every live handle is exactly its content, and the recorded size is
   its length (below 2^64). *)
Definition brepresents (st : buffers) (sp : contents) : Prop :=
  Forall2 (fun ob oc =>
    match ob, oc with
    | None, None => True
    | Some b, Some None => buffer b = PNull /\ size b = 0
    | Some b, Some (Some l) => buffer b = PBlock l /\ size b = lenN l /\ lenN l < two64
    | _, _ => False
    end) st sp.
