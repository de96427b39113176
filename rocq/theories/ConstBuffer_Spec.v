(* Specification of CONSTBUFFER on byte sequences: next to the contents of the BUFFERs,
   slot i is what constant buffer i holds and how many references to it there are
   (None once the last one is gone). *)
From Verif Require Import Base Buffer_Model Buffer_Spec ConstBuffer_Model.
Open Scope N_scope.

Record cbcontents := { buf_contents : contents; const_contents : list (option (list (option N) * N)) }.

Definition cblive (sp : cbcontents) (h : nat) : option (list (option N) * N) :=
  match nth_error (const_contents sp) h with Some (Some c) => Some c | _ => None end.

Definition cbpush (sp : cbcontents) (m : bool) (l : list (option N)) : cbret * cbcontents :=
  if m then (CBH (Some (length (const_contents sp))),
             {| buf_contents := buf_contents sp; const_contents := const_contents sp ++ [Some (l, 1)] |})
  else (CBH None, sp).
Definition cbput (sp : cbcontents) (h : nat) (x : option (list (option N) * N)) : cbcontents :=
  {| buf_contents := buf_contents sp; const_contents := upd (const_contents sp) h x |}.

(* None = the call breaks a precondition: a handle that is no longer valid, a source that
   does not have n bytes, a size of 2^64 or more, a 2^32nd reference. *)
Definition cbsp_step (sp : cbcontents) (op : cbop) (m : bool) : option (cbret * cbcontents) :=
  match op with
  | CBCreate s n =>
      if is_null s && negb (n =? 0) then Some (CBH None, sp)
      else if n <? two64 then
        if n =? 0 then Some (cbpush sp m [])
        else match bdenote (buf_contents sp) s n with Some l => Some (cbpush sp m l) | None => None end
      else None
  | CBCreateFromBuffer None => Some (CBH None, sp)
  | CBCreateFromBuffer (Some h) =>
      match blive (buf_contents sp) h with Some c => Some (cbpush sp m (bytes_of c)) | None => None end
  | CBClone None => Some (CBH None, sp)
  | CBClone (Some h) =>
      match cblive sp h with
      | Some (l, k) => if k + 1 <? 2 ^ 32 then Some (CBH (Some h), cbput sp h (Some (l, k + 1))) else None
      | None => None
      end
  | CBGetContent None => Some (CBC None, sp)
  | CBGetContent (Some h) =>
      match cblive sp h with Some (l, k) => Some (CBC (Some (l, lenN l)), sp) | None => None end
  | CBDestroy None => Some (CBU, sp)
  | CBDestroy (Some h) =>
      match cblive sp h with
      | Some (l, k) => Some (CBU, cbput sp h (if k =? 1 then None else Some (l, k - 1)))
      | None => None
      end
  | CBBuf op =>
      match bsp_step (buf_contents sp) op m with
      | Some (r, b) => Some (CBB r, {| buf_contents := b; const_contents := const_contents sp |})
      | None => None
      end
  end.

(* Every live constant buffer holds exactly its bytes, in a block of its own. *)
Definition cbrepresents (st : cbstate) (sp : cbcontents) : Prop :=
  brepresents (bufs st) (buf_contents sp) /\
  Forall2 (fun oc os =>
    match oc, os with
    | None, None => True
    | Some c, Some (l, k) =>
        cb_size c = lenN l /\ cb_count c = k /\ 0 < k < 2 ^ 32 /\
        (cb_buffer c = PBlock l \/ l = [] /\ cb_buffer c = PNull)
    | _, _ => False
    end) (cbs st) (const_contents sp).
