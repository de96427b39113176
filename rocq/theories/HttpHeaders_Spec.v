(* Specification of HTTP headers: slot i is the list of (name, value) pairs of handle i, in
   the order in which the names were first added (None once freed). *)
From Verif Require Import Base Map_Model Map_Spec HttpHeaders_Model.
Open Scope N_scope.

Definition header_lists := list (option (list (text * text))).

Definition hlive (sp : header_lists) (h : nat) : option (list (text * text)) :=
  match nth_error sp h with Some (Some l) => Some l | _ => None end.

(* Legal names as documented: characters 33 to 126 other than the colon. *)
Definition legal_name (n : text) : bool := forallb (fun c => (33 <=? c) && (c <=? 126) && negb (c =? 58)) n.
(* Linear white space: space, tab, CR, LF. *)
Definition is_lws (c : N) : bool := existsb (N.eqb c) [32; 9; 13; 10].
Fixpoint trim (v : text) : text :=
  match v with
  | c :: t => if is_lws c then trim t else v
  | [] => []
  end.

(* The text of a value argument; Some None = NULL, None = not a valid pointer. *)
Definition hdenote (sp : header_lists) (v : harg) : option (option text) :=
  match v with
  | HNull => Some None
  | HStr s => if cstr_okb s then Some (Some s) else None
  | HValOf h i => match hlive sp h with
                  | Some l => match nth_error l i with Some p => Some (Some (snd p)) | None => None end
                  | None => None
                  end
  end.
(* the argument is the value that headers h store under name n *)
Definition own_header (sp : header_lists) (h : nat) (n : text) (v : harg) : bool :=
  match v with
  | HValOf h' i => (h' =? h)%nat &&
      match hlive sp h with
      | Some l => match nth_error l i with Some p => teq (fst p) n | None => false end
      | None => false
      end
  | _ => false
  end.

(* m = memory available *)
Definition hset (sp : header_lists) (h : nat) (l : list (text * text)) (m : bool) : hret * header_lists :=
  if m then (HRC HTTP_HEADERS_OK, upd sp h (Some l)) else (HRC HTTP_HEADERS_ERROR, sp).

(* None = a broken precondition: a freed handle, an invalid string pointer, or replacing a
   header by the very string stored for it. *)
Definition hsp_put (sp : header_lists) (h : option nat) (name : option text) (value : harg) (replace m : bool)
    : option (hret * header_lists) :=
  match h, name, value with
  | None, _, _ | _, None, _ | _, _, HNull => Some (HRC HTTP_HEADERS_INVALID_ARG, sp)
  | Some i, Some n, _ =>
      if negb (cstr_okb n) then None
      else if negb (legal_name n) then Some (HRC HTTP_HEADERS_INVALID_ARG, sp)
      else match hlive sp i, hdenote sp value with
           | Some l, Some (Some v) =>
               match lookup n l with
               | None => Some (hset sp i (l ++ [(n, trim v)]) m)
               | Some old =>
                   if replace then
                     if own_header sp i n value then None
                     else Some (hset sp i (replace_value n (trim v) l) m)
                   else Some (hset sp i (replace_value n (old ++ str ", " ++ trim v) l) m)
               end
           | _, _ => None
           end
  end.

Definition hsp_step (sp : header_lists) (op : hop) (m : bool) : option (hret * header_lists) :=
  match op with
  | HAlloc => Some (if m then (HRH (Some (length sp)), sp ++ [Some []]) else (HRH None, sp))
  | HFree None => Some (HRU, sp)
  | HFree (Some h) => match hlive sp h with Some _ => Some (HRU, upd sp h None) | None => None end
  | HAdd h n v => hsp_put sp h n v false m
  | HReplace h n v => hsp_put sp h n v true m
  | HFind (Some h) (Some n) =>
      if cstr_okb n then
        match hlive sp h with Some l => Some (HRS (lookup n l), sp) | None => None end
      else None
  | HFind _ _ => Some (HRS None, sp)
  | HCount None _ => Some (HRC HTTP_HEADERS_INVALID_ARG, sp)
  | HCount (Some h) out =>
      if negb out then Some (HRC HTTP_HEADERS_INVALID_ARG, sp)
      else match hlive sp h with Some l => Some (HRN (length l), sp) | None => None end
  | HGet None _ _ => Some (HRC HTTP_HEADERS_INVALID_ARG, sp)
  | HGet (Some h) i out =>
      if negb out then Some (HRC HTTP_HEADERS_INVALID_ARG, sp)
      else match hlive sp h with
           | Some l => match nth_error l i with
                       | None => Some (HRC HTTP_HEADERS_INVALID_ARG, sp)
                       | Some (n, v) => Some (if m then HRT (n ++ str ": " ++ v) else HRC HTTP_HEADERS_ERROR, sp)
                       end
           | None => None
           end
  | HClone None => Some (HRH None, sp)
  | HClone (Some h) =>
      match hlive sp h with
      | Some l => Some (if m then (HRH (Some (length sp)), sp ++ [Some l]) else (HRH None, sp))
      | None => None
      end
  end.

(* The two codes that can report a failure to allocate, taken as one. *)
Definition merge_codes (r : hret) : hret :=
  match r with HRC HTTP_HEADERS_ALLOC_FAILED => HRC HTTP_HEADERS_ERROR | _ => r end.
Definition hstep_merged (st : hstate) (op : hop) : M (hret * hstate) :=
  (x <- hstep st op ;; ret (merge_codes (fst x), snd x))%m.

(* Every live handle has a map of its own that represents its list. *)
Definition hrepresents (st : hstate) (sp : header_lists) : Prop :=
  exists ms, mrepresents (hmaps st) ms /\
  Forall2 (fun x y => match x, y with
    | Some m, Some l => mlive ms m = Some {| a_pairs := l; a_filter := None |} /\
                        Forall (fun p => legal_name (fst p) = true /\ trim (snd p) = snd p) l
    | None, None => True
    | _, _ => False
    end) (hdrs st) sp /\
  forall i j m, gethdr st i = Some m -> gethdr st j = Some m -> i = j.
