(* Specification of the Map module: an insertion-ordered finite map from texts to
   texts.  Slot i is the map of handle i (None once destroyed): its pairs in order
   and the filter in force. *)
From Verif Require Import Base Map_Model Strings_Spec.
Open Scope N_scope.

Record amap := { a_pairs : list (text * text); a_filter : option filter_fn }.
Definition amaps := list (option amap).

Definition mlive (sp : amaps) (h : nat) : option amap :=
  match nth_error sp h with Some (Some a) => Some a | _ => None end.

Definition teq (a b : text) : bool := if list_eq_dec N.eq_dec a b then true else false.

(* finite-map operations *)
Fixpoint lookup (k : text) (l : list (text * text)) : option text :=
  match l with
  | [] => None
  | (k', v) :: t => if teq k' k then Some v else lookup k t
  end.
Definition has_value (v : text) (l : list (text * text)) : bool := existsb (fun p => teq (snd p) v) l.
Definition remove (k : text) (l : list (text * text)) : list (text * text) :=
  filter (fun p => negb (teq (fst p) k)) l.
Definition replace_value (k v : text) (l : list (text * text)) : list (text * text) :=
  map (fun p => if teq (fst p) k then (fst p, v) else p) l.

Definition refused (a : amap) (k v : text) : bool :=
  match a_filter a with Some f => f k v | None => false end.

(* The text an argument denotes; Some None = NULL, None = an invalid pointer. *)
Definition mdenote (sp : amaps) (x : marg) : option (option text) :=
  match x with
  | MNull => Some None
  | MStr s => if cstr_okb s then Some (Some s) else None
  | MKeyOf h i => match mlive sp h with
                  | Some a => match nth_error (a_pairs a) i with
                              | Some p => Some (Some (fst p)) | None => None end
                  | None => None
                  end
  | MValOf h i => match mlive sp h with
                  | Some a => match nth_error (a_pairs a) i with
                              | Some p => Some (Some (snd p)) | None => None end
                  | None => None
                  end
  end.

(* the argument is the value string stored for key k in map h *)
Definition own_value (sp : amaps) (h : nat) (k : text) (x : marg) : bool :=
  match x with
  | MValOf h' i => (h' =? h)%nat &&
                   match mlive sp h with
                   | Some a => match nth_error (a_pairs a) i with
                               | Some p => teq (fst p) k | None => false end
                   | None => false
                   end
  | _ => false
  end.

Definition mput (sp : amaps) (h : nat) (a : amap) (l : list (text * text)) : amaps :=
  upd sp h (Some {| a_pairs := l; a_filter := a_filter a |}).

(* a new pair at the end; m = memory available.  When it is not, nothing is promised
   about a map that is empty and has a filter (the filter may be lost, see C29). *)
Definition minsert (sp : amaps) (h : nat) (a : amap) (k v : text) (m : bool) : option (mret * amaps) :=
  if m then Some (MRC MAP_OK, mput sp h a (a_pairs a ++ [(k, v)]))
  else match a_pairs a, a_filter a with
       | [], Some _ => None
       | _, _ => Some (MRC MAP_ERROR, sp)
       end.

(* the JSON object of a list of pairs *)
Fixpoint json_members_text (first : bool) (l : list (text * text)) : text :=
  match l with
  | [] => []
  | (k, v) :: t => (if first then [] else str ",") ++ json_literal k ++ str ":" ++ json_literal v
                   ++ json_members_text false t
  end.
Definition json_pairs (l : list (text * text)) : text := str "{" ++ json_members_text true l ++ str "}".
Definition ascii_pairs (l : list (text * text)) : bool :=
  forallb (fun p => ascii_text (fst p) && ascii_text (snd p)) l.

(* None = the call breaks a precondition (destroyed handle, invalid string pointer,
   updating a key with the map's own string for that key), or nothing is promised.
   Emptying a map by Map_Delete, and cloning an empty map, drop the filter: that is
   what the code does, see C29. *)
Definition msp_step (sp : amaps) (op : mop) (m : bool) : option (mret * amaps) :=
  match op with
  | MCreate f =>
      Some (if m then (MRH (Some (length sp)), sp ++ [Some {| a_pairs := []; a_filter := f |}])
            else (MRH None, sp))
  | MDestroy None => Some (MRU, sp)
  | MDestroy (Some h) => match mlive sp h with Some _ => Some (MRU, upd sp h None) | None => None end
  | MClone None => Some (MRH None, sp)
  | MClone (Some h) =>
      match mlive sp h with
      | Some a =>
          Some (if m then (MRH (Some (length sp)),
                           sp ++ [Some {| a_pairs := a_pairs a;
                                          a_filter := match a_pairs a with [] => None | _ => a_filter a end |}])
                else (MRH None, sp))
      | None => None
      end
  | MAdd None _ _ => Some (MRC MAP_INVALIDARG, sp)
  | MAdd (Some h) k v =>
      if mnull k || mnull v then Some (MRC MAP_INVALIDARG, sp) else
      match mlive sp h, mdenote sp k, mdenote sp v with
      | Some a, Some (Some kt), Some (Some vt) =>
          match lookup kt (a_pairs a) with
          | Some _ => Some (MRC MAP_KEYEXISTS, sp)
          | None => if refused a kt vt then Some (MRC MAP_FILTER_REJECT, sp)
                    else minsert sp h a kt vt m
          end
      | _, _, _ => None
      end
  | MAddOrUpdate None _ _ => Some (MRC MAP_INVALIDARG, sp)
  | MAddOrUpdate (Some h) k v =>
      if mnull k || mnull v then Some (MRC MAP_INVALIDARG, sp) else
      match mlive sp h, mdenote sp k, mdenote sp v with
      | Some a, Some (Some kt), Some (Some vt) =>
          if refused a kt vt then Some (MRC MAP_FILTER_REJECT, sp)
          else match lookup kt (a_pairs a) with
               | None => minsert sp h a kt vt m
               | Some _ => if own_value sp h kt v then None
                           else if m then Some (MRC MAP_OK, mput sp h a (replace_value kt vt (a_pairs a)))
                           else Some (MRC MAP_ERROR, sp)
               end
      | _, _, _ => None
      end
  | MDelete None _ => Some (MRC MAP_INVALIDARG, sp)
  | MDelete (Some h) k =>
      if mnull k then Some (MRC MAP_INVALIDARG, sp) else
      match mlive sp h, mdenote sp k with
      | Some a, Some (Some kt) =>
          match lookup kt (a_pairs a) with
          | None => Some (MRC MAP_KEYNOTFOUND, sp)
          | Some _ =>
              let l := remove kt (a_pairs a) in
              Some (MRC MAP_OK, upd sp h (Some {| a_pairs := l;
                                                  a_filter := match l with [] => None | _ => a_filter a end |}))
          end
      | _, _ => None
      end
  | MContainsKey None _ _ => Some (MRC MAP_INVALIDARG, sp)
  | MContainsKey (Some h) k out =>
      if mnull k || negb out then Some (MRC MAP_INVALIDARG, sp) else
      match mlive sp h, mdenote sp k with
      | Some a, Some (Some kt) =>
          Some (MRB (match lookup kt (a_pairs a) with Some _ => true | None => false end), sp)
      | _, _ => None
      end
  | MContainsValue None _ _ => Some (MRC MAP_INVALIDARG, sp)
  | MContainsValue (Some h) v out =>
      if mnull v || negb out then Some (MRC MAP_INVALIDARG, sp) else
      match mlive sp h, mdenote sp v with
      | Some a, Some (Some vt) => Some (MRB (has_value vt (a_pairs a)), sp)
      | _, _ => None
      end
  | MGetValue None _ => Some (MRS None, sp)
  | MGetValue (Some h) k =>
      if mnull k then Some (MRS None, sp) else
      match mlive sp h, mdenote sp k with
      | Some a, Some (Some kt) => Some (MRS (lookup kt (a_pairs a)), sp)
      | _, _ => None
      end
  | MGetInternals None _ => Some (MRC MAP_INVALIDARG, sp)
  | MGetInternals (Some h) out =>
      if negb out then Some (MRC MAP_INVALIDARG, sp) else
      match mlive sp h with
      | Some a => Some (MRI (map fst (a_pairs a)) (map snd (a_pairs a)), sp)
      | None => None
      end
  | MToJSON None => Some (MRS None, sp)
  | MToJSON (Some h) =>
      match mlive sp h with
      | Some a => Some (MRS (if ascii_pairs (a_pairs a) && m then Some (json_pairs (a_pairs a)) else None), sp)
      | None => None
      end
  end.

(* An array holding the strings l: NULL when there are none, otherwise a block whose
   first entries are those strings (a failed shrink may leave room behind them). *)
Definition holds (a : arr) (l : list text) : Prop :=
  match l with
  | [] => a = None
  | _ => exists room, a = Some (map EStr l ++ room)
  end.

(* A map with distinct keys whose two arrays hold its keys and its values. *)
Definition mwf (m : MAP) (a : amap) : Prop :=
  mcount m = length (a_pairs a) /\ mapFilterCallback m = a_filter a /\
  holds (keys m) (map fst (a_pairs a)) /\ holds (values m) (map snd (a_pairs a)) /\
  NoDup (map fst (a_pairs a)) /\
  Forall (fun p => cstr_ok (fst p) /\ cstr_ok (snd p)) (a_pairs a).

Definition mrepresents (st : maps) (sp : amaps) : Prop :=
  Forall2 (fun x y => match x, y with
                      | Some m, Some a => mwf m a
                      | None, None => True
                      | _, _ => False
                      end) st sp.
