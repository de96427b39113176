(* Model of src/constmap.c (one thread; the interleavings of threads are in
   Refcount_Model.v) over the model of src/map.c.  The maps a CONSTMAP holds live in
   the same heap as the client's; the client has no handle to them, so a Map call that
   would change one of them is not a call a client can make (undefined). *)
From Verif Require Import Base Map_Model Refcount_Model.
Open Scope N_scope.

(* constmap.c:17-22 with the counter of refcount.h:44-49 *)
Record CONSTMAP := { cm_map : nat; cm_count : N }.
Record cmstate := { mps : maps; cms : list (option CONSTMAP) }.

Inductive cmresult := CONSTMAP_OK | CONSTMAP_ERROR | CONSTMAP_INVALIDARG | CONSTMAP_KEYNOTFOUND.

Inductive cmret :=
| CMH (h : option nat)                      (* CONSTMAP_HANDLE *)
| CMM (h : option nat)                      (* MAP_HANDLE *)
| CMB (b : bool)
| CMS (s : option text)
| CMI (ks vs : list text)                   (* CONSTMAP_OK and the arrays *)
| CMC (c : cmresult)
| CMU
| CMR (r : mret).                           (* result of a Map call *)

Inductive cmop :=
| CMCreate (h : option nat)
| CMDestroy (h : option nat)
| CMClone (h : option nat)
| CMCloneWriteable (h : option nat)
| CMContainsKey (h : option nat) (k : marg)
| CMContainsValue (h : option nat) (v : marg)
| CMGetValue (h : option nat) (k : marg)
| CMGetInternals (h : option nat) (out : bool)
| CMMap (op : mop).

Definition getcm (st : cmstate) (h : nat) : option CONSTMAP :=
  match nth_error (cms st) h with Some (Some c) => Some c | _ => None end.
Definition with_cms (st : cmstate) (l : list (option CONSTMAP)) : cmstate := {| mps := mps st; cms := l |}.

(* constmap.c:26-50 ConstMap_Create *)
Definition ConstMap_Create (st : cmstate) (h : option nat) : M (cmret * cmstate) :=
  (ok <- alloc ;;
   if negb ok then ret (CMH None, st)
   else
     x <- Map_Clone (mps st) h ;;
     ret (match fst x with
          | MRH (Some m) => (CMH (Some (length (cms st))),
                             {| mps := snd x; cms := cms st ++ [Some {| cm_map := m; cm_count := 1 |}] |})
          | _ => (CMH None, {| mps := snd x; cms := cms st |})
          end))%m.

(* constmap.c:52-70 ConstMap_Destroy *)
Definition ConstMap_Destroy (a : atomics) (st : cmstate) (h : option nat) : M (cmret * cmstate) :=
  match h with
  | None => ret (CMU, st)
  | Some i => (c <- lift (getcm st i) ;;
               if dec_hits_zero a (cm_count c)
               then x <- Map_Destroy (mps st) (Some (cm_map c)) ;;
                    ret (CMU, {| mps := snd x; cms := upd (cms st) i None |})
               else ret (CMU, with_cms st (upd (cms st) i (Some {| cm_map := cm_map c; cm_count := dec_ref (cm_count c) |}))))%m
  end.

(* constmap.c:72-86 ConstMap_Clone *)
Definition ConstMap_Clone (st : cmstate) (h : option nat) : M (cmret * cmstate) :=
  match h with
  | None => ret (CMH None, st)
  | Some i => (c <- lift (getcm st i) ;;
               ret (CMH (Some i), with_cms st (upd (cms st) i (Some {| cm_map := cm_map c; cm_count := inc_ref (cm_count c) |}))))%m
  end.

(* constmap.c:88-107 ConstMap_ErrorConvert *)
Definition ConstMap_ErrorConvert (r : mresult) : cmresult :=
  match r with
  | MAP_OK => CONSTMAP_OK
  | MAP_INVALIDARG => CONSTMAP_INVALIDARG
  | MAP_KEYNOTFOUND => CONSTMAP_KEYNOTFOUND
  | _ => CONSTMAP_ERROR
  end.

(* constmap.c:109-125 ConstMap_CloneWriteable *)
Definition ConstMap_CloneWriteable (st : cmstate) (h : option nat) : M (cmret * cmstate) :=
  match h with
  | None => ret (CMM None, st)
  | Some i => (c <- lift (getcm st i) ;;
               x <- Map_Clone (mps st) (Some (cm_map c)) ;;
               ret (CMM (match fst x with MRH m => m | _ => None end), {| mps := snd x; cms := cms st |}))%m
  end.

(* constmap.c:127-154 ConstMap_ContainsKey *)
Definition ConstMap_ContainsKey (st : cmstate) (h : option nat) (k : marg) : M (cmret * cmstate) :=
  match h with
  | None => ret (CMB false, st)
  | Some i =>
      if mnull k then ret (CMB false, st) else
      (c <- lift (getcm st i) ;;
       x <- Map_ContainsKey (mps st) (Some (cm_map c)) k true ;;
       ret (CMB (match fst x with MRB b => b | _ => false end), st))%m
  end.

(* constmap.c:156-182 ConstMap_ContainsValue *)
Definition ConstMap_ContainsValue (st : cmstate) (h : option nat) (v : marg) : M (cmret * cmstate) :=
  match h with
  | None => ret (CMB false, st)
  | Some i =>
      if mnull v then ret (CMB false, st) else
      (c <- lift (getcm st i) ;;
       x <- Map_ContainsValue (mps st) (Some (cm_map c)) v true ;;
       ret (CMB (match fst x with MRB b => b | _ => false end), st))%m
  end.

(* constmap.c:184-208 ConstMap_GetValue *)
Definition ConstMap_GetValue (st : cmstate) (h : option nat) (k : marg) : M (cmret * cmstate) :=
  match h with
  | None => ret (CMS None, st)
  | Some i =>
      if mnull k then ret (CMS None, st) else
      (c <- lift (getcm st i) ;;
       x <- Map_GetValueFromKey (mps st) (Some (cm_map c)) k ;;
       ret (CMS (match fst x with MRS s => s | _ => None end), st))%m
  end.

(* constmap.c:210-229 ConstMap_GetInternals, and the client reading the arrays *)
Definition ConstMap_GetInternals (st : cmstate) (h : option nat) (out : bool) : M (cmret * cmstate) :=
  match h with
  | None => ret (CMC CONSTMAP_INVALIDARG, st)
  | Some i =>
      (c <- lift (getcm st i) ;;
       x <- Map_GetInternals (mps st) (Some (cm_map c)) out ;;
       ret (match fst x with
            | MRI ks vs => CMI ks vs
            | MRC e => CMC (ConstMap_ErrorConvert e)
            | _ => CMC CONSTMAP_ERROR
            end, st))%m
  end.

(* the map a Map call changes *)
Definition map_changed (op : mop) : option nat :=
  match op with
  | MDestroy h | MAdd h _ _ | MAddOrUpdate h _ _ | MDelete h _ => h
  | _ => None
  end.
(* the map held by a CONSTMAP *)
Definition held (st : cmstate) (h : nat) : bool :=
  existsb (fun x => match x with Some c => (cm_map c =? h)%nat | None => false end) (cms st).

Definition cmstep (a : atomics) (st : cmstate) (op : cmop) : M (cmret * cmstate) :=
  match op with
  | CMCreate h => ConstMap_Create st h
  | CMDestroy h => ConstMap_Destroy a st h
  | CMClone h => ConstMap_Clone st h
  | CMCloneWriteable h => ConstMap_CloneWriteable st h
  | CMContainsKey h k => ConstMap_ContainsKey st h k
  | CMContainsValue h v => ConstMap_ContainsValue st h v
  | CMGetValue h k => ConstMap_GetValue st h k
  | CMGetInternals h out => ConstMap_GetInternals st h out
  | CMMap op =>
      match map_changed op with
      | Some h => if held st h then undef
                  else (x <- mstep (mps st) op ;; ret (CMR (fst x), {| mps := snd x; cms := cms st |}))%m
      | None => (x <- mstep (mps st) op ;; ret (CMR (fst x), {| mps := snd x; cms := cms st |}))%m
      end
  end.
