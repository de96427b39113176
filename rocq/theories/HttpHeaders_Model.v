(* Model of src/httpheaders.c over the model of src/map.c.  A HTTP_HEADERS_HANDLE_DATA is
   the handle of its map; slots are None once freed.  The maps have no other user. *)
From Verif Require Import Base Map_Model.
Open Scope N_scope.

Record hstate := { hmaps : maps; hdrs : list (option nat) }.

Inductive hresult := HTTP_HEADERS_OK | HTTP_HEADERS_INVALID_ARG | HTTP_HEADERS_ALLOC_FAILED | HTTP_HEADERS_ERROR.

(* a value argument: NULL, a string elsewhere, or the value string that headers h store at
   position i (as HTTPHeaders_FindHeaderValue returns it) *)
Inductive harg := HNull | HStr (s : text) | HValOf (h i : nat).

Inductive hret :=
| HRH (h : option nat)                      (* HTTP_HEADERS_HANDLE *)
| HRC (c : hresult)                         (* HTTP_HEADERS_RESULT *)
| HRS (s : option text)                     (* const char* *)
| HRN (n : nat)                             (* HTTP_HEADERS_OK and the count *)
| HRT (s : text)                            (* HTTP_HEADERS_OK and the string at *destination *)
| HRU.

Inductive hop :=
| HAlloc
| HFree (h : option nat)
| HAdd (h : option nat) (name : option text) (value : harg)
| HReplace (h : option nat) (name : option text) (value : harg)
| HFind (h : option nat) (name : option text)
| HCount (h : option nat) (out : bool)      (* out: result pointer non-NULL *)
| HGet (h : option nat) (i : nat) (out : bool)
| HClone (h : option nat).

Definition gethdr (st : hstate) (h : nat) : option nat :=
  match nth_error (hdrs st) h with Some (Some m) => Some m | _ => None end.
Definition hpush (st : hstate) (mp : maps) (m : nat) : hret * hstate :=
  (HRH (Some (length (hdrs st))), {| hmaps := mp; hdrs := hdrs st ++ [Some m] |}).
Definition with_maps (st : hstate) (mp : maps) : hstate := {| hmaps := mp; hdrs := hdrs st |}.

(* httpheaders.c:29-57 HTTPHeaders_Alloc *)
Definition HTTPHeaders_Alloc (st : hstate) : M (hret * hstate) :=
  (ok <- alloc ;;
   if negb ok then ret (HRH None, st)
   else x <- Map_Create (hmaps st) None ;;
        ret (match fst x with
             | MRH (Some m) => hpush st (snd x) m
             | _ => (HRH None, with_maps st (snd x))
             end))%m.

(* httpheaders.c:60-75 HTTPHeaders_Free *)
Definition HTTPHeaders_Free (st : hstate) (h : option nat) : M (hret * hstate) :=
  match h with
  | None => ret (HRU, st)
  | Some i => (m <- lift (gethdr st i) ;;
               x <- Map_Destroy (hmaps st) (Some m) ;;
               ret (HRU, {| hmaps := snd x; hdrs := upd (hdrs st) i None |}))%m
  end.

(* httpheaders.c:97-103: one character of a name passes; char may be signed or not *)
Definition name_char (c : N) : bool := negb ((c <? 33) || (126 <? c) || (c =? ch ":")).

(* httpheaders.c:116-119 *)
Definition lws (c : N) : bool := (c =? 32) || (c =? 9) || (c =? 13) || (c =? 10).
Fixpoint skip_lws (s : text) : text :=
  match s with
  | c :: t => if lws c then skip_lws t else s
  | [] => []
  end.

(* strcpy(dst + i, s) where dst + i is the start or the terminator already there *)
Definition strcpy_at (b : block) (i : nat) (s : text) : option block := store_all b i (s ++ [0]).
(* the C string in a block; None when a byte before its end was never written *)
Fixpoint cells_text (b : block) : option text :=
  match b with
  | Some c :: t => if c =? 0 then Some [] else option_map (cons c) (cells_text t)
  | _ => None
  end.
(* httpheaders.c:123,133-135 and 278,289-291: malloc(strlen(a) + strlen(sep) + strlen(b) + 1),
   strcpy, strcat, strcat *)
Definition join3 (a sep b : text) : option text :=
  match strcpy_at (fresh (length a + length sep + length b + 1)) 0 a with
  | None => None
  | Some b1 =>
      match strcpy_at b1 (length a) sep with
      | None => None
      | Some b2 =>
          match strcpy_at b2 (length a + length sep) b with
          | None => None
          | Some b3 => cells_text b3
          end
      end
  end.

(* the text of a value argument, and the pointer handed on to the map *)
Definition read_harg (st : hstate) (v : harg) : option (option (text * marg)) :=
  match v with
  | HNull => Some None
  | HStr s => if cstr_okb s then Some (Some (s, MStr s)) else None
  | HValOf h i => match gethdr st h with
                  | Some m => match read_marg (hmaps st) (MValOf m i) with
                              | Some (Some s) => Some (Some (s, MValOf m i))
                              | _ => None
                              end
                  | None => None
                  end
  end.
(* value++ of line 118: the same pointer when nothing is skipped; a pointer into the
   middle of a stored value is not represented (undefined; it never arises because
   stored values do not begin with white space) *)
Definition skipped (s : text) (a : marg) : option marg :=
  match a with
  | MStr _ => Some (MStr (skip_lws s))
  | _ => if (length (skip_lws s) =? length s)%nat then Some a else None
  end.

Definition map_ok (r : mret) : bool := match r with MRC MAP_OK => true | _ => false end.

(* httpheaders.c:78-170 headers_ReplaceHeaderNameValuePair *)
Definition headers_ReplaceHeaderNameValuePair (st : hstate) (h : option nat) (name : option text) (value : harg)
    (replace : bool) : M (hret * hstate) :=
  match h, name, value with
  | None, _, _ | _, None, _ | _, _, HNull => ret (HRC HTTP_HEADERS_INVALID_ARG, st)
  | Some i, Some nt, _ =>
      if negb (cstr_okb nt) then undef
      else if negb (forallb name_char nt) then ret (HRC HTTP_HEADERS_INVALID_ARG, st)
      else
        (m <- lift (gethdr st i) ;;
         e <- Map_GetValueFromKey (hmaps st) (Some m) (MStr nt) ;;
         va <- lift (read_harg st value) ;;
         match va with
         | None => undef
         | Some (vt, arg) =>
             arg' <- lift (skipped vt arg) ;;
             match negb replace, fst e with
             | true, MRS (Some old) =>
                 ok <- alloc ;;
                 if negb ok then ret (HRC HTTP_HEADERS_ALLOC_FAILED, st)
                 else
                   nv <- lift (join3 old (str ", ") (skip_lws vt)) ;;
                   x <- Map_AddOrUpdate (hmaps st) (Some m) (MStr nt) (MStr nv) ;;
                   ret (HRC (if map_ok (fst x) then HTTP_HEADERS_OK else HTTP_HEADERS_ERROR), with_maps st (snd x))
             | _, _ =>
                 x <- Map_AddOrUpdate (hmaps st) (Some m) (MStr nt) arg' ;;
                 ret (HRC (if map_ok (fst x) then HTTP_HEADERS_OK else HTTP_HEADERS_ALLOC_FAILED), with_maps st (snd x))
             end
         end)%m
  end.

(* httpheaders.c:172-175 *)
Definition HTTPHeaders_AddHeaderNameValuePair st h n v := headers_ReplaceHeaderNameValuePair st h n v false.
(* httpheaders.c:178-181 *)
Definition HTTPHeaders_ReplaceHeaderNameValuePair st h n v := headers_ReplaceHeaderNameValuePair st h n v true.

(* httpheaders.c:184-205 HTTPHeaders_FindHeaderValue *)
Definition HTTPHeaders_FindHeaderValue (st : hstate) (h : option nat) (name : option text) : M (hret * hstate) :=
  match h, name with
  | Some i, Some nt => (m <- lift (gethdr st i) ;;
                        e <- Map_GetValueFromKey (hmaps st) (Some m) (MStr nt) ;;
                        ret (HRS (match fst e with MRS s => s | _ => None end), st))%m
  | _, _ => ret (HRS None, st)
  end.

(* httpheaders.c:207-238 HTTPHeaders_GetHeaderCount *)
Definition HTTPHeaders_GetHeaderCount (st : hstate) (h : option nat) (out : bool) : M (hret * hstate) :=
  match h with
  | Some i => if negb out then ret (HRC HTTP_HEADERS_INVALID_ARG, st)
              else (m <- lift (gethdr st i) ;;
                    x <- Map_GetInternals (hmaps st) (Some m) true ;;
                    ret (match fst x with MRI ks _ => HRN (length ks) | _ => HRC HTTP_HEADERS_ERROR end, st))%m
  | None => ret (HRC HTTP_HEADERS_INVALID_ARG, st)
  end.

(* httpheaders.c:241-300 HTTPHeaders_GetHeader *)
Definition HTTPHeaders_GetHeader (st : hstate) (h : option nat) (index : nat) (out : bool) : M (hret * hstate) :=
  match h with
  | Some i =>
      if negb out then ret (HRC HTTP_HEADERS_INVALID_ARG, st)
      else (m <- lift (gethdr st i) ;;
            x <- Map_GetInternals (hmaps st) (Some m) true ;;
            match fst x with
            | MRI ks vs =>
                if (length ks <=? index)%nat then ret (HRC HTTP_HEADERS_INVALID_ARG, st)
                else
                  ok <- alloc ;;
                  if negb ok then ret (HRC HTTP_HEADERS_ERROR, st)
                  else
                    k <- lift (nth_error ks index) ;;
                    v <- lift (nth_error vs index) ;;
                    t <- lift (join3 k (str ": ") v) ;;
                    ret (HRT t, st)
            | _ => ret (HRC HTTP_HEADERS_ERROR, st)
            end)%m
  | None => ret (HRC HTTP_HEADERS_INVALID_ARG, st)
  end.

(* httpheaders.c:302-335 HTTPHeaders_Clone *)
Definition HTTPHeaders_Clone (st : hstate) (h : option nat) : M (hret * hstate) :=
  match h with
  | None => ret (HRH None, st)
  | Some i => (ok <- alloc ;;
               if negb ok then ret (HRH None, st)
               else
                 m <- lift (gethdr st i) ;;
                 x <- Map_Clone (hmaps st) (Some m) ;;
                 ret (match fst x with
                      | MRH (Some c) => hpush st (snd x) c
                      | _ => (HRH None, with_maps st (snd x))
                      end))%m
  end.

Definition hstep (st : hstate) (op : hop) : M (hret * hstate) :=
  match op with
  | HAlloc => HTTPHeaders_Alloc st
  | HFree h => HTTPHeaders_Free st h
  | HAdd h n v => HTTPHeaders_AddHeaderNameValuePair st h n v
  | HReplace h n v => HTTPHeaders_ReplaceHeaderNameValuePair st h n v
  | HFind h n => HTTPHeaders_FindHeaderValue st h n
  | HCount h out => HTTPHeaders_GetHeaderCount st h out
  | HGet h i out => HTTPHeaders_GetHeader st h i out
  | HClone h => HTTPHeaders_Clone st h
  end.
