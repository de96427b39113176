(* Model of src/map.c.  The heap of maps is a list of slots (None once destroyed).  A
   char** array is NULL or a list of entries as long as the block (its capacity may
   exceed count after a shrink that failed); an entry is a pointer: never written,
   NULL, to a string, or to a freed string.  Sizes do not overflow (8 * count bytes
   are already in memory).  The filter callback is a pure function of the two texts;
   true = it returns non-zero (reject). *)
From Verif Require Import Base Strings_Model.
Open Scope N_scope.

Definition text := list N.
Inductive entry := EUninit | ENull | EStr (s : text) | EDead.
Definition arr := option (list entry).
Definition filter_fn := text -> text -> bool.

(* map.c:16-22 *)
Record MAP := { keys : arr; values : arr; mcount : nat; mapFilterCallback : option filter_fn }.
Definition maps := list (option MAP).

(* A const char* argument: NULL, a string elsewhere, or the key / value string stored
   at position i of map h. *)
Inductive marg := MNull | MStr (s : text) | MKeyOf (h i : nat) | MValOf (h i : nat).

Inductive mresult := MAP_OK | MAP_ERROR | MAP_INVALIDARG | MAP_KEYEXISTS | MAP_KEYNOTFOUND | MAP_FILTER_REJECT.

Inductive mret :=
| MRH (h : option nat)                      (* MAP_HANDLE *)
| MRC (c : mresult)                         (* MAP_RESULT *)
| MRB (b : bool)                            (* MAP_OK and the bool written *)
| MRS (s : option text)                     (* const char* or the text of a STRING_HANDLE *)
| MRI (ks vs : list text)                   (* MAP_OK and the arrays (count entries each) *)
| MRU.                                      (* void *)

Inductive mop :=
| MCreate (f : option filter_fn)
| MDestroy (h : option nat)
| MClone (h : option nat)
| MAdd (h : option nat) (k v : marg)
| MAddOrUpdate (h : option nat) (k v : marg)
| MDelete (h : option nat) (k : marg)
| MContainsKey (h : option nat) (k : marg) (out : bool)     (* out: result pointer non-NULL *)
| MContainsValue (h : option nat) (v : marg) (out : bool)
| MGetValue (h : option nat) (k : marg)
| MGetInternals (h : option nat) (out : bool)
| MToJSON (h : option nat).

Definition mnull (a : marg) : bool := match a with MNull => true | _ => false end.

Definition getmap (st : maps) (h : nat) : option MAP :=
  match nth_error st h with Some (Some m) => Some m | _ => None end.
Definition setmap (st : maps) (h : nat) (m : MAP) : maps := upd st h (Some m).

(* the string at position i of an array; None = undefined *)
Definition get_str (a : arr) (i : nat) : option text :=
  match a with
  | Some l => match nth_error l i with Some (EStr s) => Some s | _ => None end
  | None => None
  end.
(* writing a pointer at position i; None = out of bounds *)
Definition set_entry (a : arr) (i : nat) (e : entry) : option arr :=
  match a with
  | Some l => if (i <? length l)%nat then Some (Some (upd l i e)) else None
  | None => None
  end.
(* free of the string at position i; free(NULL) is allowed *)
Definition free_entry (a : arr) (i : nat) : option arr :=
  match a with
  | Some l => match nth_error l i with
              | Some (EStr _) => Some (Some (upd l i EDead))
              | Some ENull => Some a
              | _ => None
              end
  | None => None
  end.
(* realloc of an array to n > 0 pointers, when it succeeds *)
Definition grow (a : arr) (n : nat) : arr :=
  let l := match a with Some l => l | None => [] end in
  Some (firstn n l ++ repeat EUninit (n - length l)).

(* the text at an argument; None = not a valid pointer to a C string *)
Definition read_marg (st : maps) (a : marg) : option (option text) :=
  match a with
  | MNull => Some None
  | MStr s => if cstr_okb s then Some (Some s) else None
  | MKeyOf h i => match getmap st h with
                  | Some m => if (i <? mcount m)%nat
                              then match get_str (keys m) i with Some s => Some (Some s) | None => None end
                              else None
                  | None => None
                  end
  | MValOf h i => match getmap st h with
                  | Some m => if (i <? mcount m)%nat
                              then match get_str (values m) i with Some s => Some (Some s) | None => None end
                              else None
                  | None => None
                  end
  end.

(* map.c:26-40 Map_Create *)
Definition Map_Create (st : maps) (f : option filter_fn) : M (mret * maps) :=
  (ok <- alloc ;;
   ret (if ok then (MRH (Some (length st)),
                    st ++ [Some {| keys := None; values := None; mcount := 0; mapFilterCallback := f |}])
        else (MRH None, st)))%m.

(* map.c:51-55: the loop from position i with n iterations left *)
Fixpoint free_all (ks vs : arr) (i n : nat) : option unit :=
  match n with
  | O => Some tt
  | S n' => match free_entry ks i, free_entry vs i with
            | Some ks', Some vs' => free_all ks' vs' (S i) n'
            | _, _ => None
            end
  end.
(* map.c:42-60 Map_Destroy *)
Definition Map_Destroy (st : maps) (h : option nat) : M (mret * maps) :=
  match h with
  | None => ret (MRU, st)
  | Some i => (m <- lift (getmap st i) ;;
               _ <- lift (free_all (keys m) (values m) 0 (mcount m)) ;;
               ret (MRU, upd st i None))%m
  end.

(* map.c:75-81: cloning the strings from position i, n left; None when one malloc
   fails (the strings made so far and the array are freed again, lines 90-95) *)
Fixpoint clone_strings (a : arr) (i n : nat) : M (option (list entry)) :=
  match n with
  | O => ret (Some [])
  | S n' => (s <- lift (get_str a i) ;;
             ok <- alloc ;;
             if ok then
               r <- clone_strings a (S i) n' ;;
               ret (match r with Some l => Some (EStr s :: l) | None => None end)
             else ret None)%m
  end.
(* map.c:64-99 Map_CloneVector *)
Definition Map_CloneVector (a : arr) (n : nat) : M arr :=
  (ok <- alloc ;; if ok then clone_strings a 0 n else ret None)%m.

(* map.c:102-162 Map_Clone *)
Definition Map_Clone (st : maps) (h : option nat) : M (mret * maps) :=
  match h with
  | None => ret (MRH None, st)
  | Some i =>
      (m <- lift (getmap st i) ;;
       ok <- alloc ;;
       if ok then
         if (mcount m =? 0)%nat then
           ret (MRH (Some (length st)),
                st ++ [Some {| keys := None; values := None; mcount := 0; mapFilterCallback := None |}])
         else
           ks <- Map_CloneVector (keys m) (mcount m) ;;
           match ks with
           | None => ret (MRH None, st)
           | Some _ =>
               vs <- Map_CloneVector (values m) (mcount m) ;;
               match vs with
               | None => ret (MRH None, st)
               | Some _ =>
                   ret (MRH (Some (length st)),
                        st ++ [Some {| keys := ks; values := vs; mcount := mcount m;
                                       mapFilterCallback := mapFilterCallback m |}])
               end
           end
       else ret (MRH None, st))%m
  end.

Definition with_arrays (m : MAP) (ks vs : arr) (n : nat) : MAP :=
  {| keys := ks; values := vs; mcount := n; mapFilterCallback := mapFilterCallback m |}.

(* map.c:164-210 Map_IncreaseStorageKeysValues; true = 0 *)
Definition Map_IncreaseStorageKeysValues (m : MAP) : M (bool * MAP) :=
  (ok1 <- alloc ;;
   if negb ok1 then ret (false, m)
   else
     nk <- lift (set_entry (grow (keys m) (mcount m + 1)) (mcount m) ENull) ;;
     ok2 <- alloc ;;
     if negb ok2 then
       if (mcount m =? 0)%nat then ret (false, with_arrays m None (values m) (mcount m))
       else ok3 <- alloc ;;
            ret (false, with_arrays m (if (ok3 : bool) then grow nk (mcount m) else nk) (values m) (mcount m))
     else
       nv <- lift (set_entry (grow (values m) (mcount m + 1)) (mcount m) ENull) ;;
       ret (true, with_arrays m nk nv (mcount m + 1)))%m.

(* map.c:212-249 Map_DecreaseStorageKeysValues: with one pair left also the filter
   callback is reset *)
Definition Map_DecreaseStorageKeysValues (m : MAP) : M MAP :=
  (if (mcount m =? 1)%nat then
     ret {| keys := None; values := None; mcount := 0; mapFilterCallback := None |}
   else
     ok1 <- alloc ;;
     ok2 <- alloc ;;
     ret (with_arrays m (if (ok1 : bool) then grow (keys m) (mcount m - 1) else keys m)
                        (if (ok2 : bool) then grow (values m) (mcount m - 1) else values m)
                        (mcount m - 1)))%m.

(* map.c:262-269 / 285-292: the search loop; None = undefined, Some None = not found *)
Fixpoint find_from (a : arr) (s : text) (i n : nat) : option (option nat) :=
  match n with
  | O => Some None
  | S n' => match get_str a i with
            | None => None
            | Some k => if (strcmp k s =? 0)%Z then Some (Some i) else find_from a s (S i) n'
            end
  end.
(* map.c:251-272 findKey, 274-295 findValue: the position *)
Definition findKey (m : MAP) (k : text) : option (option nat) :=
  match keys m with None => Some None | Some _ => find_from (keys m) k 0 (mcount m) end.
Definition findValue (m : MAP) (v : text) : option (option nat) :=
  match values m with None => Some None | Some _ => find_from (values m) v 0 (mcount m) end.

(* crt_abstractions.c:255-291 mallocAndStrcpy_s into entry i of an array *)
Definition store_copy (a : arr) (i : nat) (s : text) : M (bool * arr) :=
  (ok <- alloc ;;
   a' <- lift (set_entry a i (if (ok : bool) then EStr s else ENull)) ;;
   ret (ok, a'))%m.

(* map.c:297-328 insertNewKeyValue; true = 0 *)
Definition insertNewKeyValue (m : MAP) (k v : text) : M (bool * MAP) :=
  (x <- Map_IncreaseStorageKeysValues m ;;
   let m1 := snd x in
   if negb (fst x) then ret (false, m1)
   else
     y <- store_copy (keys m1) (mcount m1 - 1) k ;;
     let m2 := with_arrays m1 (snd y) (values m1) (mcount m1) in
     if negb (fst y) then m3 <- Map_DecreaseStorageKeysValues m2 ;; ret (false, m3)
     else
       z <- store_copy (values m2) (mcount m2 - 1) v ;;
       let m3 := with_arrays m2 (keys m2) (snd z) (mcount m2) in
       if negb (fst z) then
         fk <- lift (free_entry (keys m3) (mcount m3 - 1)) ;;
         m4 <- Map_DecreaseStorageKeysValues (with_arrays m3 fk (values m3) (mcount m3)) ;;
         ret (false, m4)
       else ret (true, m3))%m.

Definition rejects (m : MAP) (k v : text) : bool :=
  match mapFilterCallback m with Some f => f k v | None => false end.

(* map.c:330-378 Map_Add *)
Definition Map_Add (st : maps) (h : option nat) (k v : marg) : M (mret * maps) :=
  match h with
  | None => ret (MRC MAP_INVALIDARG, st)
  | Some i =>
      if mnull k || mnull v then ret (MRC MAP_INVALIDARG, st) else
      (m <- lift (getmap st i) ;;
       ks <- lift (read_marg st k) ;;
       vs <- lift (read_marg st v) ;;
       match ks, vs with
       | Some kt, Some vt =>
           w <- lift (findKey m kt) ;;
           match w with
           | Some _ => ret (MRC MAP_KEYEXISTS, st)
           | None =>
               if rejects m kt vt then ret (MRC MAP_FILTER_REJECT, st)
               else x <- insertNewKeyValue m kt vt ;;
                    ret (MRC (if fst x then MAP_OK else MAP_ERROR), setmap st i (snd x))
           end
       | _, _ => undef
       end)%m
  end.

(* whether an argument is the value string at position j of map i *)
Definition is_value_at (a : marg) (i j : nat) : bool :=
  match a with MValOf h k => (h =? i)%nat && (k =? j)%nat | _ => false end.

(* map.c:380-443 Map_AddOrUpdate.  realloc (line 426) may move the value string: the
   memcpy of line 434 from an argument that is this very string is undefined *)
Definition Map_AddOrUpdate (st : maps) (h : option nat) (k v : marg) : M (mret * maps) :=
  match h with
  | None => ret (MRC MAP_INVALIDARG, st)
  | Some i =>
      if mnull k || mnull v then ret (MRC MAP_INVALIDARG, st) else
      (m <- lift (getmap st i) ;;
       ks <- lift (read_marg st k) ;;
       vs <- lift (read_marg st v) ;;
       match ks, vs with
       | Some kt, Some vt =>
           if rejects m kt vt then ret (MRC MAP_FILTER_REJECT, st)
           else
             w <- lift (findKey m kt) ;;
             match w with
             | None =>
                 x <- insertNewKeyValue m kt vt ;;
                 ret (MRC (if fst x then MAP_OK else MAP_ERROR), setmap st i (snd x))
             | Some j =>
                 _ <- lift (get_str (values m) j) ;;
                 ok <- alloc ;;
                 if ok then
                   if is_value_at v i j then undef
                   else
                     nv <- lift (set_entry (values m) j (EStr vt)) ;;
                     ret (MRC MAP_OK, setmap st i (with_arrays m (keys m) nv (mcount m)))
                 else ret (MRC MAP_ERROR, st)
             end
       | _, _ => undef
       end)%m
  end.

(* memmove of the pointers after position j one place down: count - j - 1 of them *)
Definition shift_down (a : arr) (j n : nat) : option arr :=
  match a with
  | Some l => if (n <=? length l)%nat
              then Some (Some (firstn j l ++ firstn (n - j - 1) (skipn (j + 1) l) ++ skipn (n - 1) l))
              else None
  | None => None
  end.

(* map.c:445-481 Map_Delete *)
Definition Map_Delete (st : maps) (h : option nat) (k : marg) : M (mret * maps) :=
  match h with
  | None => ret (MRC MAP_INVALIDARG, st)
  | Some i =>
      if mnull k then ret (MRC MAP_INVALIDARG, st) else
      (m <- lift (getmap st i) ;;
       ks <- lift (read_marg st k) ;;
       match ks with
       | Some kt =>
           w <- lift (findKey m kt) ;;
           match w with
           | None => ret (MRC MAP_KEYNOTFOUND, st)
           | Some j =>
               fk <- lift (free_entry (keys m) j) ;;
               fv <- lift (free_entry (values m) j) ;;
               sk <- lift (shift_down fk j (mcount m)) ;;
               sv <- lift (shift_down fv j (mcount m)) ;;
               m' <- Map_DecreaseStorageKeysValues (with_arrays m sk sv (mcount m)) ;;
               ret (MRC MAP_OK, setmap st i m')
           end
       | None => undef
       end)%m
  end.

(* map.c:483-505 Map_ContainsKey *)
Definition Map_ContainsKey (st : maps) (h : option nat) (k : marg) (out : bool) : M (mret * maps) :=
  match h with
  | None => ret (MRC MAP_INVALIDARG, st)
  | Some i =>
      if mnull k || negb out then ret (MRC MAP_INVALIDARG, st) else
      (m <- lift (getmap st i) ;;
       ks <- lift (read_marg st k) ;;
       match ks with
       | Some kt => w <- lift (findKey m kt) ;;
                    ret (MRB (match w with Some _ => true | None => false end), st)
       | None => undef
       end)%m
  end.

(* map.c:507-529 Map_ContainsValue *)
Definition Map_ContainsValue (st : maps) (h : option nat) (v : marg) (out : bool) : M (mret * maps) :=
  match h with
  | None => ret (MRC MAP_INVALIDARG, st)
  | Some i =>
      if mnull v || negb out then ret (MRC MAP_INVALIDARG, st) else
      (m <- lift (getmap st i) ;;
       vs <- lift (read_marg st v) ;;
       match vs with
       | Some vt => w <- lift (findValue m vt) ;;
                    ret (MRB (match w with Some _ => true | None => false end), st)
       | None => undef
       end)%m
  end.

(* map.c:531-560 Map_GetValueFromKey *)
Definition Map_GetValueFromKey (st : maps) (h : option nat) (k : marg) : M (mret * maps) :=
  match h with
  | None => ret (MRS None, st)
  | Some i =>
      if mnull k then ret (MRS None, st) else
      (m <- lift (getmap st i) ;;
       ks <- lift (read_marg st k) ;;
       match ks with
       | Some kt =>
           w <- lift (findKey m kt) ;;
           match w with
           | None => ret (MRS None, st)
           | Some j => v <- lift (get_str (values m) j) ;; ret (MRS (Some v), st)
           end
       | None => undef
       end)%m
  end.

(* the n strings a client reads from an array *)
Fixpoint read_strings (a : arr) (i n : nat) : option (list text) :=
  match n with
  | O => Some []
  | S n' => match get_str a i, read_strings a (S i) n' with
            | Some s, Some l => Some (s :: l)
            | _, _ => None
            end
  end.
(* map.c:562-588 Map_GetInternals, and the client reading count entries of each array *)
Definition Map_GetInternals (st : maps) (h : option nat) (out : bool) : M (mret * maps) :=
  match h with
  | None => ret (MRC MAP_INVALIDARG, st)
  | Some i =>
      if negb out then ret (MRC MAP_INVALIDARG, st) else
      (m <- lift (getmap st i) ;;
       ks <- lift (read_strings (keys m) 0 (mcount m)) ;;
       vs <- lift (read_strings (values m) 0 (mcount m)) ;;
       ret (MRI ks vs, st))%m
  end.

(* STRING calls made by Map_ToJSON, on a store of strings of its own; a handle result *)
Definition handle_of (r : sret) : option nat := match r with RH h => h | _ => None end.
Definition succeeded (r : sret) : bool := match r with RI b => b | _ => false end.

(* map.c:637-642: the concatenations, stopping at the first failure *)
Definition json_member (ss : slots) (first : bool) (res kh vh : nat) : M (bool * slots) :=
  (x1 <- (if first then ret (RI true, ss) else STRING_concat ss (Some res) (CText (str ","))) ;;
   if succeeded (fst x1) then
     x2 <- STRING_concat_with_STRING (snd x1) (Some res) (Some kh) ;;
     if succeeded (fst x2) then
       x3 <- STRING_concat (snd x2) (Some res) (CText (str ":")) ;;
       if succeeded (fst x3) then
         x4 <- STRING_concat_with_STRING (snd x3) (Some res) (Some vh) ;;
         ret (succeeded (fst x4), snd x4)
       else ret (false, snd x3)
     else ret (false, snd x2)
   else ret (false, snd x1))%m.

(* map.c:613-657: the loop from position i with n pairs left; false = breakFor *)
Fixpoint json_loop (ks vs : arr) (ss : slots) (res : nat) (i n : nat) : M (bool * slots) :=
  match n with
  | O => ret (true, ss)
  | S n' =>
      (kt <- lift (get_str ks i) ;;
       k <- STRING_new_JSON ss (CText kt) ;;
       match handle_of (fst k) with
       | None => d <- STRING_delete (snd k) (Some res) ;; ret (false, snd d)
       | Some kh =>
           vt <- lift (get_str vs i) ;;
           v <- STRING_new_JSON (snd k) (CText vt) ;;
           match handle_of (fst v) with
           | None => d <- STRING_delete (snd v) (Some res) ;;
                     e <- STRING_delete (snd d) (Some kh) ;; ret (false, snd e)
           | Some vh =>
               c <- json_member (snd v) (i =? 0)%nat res kh vh ;;
               if fst c then
                 d <- STRING_delete (snd c) (Some vh) ;;
                 e <- STRING_delete (snd d) (Some kh) ;;
                 json_loop ks vs (snd e) res (S i) n'
               else
                 b <- STRING_delete (snd c) (Some res) ;;
                 d <- STRING_delete (snd b) (Some vh) ;;
                 e <- STRING_delete (snd d) (Some kh) ;;
                 ret (false, snd e)
           end
       end)%m
  end.

(* map.c:590-680 Map_ToJSON; the result is the text of the returned STRING and the
   strings that exist afterwards (used to show that nothing else is left) *)
Definition Map_ToJSON_strings (m : MAP) : M (option nat * slots) :=
  (r <- STRING_construct [] (CText (str "{")) ;;
   match handle_of (fst r) with
   | None => ret (None, snd r)
   | Some res =>
       l <- json_loop (keys m) (values m) (snd r) res 0 (mcount m) ;;
       if fst l then
         c <- STRING_concat (snd l) (Some res) (CText (str "}")) ;;
         if succeeded (fst c) then ret (Some res, snd c)
         else d <- STRING_delete (snd c) (Some res) ;; ret (None, snd d)
       else ret (None, snd l)
   end)%m.

Definition Map_ToJSON (st : maps) (h : option nat) : M (mret * maps) :=
  match h with
  | None => ret (MRS None, st)
  | Some i =>
      (m <- lift (getmap st i) ;;
       x <- Map_ToJSON_strings m ;;
       match fst x with
       | None => ret (MRS None, st)
       | Some res => c <- STRING_c_str (snd x) (Some res) ;;
                     ret (MRS (match fst c with RT t => t | _ => None end), st)
       end)%m
  end.

Definition mstep (st : maps) (op : mop) : M (mret * maps) :=
  match op with
  | MCreate f => Map_Create st f
  | MDestroy h => Map_Destroy st h
  | MClone h => Map_Clone st h
  | MAdd h k v => Map_Add st h k v
  | MAddOrUpdate h k v => Map_AddOrUpdate st h k v
  | MDelete h k => Map_Delete st h k
  | MContainsKey h k out => Map_ContainsKey st h k out
  | MContainsValue h v out => Map_ContainsValue st h v out
  | MGetValue h k => Map_GetValueFromKey st h k
  | MGetInternals h out => Map_GetInternals st h out
  | MToJSON h => Map_ToJSON st h
  end.
