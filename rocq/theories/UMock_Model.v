(* Model of testtools/umock_c/src/umockcall.c, umockcallrecorder.c and umock_c.c: expected and actual calls of mock
   functions.  The functions that know a call's data are adversaries: what they would answer at each operation is a
   [world] given with the operation.  Calls live in a heap of their own; a handle is an index there. *)
From Verif Require Import Base Strings_Model UMockName_Model UMockTypes_Model.
Local Open Scope Z_scope.

(* umockcall.c:12-19 *)
Record call := { function_name : list N; umockcall_data : nat; data_free : nat; data_stringify : nat; data_are_equal : nat }.
(* what the functions of the call data answer: the text of the arguments, or NULL; whether two data are equal *)
Record world := { str_of : nat -> nat -> option (list N); eq_of : nat -> nat -> nat -> Z }.
(* umockcallrecorder.c:15-29; the counts are the lengths of the lists *)
Record recorder := { expected_calls : list (nat * bool); actual_calls : list nat; expected_calls_string : option block; actual_calls_string : option block }.
(* umock_c.c:22-24, the calls in memory (None once freed), and the data given back to their owner's function *)
Record umock := { u_types : types; u_ready : bool; call_recorder : option recorder; u_calls : list (option call); u_freed : list (nat * nat) }.
Definition umock_start := {| u_types := types_start; u_ready := false; call_recorder := None; u_calls := []; u_freed := [] |}.
Definition set_calls (s : umock) (l : list (option call)) : umock := {| u_types := u_types s; u_ready := u_ready s; call_recorder := call_recorder s; u_calls := l; u_freed := u_freed s |}.
Definition set_recorder (s : umock) (r : option recorder) : umock := {| u_types := u_types s; u_ready := u_ready s; call_recorder := r; u_calls := u_calls s; u_freed := u_freed s |}.
Definition set_types (s : umock) (t : types) : umock := {| u_types := t; u_ready := u_ready s; call_recorder := call_recorder s; u_calls := u_calls s; u_freed := u_freed s |}.
Definition set_ready (s : umock) (b : bool) : umock := {| u_types := u_types s; u_ready := b; call_recorder := call_recorder s; u_calls := u_calls s; u_freed := u_freed s |}.

(* a call through its handle; a freed one is not ours to read *)
Definition deref (s : umock) (h : nat) : option call := match nth_error (u_calls s) h with Some (Some c) => Some c | _ => None end.

(* umockcall.c:21-61 umockcall_create; the name is copied into memory of its own *)
Definition umockcall_create (s : umock) (name : option (list N)) (data fr st eq : pointer) : M (option nat * umock) :=
  match name, data, fr, st, eq with
  | Some name, Some data, Some fr, Some st, Some eq =>
      (ok <- alloc ;;
       if negb ok then ret (None, s)
       else
         ok <- alloc ;;
         if negb ok then ret (None, s)
         else ret (Some (length (u_calls s)), set_calls s (u_calls s ++ [Some {| function_name := name; umockcall_data := data; data_free := fr; data_stringify := st; data_are_equal := eq |}])))%m
  | _, _, _, _, _ => ret (None, s)
  end.
(* umockcall.c:63-73 umockcall_destroy; a second time is undefined *)
Definition umockcall_destroy (s : umock) (h : option nat) : option umock :=
  match h with
  | None => Some s
  | Some h =>
      match deref s h with
      | None => None
      | Some c => Some {| u_types := u_types s; u_ready := u_ready s; call_recorder := call_recorder s; u_calls := upd (u_calls s) h None; u_freed := u_freed s ++ [(data_free c, umockcall_data c)] |}
      end
  end.
(* umockcall.c:75-124 umockcall_are_equal *)
Definition umockcall_are_equal (w : world) (s : umock) (l r : option nat) : option Z :=
  match l, r with
  | None, None => Some 1
  | None, Some _ | Some _, None => Some 0
  | Some l, Some r =>
      if (l =? r)%nat then Some 1
      else
        match deref s l, deref s r with
        | Some a, Some b =>
            if negb (data_are_equal a =? data_are_equal b)%nat then Some 0
            else if negb (strcmp (function_name a) (function_name b) =? 0) then Some 0
            else
              let z := eq_of w (data_are_equal a) (umockcall_data a) (umockcall_data b) in
              Some (if z =? 1 then 1 else if z =? 0 then 0 else -1)
        | _, _ => None
        end
  end.
(* umockcall.c:126-173 umockcall_stringify; the text of the arguments is freed on every path *)
Definition umockcall_stringify (w : world) (s : umock) (h : option nat) : M (option block) :=
  match h with
  | None => ret None
  | Some h =>
      (c <- lift (deref s h) ;;
       match str_of w (data_stringify c) (umockcall_data c) with
       | None => ret None
       | Some args =>
           let n := length (function_name c) in
           let a := length args in
           ok <- alloc ;;
           if negb ok then ret None
           else
             b <- lift (store (fresh (n + a + 4 + 1)) 0 91) ;;
             b <- lift (store_all b 1 (function_name c)) ;;
             b <- lift (store b (n + 1) 40) ;;
             b <- lift (store_all b (n + 2) args) ;;
             b <- lift (store b (n + a + 2) 41) ;;
             b <- lift (store b (n + a + 3) 93) ;;
             b <- lift (store b (n + a + 4) 0) ;;
             ret (Some b)
       end)%m
  end.
(* umockcall.c:175-189 *)
Definition umockcall_get_call_data (s : umock) (h : option nat) : option pointer :=
  match h with
  | None => Some None
  | Some h => match deref s h with Some c => Some (Some (umockcall_data c)) | None => None end
  end.

(* realloc that succeeds: what fits of the old block stays *)
Definition resized (b : option block) (n : nat) : block := firstn n (match b with Some b => b | None => [] end ++ fresh n).
Definition realloc (b : option block) (n : nat) : M (option block) := (ok <- alloc ;; ret (if ok then Some (resized b n) else None))%m.

(* umockcallrecorder.c:31-49 *)
Definition umockcallrecorder_create : M (option recorder) :=
  (ok <- alloc ;; ret (if ok then Some {| expected_calls := []; actual_calls := []; expected_calls_string := None; actual_calls_string := None |} else None))%m.
Fixpoint destroy_calls (s : umock) (hs : list nat) : option umock :=
  match hs with
  | [] => Some s
  | h :: hs => match umockcall_destroy s (Some h) with Some s => destroy_calls s hs | None => None end
  end.
(* umockcallrecorder.c:64-107; 0 on success *)
Definition umockcallrecorder_reset_all_calls (s : umock) (r : option recorder) : option (Z * option recorder * umock) :=
  match r with
  | None => Some (71, None, s)
  | Some r =>
      match destroy_calls s (map fst (expected_calls r)) with
      | None => None
      | Some s =>
          match destroy_calls s (actual_calls r) with
          | None => None
          | Some s => Some (0, Some {| expected_calls := []; actual_calls := []; expected_calls_string := expected_calls_string r; actual_calls_string := actual_calls_string r |}, s)
          end
      end
  end.
(* umockcallrecorder.c:51-62 *)
Definition umockcallrecorder_destroy (s : umock) (r : option recorder) : option umock :=
  match r with
  | None => Some s
  | Some _ => match umockcallrecorder_reset_all_calls s r with Some (_, _, s) => Some s | None => None end
  end.
(* umockcallrecorder.c:109-140 *)
Definition umockcallrecorder_add_expected_call (r : option recorder) (h : option nat) : M (Z * option recorder) :=
  match r, h with
  | Some r, Some h =>
      (ok <- alloc ;;
       if negb ok then ret (125, Some r)
       else ret (0, Some {| expected_calls := expected_calls r ++ [(h, false)]; actual_calls := actual_calls r; expected_calls_string := expected_calls_string r; actual_calls_string := actual_calls_string r |}))%m
  | _, _ => ret (117, r)
  end.
(* umockcallrecorder.c:155-186: the search among the expected calls *)
Inductive found := NoMatch | CompareError | Matched (h : nat) (l : list (nat * bool)).
Fixpoint match_expected (w : world) (s : umock) (l : list (nat * bool)) (h : nat) : option found :=
  match l with
  | [] => Some NoMatch
  | (e, true) :: l => match match_expected w s l h with Some (Matched m l) => Some (Matched m ((e, true) :: l)) | f => f end
  | (e, false) :: l =>
      match umockcall_are_equal w s (Some e) (Some h) with
      | None => None
      | Some z => if z =? 1 then Some (Matched e ((e, true) :: l)) else if negb (z =? 0) then Some CompareError else Some NoMatch
      end
  end.
(* umockcallrecorder.c:142-223.  The second part of the answer is what was written to *matched_call: None when
   nothing was. *)
Definition umockcallrecorder_add_actual_call (w : world) (s : umock) (r : option recorder) (h : option nat) (matched_call : bool) : M (Z * option (option nat) * option recorder * umock) :=
  match r, h, matched_call with
  | Some r, Some h, true =>
      (f <- lift (match_expected w s (expected_calls r) h) ;;
       match f with
       | CompareError => ret (190, Some None, Some r, s)
       | NoMatch =>
           ok <- alloc ;;
           if negb ok then ret (201, Some None, Some r, s)
           else ret (0, Some None, Some {| expected_calls := expected_calls r; actual_calls := actual_calls r ++ [h]; expected_calls_string := expected_calls_string r; actual_calls_string := actual_calls_string r |}, s)
       | Matched m l =>
           s <- lift (umockcall_destroy s (Some h)) ;;
           ret (0, Some (Some m), Some {| expected_calls := l; actual_calls := actual_calls r; expected_calls_string := expected_calls_string r; actual_calls_string := actual_calls_string r |}, s)
       end)%m
  | _, _, _ => ret (151, None, r, s)
  end.
(* umockcallrecorder.c:240-271 and :344-375: the texts of these calls one after the other in the recorder's block;
   false when a text or memory is missing *)
Fixpoint append_calls (w : world) (s : umock) (hs : list nat) (b : option block) (current_length : nat) : M (bool * option block * nat) :=
  match hs with
  | [] => ret (true, b, current_length)
  | h :: hs =>
      (t <- umockcall_stringify w s (Some h) ;;
       match t with
       | None => ret (false, b, current_length)
       | Some t =>
           text <- lift (string_in t) ;;
           n <- realloc b (current_length + length text + 1) ;;
           match n with
           | None => ret (false, b, current_length)
           | Some n =>
               n <- lift (store_all n current_length (text ++ [0%N])) ;;
               append_calls w s hs (Some n) (current_length + length text)
           end
       end)%m
  end.
Definition with_expected_string (r : recorder) (b : option block) : recorder := {| expected_calls := expected_calls r; actual_calls := actual_calls r; expected_calls_string := b; actual_calls_string := actual_calls_string r |}.
Definition with_actual_string (r : recorder) (b : option block) : recorder := {| expected_calls := expected_calls r; actual_calls := actual_calls r; expected_calls_string := expected_calls_string r; actual_calls_string := b |}.
(* what a caller reads from the char* it gets *)
Definition read_string (b : option block) : option (option (list N)) :=
  match b with None => Some None | Some b => match string_in b with Some t => Some (Some t) | None => None end end.
(* umockcallrecorder.c:225-306 *)
Definition umockcallrecorder_get_expected_calls (w : world) (s : umock) (r : option recorder) : M (option (list N) * option recorder) :=
  match r with
  | None => ret (None, None)
  | Some r =>
      (x <- append_calls w s (map fst (filter (fun e => negb (snd e)) (expected_calls r))) (expected_calls_string r) 0 ;;
       let '(ok, b, n) := x in
       if negb ok then ret (None, Some (with_expected_string r b))
       else if (n =? 0)%nat then
         m <- realloc b 1 ;;
         match m with
         | None => ret (None, Some (with_expected_string r b))
         | Some m => m <- lift (store m 0 0%N) ;; t <- lift (read_string (Some m)) ;; ret (t, Some (with_expected_string r (Some m)))
         end
       else t <- lift (read_string b) ;; ret (t, Some (with_expected_string r b)))%m
  end.
(* umockcallrecorder.c:308-387 *)
Definition umockcallrecorder_get_actual_calls (w : world) (s : umock) (r : option recorder) : M (option (list N) * option recorder) :=
  match r with
  | None => ret (None, None)
  | Some r =>
      match actual_calls r with
      | [] =>
          (m <- realloc (actual_calls_string r) 1 ;;
           match m with
           | None => ret (None, Some r)
           | Some m => m <- lift (store m 0 0%N) ;; t <- lift (read_string (Some m)) ;; ret (t, Some (with_actual_string r (Some m)))
           end)%m
      | _ =>
          (x <- append_calls w s (actual_calls r) (actual_calls_string r) 0 ;;
           let '(ok, b, n) := x in
           if negb ok then ret (None, Some (with_actual_string r b))
           else t <- lift (read_string b) ;; ret (t, Some (with_actual_string r b)))%m
      end
  end.
(* umockcallrecorder.c:389-413 umockcallrecorder_get_last_expected_call *)
Definition umockcallrecorder_get_last_expected_call (r : option recorder) : option nat :=
  match r with
  | None => None
  | Some r => match expected_calls r with [] => None | (h, _) :: _ => Some (last (map fst (expected_calls r)) h) end
  end.

(* umocktypes_c.c:282-312: the types of C, each with four functions of its own *)
Definition c_types : list (list N) :=
  map str ["char"; "unsigned char"; "short"; "unsigned short"; "int"; "unsigned int"; "long"; "unsigned long"; "long long"; "unsigned long long"; "float"; "double"; "long double"; "size_t"]%string.
Fixpoint register_types (t : types) (first : nat) (l : list (list N)) : M (Z * types) :=
  match l with
  | [] => ret (0, t)
  | n :: l =>
      (r <- umocktypes_register_type t (Some n) (Some first) (Some (first + 1)%nat) (Some (first + 2)%nat) (Some (first + 3)%nat) ;;
       let '(z, t) := r in
       if negb (z =? 0) then ret (303, t) else register_types t (first + 4) l)%m
  end.
Definition umocktypes_c_register_types (t : types) : M (Z * types) := register_types t 0 c_types.

(* umock_c.c:26-85 *)
Definition umock_c_init (s : umock) : M (Z * umock) :=
  if u_ready s then ret (33, s)
  else
    let '(z, t) := umocktypes_init (u_types s) in
    let s := set_types s t in
    if negb (z =? 0) then ret (58, s)
    else
      (x <- umocktypes_c_register_types t ;;
       let '(z, t) := x in
       let s := set_types s t in
       if negb (z =? 0) then ret (58, s)
       else
         r <- umockcallrecorder_create ;;
         let s := set_recorder s r in
         match r with
         | None => ret (67, s)
         | Some _ => ret (0, set_ready s true)
         end)%m.
(* umock_c.c:87-99; the recorder's pointer is left dangling, never read before the next init *)
Definition umock_c_deinit (s : umock) : option umock :=
  if u_ready s then
    match umockcallrecorder_destroy (set_types s (umocktypes_deinit (u_types s))) (call_recorder s) with
    | None => None
    | Some s => Some (set_ready (set_recorder s None) false)
    end
  else Some s.
(* umock_c.c:101-113; the recorder is there, so resetting never fails and the error callback is never called *)
Definition umock_c_reset_all_calls (s : umock) : option umock :=
  if u_ready s then
    match umockcallrecorder_reset_all_calls s (call_recorder s) with
    | None => None
    | Some (_, r, s) => Some (set_recorder s r)
    end
  else Some s.
(* umock_c.c:115-131 *)
Definition umock_c_add_expected_call (s : umock) (h : option nat) : M (Z * umock) :=
  if u_ready s then (x <- umockcallrecorder_add_expected_call (call_recorder s) h ;; ret (fst x, set_recorder s (snd x)))%m else ret (122, s).
(* umock_c.c:133-149 *)
Definition umock_c_add_actual_call (w : world) (s : umock) (h : option nat) (matched_call : bool) : M (Z * option (option nat) * umock) :=
  if u_ready s then
    (x <- umockcallrecorder_add_actual_call w s (call_recorder s) h matched_call ;;
     let '(z, m, r, s) := x in ret (z, m, set_recorder s r))%m
  else ret (140, None, s).
(* umock_c.c:151-167 *)
Definition umock_c_get_expected_calls (w : world) (s : umock) : M (option (list N) * umock) :=
  if u_ready s then (x <- umockcallrecorder_get_expected_calls w s (call_recorder s) ;; ret (fst x, set_recorder s (snd x)))%m else ret (None, s).
(* umock_c.c:169-185 *)
Definition umock_c_get_actual_calls (w : world) (s : umock) : M (option (list N) * umock) :=
  if u_ready s then (x <- umockcallrecorder_get_actual_calls w s (call_recorder s) ;; ret (fst x, set_recorder s (snd x)))%m else ret (None, s).
(* umock_c.c:187-203 *)
Definition umock_c_get_last_expected_call (s : umock) : option nat :=
  if u_ready s then umockcallrecorder_get_last_expected_call (call_recorder s) else None.

(* one call of the library, and a history *)
Inductive uop :=
| UInit | UDeinit | UReset
| UCreate (name : option (list N)) (data fr st eq : pointer)
| UDestroy (h : option nat)
| UAreEqual (l r : option nat)
| UStringify (h : option nat)
| UData (h : option nat)
| UExpect (h : option nat)
| UActual (h : option nat) (matched_call : bool)
| UExpected | UActuals | ULast.
Inductive uret := UNone | UInt (z : Z) | UHandle (h : option nat) | UText (t : option (list N)) | UMatch (z : Z) (m : option (option nat)).
Definition ustep (w : world) (s : umock) (op : uop) : M (uret * umock) :=
  match op with
  | UInit => (x <- umock_c_init s ;; ret (UInt (fst x), snd x))%m
  | UDeinit => (s <- lift (umock_c_deinit s) ;; ret (UNone, s))%m
  | UReset => (s <- lift (umock_c_reset_all_calls s) ;; ret (UNone, s))%m
  | UCreate name data fr st eq => (x <- umockcall_create s name data fr st eq ;; ret (UHandle (fst x), snd x))%m
  | UDestroy h => (s <- lift (umockcall_destroy s h) ;; ret (UNone, s))%m
  | UAreEqual l r => (z <- lift (umockcall_are_equal w s l r) ;; ret (UInt z, s))%m
  | UStringify h => (b <- umockcall_stringify w s h ;; t <- lift (read_string b) ;; ret (UText t, s))%m
  | UData h => (p <- lift (umockcall_get_call_data s h) ;; ret (UHandle p, s))%m
  | UExpect h => (x <- umock_c_add_expected_call s h ;; ret (UInt (fst x), snd x))%m
  | UActual h m => (x <- umock_c_add_actual_call w s h m ;; let '(z, m, s) := x in ret (UMatch z m, s))%m
  | UExpected => (x <- umock_c_get_expected_calls w s ;; ret (UText (fst x), snd x))%m
  | UActuals => (x <- umock_c_get_actual_calls w s ;; ret (UText (fst x), snd x))%m
  | ULast => ret (UHandle (umock_c_get_last_expected_call s), s)
  end.
Fixpoint uhistory (s : umock) (ops : list (world * uop)) : M (list uret * umock) :=
  match ops with
  | [] => ret ([], s)
  | (w, op) :: ops => (x <- ustep w s op ;; let '(r, s) := x in y <- uhistory s ops ;; ret (r :: fst y, snd y))%m
  end.
