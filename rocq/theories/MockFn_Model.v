(* Model of testtools/umock_c/inc/umock_c_internal.h: the functions the preprocessor generates for a mocked function,
   on top of the model of the mocking library.  An argument is the number that identifies its value (for a pointer,
   its address).  umocktypes_copy is taken to succeed and to yield an equal value, so a copy is written as the value
   itself; what a type's functions answer, and what lies in the test's memory, is given with each operation. *)
From Verif Require Import Base Strings_Model UMockName_Model UMockTypes_Model UMock_Model.
Local Open Scope Z_scope.

(* umock_c_internal.h:27-60 stringify_buffer.  sprintf "0x%02X " writes five characters and a 0.  Sizes are numbers
   without bound: on 32 bits a buffer of 858 million bytes would be needed to see the difference. *)
Definition sprintf_byte (b : N) : list N := [48; 120; hexdigit (b / 16); hexdigit (b mod 16); 32; 0]%N.
Fixpoint put_bytes (bytes : list N) (i : nat) (result : block) : option block :=
  match bytes with
  | [] => Some result
  | b :: bytes => match store_all result (1 + i * 5) (sprintf_byte b) with Some result => put_bytes bytes (S i) result | None => None end
  end.
Definition stringify_buffer (bytes : list N) : M (option block) :=
  let length := length bytes in
  let string_length := (2 + 4 * length + (if 1 <? length then length - 1 else 0))%nat in
  (ok <- alloc ;;
   if negb ok then ret None
   else
     r <- lift (store (fresh (string_length + 1)) 0 91) ;;
     r <- lift (put_bytes bytes 0 r) ;;
     r <- lift (store r (string_length - 1) 93) ;;
     r <- lift (store r string_length 0) ;;
     ret (Some r))%m.

(* umock_c_internal.h:595-605 (struct mock_call_): one argument with its flag and its two buffers *)
Record arg := { value : nat; is_ignored : bool; out_arg_buffer : option (list N); validate_arg_buffer : option (list N) }.
Record call_data := { of_mock : nat; c_args : list arg; return_value : option nat; return_value_set : bool; fail_return_value : option nat; fail_return_value_set : bool }.
(* a mocked function *)
Record mock := { m_name : list N; arity : nat; gives : bool (* its return type is not void *) }.
(* what the outside answers: the types' are_equal and stringify functions, and the bytes readable and writable at an
   address *)
Record outside := { type_equal : nat -> nat -> nat -> nat -> Z; type_text : nat -> nat -> nat -> option (list N); bytes_at : nat -> option (list N) }.

(* :97-101 STRINGIFY_ARGS_DECLARE_RESULT_VAR: the text of one argument *)
Definition stringify_arg (v : outside) (f i : nat) (a : arg) : M (option (list N)) :=
  match validate_arg_buffer a with
  | Some bytes => (b <- stringify_buffer bytes ;; match b with None => ret None | Some b => t <- lift (string_in b) ;; ret (Some t) end)%m
  | None => ret (type_text v f i (value a))
  end.
Fixpoint stringify_args (v : outside) (f i : nat) (l : list arg) : M (list (option (list N))) :=
  match l with
  | [] => ret []
  | a :: l => (t <- stringify_arg v f i a ;; r <- stringify_args v f (S i) l ;; ret (t :: r))%m
  end.
(* :103 STRINGIFY_ARGS_CHECK_ARG_STRINGIFY_SUCCESS *)
Fixpoint no_null (l : list (option (list N))) : option (list (list N)) :=
  match l with
  | [] => Some []
  | None :: _ => None
  | Some t :: l => match no_null l with Some r => Some (t :: r) | None => None end
  end.
(* :107-115 STRINGIFY_ARGS_COPY_ARG_STRING *)
Fixpoint copy_args (l : list (list N)) (result : block) (current_pos arg_index : nat) : option block :=
  match l with
  | [] => Some result
  | t :: l =>
      match (if (0 <? arg_index)%nat then match store result current_pos 44 with Some r => Some (r, S current_pos) | None => None end else Some (result, current_pos)) with
      | None => None
      | Some (result, pos) =>
          match store_all result pos (t ++ [0%N]) with
          | None => None
          | Some result => copy_args l result (pos + length t) (S arg_index)
          end
      end
  end.
(* :606-641 mock_call_data_stringify_; COUNT_ARG counts types and names, so it
   is twice the number of arguments.  The texts of the arguments are freed on every path. *)
Definition mock_call_data_stringify (v : outside) (c : call_data) : M (option block) :=
  (ts <- stringify_args v (of_mock c) 0 (c_args c) ;;
   match no_null ts with
   | None => ret None
   | Some ts =>
       let n := length (c_args c) in
       let args_string_length := (fold_right (fun t k => length t + k) 0 ts + (if (0 <? n)%nat then 2 * n - 1 else 0))%nat in
       ok <- alloc ;;
       if negb ok then ret None
       else if (args_string_length =? 0)%nat then b <- lift (store (fresh (args_string_length + 1)) 0 0) ;; ret (Some b)
       else b <- lift (copy_args ts (fresh (args_string_length + 1)) 0 0) ;; ret (Some b)
   end)%m.

(* memcmp of what lies at an address against a buffer: None when that many bytes are not readable there *)
Definition memcmp_differs (v : outside) (p : nat) (bytes : list N) : option bool :=
  match bytes_at v p with
  | None => None
  | Some m => if (length bytes <=? length m)%nat then Some (if list_eq_dec N.eq_dec (firstn (length bytes) m) bytes then false else true) else None
  end.
Definition buffer_differs (v : outside) (p : nat) (b : option (list N)) : option bool :=
  match b with None => Some false | Some b => memcmp_differs v p b end.
(* :118-131 ARE_EQUAL_FOR_ARG: result && left's buffer differs || right's buffer differs; then the type is asked *)
Definition arg_equal (v : outside) (f i : nat) (result : Z) (l r : arg) : option Z :=
  match (if result =? 0 then Some false else buffer_differs v (value r) (validate_arg_buffer l)) with
  | None => None
  | Some a =>
      match (if a then Some true else buffer_differs v (value l) (validate_arg_buffer r)) with
      | None => None
      | Some b =>
          let result := if b then 0 else result in
          Some (if (result =? 1) && negb (is_ignored l) && negb (is_ignored r) then
                  let z := type_equal v f i (value l) (value r) in if z =? 1 then 1 else if z =? 0 then 0 else -1
                else result)
      end
  end.
Fixpoint args_equal (v : outside) (f i : nat) (result : Z) (l r : list arg) {struct l} : option Z :=
  match l, r with
  | [], [] => Some result
  | a :: l, b :: r => match arg_equal v f i result a b with Some z => args_equal v f (S i) z l r | None => None end
  | _, _ => None
  end.
(* :642-661 mock_call_data_are_equal_ of the mock f, on two data in memory *)
Definition data_at (ds : list (option call_data)) (d : nat) : option call_data := match nth_error ds d with Some (Some c) => Some c | _ => None end.
Definition mock_call_data_are_equal (v : outside) (ds : list (option call_data)) (f : nat) (left right : pointer) : option Z :=
  match left, right with
  | None, None => Some 1
  | None, _ | _, None => Some 0
  | Some l, Some r =>
      if (l =? r)%nat then Some 1
      else match data_at ds l, data_at ds r with
           | Some a, Some b => args_equal v f 0 1 (c_args a) (c_args b)
           | _, _ => None
           end
  end.

(* what a mock does that can be seen: error codes, calls of its hook, bytes written through an argument, values given
   to umocktypes_free (None: memory that was never written) *)
Inductive error_code := ArgIndexOutOfRange | MallocError | InvalidArgumentBuffer | CompareCallError | Error.
Inductive mevent := Errors (e : error_code) | HookCalled (f : nat) (args : list nat) | Written (p : nat) (bytes : list N) | FreeArg (f i : nat) (v : nat) | FreeReturn (f : nat) (v : option nat).
(* :662-676 mock_call_data_free_func_; umocktypes_free does nothing while the types are not initialised *)
Fixpoint free_args (f i : nat) (l : list arg) : list mevent :=
  match l with [] => [] | a :: l => FreeArg f i (value a) :: free_args f (S i) l end.
Definition free_data (F : nat -> mock) (types_ready : bool) (c : call_data) : list mevent :=
  if types_ready then
    free_args (of_mock c) 0 (c_args c) ++
    (if gives (F (of_mock c)) then (if return_value_set c then [FreeReturn (of_mock c) (return_value c)] else []) ++ (if fail_return_value_set c then [FreeReturn (of_mock c) (fail_return_value c)] else []) else [])
  else [].

(* the mocks of a test: the library, the call data in memory, and the variables of each mock: mock_hook_ (:530) and
   mock_call_default_result_ (:678) *)
Record mocks := { um : umock; datas : list (option call_data); mock_hook : nat -> bool; default_result : nat -> nat }.
Definition mocks_start := {| um := umock_start; datas := []; mock_hook := fun _ => false; default_result := fun _ => 0%nat |}.
Definition set_um (s : mocks) (u : umock) : mocks := {| um := u; datas := datas s; mock_hook := mock_hook s; default_result := default_result s |}.
Definition set_datas (s : mocks) (l : list (option call_data)) : mocks := {| um := um s; datas := l; mock_hook := mock_hook s; default_result := default_result s |}.
(* the library calls back into the generated functions (umockcall.c:105, :141).  When the text of a call is asked for
   through the library, the small blocks this takes are taken to be there. *)
Definition world_of (v : outside) (ds : list (option call_data)) : world :=
  {| str_of := fun f d => match data_at ds d with
                          | Some c => match mock_call_data_stringify v c [] with Some (Some b, _) => string_in b | _ => None end
                          | None => None
                          end;
     eq_of := fun f l r => match mock_call_data_are_equal v ds f (Some l) (Some r) with Some z => z | None => -1 end |}.
Fixpoint free_datas (F : nat -> mock) (types_ready : bool) (ds : list (option call_data)) (l : list (nat * nat)) : option (list mevent * list (option call_data)) :=
  match l with
  | [] => Some ([], ds)
  | (_, d) :: l =>
      match data_at ds d with
      | None => None
      | Some c => match free_datas F types_ready (upd ds d None) l with Some (e, ds) => Some (free_data F types_ready c ++ e, ds) | None => None end
      end
  end.
(* a call of the library; the data it gives back are freed (umockcall.c:70).  (umock_c_deinit deinitialises the types first.) *)
Definition call_um (F : nat -> mock) (v : outside) (s : mocks) (op : uop) : M (uret * list mevent * mocks) :=
  (x <- ustep (world_of v (datas s)) (um s) op ;;
   let '(r, u) := x in
   y <- lift (free_datas F (initialized (u_types u)) (datas s) (skipn (length (u_freed (um s))) (u_freed u))) ;;
   let '(e, ds) := y in ret (r, e, set_datas (set_um s u) ds))%m.
(* the comparison the library is going to make must be defined *)
Fixpoint first_pending (l : list (nat * bool)) : option nat := match l with [] => None | (h, false) :: _ => Some h | (_, true) :: l => first_pending l end.
Definition comparable (v : outside) (s : mocks) (f d : nat) : option unit :=
  match call_recorder (um s) with
  | None => Some tt
  | Some r =>
      match first_pending (expected_calls r) with
      | None => Some tt
      | Some e =>
          match deref (um s) e with
          | None => None
          | Some c => if (data_are_equal c =? f)%nat then match mock_call_data_are_equal v (datas s) f (Some (umockcall_data c)) (Some d) with Some _ => Some tt | None => None end else Some tt
          end
      end
  end.

Definition new_arg (ignored : bool) (x : nat) : arg := {| value := x; is_ignored := ignored; out_arg_buffer := None; validate_arg_buffer := None |}.
(* :432 and :703, umockcall_create with the functions of the mock f *)
Definition create (F : nat -> mock) (v : outside) (s : mocks) (f : nat) (d : pointer) : M (option nat * list mevent * mocks) :=
  (x <- call_um F v s (UCreate (Some (m_name (F f))) d (Some f) (Some f) (Some f)) ;;
   let '(r, e, s) := x in
   match r with UHandle h => ret (h, e, s) | _ => undef end)%m.
(* :420-448 IMPLEMENT_MOCK_FUNCTION (umock_c_strict_expected_ and umock_c_expected_): what umock_c_add_expected_call answers
   is ignored.  Without memory the members are written through NULL. *)
Definition expected_mock (F : nat -> mock) (v : outside) (s : mocks) (f : nat) (strict : bool) (vals : list nat) : M (list mevent * mocks) :=
  (ok <- alloc ;;
   if negb ok then
     if (0 <? arity (F f))%nat || gives (F f) then undef
     else x <- create F v s f None ;; let '(h, e, s) := x in match h with None => ret (e ++ [Errors Error], s) | Some _ => undef end
   else
     let d := length (datas s) in
     let s := set_datas s (datas s ++ [Some {| of_mock := f; c_args := map (new_arg (negb strict)) vals; return_value := None; return_value_set := false; fail_return_value := None; fail_return_value_set := false |}]) in
     x <- create F v s f (Some d) ;;
     let '(h, e, s) := x in
     match h with
     | None => ret (e ++ [Errors Error], s)
     | Some h => x <- call_um F v s (UExpect (Some h)) ;; let '(_, e1, s) := x in ret (e ++ e1, s)
     end)%m.

(* :91-95 COPY_OUT_ARG_VALUE_FROM_MATCHED_CALL for each argument: memcpy to where the actual argument points *)
Fixpoint copy_out (v : outside) (l : list arg) (vals : list nat) : option (list mevent) :=
  match l, vals with
  | a :: l, p :: vals =>
      match copy_out v l vals with
      | None => None
      | Some e =>
          match out_arg_buffer a with
          | None => Some e
          | Some b => match bytes_at v p with Some m => if (length b <=? length m)%nat then Some (Written p b :: e) else None | None => None end
          end
      end
  | _, _ => Some []
  end.
(* :725-735 and :741-749: the mock hook or else the default result *)
Definition hook_or_default (F : nat -> mock) (s : mocks) (f : nat) (vals : list nat) (hook_answer : nat) : option nat * list mevent :=
  if mock_hook s f then (if gives (F f) then Some hook_answer else None, [HookCalled f vals])
  else (if gives (F f) then Some (default_result s f) else None, []).
(* :692-752, the mock itself, called by the code under test.  The flags return_value_set and fail_return_value_set of its call
   data are never written: [g1] and [g2] are what the new memory holds there. *)
Definition actual_mock (F : nat -> mock) (v : outside) (s : mocks) (f : nat) (vals : list nat) (g1 g2 : bool) (hook_answer : nat) : M (option nat * list mevent * mocks) :=
  (ok <- alloc ;;
   if negb ok && (0 <? arity (F f))%nat then undef
   else
     let d := length (datas s) in
     let s := if ok then set_datas s (datas s ++ [Some {| of_mock := f; c_args := map (new_arg false) vals; return_value := None; return_value_set := g1; fail_return_value := None; fail_return_value_set := g2 |}]) else s in
     x <- create F v s f (if ok then Some d else None) ;;
     let '(h, e, s) := x in
     match h with
     | None => ret (if gives (F f) then Some (default_result s f) else None, e ++ [Errors Error], s)
     | Some h =>
         _ <- lift (comparable v s f d) ;;
         x <- call_um F v s (UActual (Some h) true) ;;
         let '(r, e1, s) := x in
         match r with
         | UMatch z matched_call =>
             x <- (if negb (z =? 0) then x <- call_um F v s (UDestroy (Some h)) ;; let '(_, e2, s) := x in ret (e2 ++ [Errors CompareCallError], s) else ret ([], s)) ;;
             let '(e2, s) := x in
             matched_call <- lift matched_call ;;
             match matched_call with
             | None => let '(result, e3) := hook_or_default F s f vals hook_answer in ret (result, e ++ e1 ++ e2 ++ e3, s)
             | Some m =>
                 x <- call_um F v s (UData (Some m)) ;;
                 let '(r, e4, s) := x in
                 match r with
                 | UHandle (Some d) =>
                     c <- lift (data_at (datas s) d) ;;
                     x <- (if gives (F f) then
                             if return_value_set c then v <- lift (return_value c) ;; ret (Some v, []) else ret (hook_or_default F s f vals hook_answer)
                           else ret (None, [])) ;;
                     let '(result, e3) := x in
                     e5 <- lift (copy_out v (c_args c) vals) ;;
                     ret (result, e ++ e1 ++ e2 ++ e4 ++ e3 ++ e5, s)
                 | _ => undef
                 end
             end
         | _ => undef
         end
     end)%m.

(* the call modifiers, :166-419 *)
Inductive modifier :=
| IgnoreAllArguments | ValidateAllArguments
| IgnoreArgument (i : nat) | ValidateArgument (i : nat)               (* counted from 1 *)
| IgnoreArgument_ (i : nat) | ValidateArgument_ (i : nat)             (* by name: the argument at this place *)
| SetReturn (x : nat) | SetFailReturn (x : nat)
| CopyOutArgumentBuffer (i : nat) (bytes : option (list N)) | ValidateArgumentBuffer (i : nat) (bytes : option (list N))   (* length is the length of the bytes *)
| CopyOutArgument | IgnoreAllCalls.
Definition with_args (c : call_data) (l : list arg) : call_data :=
  {| of_mock := of_mock c; c_args := l; return_value := return_value c; return_value_set := return_value_set c; fail_return_value := fail_return_value c; fail_return_value_set := fail_return_value_set c |}.
Definition mark (b : bool) (a : arg) : arg := {| value := value a; is_ignored := b; out_arg_buffer := out_arg_buffer a; validate_arg_buffer := validate_arg_buffer a |}.
Definition set_out (b : option (list N)) (a : arg) : arg := {| value := value a; is_ignored := is_ignored a; out_arg_buffer := b; validate_arg_buffer := validate_arg_buffer a |}.
Definition set_validate (b : option (list N)) (a : arg) : arg := {| value := value a; is_ignored := is_ignored a; out_arg_buffer := out_arg_buffer a; validate_arg_buffer := b |}.
Definition at_arg (c : call_data) (i : nat) (g : arg -> arg) : call_data :=
  match nth_error (c_args c) i with Some a => with_args c (upd (c_args c) i (g a)) | None => c end.
(* :169 and the like, the data of the last expected call: umockcall_get_call_data(umock_c_get_last_expected_call()) *)
Definition last_data (F : nat -> mock) (v : outside) (s : mocks) : M (pointer * mocks) :=
  (x <- call_um F v s ULast ;;
   let '(r, _, s) := x in
   match r with
   | UHandle h => x <- call_um F v s (UData h) ;; let '(r, _, s) := x in match r with UHandle p => ret (p, s) | _ => undef end
   | _ => undef
   end)%m.
(* the data are taken to be those of the mock f: it is undefined to use them as such when they are another's *)
Definition change (s : mocks) (f d : nat) (g : call_data -> call_data) : M mocks :=
  (c <- lift (data_at (datas s) d) ;; if (of_mock c =? f)%nat then ret (set_datas s (upd (datas s) d (Some (g c)))) else undef)%m.
Definition modify (F : nat -> mock) (v : outside) (s : mocks) (f : nat) (m : modifier) : M (list mevent * mocks) :=
  let or_error (g : call_data -> call_data) : M (list mevent * mocks) :=
    (x <- last_data F v s ;; let '(p, s) := x in match p with None => ret ([Errors Error], s) | Some d => s <- change s f d g ;; ret ([], s) end)%m in
  let buffer (i : nat) (bytes : option (list N)) (set : option (list N) -> arg -> arg) : M (list mevent * mocks) :=
    if (i <? 1)%nat || (arity (F f) <? i)%nat then ret ([Errors ArgIndexOutOfRange], s)
    else
      match bytes with
      | None | Some [] => ret ([Errors InvalidArgumentBuffer], s)
      | Some bytes =>
          (x <- last_data F v s ;;
           let '(p, s) := x in
           match p with
           | None => ret ([Errors Error], s)
           | Some d =>
               ok <- alloc ;;
               if negb ok then s <- change s f d (fun c => at_arg c (i - 1) (set None)) ;; ret ([Errors MallocError], s)
               else s <- change s f d (fun c => at_arg (at_arg c (i - 1) (set (Some bytes))) (i - 1) (mark true)) ;; ret ([], s)
           end)%m
      end in
  match m with
  | IgnoreAllArguments => (x <- last_data F v s ;; let '(p, s) := x in match p with None => undef | Some d => s <- change s f d (fun c => with_args c (map (mark true) (c_args c))) ;; ret ([], s) end)%m
  | ValidateAllArguments => or_error (fun c => with_args c (map (mark false) (c_args c)))
  | IgnoreArgument_ i => or_error (fun c => at_arg c i (mark true))
  | ValidateArgument_ i => or_error (fun c => at_arg c i (mark false))
  | IgnoreArgument i =>
      (x <- last_data F v s ;; let '(p, s) := x in
       match p with
       | None => ret ([Errors Error], s)
       | Some d => if (i <? 1)%nat || (arity (F f) <? i)%nat then ret ([Errors ArgIndexOutOfRange], s) else s <- change s f d (fun c => at_arg c (i - 1) (mark true)) ;; ret ([], s)
       end)%m
  | ValidateArgument i =>
      (x <- last_data F v s ;; let '(p, s) := x in
       match p with
       | None => ret ([Errors Error], s)
       | Some d => if (i <? 1)%nat || (arity (F f) <? i)%nat then ret ([Errors ArgIndexOutOfRange], s) else s <- change s f d (fun c => at_arg c (i - 1) (mark false)) ;; ret ([], s)
       end)%m
  | SetReturn x => or_error (fun c => {| of_mock := of_mock c; c_args := c_args c; return_value := Some x; return_value_set := true; fail_return_value := fail_return_value c; fail_return_value_set := fail_return_value_set c |})
  | SetFailReturn x => or_error (fun c => {| of_mock := of_mock c; c_args := c_args c; return_value := return_value c; return_value_set := return_value_set c; fail_return_value := Some x; fail_return_value_set := true |})
  | CopyOutArgumentBuffer i bytes => buffer i bytes set_out
  | ValidateArgumentBuffer i bytes => buffer i bytes set_validate
  | CopyOutArgument | IgnoreAllCalls => ret ([], s)
  end.

(* one step of a test with mocks; MHook is :453-457, MReturn :462-469 *)
Inductive mop :=
| MInit | MDeinit | MReset | MExpected | MActuals
| MExpect (f : nat) (strict : bool) (vals : list nat)
| MModify (f : nat) (m : modifier)
| MCall (f : nat) (vals : list nat) (g1 g2 : bool) (hook_answer : nat)
| MHook (f : nat) (on : bool)
| MReturn (f x : nat).
Inductive manswer := ANone | AInt (z : Z) | AText (t : option (list N)) | AResult (r : option nat).
Definition mstep (F : nat -> mock) (v : outside) (s : mocks) (op : mop) : M (manswer * list mevent * mocks) :=
  let library (u : uop) : M (manswer * list mevent * mocks) :=
    (x <- call_um F v s u ;; let '(r, e, s) := x in ret (match r with UInt z => AInt z | UText t => AText t | _ => ANone end, e, s))%m in
  match op with
  | MInit => library UInit
  | MDeinit => library UDeinit
  | MReset => library UReset
  | MExpected => library UExpected
  | MActuals => library UActuals
  | MExpect f strict vals => (x <- expected_mock F v s f strict vals ;; let '(e, s) := x in ret (ANone, e, s))%m
  | MModify f m => (x <- modify F v s f m ;; let '(e, s) := x in ret (ANone, e, s))%m
  | MCall f vals g1 g2 h => (x <- actual_mock F v s f vals g1 g2 h ;; let '(r, e, s) := x in ret (AResult r, e, s))%m
  | MHook f on => ret (ANone, [], {| um := um s; datas := datas s; mock_hook := fun g => if (g =? f)%nat then on else mock_hook s g; default_result := default_result s |})
  | MReturn f x => ret (ANone, [], {| um := um s; datas := datas s; mock_hook := mock_hook s; default_result := fun g => if (g =? f)%nat then x else default_result s g |})
  end.
