(* Model of src/strings.c.  The heap of STRING objects is a list of slots: slot
   i holds the memory block of the live handle i, None once it is deleted.  A
   block includes the terminator.  A handle argument is option nat (None =
   NULL); a const char* argument is NULL, a text elsewhere in memory, or a
   pointer k characters into the text of handle h (to express aliasing).
   Reading unwritten cells or past the end, writing past the end, using a deleted
   handle, a pointer invalidated by realloc, or overlapping memcpy regions are
   undefined behaviour.  Sizes are unbounded (they are bounded by objects already
   in memory). *)
From Verif Require Import Base.
Open Scope N_scope.

Definition slots := list (option block).

Inductive carg :=
| CNull
| CText (s : list N)
| COf (h k : nat).

Inductive sret :=
| RH (h : option nat)          (* a STRING_HANDLE *)
| RI (ok : bool)               (* an int: true = 0, false = nonzero (__LINE__) *)
| RT (t : option (list N))     (* a const char*: NULL or the text it points to *)
| RN (n : nat)                 (* a size_t *)
| RZ (z : Z).                  (* sign of an int *)

Inductive sop :=
| SNew
| SClone (h : option nat)
| SConstruct (a : carg)
| SConstructN (a : carg) (n : nat)
| SNewWithMemory (m : option block)
| SQuoted (a : carg)
| SJSON (a : carg)
| SConcat (h : option nat) (a : carg)
| SConcatS (h1 h2 : option nat)
| SCopy (h : option nat) (a : carg)
| SCopyN (h : option nat) (a : carg) (n : nat)
| SQuote (h : option nat)
| SEmpty (h : option nat)
| SDelete (h : option nat)
| SCStr (h : option nat)
| SLength (h : option nat)
| SCompare (h1 h2 : option nat).

(* The text read from a block up to its NUL (strlen/strcpy style reads). *)
Fixpoint ctext (b : block) : option (list N) :=
  match b with
  | [] => None
  | None :: _ => None
  | Some c :: t => if c =? 0 then Some []
                   else match ctext t with Some r => Some (c :: r) | None => None end
  end.

Definition getb (st : slots) (h : nat) : option block :=
  match nth_error st h with Some (Some b) => Some b | _ => None end.

(* Reading a const char* argument: None = undefined, Some None = NULL. *)
Definition read_arg (st : slots) (a : carg) : option (option (list N)) :=
  match a with
  | CNull => Some None
  | CText s => Some (Some s)
  | COf h k => match getb st h with
               | Some b => match ctext (skipn k b) with
                           | Some t => Some (Some t)
                           | None => None
                           end
               | None => None
               end
  end.

Definition aliases (a : carg) (h : nat) : bool :=
  match a with COf h' _ => (h' =? h)%nat | _ => false end.

(* realloc that succeeds: the common prefix is kept, the rest indeterminate. *)
Definition realloc (b : block) (n : nat) : block := firstn n b ++ fresh (n - length b).

Definition push (st : slots) (b : block) : sret * slots :=
  (RH (Some (length st)), st ++ [Some b]).

(* A new STRING: malloc of the struct and of the characters (both must succeed),
   then the given writes; the pattern of strings.c:32-49, 63-77, 98-117, 153-169,
   223-280, 566-585. *)
Definition new_string (st : slots) (mk : option block) : M (sret * slots) :=
  (ok <- allocs 2 ;;
   if ok then b <- lift mk ;; ret (push st b)
   else ret (RH None, st))%m.

(* strings.c:32-49 STRING_new *)
Definition STRING_new (st : slots) : M (sret * slots) :=
  new_string st (store_all (fresh 1) 0 [0]).

(* strings.c:52-84 STRING_clone *)
Definition STRING_clone (st : slots) (h : option nat) : M (sret * slots) :=
  match h with
  | None => ret (RH None, st)
  | Some i =>
      (b <- lift (getb st i) ;;
       new_string st (match ctext b with
                      | Some t => store_all (fresh (length t + 1)) 0 (t ++ [0])
                      | None => None
                      end))%m
  end.

(* strings.c:87-120 STRING_construct *)
Definition STRING_construct (st : slots) (a : carg) : M (sret * slots) :=
  (x <- lift (read_arg st a) ;;
   match x with
   | None => ret (RH None, st)
   | Some t => new_string st (store_all (fresh (length t + 1)) 0 (t ++ [0]))
   end)%m.

(* strings.c:545-589 STRING_construct_n *)
Definition STRING_construct_n (st : slots) (a : carg) (n : nat) : M (sret * slots) :=
  (x <- lift (read_arg st a) ;;
   match x with
   | None => ret (RH None, st)
   | Some t =>
       if (length t <? n)%nat then ret (RH None, st)
       else new_string st
              (match store_all (fresh (length t + 1)) 0 (firstn n t) with
               | Some b => store b n 0
               | None => None
               end)
   end)%m.

(* strings.c:126-142 STRING_new_with_memory *)
Definition STRING_new_with_memory (st : slots) (m : option block) : M (sret * slots) :=
  match m with
  | None => ret (RH None, st)
  | Some b => (ok <- alloc ;; if ok then ret (push st b) else ret (RH None, st))%m
  end.

(* strings.c:145-171 STRING_new_quoted *)
Definition STRING_new_quoted (st : slots) (a : carg) : M (sret * slots) :=
  (x <- lift (read_arg st a) ;;
   match x with
   | None => ret (RH None, st)
   | Some t =>
       new_string st
         (match store (fresh (length t + 3)) 0 34 with
          | Some b1 =>
              match store_all b1 1 t with
              | Some b2 =>
                  match store b2 (length t + 1) 34 with
                  | Some b3 => store b3 (length t + 2) 0
                  | None => None
                  end
              | None => None
              end
          | None => None
          end)
   end)%m.

(* strings.c:22 hexToASCII *)
Definition hexToASCII : list N := str "0123456789ABCDEF".
Definition hexdigit (v : N) : N := nth (N.to_nat v) hexToASCII 0.

(* strings.c:192-214, the counting loop: None if a byte >= 128 was met (the loop
   breaks and i < vlen), else (nControlCharacters, nEscapeCharacters). *)
Fixpoint json_count (s : list N) : option (nat * nat) :=
  match s with
  | [] => Some (0, 0)%nat
  | c :: t =>
      if 128 <=? c then None
      else match json_count t with
           | None => None
           | Some (nc, ne) =>
               if c <=? 31 then Some (S nc, ne)
               else if (c =? 34) || (c =? 92) || (c =? 47) then Some (nc, S ne)
               else Some (nc, ne)
           end
  end.

(* strings.c:242-274, the characters written for one source character. *)
Definition json_char (c : N) : list N :=
  if c <=? 31 then
    [92; 117; 48; 48; hexdigit (N.shiftr (N.land c 240) 4); hexdigit (N.land c 15)]
  else if c =? 34 then [92; 34]
  else if c =? 92 then [92; 92]
  else if c =? 47 then [92; 47]
  else [c].

(* strings.c:240-275, the writing loop; returns the block and pos. *)
Fixpoint json_write (s : list N) (b : block) (pos : nat) : option (block * nat) :=
  match s with
  | [] => Some (b, pos)
  | c :: t =>
      match store_all b pos (json_char c) with
      | Some b' => json_write t b' (pos + length (json_char c))
      | None => None
      end
  end.

(* strings.c:176-285 STRING_new_JSON *)
Definition STRING_new_JSON (st : slots) (a : carg) : M (sret * slots) :=
  (x <- lift (read_arg st a) ;;
   match x with
   | None => ret (RH None, st)
   | Some t =>
       match json_count t with
       | None => ret (RH None, st)
       | Some (nc, ne) =>
           new_string st
             (match store (fresh (length t + 5 * nc + ne + 3)) 0 34 with
              | None => None
              | Some b1 =>
                  match json_write t b1 1 with
                  | None => None
                  | Some (b2, pos) =>
                      match store b2 pos 34 with
                      | None => None
                      | Some b3 => store b3 (pos + 1) 0
                      end
                  end
              end)
       end
   end)%m.

Definition setb (st : slots) (h : nat) (b : block) : slots := upd st h (Some b).

(* A mutator: realloc of the handle's block, then the given writes on the new
   block; the pattern of strings.c:304-315, 339-351, 375-386, 419-431, 453-467,
   485-496. *)
Definition mutate (st : slots) (h : nat) (mk : option block) : M (sret * slots) :=
  (ok <- alloc ;;
   if ok then b <- lift mk ;; ret (RI true, setb st h b)
   else ret (RI false, st))%m.

(* strings.c:291-318 STRING_concat.  If s2 points into the reallocated block, it
   is no longer valid at the memcpy of line 313. *)
Definition STRING_concat (st : slots) (h : option nat) (a : carg) : M (sret * slots) :=
  match h, a with
  | None, _ => ret (RI false, st)
  | Some _, CNull => ret (RI false, st)
  | Some i, _ =>
      (b <- lift (getb st i) ;;
       t1 <- lift (ctext b) ;;
       x <- lift (read_arg st a) ;;
       match x with
       | None => ret (RI false, st)
       | Some t2 =>
           mutate st i
             (if aliases a i then None
              else store_all (realloc b (length t1 + length t2 + 1)) (length t1) (t2 ++ [0]))
       end)%m
  end.

(* strings.c:324-354 STRING_concat_with_STRING.  With s1 = s2 the memcpy of line
   349 copies bytes 0..L to L..2L of one block: the regions overlap at L. *)
Definition STRING_concat_with_STRING (st : slots) (h1 h2 : option nat) : M (sret * slots) :=
  match h1, h2 with
  | Some i, Some j =>
      (b <- lift (getb st i) ;;
       t1 <- lift (ctext b) ;;
       b2 <- lift (getb st j) ;;
       t2 <- lift (ctext b2) ;;
       mutate st i
         (if (i =? j)%nat then None
          else store_all (realloc b (length t1 + length t2 + 1)) (length t1) (t2 ++ [0])))%m
  | _, _ => ret (RI false, st)
  end.

(* strings.c:360-395 STRING_copy: same pointer is a no-op, another pointer into
   the same block is invalid after realloc. *)
Definition STRING_copy (st : slots) (h : option nat) (a : carg) : M (sret * slots) :=
  match h, a with
  | None, _ => ret (RI false, st)
  | Some _, CNull => ret (RI false, st)
  | Some i, _ =>
      (b <- lift (getb st i) ;;
       if match a with COf j O => (j =? i)%nat | _ => false end then ret (RI true, st)
       else
         x <- lift (read_arg st a) ;;
         match x with
         | None => ret (RI false, st)
         | Some t2 =>
             mutate st i
               (if aliases a i then None
                else store_all (realloc b (length t2 + 1)) 0 (t2 ++ [0]))
         end)%m
  end.

(* strings.c:401-435 STRING_copy_n *)
Definition STRING_copy_n (st : slots) (h : option nat) (a : carg) (n : nat) : M (sret * slots) :=
  match h, a with
  | None, _ => ret (RI false, st)
  | Some _, CNull => ret (RI false, st)
  | Some i, _ =>
      (b <- lift (getb st i) ;;
       x <- lift (read_arg st a) ;;
       match x with
       | None => ret (RI false, st)
       | Some t2 =>
           let len := if (n <? length t2)%nat then n else length t2 in
           mutate st i
             (if aliases a i then None
              else match store_all (realloc b (len + 1)) 0 (firstn len t2) with
                   | Some b1 => store b1 len 0
                   | None => None
                   end)
       end)%m
  end.

(* strings.c:441-470 STRING_quote (memmove: overlap allowed) *)
Definition STRING_quote (st : slots) (h : option nat) : M (sret * slots) :=
  match h with
  | None => ret (RI false, st)
  | Some i =>
      (b <- lift (getb st i) ;;
       t <- lift (ctext b) ;;
       mutate st i
         (match store_all (realloc b (length t + 2 + 1)) 1 t with
          | Some b1 =>
              match store b1 0 34 with
              | Some b2 =>
                  match store b2 (length t + 1) 34 with
                  | Some b3 => store b3 (length t + 2) 0
                  | None => None
                  end
              | None => None
              end
          | None => None
          end))%m
  end.

(* strings.c:474-499 STRING_empty *)
Definition STRING_empty (st : slots) (h : option nat) : M (sret * slots) :=
  match h with
  | None => ret (RI false, st)
  | Some i =>
      (b <- lift (getb st i) ;;
       mutate st i (store (realloc b 1) 0 0))%m
  end.

(* strings.c:503-513 STRING_delete (no result: RI true) *)
Definition STRING_delete (st : slots) (h : option nat) : M (sret * slots) :=
  match h with
  | None => ret (RI true, st)
  | Some i => (b <- lift (getb st i) ;; ret (RI true, upd st i None))%m
  end.

(* strings.c:516-529 STRING_c_str: the text at the returned pointer *)
Definition STRING_c_str (st : slots) (h : option nat) : M (sret * slots) :=
  match h with
  | None => ret (RT None, st)
  | Some i => (b <- lift (getb st i) ;; t <- lift (ctext b) ;; ret (RT (Some t), st))%m
  end.

(* strings.c:532-542 STRING_length *)
Definition STRING_length (st : slots) (h : option nat) : M (sret * slots) :=
  match h with
  | None => ret (RN 0, st)
  | Some i => (b <- lift (getb st i) ;; t <- lift (ctext b) ;; ret (RN (length t), st))%m
  end.

(* strcmp: only the sign is specified by C; bytes compare as unsigned char. *)
Fixpoint strcmp (a b : list N) : Z :=
  match a, b with
  | [], [] => 0
  | [], _ :: _ => -1
  | _ :: _, [] => 1
  | x :: a', y :: b' => if (x <? y)%N then -1 else if (y <? x)%N then 1 else strcmp a' b'
  end%Z.

(* strings.c:592-618 STRING_compare *)
Definition STRING_compare (st : slots) (h1 h2 : option nat) : M (sret * slots) :=
  match h1, h2 with
  | None, None => ret (RZ 0, st)
  | None, Some _ => ret (RZ 1, st)
  | Some _, None => ret (RZ (-1), st)
  | Some i, Some j =>
      (b1 <- lift (getb st i) ;; t1 <- lift (ctext b1) ;;
       b2 <- lift (getb st j) ;; t2 <- lift (ctext b2) ;;
       ret (RZ (strcmp t1 t2), st))%m
  end.

Definition sstep (st : slots) (op : sop) : M (sret * slots) :=
  match op with
  | SNew => STRING_new st
  | SClone h => STRING_clone st h
  | SConstruct a => STRING_construct st a
  | SConstructN a n => STRING_construct_n st a n
  | SNewWithMemory m => STRING_new_with_memory st m
  | SQuoted a => STRING_new_quoted st a
  | SJSON a => STRING_new_JSON st a
  | SConcat h a => STRING_concat st h a
  | SConcatS h1 h2 => STRING_concat_with_STRING st h1 h2
  | SCopy h a => STRING_copy st h a
  | SCopyN h a n => STRING_copy_n st h a n
  | SQuote h => STRING_quote st h
  | SEmpty h => STRING_empty st h
  | SDelete h => STRING_delete st h
  | SCStr h => STRING_c_str st h
  | SLength h => STRING_length st h
  | SCompare h1 h2 => STRING_compare st h1 h2
  end.
