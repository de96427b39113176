(* Model of testtools/umock_c/src/umocktypename.c: type names of the mocking library on memory. *)
From Verif Require Import Base.

(* isspace of the C locale: tab, line feed, vertical tab, form feed, carriage return, space.  A char above 127 is
   negative there; glibc's table answers no for it. *)
Definition isspace (c : N) : bool := ((9 <=? c) && (c <=? 13) || (c =? 32))%N.
(* type_name[i]: the string ends with a 0; what lies beyond is not ours to read *)
Definition char_at (s : list N) (i : nat) : option N := nth_error (s ++ [0%N]) i.

(* umocktypename.c:32-35 and :91-94: while not at the end and on a space, go on *)
Fixpoint skip_spaces (fuel : nat) (s : list N) (pos : nat) : option nat :=
  match fuel with
  | O => None
  | S fuel =>
      match char_at s pos with
      | None => None
      | Some c => if negb (c =? 0)%N && isspace c then skip_spaces fuel s (S pos) else Some pos
      end
  end.
(* :42-45 and :101-104: whether no space is to be written; type_name[last_pos - 1] is read only when last_pos is
   not 0 *)
Definition no_space (s : list N) (last_pos pos : nat) : option bool :=
  if last_pos =? 0 then Some true
  else
    match char_at s pos, char_at s (last_pos - 1) with
    | Some c, Some p => Some ((c =? 0) || (p =? 42) || (c =? 42))%N
    | _, _ => None
    end.
(* :57-61: count what is no space *)
Fixpoint count_word (fuel : nat) (s : list N) (pos length : nat) : option (nat * nat) :=
  match fuel with
  | O => None
  | S fuel =>
      match char_at s pos with
      | None => None
      | Some c => if negb (c =? 0)%N && negb (isspace c) then count_word fuel s (S pos) (S length) else Some (pos, length)
      end
  end.
(* :27-62, the first pass.  The fuel is what a string of this length needs; running out would be a failure. *)
Fixpoint measure (fuel : nat) (s : list N) (pos len : nat) : option nat :=
  match fuel with
  | O => None
  | S fuel =>
      match char_at s pos with
      | None => None
      | Some c =>
          if (c =? 0)%N then Some len
          else
            let last_pos := pos in
            match skip_spaces (S (length s)) s pos with
            | None => None
            | Some pos =>
                match no_space s last_pos pos with
                | None => None
                | Some b =>
                    let len := if b then len else S len in
                    match count_word (S (length s)) s pos len with
                    | None => None
                    | Some (pos, len) => measure fuel s pos len
                    end
                end
            end
      end
  end.
(* :116-119: copy what is no space *)
Fixpoint copy_word (fuel : nat) (s : list N) (pos : nat) (result : block) (len : nat) : option (nat * block * nat) :=
  match fuel with
  | O => None
  | S fuel =>
      match char_at s pos with
      | None => None
      | Some c =>
          if negb (c =? 0)%N && negb (isspace c) then
            match store result len c with
            | None => None
            | Some result => copy_word fuel s (S pos) result (S len)
            end
          else Some (pos, result, len)
      end
  end.
(* :86-120, the second pass *)
Fixpoint fill (fuel : nat) (s : list N) (pos : nat) (result : block) (len : nat) : option (block * nat) :=
  match fuel with
  | O => None
  | S fuel =>
      match char_at s pos with
      | None => None
      | Some c =>
          if (c =? 0)%N then Some (result, len)
          else
            let last_pos := pos in
            match skip_spaces (S (length s)) s pos with
            | None => None
            | Some pos =>
                match no_space s last_pos pos with
                | None => None
                | Some b =>
                    match (if b then Some (result, len) else match store result len 32%N with Some r => Some (r, S len) | None => None end) with
                    | None => None
                    | Some (result, len) =>
                        match copy_word (S (length s)) s pos result len with
                        | None => None
                        | Some (pos, result, len) => fill fuel s pos result len
                        end
                    end
                end
            end
      end
  end.

(* umocktypename.c:12-122: NULL or the new block *)
Definition umocktypename_normalize (type_name : option (list N)) : M (option block) :=
  match type_name with
  | None => ret None
  | Some s =>
      (len <- lift (measure (S (length s)) s 0 0) ;;
       if (len =? 0) then ret None
       else
         ok <- alloc ;;
         if negb ok then ret None
         else
           r <- lift (fill (S (length s)) s 0 (fresh (S len)) 0) ;;
           result <- lift (store (fst r) (snd r) 0%N) ;;
           ret (Some result))%m
  end.
