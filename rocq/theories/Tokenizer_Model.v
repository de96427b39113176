(* Model of src/string_tokenizer.c over the model of src/strings.c.  A tokenizer is
   its private copy of the text and the index of the current position.  The text
   handed to the model of STRING_copy_n is the tail of the private copy, which never
   aliases a STRING. *)
From Verif Require Import Base Strings_Model.
Open Scope N_scope.

(* string_tokenizer.c:21-26 STRING_TOKEN; sizeOfinputString is always
   strlen(inputString) (line 73). *)
Record tokenizer := { inputString : list N; currentPos : nat }.

(* string_tokenizer.c:47-76 STRING_TOKENIZER_create_from_char (the struct, then the
   copy made by mallocAndStrcpy_s) *)
Definition STRING_TOKENIZER_create_from_char (input : option (list N)) : M (option tokenizer) :=
  match input with
  | None => ret None
  | Some s => (ok <- allocs 2 ;;
               ret (if ok then Some {| inputString := s; currentPos := 0 |} else None))%m
  end.

(* string_tokenizer.c:28-45 STRING_TOKENIZER_create *)
Definition STRING_TOKENIZER_create (st : slots) (h : option nat) : M (option tokenizer) :=
  match h with
  | None => ret None
  | Some i => (b <- lift (getb st i) ;; t <- lift (ctext b) ;;
               STRING_TOKENIZER_create_from_char (Some t))%m
  end.

(* string_tokenizer.c:112-119 *)
Definition is_delimiter (delimiters : list N) (c : N) : bool := existsb (N.eqb c) delimiters.

(* string_tokenizer.c:109-126: how many characters the first loop skips *)
Fixpoint skip_delimiters (delimiters s : list N) : nat :=
  match s with
  | [] => 0
  | c :: t => if is_delimiter delimiters c then S (skip_delimiters delimiters t) else 0
  end.

(* strchr, as an offset *)
Fixpoint strchr (s : list N) (c : N) : option nat :=
  match s with
  | [] => None
  | x :: t => if x =? c then Some 0%nat
              else match strchr t c with Some k => Some (S k) | None => None end
  end.

(* string_tokenizer.c:150-157: the first delimiter, in the order of the delimiter
   string, that occurs anywhere in the rest of the text *)
Fixpoint end_of_token (s delimiters : list N) : option nat :=
  match delimiters with
  | [] => None
  | d :: ds => match strchr s d with
               | Some k => Some k
               | None => end_of_token s ds
               end
  end.

(* string_tokenizer.c:78-195 STRING_TOKENIZER_get_next_token; the result is 0 or
   not, the strings and the tokenizer afterwards *)
Definition STRING_TOKENIZER_get_next_token (st : slots) (tk : option tokenizer)
    (output : option nat) (delimiters : option (list N)) : M (bool * slots * option tokenizer) :=
  match tk, output, delimiters with
  | Some t, Some out, Some ds =>
      let rest := skipn (currentPos t) (inputString t) in
      let remaining := (length (inputString t) - currentPos t)%nat in
      if (remaining =? 0)%nat then ret (false, st, tk)
      else if (length ds =? 0)%nat then ret (false, st, tk)
      else
        let i := skip_delimiters ds rest in
        let pos := (currentPos t + i)%nat in
        let remaining := (remaining - i)%nat in
        let moved p := Some {| inputString := inputString t; currentPos := p |} in
        if (remaining =? 0)%nat then ret (false, st, moved pos)
        else
          let here := skipn pos (inputString t) in
          let e := end_of_token here ds in
          let amount := match e with None => remaining | Some k => k end in
          (x <- STRING_copy_n st (Some out) (CText here) amount ;;
           match x with
           | (RI true, st') =>
               ret (true, st', moved (match e with
                                      | Some _ => pos + (amount + 1)
                                      | None => pos + amount
                                      end)%nat)
           | (_, st') => ret (false, st', moved pos)
           end)%m
  | _, _, _ => ret (false, st, tk)
  end.

(* A client: call get_next_token n times with the same delimiters and read the
   output string after each success (None = the call failed). *)
Fixpoint token_loop (n : nat) (st : slots) (t : tokenizer) (out : nat) (ds : list N)
    : M (list (option (list N)) * slots * tokenizer) :=
  match n with
  | O => ret ([], st, t)
  | S k =>
      (x <- STRING_TOKENIZER_get_next_token st (Some t) (Some out) (Some ds) ;;
       match x with
       | (r, st1, Some t1) =>
           y <- (if r then
                   z <- STRING_c_str st1 (Some out) ;;
                   match z with (RT txt, _) => ret txt | _ => ret None end
                 else ret None) ;;
           w <- token_loop k st1 t1 out ds ;;
           match w with (ys, st2, t2) => ret (y :: ys, st2, t2) end
       | (_, st1, None) => undef
       end)%m
  end.
