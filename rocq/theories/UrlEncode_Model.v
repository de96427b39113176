(* Model of src/urlencode.c.  The 256-row table is transcribed row by row. *)
From Verif Require Import Base.
Open Scope N_scope.

(* urlencode.c:22-282, table urlEncoding: (numberOfChars, encoding); the encoding
   is the string literal without its implicit terminator, row 0 is "\0". *)
Definition urlEncoding : list (nat * list N) :=
  [
   (1%nat, [0]); (3%nat, str "%01"); (3%nat, str "%02"); (3%nat, str "%03");
   (3%nat, str "%04"); (3%nat, str "%05"); (3%nat, str "%06"); (3%nat, str "%07");
   (3%nat, str "%08"); (3%nat, str "%09"); (3%nat, str "%0a"); (3%nat, str "%0b");
   (3%nat, str "%0c"); (3%nat, str "%0d"); (3%nat, str "%0e"); (3%nat, str "%0f");
   (3%nat, str "%10"); (3%nat, str "%11"); (3%nat, str "%12"); (3%nat, str "%13");
   (3%nat, str "%14"); (3%nat, str "%15"); (3%nat, str "%16"); (3%nat, str "%17");
   (3%nat, str "%18"); (3%nat, str "%19"); (3%nat, str "%1a"); (3%nat, str "%1b");
   (3%nat, str "%1c"); (3%nat, str "%1d"); (3%nat, str "%1e"); (3%nat, str "%1f");
   (3%nat, str "%20"); (1%nat, str "!"); (3%nat, str "%22"); (3%nat, str "%23");
   (3%nat, str "%24"); (3%nat, str "%25"); (3%nat, str "%26"); (3%nat, str "%27");
   (1%nat, str "("); (1%nat, str ")"); (1%nat, str "*"); (3%nat, str "%2b");
   (3%nat, str "%2c"); (1%nat, str "-"); (1%nat, str "."); (3%nat, str "%2f");
   (1%nat, str "0"); (1%nat, str "1"); (1%nat, str "2"); (1%nat, str "3");
   (1%nat, str "4"); (1%nat, str "5"); (1%nat, str "6"); (1%nat, str "7");
   (1%nat, str "8"); (1%nat, str "9"); (3%nat, str "%3a"); (3%nat, str "%3b");
   (3%nat, str "%3c"); (3%nat, str "%3d"); (3%nat, str "%3e"); (3%nat, str "%3f");
   (3%nat, str "%40"); (1%nat, str "A"); (1%nat, str "B"); (1%nat, str "C");
   (1%nat, str "D"); (1%nat, str "E"); (1%nat, str "F"); (1%nat, str "G");
   (1%nat, str "H"); (1%nat, str "I"); (1%nat, str "J"); (1%nat, str "K");
   (1%nat, str "L"); (1%nat, str "M"); (1%nat, str "N"); (1%nat, str "O");
   (1%nat, str "P"); (1%nat, str "Q"); (1%nat, str "R"); (1%nat, str "S");
   (1%nat, str "T"); (1%nat, str "U"); (1%nat, str "V"); (1%nat, str "W");
   (1%nat, str "X"); (1%nat, str "Y"); (1%nat, str "Z"); (3%nat, str "%5b");
   (3%nat, str "%5c"); (3%nat, str "%5d"); (3%nat, str "%5e"); (1%nat, str "_");
   (3%nat, str "%60"); (1%nat, str "a"); (1%nat, str "b"); (1%nat, str "c");
   (1%nat, str "d"); (1%nat, str "e"); (1%nat, str "f"); (1%nat, str "g");
   (1%nat, str "h"); (1%nat, str "i"); (1%nat, str "j"); (1%nat, str "k");
   (1%nat, str "l"); (1%nat, str "m"); (1%nat, str "n"); (1%nat, str "o");
   (1%nat, str "p"); (1%nat, str "q"); (1%nat, str "r"); (1%nat, str "s");
   (1%nat, str "t"); (1%nat, str "u"); (1%nat, str "v"); (1%nat, str "w");
   (1%nat, str "x"); (1%nat, str "y"); (1%nat, str "z"); (3%nat, str "%7b");
   (3%nat, str "%7c"); (3%nat, str "%7d"); (3%nat, str "%7e"); (3%nat, str "%7f");
   (6%nat, str "%c2%80"); (6%nat, str "%c2%81"); (6%nat, str "%c2%82"); (6%nat, str "%c2%83");
   (6%nat, str "%c2%84"); (6%nat, str "%c2%85"); (6%nat, str "%c2%86"); (6%nat, str "%c2%87");
   (6%nat, str "%c2%88"); (6%nat, str "%c2%89"); (6%nat, str "%c2%8a"); (6%nat, str "%c2%8b");
   (6%nat, str "%c2%8c"); (6%nat, str "%c2%8d"); (6%nat, str "%c2%8e"); (6%nat, str "%c2%8f");
   (6%nat, str "%c2%90"); (6%nat, str "%c2%91"); (6%nat, str "%c2%92"); (6%nat, str "%c2%93");
   (6%nat, str "%c2%94"); (6%nat, str "%c2%95"); (6%nat, str "%c2%96"); (6%nat, str "%c2%97");
   (6%nat, str "%c2%98"); (6%nat, str "%c2%99"); (6%nat, str "%c2%9a"); (6%nat, str "%c2%9b");
   (6%nat, str "%c2%9c"); (6%nat, str "%c2%9d"); (6%nat, str "%c2%9e"); (6%nat, str "%c2%9f");
   (6%nat, str "%c2%a0"); (6%nat, str "%c2%a1"); (6%nat, str "%c2%a2"); (6%nat, str "%c2%a3");
   (6%nat, str "%c2%a4"); (6%nat, str "%c2%a5"); (6%nat, str "%c2%a6"); (6%nat, str "%c2%a7");
   (6%nat, str "%c2%a8"); (6%nat, str "%c2%a9"); (6%nat, str "%c2%aa"); (6%nat, str "%c2%ab");
   (6%nat, str "%c2%ac"); (6%nat, str "%c2%ad"); (6%nat, str "%c2%ae"); (6%nat, str "%c2%af");
   (6%nat, str "%c2%b0"); (6%nat, str "%c2%b1"); (6%nat, str "%c2%b2"); (6%nat, str "%c2%b3");
   (6%nat, str "%c2%b4"); (6%nat, str "%c2%b5"); (6%nat, str "%c2%b6"); (6%nat, str "%c2%b7");
   (6%nat, str "%c2%b8"); (6%nat, str "%c2%b9"); (6%nat, str "%c2%ba"); (6%nat, str "%c2%bb");
   (6%nat, str "%c2%bc"); (6%nat, str "%c2%bd"); (6%nat, str "%c2%be"); (6%nat, str "%c2%bf");
   (6%nat, str "%c3%80"); (6%nat, str "%c3%81"); (6%nat, str "%c3%82"); (6%nat, str "%c3%83");
   (6%nat, str "%c3%84"); (6%nat, str "%c3%85"); (6%nat, str "%c3%86"); (6%nat, str "%c3%87");
   (6%nat, str "%c3%88"); (6%nat, str "%c3%89"); (6%nat, str "%c3%8a"); (6%nat, str "%c3%8b");
   (6%nat, str "%c3%8c"); (6%nat, str "%c3%8d"); (6%nat, str "%c3%8e"); (6%nat, str "%c3%8f");
   (6%nat, str "%c3%90"); (6%nat, str "%c3%91"); (6%nat, str "%c3%92"); (6%nat, str "%c3%93");
   (6%nat, str "%c3%94"); (6%nat, str "%c3%95"); (6%nat, str "%c3%96"); (6%nat, str "%c3%97");
   (6%nat, str "%c3%98"); (6%nat, str "%c3%99"); (6%nat, str "%c3%9a"); (6%nat, str "%c3%9b");
   (6%nat, str "%c3%9c"); (6%nat, str "%c3%9d"); (6%nat, str "%c3%9e"); (6%nat, str "%c3%9f");
   (6%nat, str "%c3%a0"); (6%nat, str "%c3%a1"); (6%nat, str "%c3%a2"); (6%nat, str "%c3%a3");
   (6%nat, str "%c3%a4"); (6%nat, str "%c3%a5"); (6%nat, str "%c3%a6"); (6%nat, str "%c3%a7");
   (6%nat, str "%c3%a8"); (6%nat, str "%c3%a9"); (6%nat, str "%c3%aa"); (6%nat, str "%c3%ab");
   (6%nat, str "%c3%ac"); (6%nat, str "%c3%ad"); (6%nat, str "%c3%ae"); (6%nat, str "%c3%af");
   (6%nat, str "%c3%b0"); (6%nat, str "%c3%b1"); (6%nat, str "%c3%b2"); (6%nat, str "%c3%b3");
   (6%nat, str "%c3%b4"); (6%nat, str "%c3%b5"); (6%nat, str "%c3%b6"); (6%nat, str "%c3%b7");
   (6%nat, str "%c3%b8"); (6%nat, str "%c3%b9"); (6%nat, str "%c3%ba"); (6%nat, str "%c3%bb");
   (6%nat, str "%c3%bc"); (6%nat, str "%c3%bd"); (6%nat, str "%c3%be"); (6%nat, str "%c3%bf")
  ].

(* urlEncoding[c] for an unsigned char c (always within the table). *)
Definition urlEntry (c : N) : nat * list N := nth (N.to_nat c) urlEncoding (0%nat, []).

(* urlencode.c:324-328, the measuring loop; cs = characters of the input followed
   by its NUL. *)
Fixpoint measure (cs : list N) : nat :=
  match cs with
  | [] => 0
  | c :: t => fst (urlEntry c) + (if (c =? 0)%N then 0 else measure t)
  end%nat.

(* memcpy(dst + i, src, n) from a string literal src: reading past the literal
   (its characters and terminator) is undefined. *)
Definition memcpy_lit (b : block) (i : nat) (src : list N) (n : nat) : option block :=
  if (n <=? length src + 1)%nat then store_all b i (firstn n (src ++ [0])) else None.

(* urlencode.c:339-351, the emitting loop; pos = currentEncodePosition. *)
Fixpoint emit (cs : list N) (b : block) (pos : nat) : option block :=
  match cs with
  | [] => Some b
  | c :: t =>
      let (n, enc) := urlEntry c in
      match (if (n =? 1)%nat then store b pos (hd 0 (enc ++ [0]))
             else memcpy_lit b pos enc n) with
      | None => None
      | Some b' => if c =? 0 then Some b' else emit t b' (pos + n)
      end
  end.

(* urlencode.c:307-356 URL_Encode on a STRING holding the characters s; the
   result is the memory block given to STRING_new_with_memory (None = NULL).
   The encodedURL block leaks when that last allocation fails (line 352); leaks
   are not modelled. *)
Definition URL_Encode (input : option (list N)) : M (option block) :=
  match input with
  | None => ret None
  | Some s =>
      (ok1 <- alloc ;;
       if negb ok1 then ret None
       else b <- lift (emit (s ++ [0]) (fresh (measure (s ++ [0]))) 0) ;;
            ok2 <- alloc ;;
            if negb ok2 then ret None else ret (Some b))%m
  end.

(* urlencode.c:284-305 URL_EncodeString; STRING_construct makes two allocations
   (strings.c) and copies the text. *)
Definition URL_EncodeString (textEncode : option (list N)) : M (option block) :=
  match textEncode with
  | None => ret None
  | Some s =>
      (ok1 <- alloc ;;
       if negb ok1 then ret None
       else ok2 <- alloc ;;
            if negb ok2 then ret None else URL_Encode (Some s))%m
  end.
