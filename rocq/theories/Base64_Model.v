(* Model of src/base64.c.  Characters and bytes are N below 256; a C string is
   the list of its characters without the NUL.  malloc failures come from the
   allocation oracle of Base.v; an out-of-bounds write is undefined behaviour
   (None).  size_t arithmetic is unbounded: every quantity is bounded by a
   multiple (4/3) of the length of an object already in memory. *)
From Verif Require Import Base.
Open Scope N_scope.

(* base64.c:21-29, table base64char. *)
Definition base64char : list N :=
  str "ABCDEFGHIJKLMNOPQRSTUVWXYZabcdefghijklmnopqrstuvwxyz0123456789+/".
(* base64.c:31-34, table base64b16. *)
Definition base64b16 : list N := str "AEIMQUYcgkosw048".
(* base64.c:36-38, table base64b8. *)
Definition base64b8 : list N := str "AQgw".

(* Table read t[i]; None = index out of the table (undefined behaviour). *)
Definition tab (t : list N) (i : N) : option N := nth_error t (N.to_nat i).

(* base64.c:40-69 base64toValue: Some v = result 0 with *value = v, None =
   result -1 (with *value = 0).  The comparisons on plain char are the same for
   signed and unsigned char, since bytes above 127 fail both ways. *)
Definition base64toValue (c : N) : option N :=
  if (65 <=? c) && (c <=? 90) then Some (c - 65)
  else if (97 <=? c) && (c <=? 122) then Some (26 + (c - 97))
  else if (48 <=? c) && (c <=? 57) then Some (52 + (c - 48))
  else if c =? 43 then Some 62
  else if c =? 47 then Some 63
  else None.

(* The value stored through the pointer by base64toValue (0 on failure,
   base64.c:65). *)
Definition base64val (c : N) : N :=
  match base64toValue c with Some v => v | None => 0 end.

(* base64.c:71-80 numberOfBase64Characters: the scan stops at the first
   character without a value, at the latest at the NUL. *)
Fixpoint numberOfBase64Characters (s : list N) : nat :=
  match s with
  | [] => 0%nat
  | c :: t => match base64toValue c with
              | Some _ => S (numberOfBase64Characters t)
              | None => 0%nat
              end
  end.

(* base64.c:81-112 Base64decode_len. *)
Definition Base64decode_len (s : list N) : nat :=
  match rev s with
  | [] => 0
  | c :: t =>
      if (c =? 61)%N then
        match t with
        | [] => (0 / 4) * 3 + 2
        | c' :: t' => if (c' =? 61)%N then (length t' / 4) * 3 + 1
                      else (length t / 4) * 3 + 2
        end
      else (length s / 4) * 3
  end%nat.

(* base64.c:114-171 Base64decode: cs is the run of numberOfBase64Characters
   encoded characters still to process, i the value of decodedIndex.  Values
   stored are truncated to unsigned char. *)
Fixpoint Base64decode (cs : list N) (b : block) (i : nat) : option block :=
  match cs with
  | c1 :: c2 :: c3 :: c4 :: rest =>
      let v1 := base64val c1 in let v2 := base64val c2 in
      let v3 := base64val c3 in let v4 := base64val c4 in
      match store b i (N.lor (N.shiftl v1 2) (N.shiftr v2 4) mod 256)%N with
      | None => None
      | Some b1 =>
          match store b1 (i + 1) (N.lor (N.shiftl (N.land v2 15) 4) (N.shiftr v3 2) mod 256)%N with
          | None => None
          | Some b2 =>
              match store b2 (i + 2) (N.lor (N.shiftl (N.land v3 3) 6) v4 mod 256)%N with
              | None => None
              | Some b3 => Base64decode rest b3 (i + 3)
              end
          end
      end
  | [c1; c2] =>
      store b i (N.lor (N.shiftl (base64val c1) 2) (N.shiftr (base64val c2) 4) mod 256)%N
  | [c1; c2; c3] =>
      match store b i (N.lor (N.shiftl (base64val c1) 2) (N.shiftr (base64val c2) 4) mod 256)%N with
      | None => None
      | Some b1 =>
          store b1 (i + 1)
            (N.lor (N.shiftl (N.land (base64val c2) 15) 4) (N.shiftr (base64val c3) 2) mod 256)%N
      end
  | _ => Some b
  end%nat.

(* base64.c:173-214 Base64_Decoder on a non-NULL source (BUFFER_new and
   BUFFER_pre_build are one allocation each, buffer.c).  Result: None = NULL,
   Some block = the content of the returned BUFFER. *)
Definition Base64_Decoder_str (s : list N) : M (option block) :=
  (let n := numberOfBase64Characters s in
   if (n mod 4 =? 1)%nat then ret None
   else
     ok1 <- alloc ;;
     if negb ok1 then ret None
     else
       let sz := Base64decode_len s in
       if (0 <? sz)%nat then
         ok2 <- alloc ;;
         if negb ok2 then ret None
         else b <- lift (Base64decode (firstn n s) (fresh sz) 0) ;;
              ret (Some b)
       else ret (Some []))%m.

(* base64.c:173-214, with the NULL test of line 177. *)
Definition Base64_Decoder (source : option (list N)) : M (option block) :=
  match source with
  | None => ret None
  | Some s => Base64_Decoder_str s
  end.

(* base64.c:223-224, neededSize. *)
Definition neededSize (size : nat) : nat :=
  ((if size =? 0 then 0 else ((size - 1) / 3 + 1) * 4) + 1)%nat.

(* base64.c:239-285: the loop and the tail of Base64_Encode_Internal, followed
   by the terminator; pos is destinationPosition, src the bytes still to read. *)
Fixpoint encode_loop (src : list N) (b : block) (pos : nat) : option block :=
  match src with
  | b0 :: b1 :: b2 :: rest =>
      match tab base64char (N.shiftr b0 2),
            tab base64char (N.lor (N.shiftl (N.land b0 3) 4) (N.shiftr b1 4)),
            tab base64char (N.lor (N.shiftl (N.land b1 15) 2) (N.land (N.shiftr b2 6) 3)),
            tab base64char (N.land b2 63) with
      | Some c1, Some c2, Some c3, Some c4 =>
          match store_all b pos [c1; c2; c3; c4] with
          | Some b' => encode_loop rest b' (pos + 4)%nat
          | None => None
          end
      | _, _, _, _ => None
      end
  | [b0; b1] =>
      match tab base64char (N.shiftr b0 2),
            tab base64char (N.lor (N.shiftl (N.land b0 3) 4) (N.shiftr b1 4)),
            tab base64b16 (N.land b1 15) with
      | Some c1, Some c2, Some c3 =>
          match store_all b pos [c1; c2; c3; 61] with
          | Some b' => store b' (pos + 4)%nat 0
          | None => None
          end
      | _, _, _ => None
      end
  | [b0] =>
      match tab base64char (N.shiftr b0 2), tab base64b8 (N.land b0 3) with
      | Some c1, Some c2 =>
          match store_all b pos [c1; c2; 61; 61] with
          | Some b' => store b' (pos + 4)%nat 0
          | None => None
          end
      | _, _ => None
      end
  | [] => store b pos 0
  end.

(* base64.c:217-295 Base64_Encode_Internal.  The result is the memory block
   handed to STRING_new_with_memory (one more allocation); None = NULL. *)
Definition Base64_Encode_Internal (src : list N) : M (option block) :=
  (ok1 <- alloc ;;
   if negb ok1 then ret None
   else
     b <- lift (encode_loop src (fresh (neededSize (length src))) 0) ;;
     ok2 <- alloc ;;
     if negb ok2 then ret None else ret (Some b))%m.

(* base64.c:297-315 Base64_Encode_Bytes; STRING_new makes two allocations
   (strings.c) and yields the block holding only the terminator. *)
Definition Base64_Encode_Bytes (source : option (list N)) : M (option block) :=
  match source with
  | None => ret None
  | Some [] =>
      (ok1 <- alloc ;;
       if negb ok1 then ret None
       else ok2 <- alloc ;;
            if negb ok2 then ret None else ret (Some [Some 0]))%m
  | Some src => Base64_Encode_Internal src
  end.

(* base64.c:317-349 Base64_Encode on a BUFFER whose content is the given byte
   list (BUFFER_content and BUFFER_size cannot fail on a non-NULL handle). *)
Definition Base64_Encode (input : option (list N)) : M (option block) :=
  match input with
  | None => ret None
  | Some src => Base64_Encode_Internal src
  end.
