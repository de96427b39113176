(* Model of src/crt_abstractions.c (the non-Microsoft branch).  A destination is
   the block of memory that really is there (its length is not dstSizeInBytes, which
   is passed separately): a write outside the block, or reading a cell never written,
   is undefined behaviour (None).  Source strings do not overlap the destination.
   Sums of sizes of objects in memory do not wrap. *)
From Verif Require Import Base Strings_Model.
Open Scope N_scope.

Inductive err := EOK | EEINVAL | EERANGE | ESTRUNCATE | EENOMEM.

(* C's strncpy: n characters, padded with zeros after the end of s *)
Definition strncpy_bytes (s : list N) (n : nat) : list N := firstn n s ++ repeat 0 (n - length s).

Definition with_store (r : err) (b : option block) : option (err * block) :=
  match b with Some b' => Some (r, b') | None => None end.

(* crt_abstractions.c:52-55: index of the first 0 among the first n cells, n if none;
   None if a cell read is out of the block or was never written *)
Fixpoint scan0 (b : block) (n : nat) : option nat :=
  match n with
  | O => Some 0%nat
  | S k => match b with
           | Some c :: t => if c =? 0 then Some 0%nat
                            else match scan0 t k with Some i => Some (S i) | None => None end
           | _ => None
           end
  end.

(* crt_abstractions.c:23-82 strcat_s *)
Definition strcat_s (dst : option block) (size : nat) (src : option (list N))
    : option (err * option block) :=
  match dst with
  | None => Some (EEINVAL, None)
  | Some b =>
      let out r x := match x with Some b' => Some (r, Some b') | None => None end in
      match src with
      | None => out EEINVAL (store b 0 0)
      | Some s =>
          if (size =? 0)%nat then out EERANGE (store b 0 0)
          else match scan0 b size with
               | None => None
               | Some len =>
                   if (size =? len)%nat then Some (EEINVAL, Some b)
                   else match store_all b len (strncpy_bytes s (size - len)) with
                        | None => None
                        | Some b1 =>
                            match nth_error b1 (size - 1) with
                            | Some (Some c) => if c =? 0 then Some (EOK, Some b1)
                                               else out EERANGE (store b1 0 0)
                            | _ => None
                            end
                        end
               end
      end
  end.

(* crt_abstractions.c:85-151 strncpy_s; maxCount None = _TRUNCATE *)
Definition strncpy_s (dst : option block) (size : nat) (src : option (list N)) (maxCount : option nat)
    : option (err * option block) :=
  match dst with
  | None => Some (EEINVAL, None)
  | Some b =>
      let out r x := match x with Some b' => Some (r, Some b') | None => None end in
      match src with
      | None => out EEINVAL (store b 0 0)
      | Some s =>
          if (size =? 0)%nat then Some (EEINVAL, Some b)
          else
            let copy r n := match store_all b 0 (strncpy_bytes s n) with
                            | None => None
                            | Some b1 => out r (store b1 n 0)
                            end in
            match maxCount with
            | Some m =>
                let srcLength := if (m <? length s)%nat then m else length s in
                if (size <? srcLength + 1)%nat then out EERANGE (store b 0 0)
                else copy EOK srcLength
            | None =>
                if (size <? length s + 1)%nat then copy ESTRUNCATE (size - 1)%nat
                else copy EOK (length s)
            end
      end
  end.

(* crt_abstractions.c:154-193 strcpy_s *)
Definition strcpy_s (dst : option block) (size : nat) (src : option (list N))
    : option (err * option block) :=
  match dst with
  | None => Some (EEINVAL, None)
  | Some b =>
      let out r x := match x with Some b' => Some (r, Some b') | None => None end in
      match src with
      | None => out EEINVAL (store b 0 0)
      | Some s =>
          if (size =? 0)%nat then out EERANGE (store b 0 0)
          else if (size <? length s + 1)%nat then out EERANGE (store b 0 0)
          else out EOK (store_all b 0 (s ++ [0]))
      end
  end.

(* C99 vsnprintf (7.19.6.12), given the text [txt] the format and arguments produce:
   nothing is written if size is 0, otherwise at most size-1 characters and a 0. *)
Definition vsnprintf_writes (txt : list N) (size : nat) : list N :=
  if (size =? 0)%nat then [] else firstn (size - 1) txt ++ [0].

(* crt_abstractions.c:197-251 sprintf_s; result None = -1, txt None = vsnprintf
   reports an error (negative result; the destination is then left as it was) *)
Definition sprintf_s (dst : option block) (size : nat) (format_given : bool) (txt : option (list N))
    : option (option nat * option block) :=
  match dst, format_given with
  | Some b, true =>
      match txt with
      | None => Some (None, Some b)
      | Some t =>
          match store_all b 0 (vsnprintf_writes t size) with
          | None => None
          | Some b1 =>
              if (size <=? length t)%nat
              then match store b1 0 0 with Some b2 => Some (None, Some b2) | None => None end
              else Some (Some (length t), Some b1)
          end
      end
  | _, _ => Some (None, dst)
  end.

(* crt_abstractions.c:255-291 mallocAndStrcpy_s; destination given or NULL; the new
   contents of *destination is the block, or NULL *)
Definition mallocAndStrcpy_s (dest_given : bool) (source : option (list N))
    : M (err * option (option block)) :=
  match source with
  | Some s =>
      if dest_given then
        (ok <- alloc ;;
         if ok then
           x <- lift (strcpy_s (Some (fresh (length s + 1))) (length s + 1) (Some s)) ;;
           match x with
           (* temp < 0 never holds: error codes are positive *)
           | (_, b) => ret (EOK, Some b)
           end
         else ret (EENOMEM, Some None))%m
      else ret (EEINVAL, None)
  | None => ret (EEINVAL, None)
  end.

(* crt_abstractions.c:314-318 = 365-369: the do-while loop; room = destinationSize-1-pos *)
Fixpoint digit_loop (room : nat) (b : block) (pos : nat) (value : N) : option (block * nat * N) :=
  match room with
  | O => None
  | S k =>
      match store b pos (48 + value mod 10) with
      | None => None
      | Some b' =>
          let v := value / 10 in
          if (0 <? v) && (0 <? k)%nat then digit_loop k b' (S pos) v
          else Some (b', S pos, v)
      end
  end.

(* crt_abstractions.c:325-331 = 376-382: the body of the reversing loop, n times from w *)
Fixpoint swap_loop (n : nat) (b : block) (pos w : nat) : option block :=
  match n with
  | O => Some b
  | S k =>
      match nth_error b w, nth_error b (pos - 1 - w) with
      | Some (Some x), Some (Some y) =>
          match store b w y with
          | None => None
          | Some b1 => match store b1 (pos - 1 - w) x with
                       | None => None
                       | Some b2 => swap_loop k b2 pos (S w)
                       end
          end
      | _, _ => None
      end
  end.

(* crt_abstractions.c:297-342 unsignedIntToString and 348-393 size_tToString: the two
   bodies are the same text, for a 32-bit and a 64-bit value; true = 0 *)
Definition uintToString (dst : option block) (size : nat) (value : N) : option (bool * option block) :=
  match dst with
  | None => Some (false, None)
  | Some b =>
      if (size <? 2)%nat then Some (false, Some b)
      else match digit_loop (size - 1) b 0 value with
           | None => None
           | Some (b1, pos, v) =>
               if v =? 0 then
                 match store b1 pos 0 with
                 | None => None
                 | Some b2 => match swap_loop (S ((pos - 1) / 2)) b2 pos 0 with
                              | None => None
                              | Some b3 => Some (true, Some b3)
                              end
                 end
               else Some (false, Some b1)
           end
  end.
Definition unsignedIntToString := uintToString.
Definition size_tToString := uintToString.
