(* Model of testtools/micromock/inc/mockcallargument.h: an argument whose buffer is to be validated.  An exception is an outcome;
   undefined behaviour is None.  The texts are left as lists of what stands for each byte, without brackets and spaces. *)
From Verif Require Import Base.

(* mockcallargumentbase.h:19-48; the buffer is NULL when malloc failed (:163-167 does not look) *)
Record validation := { m_Offset : nat; m_ByteCount : nat; m_Buffer : option (list N) }.
(* operator<, of two with the same place and length either may come first: the address decides *)
Definition before (a b : validation) : bool := (m_Offset a <? m_Offset b) || ((m_Offset a =? m_Offset b) && (m_ByteCount a <=? m_ByteCount b)).
Fixpoint insert (v : validation) (l : list validation) : list validation := match l with [] => [v] | w :: r => if before v w then v :: l else w :: insert v r end.
Fixpoint sort (l : list validation) : list validation := match l with [] => [] | v :: r => insert v (sort r) end.

Inductive exception := INVALID_VALIDATE_BUFFERS | ALLOCATION_FAILURE | INVALID_ARGUMENT.
Inductive outcome (A : Type) := Done (a : A) | Thrown (e : exception).
Arguments Done {A}. Arguments Thrown {A}.

(* :262-279 GetArgBufferValidationExpectedByte: the last one that covers the place *)
Fixpoint expected_byte (vs : list validation) (pos : nat) (found : option N) : option (option N) :=
  match vs with
  | [] => Some found
  | v :: vs =>
      if (m_Offset v <=? pos) && (pos <? m_Offset v + m_ByteCount v) then
        match m_Buffer v with
        | None => None
        | Some d => match nth_error d (pos - m_Offset v) with Some b => expected_byte vs pos (Some b) | None => None end
        end
      else expected_byte vs pos found
  end.
(* :152-160: does a byte contradict an earlier validation? *)
Fixpoint conflict (vs : list validation) (data : list N) (i : nat) : option bool :=
  match data with
  | [] => Some false
  | b :: data => match expected_byte vs i None with None => None | Some (Some x) => if N.eqb x b then conflict vs data (S i) else Some true | Some None => conflict vs data (S i) end
  end.
(* :147-183 AddBufferValidation of a buffer of at least one byte: the list m_BufferValidations after it *)
Definition AddBufferValidation (vs : list validation) (expectedBuffer : list N) (byteOffset : nat) : M (outcome (list validation)) :=
  match expectedBuffer with
  | [] => ret (Thrown INVALID_VALIDATE_BUFFERS)
  | _ =>
      (c <- lift (conflict vs expectedBuffer byteOffset) ;;
       if c then ret (Thrown INVALID_VALIDATE_BUFFERS)
       else
         ok <- alloc ;;
         ret (Done (vs ++ [{| m_Offset := byteOffset; m_ByteCount := length expectedBuffer; m_Buffer := if ok then Some expectedBuffer else None |}])))%m
  end.

(* :300-308: the bytes copied to their places *)
Fixpoint copy_mask (vs : list validation) (b : block) : option block :=
  match vs with
  | [] => Some b
  | v :: vs => match m_Buffer v with None => None | Some d => match store_all b (m_Offset v) d with Some b => copy_mask vs b | None => None end end
  end.
(* :284-312 CreateBufferValidationMask, of a list that is sorted now; None: NULL *)
Definition CreateBufferValidationMask (vs : list validation) : M (option block) :=
  match last vs {| m_Offset := 0; m_ByteCount := 0; m_Buffer := None |} with
  | v => (ok <- alloc ;; if negb ok then ret None else b <- lift (copy_mask vs (fresh (m_Offset v + m_ByteCount v))) ;; ret (Some b))%m
  end.

(* :214-260 FormatArgumentBufferString *)
Inductive token := Dots | Byte (b : N).
Fixpoint show_bytes (n pos : nat) (read : nat -> option N) : option (list token) :=
  match n with O => Some [] | S n => match read pos with Some b => match show_bytes n (S pos) read with Some t => Some (Byte b :: t) | None => None end | None => None end end.
Fixpoint format (vs : list validation) (pos : nat) (read : nat -> option N) : option (list token) :=
  match vs with
  | [] => Some []
  | v :: vs =>
      let dots := m_Offset v - pos in
      let n := m_Offset v + m_ByteCount v - (pos + dots) in
      match show_bytes n (pos + dots) read, format vs (pos + dots + n) read with Some t, Some r => Some (repeat Dots dots ++ t ++ r) | _, _ => None end
  end.

(* :101-117 ValidateArgumentBuffer, of an argument that is not NULL; [mem]: what can be read there *)
Fixpoint validate (vs : list validation) (mem : list N) : option bool :=
  match vs with
  | [] => Some true
  | v :: vs =>
      match m_Buffer v with
      | None => None
      | Some d =>
          if m_Offset v + m_ByteCount v <=? length mem then
            match validate vs mem with Some b => Some ((if list_eq_dec N.eq_dec (firstn (m_ByteCount v) (skipn (m_Offset v) mem)) d then true else false) && b) | None => None end
          else None
      end
  end.
(* :55-96 operator== between an actual argument and an expected one with validations (either way around, :59-63): the answer, and
   the texts of the actual and of the expected argument.  [mem] is None for NULL; [same]: the values are equal; [ignored]: one of the
   two is ignored *)
Definition arguments_equal (vs : list validation) (mem : option (list N)) (ignored same : bool) : M (outcome (bool * list token * list token)) :=
  let vs := sort vs in
  (mask <- CreateBufferValidationMask vs ;;
   match mask with
   | None => ret (Thrown ALLOCATION_FAILURE)
   | Some mask =>
       match mem with
       | None => ret (Thrown INVALID_ARGUMENT)
       | Some mem =>
           ta <- lift (format vs 0 (nth_error mem)) ;;
           te <- lift (format vs 0 (fun p => match nth_error mask p with Some (Some b) => Some b | _ => None end)) ;;
           result <- lift (validate vs mem) ;;
           ret (Done (if result && negb ignored then same else result, ta, te))
       end
   end)%m.

(* :192-208 AddCopyOutArgumentBuffer *)
Definition AddCopyOutArgumentBuffer (cs : list validation) (injectedBuffer : list N) (byteOffset : nat) : M (list validation) :=
  (ok <- alloc ;; ret (cs ++ [{| m_Offset := byteOffset; m_ByteCount := length injectedBuffer; m_Buffer := if ok then Some injectedBuffer else None |}]))%m.
(* :130-145 CopyOutArgumentDataFrom, the argument not NULL *)
Fixpoint CopyOutArgumentDataFrom (cs : list validation) (mem : block) : option block :=
  match cs with
  | [] => Some mem
  | v :: cs => match m_Buffer v with None => None | Some d => match store_all mem (m_Offset v) (firstn (m_ByteCount v) d) with Some mem => CopyOutArgumentDataFrom cs mem | None => None end end
  end.
