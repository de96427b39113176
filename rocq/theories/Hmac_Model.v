(* Model of src/hmac.c and src/hmacsha256.c, over the models of usha.c and buffer.c.
   int is 32 bits, unsigned int too.  a || b || c in C gives 0 or 1. *)
From Coq Require Import ZArith.
From Verif Require Import Base Sha_Model.
From Verif Require Buffer_Model.
Open Scope N_scope.
Open Scope o_scope.

(* sha.h:168-175; h_sha = None: shaContext was never reset *)
Record hctx := { h_which : N; h_hash : nat; h_block : nat; h_sha : option usha; k_opad : block }.

(* sha.h:75-77 *)
Definition USHA_Max_Message_Block_Size : nat := 128.

(* a pointer to bytes, NULL = None *)
Definition bytes_ptr := option (list N).

(* (unsigned) of an int *)
Definition to_unsigned (n : Z) : N := Z.to_N (n mod 2 ^ 32).

(* the n bytes at p as an argument of USHAInput, which does not look at them if it is NULL; None =
   fewer than n bytes there *)
Definition input_arg (p : bytes_ptr) (n : N) : option (N + list N) :=
  match p with
  | None => Some (inl n)
  | Some l => if N.to_nat n <=? length l then Some (inr (firstn (N.to_nat n) l)) else None
  end%nat.

(* the first n elements of an array *)
Fixpoint read_n (n i : nat) (b : block) : option (list N) :=
  match n with O => Some [] | S k => x <- get b i ;; r <- read_n k (S i) b ;; Some (x :: r) end.

(* hmac.c:122-131: k_ipad[i] = key[i] ^ 0x36; ctx->k_opad[i] = key[i] ^ 0x5c, for the bytes l from i on *)
Fixpoint pad_loop (l : list N) (i : nat) (ipad opad : block) : option (block * block) :=
  match l with
  | [] => Some (ipad, opad)
  | b :: t => ip <- store ipad i (N.lxor b 0x36) ;; op <- store opad i (N.lxor b 0x5c) ;; pad_loop t (S i) ip op
  end.
Fixpoint zero_loop (n i : nat) (ipad opad : block) : option (block * block) :=
  match n with
  | O => Some (ipad, opad)
  | S k => ip <- store ipad i 0x36 ;; op <- store opad i 0x5c ;; zero_loop k (S i) ip op
  end.

(* hmac.c:123: the key bytes read, i = 0 .. key_len - 1 *)
Definition key_bytes (key : bytes_ptr) (key_len : Z) : option (list N) :=
  let n := Z.to_nat key_len in
  match key with
  | None => if (n =? 0)%nat then Some [] else None
  | Some l => if (n <=? length l)%nat then Some (firstn n l) else None
  end.

(* hmac.c:78-138; the result: code, context *)
Definition hmacReset (h : option hctx) (which : N) (key : bytes_ptr) (key_len : Z) : option (N * hctx) :=
  let blocksize := USHABlockSize which in
  let hashsize := USHAHashSize which in
  let h0 := {| h_which := which; h_hash := hashsize; h_block := blocksize;
               h_sha := match h with Some x => h_sha x | None => None end;
               k_opad := match h with Some x => k_opad x | None => fresh USHA_Max_Message_Block_Size end |} in
  (* hmac.c:100-109: inl = return err *)
  k <- (if (Z.of_nat blocksize <? key_len)%Z then
          match USHAReset None which with
          | ((e1, _), t1) =>
              if e1 =? 0 then
                a <- input_arg key (to_unsigned key_len) ;;
                r2 <- ustep t1 (UInput false a) ;;
                if fst (fst r2) =? 0 then
                  r3 <- ustep (snd r2) (UResult false true) ;;
                  match fst r3 with
                  | (0, Some d) => Some (inr (Some d, Z.of_nat hashsize))
                  | _ => Some (inl 1)
                  end
                else Some (inl 1)
              else Some (inl 1)
          end
        else Some (inr (key, key_len))) ;;
  match k with
  | inl e => Some (e, h0)
  | inr (key', len') =>
      l <- key_bytes key' len' ;;
      p <- pad_loop l 0 (fresh USHA_Max_Message_Block_Size) (k_opad h0) ;;
      p <- zero_loop (blocksize - length l) (length l) (fst p) (snd p) ;;
      let '(ipad, opad) := p in
      match USHAReset (h_sha h0) which with
      | ((e1, _), u1) =>
          let h1 u := {| h_which := which; h_hash := hashsize; h_block := blocksize; h_sha := u; k_opad := opad |} in
          if e1 =? 0 then
            i <- read_n blocksize 0 ipad ;;
            r <- ustep u1 (UInput false (inr i)) ;;
            Some (if fst (fst r) =? 0 then 0 else 1, h1 (snd r))
          else Some (1, h1 u1)
      end
  end.

(* hmac.c:160-166, 187-194, on a context that was reset *)
Definition hmacInput (h : hctx) (text : bytes_ptr) (text_len : Z) : option (N * hctx) :=
  a <- input_arg text (to_unsigned text_len) ;;
  r <- ustep (h_sha h) (UInput false a) ;;
  Some (fst (fst r), {| h_which := h_which h; h_hash := h_hash h; h_block := h_block h; h_sha := snd r; k_opad := k_opad h |}).
Definition hmacFinalBits (h : hctx) (bits n : N) : option (N * hctx) :=
  r <- ustep (h_sha h) (UFinalBits false bits n) ;;
  Some (fst (fst r), {| h_which := h_which h; h_hash := h_hash h; h_block := h_block h; h_sha := snd r; k_opad := k_opad h |}).

(* hmac.c:217-237; room = digest is not NULL; the result: code, what digest[] holds (None: untouched), context *)
Definition hmacResult (h : hctx) (room : bool) : option (N * option (list N) * hctx) :=
  let with_sha u := {| h_which := h_which h; h_hash := h_hash h; h_block := h_block h; h_sha := u; k_opad := k_opad h |} in
  r1 <- ustep (h_sha h) (UResult false room) ;;
  match fst r1 with
  | (0, Some d) =>
      match USHAReset (snd r1) (h_which h) with
      | ((e2, _), u2) =>
          if e2 =? 0 then
            o <- read_n (h_block h) 0 (k_opad h) ;;
            r3 <- ustep u2 (UInput false (inr o)) ;;
            if fst (fst r3) =? 0 then
              i <- input_arg (Some d) (N.of_nat (h_hash h)) ;;
              r4 <- ustep (snd r3) (UInput false i) ;;
              if fst (fst r4) =? 0 then
                r5 <- ustep (snd r4) (UResult false true) ;;
                match fst r5 with
                | (0, Some d') => Some (0, Some d', with_sha (snd r5))
                | _ => Some (1, Some d, with_sha (snd r5))
                end
              else Some (1, Some d, with_sha (snd r4))
            else Some (1, Some d, with_sha (snd r3))
          else Some (1, Some d, with_sha u2)
      end
  | _ => Some (1, None, with_sha (snd r1))
  end.

(* calls on one HMACContext; null = a NULL context *)
Inductive hop :=
| HReset (null : bool) (which : N) (key : bytes_ptr) (key_len : Z)
| HInput (null : bool) (text : bytes_ptr) (text_len : Z)
| HFinalBits (null : bool) (bits n : N)
| HResult (null : bool) (room : bool).
Definition hres := (N * option (list N))%type.

Definition hstep (h : option hctx) (op : hop) : option (hres * option hctx) :=
  match op with
  | HReset true _ _ _ | HInput true _ _ | HFinalBits true _ _ | HResult true _ => Some ((shaNull, None), h)
  | HReset false w k n => r <- hmacReset h w k n ;; Some ((fst r, None), Some (snd r))
  | HInput false t n => x <- h ;; r <- hmacInput x t n ;; Some ((fst r, None), Some (snd r))
  | HFinalBits false b n => x <- h ;; r <- hmacFinalBits x b n ;; Some ((fst r, None), Some (snd r))
  | HResult false room => x <- h ;; r <- hmacResult x room ;; Some ((fst (fst r), snd (fst r)), Some (snd r))
  end.

Fixpoint hrun (h : option hctx) (ops : list hop) : option (list hres * option hctx) :=
  match ops with
  | [] => Some ([], h)
  | op :: t => r <- hstep h op ;; rs <- hrun (snd r) t ;; Some (fst r :: fst rs, snd rs)
  end.

(* hmac.c:47-55: code, what digest[] holds *)
Definition hmac (which : N) (text : bytes_ptr) (text_len : Z) (key : bytes_ptr) (key_len : Z) : option (N * option (list N)) :=
  r1 <- hmacReset None which key key_len ;;
  if fst r1 =? 0 then
    r2 <- hmacInput (snd r1) text text_len ;;
    if fst r2 =? 0 then
      r3 <- hmacResult (snd r2) true ;;
      Some (if fst (fst r3) =? 0 then 0 else 1, snd (fst r3))
    else Some (1, None)
  else Some (1, None).

(** * hmacsha256.c *)

(* (int) of a size_t *)
Definition to_int (n : N) : Z := let m := Z.of_N (n mod 2 ^ 32) in if (m <? 2 ^ 31)%Z then m else (m - 2 ^ 32)%Z.

Inductive hmac256_result := HMACSHA256_OK | HMACSHA256_INVALID_ARG | HMACSHA256_ERROR.

Import Buffer_Model.
(* the bytes written to the start of the buffer's block *)
Definition write_start (st : buffers) (i : nat) (d : list N) : option buffers :=
  match getbuf st i with
  | Some b => match buffer b with
              | PBlock c => match store_all c 0 d with
                            | Some c' => Some (bset st i {| buffer := PBlock c'; size := size b |})
                            | None => None
                            end
              | _ => None
              end
  | None => None
  end.

(* hmacsha256.c:14-40; hash = None: NULL.  SHA256 is 2 (sha.h:67-69). *)
Definition HMACSHA256_ComputeHash (st : buffers) (key : bytes_ptr) (keyLen : N) (payload : bytes_ptr) (payloadLen : N) (hash : option nat)
  : M (hmac256_result * buffers) :=
  match key, payload, hash with
  | Some _, Some _, Some i =>
      if (keyLen =? 0) || (payloadLen =? 0) then ret (HMACSHA256_INVALID_ARG, st)
      else
        (r <- BUFFER_enlarge st hash 32 ;;
         match r with
         | (BRI true, st1) =>
             x <- lift (hmac 2 payload (to_int payloadLen) key (to_int keyLen)) ;;
             st2 <- lift (match snd x with Some d => write_start st1 i d | None => Some st1 end) ;;
             ret (if fst x =? 0 then HMACSHA256_OK else HMACSHA256_ERROR, st2)
         | (_, st1) => ret (HMACSHA256_ERROR, st1)
         end)%m
  | _, _, _ => ret (HMACSHA256_INVALID_ARG, st)
  end.
