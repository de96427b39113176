(* Model of src/sha1.c, src/sha224.c (SHA-224 and SHA-256) and src/sha384-512.c (without
   USE_32BIT_ONLY), with sha.h and sha-private.h (without USE_MODIFIED_MACROS), and of
   src/usha.c.  The three hash files have the same text up to the word size, the constants
   and ProcessMessageBlock, so those functions are modelled once, over a variant.  The order in
   which the macro AddLength reads and writes its static addTemp is in Sha_Race.v; here one
   thread runs, so addTemp always holds what the macro has just put there. *)
From Verif Require Import Base.
Open Scope N_scope.

(* Reading array element i; None = out of bounds or never written. *)
Definition get (b : block) (i : nat) : option N := match nth_error b i with Some (Some x) => Some x | _ => None end.
Definition obind {A B} (m : option A) (f : A -> option B) : option B := match m with Some a => f a | None => None end.
Declare Scope o_scope.
Notation "x <- m ;; f" := (obind m (fun x => f)) (at level 61, m at next level, right associativity) : o_scope.
Open Scope o_scope.

(** * Words of w bits: uint32_t and uint64_t *)

Definition c_add (w a b : N) : N := (a + b) mod 2 ^ w.
Definition c_shl (w x n : N) : N := N.shiftl x n mod 2 ^ w.
Definition c_not (w x : N) : N := N.lxor x (2 ^ w - 1).

(* sha1.c:53-54 *)
Definition SHA1_ROTL (n x : N) : N := N.lor (c_shl 32 x n) (N.shiftr x (32 - n)).
(* sha224.c:51-55, sha384-512.c:283-285 *)
Definition SHA_SHR (n x : N) : N := N.shiftr x n.
Definition SHA_ROTR (w n x : N) : N := N.lor (N.shiftr x n) (c_shl w x (w - n)).
(* sha-private.h:17-18, 30 *)
Definition SHA_Ch (w x y z : N) : N := N.lxor (N.land x y) (N.land (c_not w x) z).
Definition SHA_Maj (x y z : N) : N := N.lxor (N.lxor (N.land x y) (N.land x z)) (N.land y z).
Definition SHA_Parity (x y z : N) : N := N.lxor (N.lxor x y) z.

(** * SHA-1: ProcessMessageBlock, sha1.c:366-440 *)

(* sha1.c:381-384 *)
Definition load32 (b : block) (i : nat) : option N :=
  x0 <- get b i ;; x1 <- get b (i + 1) ;; x2 <- get b (i + 2) ;; x3 <- get b (i + 3) ;;
  Some (N.lor (N.lor (N.lor (N.shiftl x0 24) (N.shiftl x1 16)) (N.shiftl x2 8)) x3).

(* for (t = t0; n more; t++) W[t] = f(t, W) *)
Fixpoint fill (f : nat -> block -> option N) (n t : nat) (W : block) : option block :=
  match n with
  | O => Some W
  | S k => v <- f t W ;; W' <- store W t v ;; fill f k (S t) W'
  end.

(* sha1.c:388 *)
Definition sha1_w (t : nat) (W : block) : option N :=
  a <- get W (t - 3) ;; b <- get W (t - 8) ;; c <- get W (t - 14) ;; d <- get W (t - 16) ;;
  Some (SHA1_ROTL 1 (N.lxor (N.lxor (N.lxor a b) c) d)).

Record vars5 := { A1 : N; B1 : N; C1 : N; D1 : N; E1 : N }.

(* sha1.c:396-430: the body of the four loops *)
Definition sha1_step (f : N -> N -> N -> N) (k : N) (wt : N) (v : vars5) : vars5 :=
  let temp := c_add 32 (c_add 32 (c_add 32 (c_add 32 (SHA1_ROTL 5 (A1 v)) (f (B1 v) (C1 v) (D1 v))) (E1 v)) wt) k in
  {| A1 := temp; B1 := A1 v; C1 := SHA1_ROTL 30 (B1 v); D1 := C1 v; E1 := D1 v |}.
Fixpoint sha1_loop (f : N -> N -> N -> N) (k : N) (W : block) (n t : nat) (v : vars5) : option vars5 :=
  match n with
  | O => Some v
  | S j => wt <- get W t ;; sha1_loop f k W j (S t) (sha1_step f k wt v)
  end.

(* sha1.c:366-438 *)
Definition SHA1ProcessMessageBlock (h : list N) (mb : block) : option (list N) :=
  W <- fill (fun t _ => load32 mb (t * 4)) 16 0 (fresh 80) ;;
  W <- fill sha1_w 64 16 W ;;
  match h with
  | [h0; h1; h2; h3; h4] =>
      v <- sha1_loop (SHA_Ch 32) 0x5A827999 W 20 0 {| A1 := h0; B1 := h1; C1 := h2; D1 := h3; E1 := h4 |} ;;
      v <- sha1_loop SHA_Parity 0x6ED9EBA1 W 20 20 v ;;
      v <- sha1_loop SHA_Maj 0x8F1BBCDC W 20 40 v ;;
      v <- sha1_loop SHA_Parity 0xCA62C1D6 W 20 60 v ;;
      Some [c_add 32 h0 (A1 v); c_add 32 h1 (B1 v); c_add 32 h2 (C1 v); c_add 32 h3 (D1 v); c_add 32 h4 (E1 v)]
  | _ => None
  end.

(** * SHA-2: ProcessMessageBlock, sha224.c:452-518 and sha384-512.c:853-935 *)

(* sha384-512.c:892-900 *)
Definition load64 (b : block) (i : nat) : option N :=
  x0 <- get b i ;; x1 <- get b (i + 1) ;; x2 <- get b (i + 2) ;; x3 <- get b (i + 3) ;;
  x4 <- get b (i + 4) ;; x5 <- get b (i + 5) ;; x6 <- get b (i + 6) ;; x7 <- get b (i + 7) ;;
  Some (N.lor (N.lor (N.lor (N.lor (N.lor (N.lor (N.lor (N.shiftl x0 56) (N.shiftl x1 48)) (N.shiftl x2 40)) (N.shiftl x3 32))
                                   (N.shiftl x4 24)) (N.shiftl x5 16)) (N.shiftl x6 8)) x7).

(* what differs between the two files *)
Record params := { wbits : N; nrounds : nat; load : block -> nat -> option N; stride : nat;
                   SIGMA0 : N -> N; SIGMA1 : N -> N; sigma0 : N -> N; sigma1 : N -> N; K : list N }.

(* sha224.c:455-469 *)
Definition K256 : list N :=
  [0x428a2f98; 0x71374491; 0xb5c0fbcf; 0xe9b5dba5; 0x3956c25b; 0x59f111f1; 0x923f82a4; 0xab1c5ed5;
   0xd807aa98; 0x12835b01; 0x243185be; 0x550c7dc3; 0x72be5d74; 0x80deb1fe; 0x9bdc06a7; 0xc19bf174;
   0xe49b69c1; 0xefbe4786; 0x0fc19dc6; 0x240ca1cc; 0x2de92c6f; 0x4a7484aa; 0x5cb0a9dc; 0x76f988da;
   0x983e5152; 0xa831c66d; 0xb00327c8; 0xbf597fc7; 0xc6e00bf3; 0xd5a79147; 0x06ca6351; 0x14292967;
   0x27b70a85; 0x2e1b2138; 0x4d2c6dfc; 0x53380d13; 0x650a7354; 0x766a0abb; 0x81c2c92e; 0x92722c85;
   0xa2bfe8a1; 0xa81a664b; 0xc24b8b70; 0xc76c51a3; 0xd192e819; 0xd6990624; 0xf40e3585; 0x106aa070;
   0x19a4c116; 0x1e376c08; 0x2748774c; 0x34b0bcb5; 0x391c0cb3; 0x4ed8aa4a; 0x5b9cca4f; 0x682e6ff3;
   0x748f82ee; 0x78a5636f; 0x84c87814; 0x8cc70208; 0x90befffa; 0xa4506ceb; 0xbef9a3f7; 0xc67178f2].
(* sha384-512.c:854-882 *)
Definition K512 : list N :=
  [0x428a2f98d728ae22; 0x7137449123ef65cd; 0xb5c0fbcfec4d3b2f; 0xe9b5dba58189dbbc;
   0x3956c25bf348b538; 0x59f111f1b605d019; 0x923f82a4af194f9b; 0xab1c5ed5da6d8118;
   0xd807aa98a3030242; 0x12835b0145706fbe; 0x243185be4ee4b28c; 0x550c7dc3d5ffb4e2;
   0x72be5d74f27b896f; 0x80deb1fe3b1696b1; 0x9bdc06a725c71235; 0xc19bf174cf692694;
   0xe49b69c19ef14ad2; 0xefbe4786384f25e3; 0x0fc19dc68b8cd5b5; 0x240ca1cc77ac9c65;
   0x2de92c6f592b0275; 0x4a7484aa6ea6e483; 0x5cb0a9dcbd41fbd4; 0x76f988da831153b5;
   0x983e5152ee66dfab; 0xa831c66d2db43210; 0xb00327c898fb213f; 0xbf597fc7beef0ee4;
   0xc6e00bf33da88fc2; 0xd5a79147930aa725; 0x06ca6351e003826f; 0x142929670a0e6e70;
   0x27b70a8546d22ffc; 0x2e1b21385c26c926; 0x4d2c6dfc5ac42aed; 0x53380d139d95b3df;
   0x650a73548baf63de; 0x766a0abb3c77b2a8; 0x81c2c92e47edaee6; 0x92722c851482353b;
   0xa2bfe8a14cf10364; 0xa81a664bbc423001; 0xc24b8b70d0f89791; 0xc76c51a30654be30;
   0xd192e819d6ef5218; 0xd69906245565a910; 0xf40e35855771202a; 0x106aa07032bbd1b8;
   0x19a4c116b8d2d0c8; 0x1e376c085141ab53; 0x2748774cdf8eeb99; 0x34b0bcb5e19b48a8;
   0x391c0cb3c5c95a63; 0x4ed8aa4ae3418acb; 0x5b9cca4f7763e373; 0x682e6ff3d6b2b8a3;
   0x748f82ee5defb2fc; 0x78a5636f43172f60; 0x84c87814a1f0ab72; 0x8cc702081a6439ec;
   0x90befffa23631e28; 0xa4506cebde82bde9; 0xbef9a3f7b2c67915; 0xc67178f2e372532b;
   0xca273eceea26619c; 0xd186b8c721c0c207; 0xeada7dd6cde0eb1e; 0xf57d4f7fee6ed178;
   0x06f067aa72176fba; 0x0a637dc5a2c898a6; 0x113f9804bef90dae; 0x1b710b35131c471b;
   0x28db77f523047d84; 0x32caab7b40c72493; 0x3c9ebe0a15c9bebc; 0x431d67c49c100d4c;
   0x4cc5d4becb3e42b6; 0x597f299cfc657e2a; 0x5fcb6fab3ad6faec; 0x6c44198c4a475817].

(* sha224.c:58-65, 455-469, 481-485 *)
Definition params32 : params :=
  {| wbits := 32; nrounds := 64; load := load32; stride := 4;
     SIGMA0 := fun x => N.lxor (N.lxor (SHA_ROTR 32 2 x) (SHA_ROTR 32 13 x)) (SHA_ROTR 32 22 x);
     SIGMA1 := fun x => N.lxor (N.lxor (SHA_ROTR 32 6 x) (SHA_ROTR 32 11 x)) (SHA_ROTR 32 25 x);
     sigma0 := fun x => N.lxor (N.lxor (SHA_ROTR 32 7 x) (SHA_ROTR 32 18 x)) (SHA_SHR 3 x);
     sigma1 := fun x => N.lxor (N.lxor (SHA_ROTR 32 17 x) (SHA_ROTR 32 19 x)) (SHA_SHR 10 x);
     K := K256 |}.
(* sha384-512.c:288-295, 854-882, 891-900 *)
Definition params64 : params :=
  {| wbits := 64; nrounds := 80; load := load64; stride := 8;
     SIGMA0 := fun x => N.lxor (N.lxor (SHA_ROTR 64 28 x) (SHA_ROTR 64 34 x)) (SHA_ROTR 64 39 x);
     SIGMA1 := fun x => N.lxor (N.lxor (SHA_ROTR 64 14 x) (SHA_ROTR 64 18 x)) (SHA_ROTR 64 41 x);
     sigma0 := fun x => N.lxor (N.lxor (SHA_ROTR 64 1 x) (SHA_ROTR 64 8 x)) (SHA_SHR 7 x);
     sigma1 := fun x => N.lxor (N.lxor (SHA_ROTR 64 19 x) (SHA_ROTR 64 61 x)) (SHA_SHR 6 x);
     K := K512 |}.

(* sha224.c:488-489, sha384-512.c:903-904 *)
Definition sha2_w (p : params) (t : nat) (W : block) : option N :=
  a <- get W (t - 2) ;; b <- get W (t - 7) ;; c <- get W (t - 15) ;; d <- get W (t - 16) ;;
  Some (c_add (wbits p) (c_add (wbits p) (c_add (wbits p) (sigma1 p a) b) (sigma0 p c)) d).

Record vars8 := { vA : N; vB : N; vC : N; vD : N; vE : N; vF : N; vG : N; vH : N }.

(* sha224.c:500-511, sha384-512.c:915-926 *)
Definition sha2_step (p : params) (kt wt : N) (v : vars8) : vars8 :=
  let add := c_add (wbits p) in
  let temp1 := add (add (add (add (vH v) (SIGMA1 p (vE v))) (SHA_Ch (wbits p) (vE v) (vF v) (vG v))) kt) wt in
  let temp2 := add (SIGMA0 p (vA v)) (SHA_Maj (vA v) (vB v) (vC v)) in
  {| vA := add temp1 temp2; vB := vA v; vC := vB v; vD := vC v;
     vE := add (vD v) temp1; vF := vE v; vG := vF v; vH := vG v |}.
Fixpoint sha2_loop (p : params) (W : block) (n t : nat) (v : vars8) : option vars8 :=
  match n with
  | O => Some v
  | S j => kt <- nth_error (K p) t ;; wt <- get W t ;; sha2_loop p W j (S t) (sha2_step p kt wt v)
  end.

Definition sha2_process (p : params) (h : list N) (mb : block) : option (list N) :=
  W <- fill (fun t _ => load p mb (t * stride p)) 16 0 (fresh (nrounds p)) ;;
  W <- fill (sha2_w p) (nrounds p - 16) 16 W ;;
  match h with
  | [h0; h1; h2; h3; h4; h5; h6; h7] =>
      v <- sha2_loop p W (nrounds p) 0 {| vA := h0; vB := h1; vC := h2; vD := h3; vE := h4; vF := h5; vG := h6; vH := h7 |} ;;
      Some [c_add (wbits p) h0 (vA v); c_add (wbits p) h1 (vB v); c_add (wbits p) h2 (vC v); c_add (wbits p) h3 (vD v);
            c_add (wbits p) h4 (vE v); c_add (wbits p) h5 (vF v); c_add (wbits p) h6 (vG v); c_add (wbits p) h7 (vH v)]
  | _ => None
  end.

(** * Contexts and variants *)

(* sha.h:86-99, 105-117, 123-140 *)
Record context := { Intermediate_Hash : list N; Length_Low : N; Length_High : N; Message_Block_Index : nat;
                    Message_Block : block; Computed : bool; Corrupted : N }.

(* the word size in bytes, HashSize, the initial hash values, ProcessMessageBlock *)
Record variant := { wbytes : nat; HashSize : nat; H0 : list N; process : list N -> block -> option (list N) }.
Definition Block_Size (V : variant) : nat := 16 * wbytes V.          (* sha.h:61-64 *)
Definition word_bits (V : variant) : N := 8 * N.of_nat (wbytes V).

(* sha1.c:95-102 *)
Definition vSHA1 : variant :=
  {| wbytes := 4; HashSize := 20; H0 := [0x67452301; 0xEFCDAB89; 0x98BADCFE; 0x10325476; 0xC3D2E1F0];
     process := SHA1ProcessMessageBlock |}.
(* sha224.c:87-96 *)
Definition vSHA224 : variant :=
  {| wbytes := 4; HashSize := 28; process := sha2_process params32;
     H0 := [0xC1059ED8; 0x367CD507; 0x3070DD17; 0xF70E5939; 0xFFC00B31; 0x68581511; 0x64F98FA7; 0xBEFA4FA4] |}.
Definition vSHA256 : variant :=
  {| wbytes := 4; HashSize := 32; process := sha2_process params32;
     H0 := [0x6A09E667; 0xBB67AE85; 0x3C6EF372; 0xA54FF53A; 0x510E527F; 0x9B05688C; 0x1F83D9AB; 0x5BE0CD19] |}.
(* sha384-512.c:317-326 *)
Definition vSHA384 : variant :=
  {| wbytes := 8; HashSize := 48; process := sha2_process params64;
     H0 := [0xCBBB9D5DC1059ED8; 0x629A292A367CD507; 0x9159015A3070DD17; 0x152FECD8F70E5939;
            0x67332667FFC00B31; 0x8EB44A8768581511; 0xDB0C2E0D64F98FA7; 0x47B5481DBEFA4FA4] |}.
Definition vSHA512 : variant :=
  {| wbytes := 8; HashSize := 64; process := sha2_process params64;
     H0 := [0x6A09E667F3BCC908; 0xBB67AE8584CAA73B; 0x3C6EF372FE94F82B; 0xA54FF53A5F1D36F1;
            0x510E527FADE682D1; 0x9B05688C2B3E6C1F; 0x1F83D9ABFB41BD6B; 0x5BE0CD19137E2179] |}.

(* sha.h:46-53 *)
Definition shaSuccess : N := 0.
Definition shaNull : N := 1.
Definition shaStateError : N := 3.
Definition shaBadParam : N := 4.

(** * Reset, Input, FinalBits, Result *)

(* sha1.c:86-107, sha224.c:538-560, sha384-512.c:959-987; the message block is left as it is:
   indeterminate *)
Definition sha_reset (V : variant) : context :=
  {| Intermediate_Hash := H0 V; Length_Low := 0; Length_High := 0; Message_Block_Index := 0;
     Message_Block := fresh (Block_Size V); Computed := false; Corrupted := 0 |}.

(* SHA1AddLength sha1.c:60-64, SHA224_256AddLength sha224.c:71-74, SHA384_512AddLength
   sha384-512.c:301-304 *)
Definition AddLength (V : variant) (c : context) (n : N) : context :=
  let low := (Length_Low c + n) mod 2 ^ word_bits V in
  let carry := low <? Length_Low c in
  let high := if carry then (Length_High c + 1) mod 2 ^ word_bits V else Length_High c in
  {| Intermediate_Hash := Intermediate_Hash c; Length_Low := low; Length_High := high;
     Message_Block_Index := Message_Block_Index c; Message_Block := Message_Block c;
     Computed := Computed c; Corrupted := if carry && (high =? 0) then 1 else 0 |}.

(* context->Message_Block[context->Message_Block_Index++] = b *)
Definition put_byte (c : context) (b : N) : option context :=
  mb <- store (Message_Block c) (Message_Block_Index c) b ;;
  Some {| Intermediate_Hash := Intermediate_Hash c; Length_Low := Length_Low c; Length_High := Length_High c;
          Message_Block_Index := S (Message_Block_Index c); Message_Block := mb;
          Computed := Computed c; Corrupted := Corrupted c |}.

(* ProcessMessageBlock on a context; the index goes back to 0 (sha1.c:439, sha224.c:519,
   sha384-512.c:937) *)
Definition ProcessMessageBlock (V : variant) (c : context) : option context :=
  h <- process V (Intermediate_Hash c) (Message_Block c) ;;
  Some {| Intermediate_Hash := h; Length_Low := Length_Low c; Length_High := Length_High c;
          Message_Block_Index := 0; Message_Block := Message_Block c;
          Computed := Computed c; Corrupted := Corrupted c |}.

Definition set_corrupted (c : context) (e : N) : context :=
  {| Intermediate_Hash := Intermediate_Hash c; Length_Low := Length_Low c; Length_High := Length_High c;
     Message_Block_Index := Message_Block_Index c; Message_Block := Message_Block c;
     Computed := Computed c; Corrupted := e |}.

(* sha1.c:146-155, sha224.c:246-256, sha384-512.c:485-494 *)
Fixpoint input_loop (V : variant) (c : context) (l : list N) : option context :=
  match l with
  | [] => Some c
  | b :: t =>
      if Corrupted c =? 0 then
        c1 <- put_byte c (N.land b 0xFF) ;;
        let c2 := AddLength V c1 8 in
        if (Corrupted c2 =? 0) && (Message_Block_Index c2 =? Block_Size V)%nat then
          c3 <- ProcessMessageBlock V c2 ;; input_loop V c3 t
        else input_loop V c2 t
      else Some c
  end.

(* sha1.c:129-158, sha224.c:230-260 (and 137-141), sha384-512.c:467-497 (and 370-374).
   inl n = NULL with length n; inr l = an array with its length *)
Definition sha_input (V : variant) (c : option context) (a : N + list N) : option (N * option context) :=
  match a with
  | inl 0 | inr [] => Some (shaSuccess, c)
  | _ =>
      match c, a with
      | Some x, inr l =>
          if Computed x then Some (shaStateError, Some (set_corrupted x shaStateError))
          else if negb (Corrupted x =? 0) then Some (Corrupted x, c)
          else x' <- input_loop V x l ;; Some (shaSuccess, Some x')
      | _, _ => Some (shaNull, c)
      end
  end.

(* while (context->Message_Block_Index < lim) context->Message_Block[...++] = 0 *)
Fixpoint zero_until (fuel : nat) (lim : nat) (c : context) : option context :=
  match fuel with
  | O => Some c
  | S f => if (Message_Block_Index c <? lim)%nat then c' <- put_byte c 0 ;; zero_until f lim c' else Some c
  end.

(* the bytes (uint8_t)(x >> 24), (x >> 16), (x >> 8), x of a word of n bytes *)
Fixpoint be_bytes (n : nat) (x : N) : list N :=
  match n with O => [] | S k => N.shiftr x (8 * N.of_nat k) mod 256 :: be_bytes k x end.

(* sha1.c:311-346, sha224.c:397-431, sha384-512.c:643-707 *)
Definition PadMessage (V : variant) (c : context) (pad : N) : option context :=
  let bs := Block_Size V in
  let lenpos := (bs - 2 * wbytes V)%nat in
  c <- (if (lenpos <=? Message_Block_Index c)%nat then
          c <- put_byte c pad ;; c <- zero_until bs bs c ;; ProcessMessageBlock V c
        else put_byte c pad) ;;
  c <- zero_until bs lenpos c ;;
  mb <- store_all (Message_Block c) lenpos (be_bytes (wbytes V) (Length_High c) ++ be_bytes (wbytes V) (Length_Low c)) ;;
  ProcessMessageBlock V
    {| Intermediate_Hash := Intermediate_Hash c; Length_Low := Length_Low c; Length_High := Length_High c;
       Message_Block_Index := Message_Block_Index c; Message_Block := mb; Computed := Computed c; Corrupted := Corrupted c |}.

(* sha1.c:275-285, sha224.c:360-371, sha384-512.c:575-591 *)
Definition Finalize (V : variant) (c : context) (pad : N) : option context :=
  c <- PadMessage V c pad ;;
  Some {| Intermediate_Hash := Intermediate_Hash c; Length_Low := 0; Length_High := 0;
          Message_Block_Index := Message_Block_Index c; Message_Block := filled (repeat 0 (Block_Size V));
          Computed := true; Corrupted := Corrupted c |}.

(* sha1.c:182-193 *)
Definition masks : list N := [0x00; 0x80; 0xC0; 0xE0; 0xF0; 0xF8; 0xFC; 0xFE].
Definition markbit : list N := [0x80; 0x40; 0x20; 0x10; 0x08; 0x04; 0x02; 0x01].

(* sha1.c:179-214, sha224.c:281-317 (and 162-166), sha384-512.c:519-554 (and 396-400) *)
Definition sha_finalbits (V : variant) (c : option context) (bits n : N) : option (N * option context) :=
  if n =? 0 then Some (shaSuccess, c)
  else match c with
       | None => Some (shaNull, c)
       | Some x =>
           if Computed x || (8 <=? n) || (n =? 0) then Some (shaStateError, Some (set_corrupted x shaStateError))
           else if negb (Corrupted x =? 0) then Some (Corrupted x, c)
           else
             mask <- nth_error masks (N.to_nat n) ;; mark <- nth_error markbit (N.to_nat n) ;;
             x' <- Finalize V (AddLength V x n) (N.lor (N.land bits mask) mark) ;;
             Some (shaSuccess, Some x')
       end.

(* sha1.c:250-252, sha224.c:596-598, sha384-512.c:1040-1042: byte i of the digest *)
Definition digest_byte (V : variant) (h : list N) (i : nat) : option N :=
  x <- nth_error h (i / wbytes V) ;;
  Some (N.shiftr x (8 * N.of_nat (wbytes V - 1 - i mod wbytes V)) mod 256).
Fixpoint digest_bytes (V : variant) (h : list N) (n i : nat) : option (list N) :=
  match n with
  | O => Some []
  | S k => b <- digest_byte V h i ;; r <- digest_bytes V h k (S i) ;; Some (b :: r)
  end.

(* sha1.c:235-254, sha224.c:582-601 (and 186-190, 337-340), sha384-512.c:1010-1046 (and 421-425,
   612-616); room = Message_Digest is not NULL; the result: code, what was written there *)
Definition sha_result (V : variant) (c : option context) (room : bool) : option (N * option (list N) * option context) :=
  match c with
  | Some x =>
      if negb room then Some (shaNull, None, c)
      else if negb (Corrupted x =? 0) then Some (Corrupted x, None, c)
      else
        x' <- (if Computed x then Some x else Finalize V x 0x80) ;;
        d <- digest_bytes V (Intermediate_Hash x') (HashSize V) 0 ;;
        Some (shaSuccess, Some d, Some x')
  | None => Some (shaNull, None, c)
  end.

(** * usha.c *)

Definition variant_of (which : N) : option variant :=
  match which with
  | 0 => Some vSHA1 | 1 => Some vSHA224 | 2 => Some vSHA256 | 3 => Some vSHA384 | 4 => Some vSHA512 | _ => None
  end.

(* sha.h:158-165; uctx = None: the union does not hold a context that was reset *)
Record usha := { whichSha : N; uctx : option context }.

(* The calls on one USHAContext; null = a NULL context pointer.  A call other than USHAReset on
   a context never reset is undefined, as is one with a valid whichSha on an uninitialised
   union. *)
Inductive uop :=
| UReset (null : bool) (which : N)
| UInput (null : bool) (a : N + list N)
| UFinalBits (null : bool) (bits n : N)
| UResult (null : bool) (room : bool).
Definition ures := (N * option (list N))%type.

(* usha.c:36-52 *)
Definition USHAReset (u : option usha) (which : N) : ures * option usha :=
  match variant_of which with
  | Some V => ((shaSuccess, None), Some {| whichSha := which; uctx := Some (sha_reset V) |})
  | None => ((shaBadParam, None), Some {| whichSha := which; uctx := match u with Some x => uctx x | None => None end |})
  end.

(* usha.c:74-99, 120-145, 166-187 *)
Definition ustep (u : option usha) (op : uop) : option (ures * option usha) :=
  match op with
  | UReset true _ | UInput true _ | UFinalBits true _ _ | UResult true _ => Some ((shaNull, None), u)
  | UReset false which => Some (USHAReset u which)
  | _ =>
      match u with
      | None => None
      | Some x =>
          match variant_of (whichSha x) with
          | None => Some ((shaBadParam, None), u)
          | Some V =>
              match uctx x with
              | None => None
              | Some c =>
                  let put (c' : option context) := Some {| whichSha := whichSha x; uctx := c' |} in
                  match op with
                  | UInput _ a => r <- sha_input V (Some c) a ;; Some ((fst r, None), put (snd r))
                  | UFinalBits _ b n => r <- sha_finalbits V (Some c) b n ;; Some ((fst r, None), put (snd r))
                  | UResult _ room => r <- sha_result V (Some c) room ;; Some ((fst (fst r), snd (fst r)), put (snd r))
                  | UReset _ _ => None
                  end
              end
          end
      end
  end.

Fixpoint urun (u : option usha) (ops : list uop) : option (list ures * option usha) :=
  match ops with
  | [] => Some ([], u)
  | op :: t => r <- ustep u op ;; rs <- urun (snd r) t ;; Some (fst r :: fst rs, snd rs)
  end.

(* usha.c:204-214, 231-241, 258-268 *)
Definition USHABlockSize (which : N) : nat := match variant_of which with Some V => Block_Size V | None => Block_Size vSHA512 end.
Definition USHAHashSize (which : N) : nat := match variant_of which with Some V => HashSize V | None => HashSize vSHA512 end.
Definition USHAHashSizeBits (which : N) : nat :=
  match which with 0 => 160%nat | 1 => 224%nat | 2 => 256%nat | 3 => 384%nat | _ => 512%nat end.
