(* FIPS PUB 180-2 (with change notice 1): SHA-1, SHA-224, SHA-256, SHA-384, SHA-512, over bit
   strings; and RFC 2104 HMAC.  Written from the standards: the message is a list of bits, words
   are numbers below 2^w (w = 32 or 64), and the constants are the fractional parts the
   standard describes, not tables. *)
From Verif Require Import Base.
Open Scope N_scope.

(** * Bits *)

(* the number a bit string denotes, most significant bit first *)
Definition val (l : list bool) : N := fold_left (fun a b => 2 * a + N.b2n b) l 0.
(* n bits of x, most significant first *)
Fixpoint bits_of (n : nat) (x : N) : list bool :=
  match n with O => [] | S k => N.testbit x (N.of_nat k) :: bits_of k x end.
Definition bits_of_bytes (l : list N) : list bool := concat (map (bits_of 8) l).

(* successive pieces of n elements *)
Fixpoint pieces {A} (fuel n : nat) (l : list A) : list (list A) :=
  match fuel, l with
  | O, _ => []
  | _, [] => []
  | S f, _ => firstn n l :: pieces f n (skipn n l)
  end.
Definition split_every {A} (n : nat) (l : list A) : list (list A) := pieces (length l) n l.

(** * Words (FIPS 180-2, 2.2.2, 3.2, 4.1); w = word size *)

Section Words.
Variable w : N.
Definition addw (l : list N) : N := fold_right N.add 0 l mod 2 ^ w.
Definition rotr (n x : N) : N := x / 2 ^ n + (x mod 2 ^ n) * 2 ^ (w - n).
Definition rotl (n x : N) : N := rotr (w - n) x.
Definition shr (n x : N) : N := x / 2 ^ n.
Definition complement (x : N) : N := 2 ^ w - 1 - x.
Definition ch (x y z : N) : N := N.lxor (N.land x y) (N.land (complement x) z).
Definition maj (x y z : N) : N := N.lxor (N.lxor (N.land x y) (N.land x z)) (N.land y z).
Definition parity (x y z : N) : N := N.lxor (N.lxor x y) z.
End Words.

(** * Constants (4.2, 5.3) *)

Definition is_prime (p : nat) : bool := forallb (fun d => negb (p mod d =? 0)%nat) (seq 2 (p - 2)).
Definition primes : list N := map N.of_nat (filter is_prime (seq 2 408)).   (* up to 409, the 80th *)

(* floor of the cube root of n, below 2^k *)
Fixpoint cbrt_below (k : nat) (n r : N) : N :=
  match k with
  | O => r
  | S j => let r' := r + 2 ^ N.of_nat j in cbrt_below j n (if r' * r' * r' <=? n then r' else r)
  end.
(* the first w bits of the fractional parts of the cube and square roots of p *)
Definition cbrt_fraction (w p : N) : N := cbrt_below (N.to_nat w + 4) (p * 2 ^ (3 * w)) 0 mod 2 ^ w.
Definition sqrt_fraction (w p : N) : N := N.sqrt (p * 2 ^ (2 * w)) mod 2 ^ w.

(** * Compression (6.1.2, 6.2.2, 6.3.2) *)

(* the message schedule: next computes W_t from the W_0 .. W_(t-1) *)
Fixpoint extend (next : list N -> N) (n : nat) (ws : list N) : list N :=
  match n with O => ws | S k => extend next k (ws ++ [next ws]) end.
(* W_(t-k), given W_0 .. W_(t-1) *)
Definition back (ws : list N) (k : nat) : N := nth (length ws - k) ws 0.

Definition add_states (w : N) (h s : list N) : list N := map (fun x => addw w [fst x; snd x]) (combine h s).

(* SHA-1 *)
Definition sha1_next (ws : list N) : N :=
  rotl 32 1 (N.lxor (N.lxor (N.lxor (back ws 3) (back ws 8)) (back ws 14)) (back ws 16)).
Definition sha1_f (t : nat) (x y z : N) : N :=
  if (t <? 20)%nat then ch 32 x y z else if (t <? 40)%nat then parity x y z
  else if (t <? 60)%nat then maj x y z else parity x y z.
(* floor(2^30 sqrt 2), sqrt 3, sqrt 5, sqrt 10 *)
Definition sha1_k (t : nat) : N :=
  N.sqrt ((if (t <? 20)%nat then 2 else if (t <? 40)%nat then 3 else if (t <? 60)%nat then 5 else 10) * 2 ^ 60).
Definition sha1_round (s : list N) (tw : nat * N) : list N :=
  match s with
  | [a; b; c; d; e] => [addw 32 [rotl 32 5 a; sha1_f (fst tw) b c d; e; sha1_k (fst tw); snd tw]; a; rotl 32 30 b; c; d]
  | _ => s
  end.
Definition sha1_compress (h m : list N) : list N :=
  add_states 32 h (fold_left sha1_round (combine (seq 0 80) (extend sha1_next 64 m)) h).

(* SHA-224, 256, 384, 512 *)
Record sha2 := { word : N; rounds : nat;
                 big0 : N * N * N; big1 : N * N * N;        (* the rotations of Sigma_0, Sigma_1 *)
                 small0 : N * N * N; small1 : N * N * N }.  (* two rotations and a shift of sigma_0, sigma_1 *)
Definition sha2_32 : sha2 := {| word := 32; rounds := 64; big0 := (2, 13, 22); big1 := (6, 11, 25);
                                small0 := (7, 18, 3); small1 := (17, 19, 10) |}.
Definition sha2_64 : sha2 := {| word := 64; rounds := 80; big0 := (28, 34, 39); big1 := (14, 18, 41);
                                small0 := (1, 8, 7); small1 := (19, 61, 6) |}.
Definition big_sigma (w : N) (r : N * N * N) (x : N) : N :=
  let '(r1, r2, r3) := r in N.lxor (N.lxor (rotr w r1 x) (rotr w r2 x)) (rotr w r3 x).
Definition small_sigma (w : N) (r : N * N * N) (x : N) : N :=
  let '(r1, r2, r3) := r in N.lxor (N.lxor (rotr w r1 x) (rotr w r2 x)) (shr r3 x).
Definition sha2_next (p : sha2) (ws : list N) : N :=
  addw (word p) [small_sigma (word p) (small1 p) (back ws 2); back ws 7;
                 small_sigma (word p) (small0 p) (back ws 15); back ws 16].
Definition sha2_k (p : sha2) : list N := map (cbrt_fraction (word p)) (firstn (rounds p) primes).
Definition sha2_round (p : sha2) (s : list N) (kw : N * N) : list N :=
  match s with
  | [a; b; c; d; e; f; g; h] =>
      let t1 := addw (word p) [h; big_sigma (word p) (big1 p) e; ch (word p) e f g; fst kw; snd kw] in
      let t2 := addw (word p) [big_sigma (word p) (big0 p) a; maj a b c] in
      [addw (word p) [t1; t2]; a; b; c; addw (word p) [d; t1]; e; f; g]
  | _ => s
  end.
Definition sha2_compress (p : sha2) (h m : list N) : list N :=
  add_states (word p) h (fold_left (sha2_round p) (combine (sha2_k p) (extend (sha2_next p) (rounds p - 16) m)) h).

(** * The hash functions *)

Inductive algorithm := Sha1 | Sha224 | Sha256 | Sha384 | Sha512.

Definition word_size (a : algorithm) : N := match a with Sha1 | Sha224 | Sha256 => 32 | _ => 64 end.
Definition initial (a : algorithm) : list N :=
  match a with
  | Sha1 => [0x67452301; 0xefcdab89; 0x98badcfe; 0x10325476; 0xc3d2e1f0]
  | Sha256 => map (sqrt_fraction 32) (firstn 8 primes)
  | Sha512 => map (sqrt_fraction 64) (firstn 8 primes)
  | Sha384 => map (sqrt_fraction 64) (firstn 8 (skipn 8 primes))
  | Sha224 => map (fun p => sqrt_fraction 64 p mod 2 ^ 32) (firstn 8 (skipn 8 primes))
  end.
Definition compress (a : algorithm) : list N -> list N -> list N :=
  match a with Sha1 => sha1_compress | Sha224 | Sha256 => sha2_compress sha2_32 | Sha384 | Sha512 => sha2_compress sha2_64 end.
(* bytes of the digest *)
Definition digest_size (a : algorithm) : nat :=
  match a with Sha1 => 20 | Sha224 => 28 | Sha256 => 32 | Sha384 => 48 | Sha512 => 64 end%nat.
(* bits of a block and of the length field *)
Definition block_bits (a : algorithm) : nat := 16 * N.to_nat (word_size a).
Definition length_bits (a : algorithm) : nat := 2 * N.to_nat (word_size a).

(* 5.1: append 1, then the fewest 0s that make room, then the length *)
Definition padded (a : algorithm) (m : list bool) : list bool :=
  let b := block_bits a in
  let k := ((b - (length m + 1 + length_bits a) mod b) mod b)%nat in
  m ++ true :: repeat false k ++ bits_of (length_bits a) (N.of_nat (length m)).

Definition blocks_of (a : algorithm) (m : list bool) : list (list N) :=
  map (fun blk => map val (split_every (N.to_nat (word_size a)) blk)) (split_every (block_bits a) (padded a m)).

(* w bits as bytes *)
Definition bytes_of_word (a : algorithm) (x : N) : list N := map val (split_every 8 (bits_of (N.to_nat (word_size a)) x)).

(* messages of less than 2^64 (2^128) bits *)
Definition hashable (a : algorithm) (m : list bool) : Prop := N.of_nat (length m) < 2 ^ (2 * word_size a).
Definition digest (a : algorithm) (m : list bool) : list N :=
  firstn (digest_size a) (concat (map (bytes_of_word a) (fold_left (compress a) (blocks_of a m) (initial a)))).

(** * HMAC (RFC 2104) *)

Definition block_bytes (a : algorithm) : nat := 2 * N.to_nat (word_size a).
Definition hmac_key (a : algorithm) (k : list N) : list N :=
  let k' := if (length k <=? block_bytes a)%nat then k else digest a (bits_of_bytes k) in
  k' ++ repeat 0 (block_bytes a - length k').
Definition xor_pad (v : N) (l : list N) : list N := map (N.lxor v) l.
(* H(K xor opad, H(K xor ipad, text)), text = bytes *)
Definition hmac_spec (a : algorithm) (k : list N) (text : list bool) : list N :=
  digest a (bits_of_bytes (xor_pad 0x5c (hmac_key a k)) ++
            bits_of_bytes (digest a (bits_of_bytes (xor_pad 0x36 (hmac_key a k)) ++ text))).
