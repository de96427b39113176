(* RFC 4648 section 4, stated on bits and independent of the code's tables and
   of its three-bytes-at-a-time structure. *)
From Verif Require Import Base.
Open Scope N_scope.

(* Bits of a byte, most significant first. *)
Definition byte_bits (b : N) : list bool := map (N.testbit b) [7;6;5;4;3;2;1;0].
Definition bits_of (bs : list N) : list bool := flat_map byte_bits bs.

(* Groups of six bits, the last one filled with zero bits on the right. *)
Fixpoint sextets (l : list bool) : list (list bool) :=
  match l with
  | a :: b :: c :: d :: e :: f :: rest => [a;b;c;d;e;f] :: sextets rest
  | [] => []
  | _ => [firstn 6 (l ++ repeat false 6)]
  end.

Definition bits_val (l : list bool) : N :=
  fold_left (fun acc (b : bool) => 2 * acc + (if b then 1 else 0)) l 0.

(* The RFC's table 1. *)
Definition alphabet : list N :=
  str "ABCDEFGHIJKLMNOPQRSTUVWXYZabcdefghijklmnopqrstuvwxyz0123456789+/".
Definition pad : N := ch "=".

Definition rfc4648 (bs : list N) : list N :=
  let core := map (fun g => nth (N.to_nat (bits_val g)) alphabet 0) (sextets (bits_of bs)) in
  core ++ repeat pad ((4 - length core mod 4) mod 4).

(* Position of a symbol in the alphabet. *)
Fixpoint index_of (c : N) (l : list N) : option N :=
  match l with
  | [] => None
  | x :: t => if x =? c then Some 0
              else match index_of c t with Some i => Some (i + 1) | None => None end
  end.
Definition sym (c : N) : Prop := In c alphabet.

(* Canonical base64 text: full quads of alphabet symbols, possibly ending in
   "xy==" with the low 4 bits of y zero or "xyz=" with the low 2 bits of z
   zero. *)
Inductive canonical : list N -> Prop :=
| can_nil : canonical []
| can_pad2 a b v : sym a -> index_of b alphabet = Some v -> v mod 16 = 0 ->
    canonical [a; b; pad; pad]
| can_pad1 a b c v : sym a -> sym b -> index_of c alphabet = Some v -> v mod 4 = 0 ->
    canonical [a; b; c; pad]
| can_quad a b c d rest : sym a -> sym b -> sym c -> sym d -> canonical rest ->
    canonical (a :: b :: c :: d :: rest).
