(* What a UUID text is, written from RFC 4122 section 3 and independent of
   the model: five groups of 8-4-4-4-12 hexadecimal digits separated by '-',
   two digits per octet, the more significant digit first. *)
From Verif Require Import Base.
Local Open Scope N_scope.

Definition digit_value (c : N) : option N :=
  if (ch "0" <=? c) && (c <=? ch "9") then Some (c - ch "0")
  else if (ch "A" <=? c) && (c <=? ch "F") then Some (c - ch "A" + 10)
  else if (ch "a" <=? c) && (c <=? ch "f") then Some (c - ch "a" + 10)
  else None.

(* pairs of digits to octets; first the more significant digit *)
Fixpoint octets (l : list N) : option (list N) :=
  match l with
  | [] => Some []
  | h :: d :: t =>
      match digit_value h, digit_value d, octets t with
      | Some h, Some d, Some r => Some (16 * h + d :: r)
      | _, _, _ => None
      end
  | _ => None
  end.

(* the octets a UUID text stands for *)
Definition uuid_octets (t : list N) : option (list N) :=
  let g i n := firstn n (skipn i t) in
  if (Nat.eqb (length t) 36) &&
     forallb (fun i => match nth_error t i with Some c => c =? ch "-" | None => false end)
             [8; 13; 18; 23]%nat
  then octets (g 0 8 ++ g 9 4 ++ g 14 4 ++ g 19 4 ++ g 24 12)%nat
  else None.

Definition upper_hex (c : N) : Prop :=
  ch "0" <= c <= ch "9" \/ ch "A" <= c <= ch "F".

(* an octet with its two digits exchanged *)
Definition swapped (b : N) : N := 16 * (b mod 16) + b / 16.

(* the version and the variant of a UUID: RFC 4122 4.1.3 (the four most
   significant bits of octet 6) and 4.1.1 (the two most significant bits of
   octet 8) *)
Definition version (o : list N) : N := nth 6 o 0 / 16.
Definition variant (o : list N) : N := nth 8 o 0 / 64.
