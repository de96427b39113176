(* What URL-encoded text is and what it denotes, independent of the code. *)
From Verif Require Import Base.
Open Scope N_scope.

Definition is_digit (c : N) : bool := (48 <=? c) && (c <=? 57).
Definition is_upper (c : N) : bool := (65 <=? c) && (c <=? 90).
Definition is_lower (c : N) : bool := (97 <=? c) && (c <=? 122).

(* Characters that may stand for themselves in the encoding. *)
Definition plain (c : N) : bool :=
  is_digit c || is_upper c || is_lower c || existsb (N.eqb c) (str "!()*-._").

Definition hexval (c : N) : option N :=
  if is_digit c then Some (c - 48)
  else if (97 <=? c) && (c <=? 102) then Some (c - 97 + 10)
  else None.

(* Text made of plain characters and of '%' followed by two lowercase hex
   digits. *)
Inductive url_safe : list N -> Prop :=
| safe_nil : url_safe []
| safe_plain c t : plain c = true -> url_safe t -> url_safe (c :: t)
| safe_esc h l t : hexval h <> None -> hexval l <> None -> url_safe t ->
    url_safe (ch "%" :: h :: l :: t).

(* Percent decoding (RFC 3986 2.1). *)
Fixpoint percent_decode (t : list N) : option (list N) :=
  match t with
  | [] => Some []
  | c :: t1 =>
      if c =? ch "%" then
        match t1 with
        | h :: l :: t2 =>
            match hexval h, hexval l, percent_decode t2 with
            | Some a, Some b, Some r => Some (16 * a + b :: r)
            | _, _, _ => None
            end
        | _ => None
        end
      else match percent_decode t1 with Some r => Some (c :: r) | None => None end
  end.

(* UTF-8 decoding of code points below 0x800 (RFC 3629): one byte 0xxxxxxx, or
   110xxxxx 10xxxxxx, overlong forms refused. *)
Fixpoint utf8_decode (l : list N) : option (list N) :=
  match l with
  | [] => Some []
  | a :: l1 =>
      if a <? 128 then match utf8_decode l1 with Some r => Some (a :: r) | None => None end
      else if (194 <=? a) && (a <=? 223) then
        match l1 with
        | b :: l2 =>
            if (128 <=? b) && (b <=? 191) then
              match utf8_decode l2 with
              | Some r => Some ((a - 192) * 64 + (b - 128) :: r)
              | None => None
              end
            else None
        | [] => None
        end
      else None
  end.

(* The text a URL-encoded string denotes. *)
Definition url_denotes (t : list N) : option (list N) :=
  match percent_decode t with Some bs => utf8_decode bs | None => None end.
