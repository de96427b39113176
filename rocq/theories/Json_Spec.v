(* RFC 7159 (JSON), the part needed: string literals and flat objects of
   strings, as readers. *)
From Verif Require Import Base.
Open Scope N_scope.

Definition json_hex (c : N) : option N :=
  if (48 <=? c) && (c <=? 57) then Some (c - 48)
  else if (65 <=? c) && (c <=? 70) then Some (c - 65 + 10)
  else if (97 <=? c) && (c <=? 102) then Some (c - 97 + 10)
  else None.

(* The characters after the opening quote: decoded text and what follows the
   closing quote.  Unescaped characters must be at least 0x20 (section 7). *)
Fixpoint json_chars (l : list N) : option (list N * list N) :=
  match l with
  | [] => None
  | c :: t =>
      if c =? ch """" then Some ([], t)
      else if c =? ch "\" then
        match t with
        | [] => None
        | e :: t1 =>
            let simple v := match json_chars t1 with
                            | Some (r, k) => Some (v :: r, k) | None => None end in
            if e =? ch """" then simple 34
            else if e =? ch "\" then simple 92
            else if e =? ch "/" then simple 47
            else if e =? ch "b" then simple 8
            else if e =? ch "f" then simple 12
            else if e =? ch "n" then simple 10
            else if e =? ch "r" then simple 13
            else if e =? ch "t" then simple 9
            else if e =? ch "u" then
              match t1 with
              | h1 :: h2 :: h3 :: h4 :: t2 =>
                  match json_hex h1, json_hex h2, json_hex h3, json_hex h4, json_chars t2 with
                  | Some a, Some b, Some c, Some d, Some (r, k) =>
                      Some (4096 * a + 256 * b + 16 * c + d :: r, k)
                  | _, _, _, _, _ => None
                  end
              | _ => None
              end
            else None
        end
      else if c <? 32 then None
      else match json_chars t with Some (r, k) => Some (c :: r, k) | None => None end
  end.

(* A string literal. *)
Definition json_string (l : list N) : option (list N * list N) :=
  match l with
  | c :: t => if c =? ch """" then json_chars t else None
  | [] => None
  end.

(* A flat object of strings, without optional white space: the members after the
   opening brace.  Every member takes at least one character, so the length of the
   text is enough fuel. *)
Fixpoint json_members (fuel : nat) (l : list N) : option (list (list N * list N) * list N) :=
  match fuel with
  | O => None
  | S f =>
      match json_string l with
      | Some (k, c :: l1) =>
          if c =? ch ":" then
            match json_string l1 with
            | Some (v, d :: l2) =>
                if d =? ch "}" then Some ([(k, v)], l2)
                else if d =? ch "," then
                  match json_members f l2 with
                  | Some (ms, rest) => Some ((k, v) :: ms, rest)
                  | None => None
                  end
                else None
            | _ => None
            end
          else None
      | _ => None
      end
  end.

Definition json_object (l : list N) : option (list (list N * list N) * list N) :=
  match l with
  | c :: t =>
      if c =? ch "{" then
        match t with
        | d :: rest => if d =? ch "}" then Some ([], rest) else json_members (length t) t
        | [] => None
        end
      else None
  | [] => None
  end.
