(* Splitting a text at every character of a set, dropping empty fields. *)
From Verif Require Import Base.
Open Scope N_scope.

(* [cur] is the field being read. *)
Fixpoint fields_from (delims : list N) (cur s : list N) : list (list N) :=
  let emit := match cur with [] => [] | _ => [cur] end in
  match s with
  | [] => emit
  | c :: t => if existsb (N.eqb c) delims then emit ++ fields_from delims [] t
              else fields_from delims (cur ++ [c]) t
  end.
Definition fields (delims s : list N) : list (list N) := fields_from delims [] s.

Example fields_example : fields (str ",;") (str ",ab,;c;d,") = [str "ab"; str "c"; str "d"].
Proof. reflexivity. Qed.

(* At most one of the delimiters occurs in the text. *)
Definition one_delimiter (delims s : list N) : Prop :=
  exists d, forall c, In c s -> In c delims -> c = d.

(* What the tokenizer does with several delimiters: it skips delimiters, and ends the token at the first occurrence of that delimiter
   that is listed first among those that occur in the rest of the text. *)
Inductive listed_tokens (delims : list N) : list N -> list (list N) -> Prop :=
| no_more skip : Forall (fun c => In c delims) skip -> listed_tokens delims skip []
| last_token skip c tok : Forall (fun c => In c delims) skip -> ~ In c delims -> Forall (fun d => ~ In d (c :: tok)) delims ->
    listed_tokens delims (skip ++ c :: tok) [c :: tok]
| cut_token skip c tok d before after rest toks : Forall (fun c => In c delims) skip -> ~ In c delims ->
    delims = before ++ d :: after -> Forall (fun b => ~ In b (c :: tok ++ d :: rest)) before -> ~ In d (c :: tok) ->
    listed_tokens delims rest toks -> listed_tokens delims (skip ++ c :: tok ++ d :: rest) ((c :: tok) :: toks).
