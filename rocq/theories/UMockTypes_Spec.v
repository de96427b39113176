(* The types a test knows: a table from type names, taken as words and stars, to four functions. *)
From Verif Require Import Base UMockName_Spec UMockTypes_Model.
Local Open Scope Z_scope.

Record functions := { to_string : nat; equal : nat; duplicate : nat; release : nat }.
(* None while the module is not initialised *)
Definition table := option (list (list token * functions)).

Definition token_eq_dec (a b : token) : {a = b} + {a <> b}.
Proof. decide equality. apply (list_eq_dec N.eq_dec). Defined.
Definition same_type (a b : list token) : bool := if list_eq_dec token_eq_dec a b then true else false.
Fixpoint lookup (l : list (list token * functions)) (ts : list token) : option functions :=
  match l with
  | [] => None
  | (n, f) :: l => if same_type n ts then Some f else lookup l ts
  end.
Definition known (t : table) (name : option (list N)) : option functions :=
  match t, name with Some l, Some n => lookup l (tokens n) | _, _ => None end.
Definition functions_eqb (a b : functions) : bool :=
  ((to_string a =? to_string b) && (equal a =? equal b) && (duplicate a =? duplicate b) && (release a =? release b))%nat.

(* What a call does to the table, whether it succeeds, and which function it calls with what. *)
Definition meaning (t : table) (op : top) : bool * list tcall * table :=
  match op with
  | TInit => match t with None => (true, [], Some []) | Some _ => (false, [], t) end
  | TDeinit => (true, [], None)
  | TRegister (Some n) (Some st) (Some eq) (Some cp) (Some fr) =>
      match t with
      | None => (false, [], t)
      | Some l =>
          let f := {| to_string := st; equal := eq; duplicate := cp; release := fr |} in
          match tokens n, lookup l (tokens n) with
          | [], _ => (false, [], t)
          | _, Some g => (functions_eqb f g, [], t)
          | ts, None => (true, [], Some (l ++ [(ts, f)]))
          end
      end
  | TRegister _ _ _ _ _ => (false, [], t)
  | TStringify n (Some v) _ => match known t n with Some f => (true, [Stringify (to_string f) v], t) | None => (false, [], t) end
  | TAreEqual n (Some l) (Some r) _ => match known t n with Some f => (true, if (l =? r)%nat then [] else [AreEqual (equal f) l r], t) | None => (false, [], t) end
  | TCopy n (Some d) (Some s) _ => match known t n with Some f => (true, [Copy (duplicate f) d s], t) | None => (false, [], t) end
  | TFree n (Some v) => match known t n with Some f => (true, [Free (release f) v], t) | None => (false, [], t) end
  | _ => (false, [], t)
  end.
(* what the caller gets when the call succeeds, and when it fails *)
Definition returns (op : top) (ok : bool) (r : tret) : Prop :=
  match op, ok with
  | TInit, true | TRegister _ _ _ _ _, true => r = TZ 0
  | TInit, false | TRegister _ _ _ _ _, false => exists z, r = TZ z /\ z <> 0
  | TStringify _ _ a, true => r = TP a
  | TStringify _ _ _, false => r = TP None
  | TAreEqual _ (Some l) (Some x) a, true => r = TZ (if (l =? x)%nat then 1 else if (a =? 0) || (a =? 1) then a else -1)
  | TAreEqual _ _ _ _, _ => r = TZ (-1)
  | TCopy _ _ _ a, true => r = TZ a
  | TCopy _ _ _ _, false => exists z, r = TZ z /\ z <> 0
  | TDeinit, _ | TFree _ _, _ => r = TU
  end.
(* A history as the user sees it; the answers of malloc decide which calls fail for want of memory. *)
Inductive explained : table -> list top -> list (tret * list tcall) -> table -> bool -> Prop :=
| ex_nil t : explained t [] [] t false
| ex_step t op r c t' ops rs t'' m ok : meaning t op = (ok, c, t') -> returns op ok r -> explained t' ops rs t'' m -> explained t (op :: ops) ((r, c) :: rs) t'' m
| ex_memory t op r ops rs t'' m : op <> TDeinit -> op <> TInit -> returns op false r -> explained t ops rs t'' m -> explained t (op :: ops) ((r, []) :: rs) t'' true.

(* the type names are C strings *)
Definition op_ok (op : top) : Prop :=
  match op with
  | TRegister (Some n) _ _ _ _ | TStringify (Some n) _ _ | TAreEqual (Some n) _ _ _ | TCopy (Some n) _ _ _ | TFree (Some n) _ => cstr_ok n
  | _ => True
  end.
