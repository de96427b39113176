(* Specification of the STRING module on plain texts: slot i is the text of
   handle i, None once deleted.  [sp_step sp op m]: m = memory is available; None
   = the call breaks a documented precondition (deleted handle, pointer outside a
   string, or a source that aliases the string being modified). *)
From Verif Require Import Base Strings_Model.
Open Scope N_scope.

Definition texts := list (option (list N)).

(* the argument points into the string [h] itself *)
Definition lies_inside (a : carg) (h : nat) : bool := match a with COf g _ => (g =? h)%nat | _ => false end.

Definition live (sp : texts) (h : nat) : option (list N) :=
  match nth_error sp h with Some (Some t) => Some t | _ => None end.

(* The text a const char* argument denotes. *)
Definition denote (sp : texts) (a : carg) : option (option (list N)) :=
  match a with
  | CNull => Some None
  | CText s => if cstr_okb s then Some (Some s) else None
  | COf h k => match live sp h with
               | Some t => if (k <=? length t)%nat then Some (Some (skipn k t)) else None
               | None => None
               end
  end.

(* A call creating a handle with text t. *)
Definition create (sp : texts) (m : bool) (t : list N) : option (sret * texts) :=
  if m then Some (RH (Some (length sp)), sp ++ [Some t]) else Some (RH None, sp).

(* A call setting the text of handle h to t. *)
Definition assign (sp : texts) (m : bool) (h : nat) (t : list N) : option (sret * texts) :=
  if m then Some (RI true, upd sp h (Some t)) else Some (RI false, sp).

Definition quoted (t : list N) : list N := ch """" :: t ++ [ch """"].

(* The JSON literal of an ASCII text: quote, escape control characters as \u00XX
   and the characters double quote, backslash, slash with a backslash. *)
Definition json_literal (t : list N) : list N :=
  quoted (flat_map (fun c =>
    if c <? 32 then str "\u00" ++ [nth (N.to_nat (c / 16)) (str "0123456789ABCDEF") 0;
                                   nth (N.to_nat (c mod 16)) (str "0123456789ABCDEF") 0]
    else if existsb (N.eqb c) [34; 92; 47] then [92; c] else [c]) t).

Definition ascii_text (t : list N) : bool := forallb (fun c => c <? 128) t.

Definition sp_step (sp : texts) (op : sop) (m : bool) : option (sret * texts) :=
  match op with
  | SNew => create sp m []
  | SClone None => Some (RH None, sp)
  | SClone (Some h) => match live sp h with Some t => create sp m t | None => None end
  | SConstruct a =>
      match denote sp a with
      | None => None
      | Some None => Some (RH None, sp)
      | Some (Some t) => create sp m t
      end
  | SConstructN a n =>
      match denote sp a with
      | None => None
      | Some None => Some (RH None, sp)
      | Some (Some t) => if (n <=? length t)%nat then create sp m (firstn n t)
                         else Some (RH None, sp)
      end
  | SNewWithMemory None => Some (RH None, sp)
  | SNewWithMemory (Some b) =>
      match ctext b with
      | Some t => if cstr_okb t then create sp m t else None
      | None => None
      end
  | SQuoted a =>
      match denote sp a with
      | None => None
      | Some None => Some (RH None, sp)
      | Some (Some t) => create sp m (quoted t)
      end
  | SJSON a =>
      match denote sp a with
      | None => None
      | Some None => Some (RH None, sp)
      | Some (Some t) => if ascii_text t then create sp m (json_literal t)
                         else Some (RH None, sp)
      end
  | SConcat None _ => Some (RI false, sp)
  | SConcat (Some h) CNull => Some (RI false, sp)
  | SConcat (Some h) a =>
      match live sp h, denote sp a with
      | Some t1, Some (Some t2) => if lies_inside a h then None else assign sp m h (t1 ++ t2)
      | _, _ => None
      end
  | SConcatS (Some h1) (Some h2) =>
      match live sp h1, live sp h2 with
      | Some t1, Some t2 => if (h1 =? h2)%nat then None else assign sp m h1 (t1 ++ t2)
      | _, _ => None
      end
  | SConcatS _ _ => Some (RI false, sp)
  | SCopy None _ => Some (RI false, sp)
  | SCopy (Some h) CNull => Some (RI false, sp)
  | SCopy (Some h) a =>
      match live sp h, denote sp a with
      | Some t1, Some (Some t2) =>
          match a with
          | COf h' 0 => if (h' =? h)%nat then Some (RI true, sp) else assign sp m h t2
          | _ => if lies_inside a h then None else assign sp m h t2
          end
      | _, _ => None
      end
  | SCopyN None _ _ => Some (RI false, sp)
  | SCopyN (Some h) CNull _ => Some (RI false, sp)
  | SCopyN (Some h) a n =>
      match live sp h, denote sp a with
      | Some t1, Some (Some t2) => if lies_inside a h then None else assign sp m h (firstn n t2)
      | _, _ => None
      end
  | SQuote None => Some (RI false, sp)
  | SQuote (Some h) =>
      match live sp h with Some t => assign sp m h (quoted t) | None => None end
  | SEmpty None => Some (RI false, sp)
  | SEmpty (Some h) =>
      match live sp h with Some t => assign sp m h [] | None => None end
  | SDelete None => Some (RI true, sp)
  | SDelete (Some h) =>
      match live sp h with Some t => Some (RI true, upd sp h None) | None => None end
  | SCStr None => Some (RT None, sp)
  | SCStr (Some h) => match live sp h with Some t => Some (RT (Some t), sp) | None => None end
  | SLength None => Some (RN 0, sp)
  | SLength (Some h) => match live sp h with Some t => Some (RN (length t), sp) | None => None end
  | SCompare None None => Some (RZ 0, sp)
  | SCompare None (Some _) => Some (RZ 1, sp)
  | SCompare (Some _) None => Some (RZ (-1), sp)
  | SCompare (Some h1) (Some h2) =>
      match live sp h1, live sp h2 with
      | Some t1, Some t2 => Some (RZ (strcmp t1 t2), sp)
      | _, _ => None
      end
  end.

(* The memory of every live handle holds its text, a terminator and possibly
   unused room; deleted handles match deleted handles. *)
Definition represents (st : slots) (sp : texts) : Prop :=
  Forall2 (fun ob ot => match ob, ot with
                        | None, None => True
                        | Some b, Some t => cstr_ok t /\ exists room, b = filled (t ++ [0]) ++ room
                        | _, _ => False
                        end) st sp.

(* Lexicographic order on texts. *)
Definition lex_lt (a b : list N) : Prop :=
  (exists y t, b = a ++ y :: t) \/
  (exists p x y s t, a = p ++ x :: s /\ b = p ++ y :: t /\ x < y).
