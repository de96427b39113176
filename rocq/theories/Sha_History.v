(* What a history of USHA calls on one context gives: the specification the model is compared
   with.  A context absorbs bytes, then is finished with a digest; or a call was wrong and it is
   broken with an error code. *)
From Verif Require Import Base Sha_Spec Sha_Model.
Open Scope N_scope.

Definition algorithm_of (which : N) : option algorithm :=
  match which with
  | 0 => Some Sha1 | 1 => Some Sha224 | 2 => Some Sha256 | 3 => Some Sha384 | 4 => Some Sha512 | _ => None
  end.

Inductive hash_state :=
| Absorbing (a : algorithm) (m : list N)               (* the bytes given so far *)
| Finished (a : algorithm) (d : list N)                (* the digest *)
| Broken (a : algorithm) (code : N) (finished : bool)
| BadParam.                                            (* reset for an algorithm that does not exist *)

(* less than 2^64 (2^128) bits *)
Definition fitsb (a : algorithm) (bits : N) : bool := bits <? 2 ^ (2 * word_size a).

Definition hash_step (s : option hash_state) (op : uop) : option (ures * option hash_state) :=
  let answer (code : N) (s' : hash_state) := Some ((code, None), Some s') in
  match op with
  | UReset true _ | UInput true _ | UFinalBits true _ _ | UResult true _ => Some ((shaNull, None), s)
  | UReset false which =>
      match algorithm_of which with
      | Some a => answer shaSuccess (Absorbing a [])
      | None => answer shaBadParam BadParam
      end
  | UInput false x =>
      match s with
      | None => None
      | Some BadParam => answer shaBadParam BadParam
      | Some s' =>
          match x with
          | inl n => answer (if n =? 0 then shaSuccess else shaNull) s'
          | inr [] => answer shaSuccess s'
          | inr l =>
              match s' with
              | Absorbing a m => answer shaSuccess (if fitsb a (8 * N.of_nat (length (m ++ l))) then Absorbing a (m ++ l) else Broken a 1 false)
              | Finished a _ | Broken a _ true => answer shaStateError (Broken a shaStateError true)
              | Broken a e false => answer e s'
              | BadParam => None
              end
          end
      end
  | UFinalBits false b n =>
      match s with
      | None => None
      | Some BadParam => answer shaBadParam BadParam
      | Some s' =>
          if n =? 0 then answer shaSuccess s' else
          match s' with
          | Absorbing a m =>
              if 8 <=? n then answer shaStateError (Broken a shaStateError false)
              else answer shaSuccess
                     (if fitsb a (8 * N.of_nat (length m) + n)
                      then Finished a (digest a (bits_of_bytes m ++ firstn (N.to_nat n) (bits_of 8 b)))
                      else Broken a 1 true)
          | Finished a _ | Broken a _ true => answer shaStateError (Broken a shaStateError true)
          | Broken a e false => if 8 <=? n then answer shaStateError (Broken a shaStateError false) else answer e s'
          | BadParam => None
          end
      end
  | UResult false room =>
      match s with
      | None => None
      | Some BadParam => answer shaBadParam BadParam
      | Some s' =>
          if negb room then answer shaNull s' else
          match s' with
          | Absorbing a m => let d := digest a (bits_of_bytes m) in Some ((shaSuccess, Some d), Some (Finished a d))
          | Finished a d => Some ((shaSuccess, Some d), Some s')
          | Broken a e _ => answer e s'
          | BadParam => None
          end
      end
  end.

Fixpoint hash_run (s : option hash_state) (ops : list uop) : option (list ures * option hash_state) :=
  match ops with
  | [] => Some ([], s)
  | op :: t =>
      match hash_step s op with
      | None => None
      | Some (r, s') => match hash_run s' t with Some (rs, s'') => Some (r :: rs, s'') | None => None end
      end
  end.

(* the data are arrays of uint8_t *)
Definition op_ok (op : uop) : Prop := match op with UInput _ (inr l) => bytes_ok l | UFinalBits _ b _ => b < 256 | _ => True end.
