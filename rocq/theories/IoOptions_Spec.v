(* What a user who sets options on a stack of ios relies on. *)
From Verif Require Import Base IoOptions_Model.
Local Open Scope Z_scope.

Definition trusted_certs_option : list N := str "TrustedCerts".
Definition call := (option (list N) * value * answers)%type.

(* the certificates the io the user holds trusts, when it is an OpenSSL or a wolfSSL io *)
Definition trusts (x : option stack) : list cert :=
  match x with
  | Some s => match layers s with OpenSsl t :: _ | Wolf t :: _ => t | _ => [] end
  | None => []
  end.
(* the ios below that one *)
Definition others (x : option stack) : option (list layer * bottom) :=
  match x with Some s => Some (tl (layers s), below s) | None => None end.

(* what a string of PEM certificates offers, of which an OpenSSL io takes but the first *)
Definition offered (pem : list N -> list cert) (v : value) : list cert := match v with VText t => pem t | _ => [] end.
(* the certificates the calls that returned 0 offered first, in order *)
Fixpoint firsts (pem : list N -> list cert) (calls : list call) (rs : list Z) : list cert :=
  match calls, rs with
  | (Some n, v, _) :: calls, r :: rs =>
      (if (r =? 0) && (if list_eq_dec N.eq_dec n trusted_certs_option then true else false) then firstn 1 (offered pem v) else []) ++ firsts pem calls rs
  | _ :: calls, _ :: rs => firsts pem calls rs
  | _, _ => []
  end.

(* references to certificate x: one of who made it, one for each time a store took it *)
Definition count (f : use -> bool) (l : list use) : nat := length (filter f l).
Definition refs (x : nat) (l : list use) : Z :=
  Z.of_nat (count (fun u => match u with X509New y | X509UpRef y => (y =? x)%nat | _ => false end) l)
  - Z.of_nat (count (fun u => match u with X509Free y => (y =? x)%nat | _ => false end) l).
(* those the stores hold, which freeing the SSL contexts gives back *)
Definition held (x : nat) (l : list use) : Z := Z.of_nat (count (fun u => match u with X509UpRef y => (y =? x)%nat | _ => false end) l).
Definition bios_made (b : nat) (l : list use) : nat := count (fun u => match u with BioNew y => (y =? b)%nat | _ => false end) l.
Definition bios_freed (b : nat) (l : list use) : nat := count (fun u => match u with BioFree y => (y =? b)%nat | _ => false end) l.
(* every BIO made was freed *)
Definition tidy (w : world) : Prop := forall b, bios_made b (uses w) = bios_freed b (uses w).
