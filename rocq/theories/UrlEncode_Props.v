(* Properties C05, C06: urlencode. *)
From Verif Require Import Base UrlEncode_Model UrlEncode_Spec UrlEncode_Proofs.
Open Scope N_scope.

(** C05 and C06: the call never runs into undefined behaviour; it gives NULL only
    when an allocation failed; otherwise the block is exactly filled by a text and
    its terminator, the text is URL-safe and denotes the input. *)
Theorem url_encode_string_correct : forall s o, cstr_ok s ->
  (exists o', URL_EncodeString (Some s) o = Some (None, o') /\ In false o) \/
  (exists t o', URL_EncodeString (Some s) o = Some (Some (filled (t ++ [0])), o')
     /\ cstr_ok t /\ url_safe t /\ url_denotes t = Some s).
Proof. exact url_main. Qed.
Print Assumptions url_encode_string_correct.

Theorem url_encode_correct : forall s o, cstr_ok s ->
  (exists o', URL_Encode (Some s) o = Some (None, o') /\ In false o) \/
  (exists t o', URL_Encode (Some s) o = Some (Some (filled (t ++ [0])), o')
     /\ cstr_ok t /\ url_safe t /\ url_denotes t = Some s).
Proof. exact url_main_handle. Qed.
Print Assumptions url_encode_correct.

(** C05: distinct inputs have distinct encodings. *)
Theorem url_encode_injective : forall s1 s2 o1 o2 b o1' o2', cstr_ok s1 -> cstr_ok s2 ->
  URL_EncodeString (Some s1) o1 = Some (Some b, o1') ->
  URL_EncodeString (Some s2) o2 = Some (Some b, o2') -> s1 = s2.
Proof. exact url_injective. Qed.
Print Assumptions url_encode_injective.

(** C05: text made of unreserved characters only is left as it is. *)
Theorem url_encode_plain_unchanged : forall s o b o', cstr_ok s -> forallb plain s = true ->
  URL_EncodeString (Some s) o = Some (Some b, o') -> b = filled (s ++ [0]).
Proof. exact url_plain_unchanged. Qed.
Print Assumptions url_encode_plain_unchanged.

Example url_encode_applies :
  cstr_ok [97; 32; 233; 47] /\
  URL_EncodeString (Some [97; 32; 233; 47]) [] = Some (Some (filled (str "a%20%c3%a9%2f" ++ [0])), []) /\
  url_denotes (str "a%20%c3%a9%2f") = Some [97; 32; 233; 47].
Proof. repeat split; repeat constructor. Qed.
