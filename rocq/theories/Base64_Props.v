(* Properties C01-C04: base64.  Only statements, instances and assumptions. *)
From Verif Require Import Base Base64_Model Base64_Spec Base64_Proofs.
Open Scope N_scope.

(** C01: what Base64_Encode returns (always NUL-terminated text filling its
    block) decodes to the original bytes, unless an allocation fails; no byte of
    the result is left unwritten ([filled]). *)
Theorem base64_round_trip : forall bs o1 o1' blk o2,
  bytes_ok bs ->
  Base64_Encode (Some bs) o1 = Some (Some blk, o1') ->
  exists txt, blk = filled (txt ++ [0]) /\ cstr_ok txt /\
    ((exists o2', Base64_Decoder (Some txt) o2 = Some (None, o2') /\ In false o2) \/
     (exists o2', Base64_Decoder (Some txt) o2 = Some (Some (filled bs), o2'))).
Proof. exact round_trip. Qed.
Print Assumptions base64_round_trip.

Example base64_round_trip_applies :
  bytes_ok [0; 255; 16; 77] /\
  Base64_Encode (Some [0; 255; 16; 77]) [] = Some (Some (filled (str "AP8QTQ==" ++ [0])), []) /\
  Base64_Decoder (Some (str "AP8QTQ==")) [] = Some (Some (filled [0; 255; 16; 77]), []).
Proof. repeat split; repeat constructor. Qed.

(** C02: Base64_Encode and Base64_Encode_Bytes return NULL only if an allocation
    failed and otherwise exactly the RFC 4648 text and its terminator, in a block
    of exactly that size (never out of bounds: the outcome is never undefined). *)
Theorem base64_encode_rfc4648 : forall bs o, bytes_ok bs ->
  (exists o', Base64_Encode (Some bs) o = Some (None, o') /\ In false o) \/
  (exists o', Base64_Encode (Some bs) o = Some (Some (filled (rfc4648 bs ++ [0])), o')).
Proof. exact encode_conforms. Qed.
Print Assumptions base64_encode_rfc4648.

Theorem base64_encode_bytes_rfc4648 : forall bs o, bytes_ok bs ->
  (exists o', Base64_Encode_Bytes (Some bs) o = Some (None, o') /\ In false o) \/
  (exists o', Base64_Encode_Bytes (Some bs) o = Some (Some (filled (rfc4648 bs ++ [0])), o')).
Proof. exact encode_bytes_conforms. Qed.
Print Assumptions base64_encode_bytes_rfc4648.

Theorem base64_length : forall bs, bytes_ok bs ->
  length (rfc4648 bs) = (4 * ((length bs + 2) / 3))%nat.
Proof. exact rfc4648_length. Qed.
Print Assumptions base64_length.

Theorem base64_text_is_canonical : forall bs, bytes_ok bs -> canonical (rfc4648 bs).
Proof. exact rfc_canonical. Qed.
Print Assumptions base64_text_is_canonical.

Theorem base64_injective : forall a b,
  bytes_ok a -> bytes_ok b -> rfc4648 a = rfc4648 b -> a = b.
Proof. exact encode_injective. Qed.
Print Assumptions base64_injective.

(* RFC 4648 section 10 test vectors, for the specification itself. *)
Example rfc4648_vectors :
  rfc4648 (str "") = str "" /\ rfc4648 (str "f") = str "Zg==" /\
  rfc4648 (str "fo") = str "Zm8=" /\ rfc4648 (str "foo") = str "Zm9v" /\
  rfc4648 (str "foob") = str "Zm9vYg==" /\ rfc4648 (str "fooba") = str "Zm9vYmE=" /\
  rfc4648 (str "foobar") = str "Zm9vYmFy".
Proof. repeat split. Qed.

(** C03 is false of the code: some C string makes the decoder write outside the
    block it allocated ... *)
Theorem base64_decoder_safe_refuted :
  exists s, cstr_ok s /\ Base64_Decoder (Some s) [] = None.
Proof. exists (str "AAAAAB"). split; [repeat constructor|reflexivity]. Qed.
Print Assumptions base64_decoder_safe_refuted.

(** ... indeed every unpadded text of more than four symbols does, when the
    allocations succeed ... *)
Theorem base64_decoder_unpadded_overflows : forall cs o,
  Forall sym cs -> (4 < length cs)%nat -> (2 <= length cs mod 4)%nat ->
  ~ In false o -> Base64_Decoder (Some cs) o = None.
Proof. exact unpadded_overflow. Qed.
Print Assumptions base64_decoder_unpadded_overflows.

Example base64_decoder_unpadded_applies :
  Forall sym (str "Zm9vYg") /\ (4 < length (str "Zm9vYg"))%nat /\
  (2 <= length (str "Zm9vYg") mod 4)%nat.
Proof. split; [apply syms_b; reflexivity|vm_compute; lia]. Qed.

(** ... and some string makes it return a buffer with unwritten bytes. *)
Theorem base64_decoder_defined_refuted :
  exists s b o', cstr_ok s /\ Base64_Decoder (Some s) [] = Some (Some b, o') /\ In None b.
Proof.
  exists (str "AB="), [Some 0; None], []. split; [repeat constructor|].
  split; [reflexivity|cbn; auto].
Qed.
Print Assumptions base64_decoder_defined_refuted.

(** C03, what does hold: a text whose length is a multiple of four is decoded
    within bounds, whatever its characters.  Missing for the full property: other
    lengths (refuted above), and that all bytes of the result are written. *)
Theorem base64_decoder_in_bounds_partial : forall s o,
  (length s mod 4 = 0)%nat -> Base64_Decoder (Some s) o <> None.
Proof. exact decoder_mult4. Qed.
Print Assumptions base64_decoder_in_bounds_partial.

Example base64_decoder_in_bounds_applies :
  (length (str "AB!=AA==") mod 4 = 0)%nat /\
  Base64_Decoder (Some (str "AB!=AA==")) [] = Some (Some [Some 0; None; None; None], []).
Proof. split; reflexivity. Qed.

(** C04: on canonical text the decoder succeeds (allocations permitting) with
    all bytes written, and the result encodes back to the text. *)
Theorem base64_decode_canonical : forall t o, canonical t ->
  (exists o', Base64_Decoder (Some t) o = Some (None, o') /\ In false o) \/
  (exists o' bs, Base64_Decoder (Some t) o = Some (Some (filled bs), o')
                 /\ bytes_ok bs /\ rfc4648 bs = t).
Proof. exact decode_canonical. Qed.
Print Assumptions base64_decode_canonical.

Example base64_decode_canonical_applies : canonical (str "Zm9vYmE=").
Proof.
  apply (can_quad 90 109 57 118); try (apply sym_b; reflexivity).
  apply (can_pad1 89 109 69 4); try (apply sym_b; reflexivity); reflexivity.
Qed.

(** C03/C04: a run of symbols of length 1 modulo 4 is refused. *)
Theorem base64_decoder_refuses_length : forall s o,
  (numberOfBase64Characters s mod 4 = 1)%nat -> Base64_Decoder (Some s) o = Some (None, o).
Proof. exact bad_length_null. Qed.
Print Assumptions base64_decoder_refuses_length.
