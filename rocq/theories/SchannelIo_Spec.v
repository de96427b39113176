(* What a user of the Schannel io relies on, written without the functions of the model that do
   the work: records, honest answers of Schannel, and what the io was seen to do. *)
From Verif Require Import Base SchannelIo_Model.
Local Open Scope Z_scope.

(** * Schannel *)

(* The k-th record of a session at the beginning of a byte sequence: its content and its length.
   What is a record does not depend on what follows it. *)
Definition decoder := nat -> list N -> option (list N * nat).
Definition decoder_ok (D : decoder) : Prop :=
  forall k b d n, D k b = Some (d, n) -> (0 < n <= length b)%nat /\ forall c, D k (b ++ c) = Some (d, n).
(* The complete records of a byte sequence, from the k-th on; and what is left. *)
Inductive records (D : decoder) : nat -> list N -> list (list N) -> list N -> Prop :=
| records_none k b : records D k b [] b
| records_more k b d n ds rest : D k b = Some (d, n) -> records D (S k) (skipn n b) ds rest -> records D k b (d :: ds) rest.

(* DecryptMessage's answer to the buffer b, by its documentation: the record and the bytes after
   it, or how many bytes are missing at least. *)
Definition faithful (D : decoder) (k : nat) (b : list N) (a : dec) : Prop :=
  match D k b with
  | Some (d, n) => a = DecOk (Some d) (if (n <? length b)%nat then Some (Z.of_nat (length b - n)) else None)
  | None => exists m, a = DecIncomplete m /\
              match m with None => True | Some m => 1 <= m /\ forall c, Z.of_nat (length c) < m -> D k (b ++ c) = None end
  end.

(* The counts Schannel answers with are possible: what it leaves over was given to it. *)
Definition count_ok (n : Z) (e : option Z) : Prop := match e with Some e => 0 <= e <= n | None => True end.
Definition missing_ok (m : option Z) : Prop := match m with Some m => 0 <= m | None => True end.
Definition possible (n : Z) (a : answers) : Prop :=
  match a_isc a with
  | IscIncomplete m => missing_ok m
  | IscOk _ e => count_ok n e
  | IscContinue _ _ e => count_ok n e
  | _ => True
  end /\
  match a_dec a with
  | DecIncomplete m => missing_ok m
  | DecOk _ e => count_ok n e
  | DecOther => True
  end.
(* By its documentation the second output buffer is not used. *)
Definition documented (a : isc) : Prop :=
  match a with IscOk _ e => e = None | IscContinue _ _ e => e = None | _ => True end.

(** * The io *)

Definition delivered (l : list out) : list (list N) := flat_map (fun o => match o with Bytes _ d => [d] | _ => [] end) (rev l).
Definition count_outs (p : out -> bool) (l : list out) : nat := length (filter p l).
Definition is_open_complete o := match o with OpenComplete _ _ => true | _ => false end.
Definition is_close_complete o := match o with CloseComplete _ => true | _ => false end.
Definition is_error o := match o with Error _ => true | _ => false end.
Definition is_xio_open o := match o with XioOpen => true | _ => false end.
Definition is_xio_close o := match o with XioClose => true | _ => false end.

(* The io is in the middle of a delivery of bytes, or of a step of the handshake. *)
Definition in_delivery (i : io) : Prop :=
  exists f, In f (frames i) /\ match f with AfterBytes _ | AfterToken _ => True | _ => False end.
Definition in_handshake (i : io) : Prop :=
  exists f, In f (frames i) /\ match f with AfterHello | AfterToken _ => True | _ => False end.

(* pieces of at most 16384 bytes *)
Fixpoint pieces (fuel : nat) (bs : list N) : list (list N) :=
  match fuel with
  | O => []
  | S fuel => match bs with [] => [] | _ => firstn CHUNK bs :: pieces fuel (skipn CHUNK bs) end
  end.

(* The underlying io never delivers bytes while the io is still in the middle of a delivery, and
   Schannel answers with possible counts. *)
Fixpoint orderly (es : list event) (i : io) : Prop :=
  match es with
  | [] => True
  | e :: es =>
      match e with
      | UBytes b a => ~ in_delivery i /\ possible (Z.of_nat (length (received_bytes i)) + Z.of_nat (length b)) a
      | _ => True
      end /\
      match step e i with Next i' => orderly es i' | _ => True end
  end.
(* xio_send returns before the underlying io calls anything and before the user does, when it is
   a token of the handshake that is sent. *)
Fixpoint quiet (es : list event) (i : io) : Prop :=
  match es with
  | [] => True
  | e :: es =>
      (in_handshake i -> exists ok memory cipher, e = Return ok memory cipher) /\
      match step e i with Next i' => quiet es i' | _ => True end
  end.

(* An open session without failures: bytes come one after the other, each delivery is over
   before the next, memory suffices and Schannel answers faithfully. *)
Definition bytes_of (e : event) : list N := match e with UBytes b _ => b | _ => [] end.
Definition stream (es : list event) : list N := flat_map bytes_of es.
Fixpoint session (D : decoder) (k : nat) (es : list event) (i : io) : Prop :=
  match es with
  | [] => True
  | e :: es =>
      match e with
      | UBytes b a => ~ in_delivery i /\ memory1 a = true /\ memory2 a = true /\
                      faithful D (length (delivered (outs i)) - k) (received_bytes i ++ b) (a_dec a)
      | Send _ _ _ => True
      | Return _ memory _ => memory = true
      | _ => False
      end /\
      match step e i with Next i' => session D k es i' | _ => True end
  end.
(* The handshake is just over and nothing was left in the buffer. *)
Definition fresh (c : N) (i : io) : Prop :=
  tlsio_state i = TLSIO_STATE_OPEN /\ received_bytes i = [] /\ needed_bytes i = Some 1 /\
  on_bytes_received i = Some c /\ frames i = [] /\ 0 <= buffer_size i.

(* Nothing happens to a close but its own completion. *)
Fixpoint undisturbed (es : list event) : Prop :=
  match es with
  | [] => True
  | UOpened _ _ _ _ :: _ | UError :: _ | UClosed :: _ => False
  | Return _ memory _ :: es => memory = true /\ undisturbed es
  | _ :: es => undisturbed es
  end.

(* How the pieces of a send go to the underlying io. *)
Fixpoint sends (enc : list N -> list N) (cb : callback) (ps : list (list N)) : list out :=
  match ps with
  | [] => []
  | [p] => [XioSend (enc p) cb]
  | p :: ps => XioSend (enc p) None :: sends enc cb ps
  end.
