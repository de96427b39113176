(* Model of src/tlsio_schannel.c.

   One io.  An execution is a sequence of events in any order: calls of the API, calls of the
   functions the io registered with the underlying io, and the return of a call the io made
   and after which it still has something to do (the user's on_bytes_received, xio_send); so
   the user and the underlying io may call the io again from inside these calls.  A call after
   which nothing more is done with the io needs no such return: what happens inside of it is
   what happens next.

   What Schannel, malloc and the underlying io answer is part of the event.  The output buffers
   of InitializeSecurityContext are as the caller left them unless the answer says otherwise;
   by its documentation SECBUFFER_EXTRA and SECBUFFER_MISSING are put in the second input
   buffer.  DWORD counts are not bounded here.  The log is not modelled. *)
From Verif Require Import Base.
Local Open Scope Z_scope.

(* tlsio_schannel.c:22-31 *)
Inductive TLSIO_STATE :=
| TLSIO_STATE_NOT_OPEN | TLSIO_STATE_OPENING_UNDERLYING_IO | TLSIO_STATE_HANDSHAKE_CLIENT_HELLO_SENT
| TLSIO_STATE_OPEN | TLSIO_STATE_CLOSING | TLSIO_STATE_ERROR.

(* A callback with its context; None: NULL *)
Definition callback := option N.

(* What the io still has to do when a call it made returns. *)
Inductive frame :=
| AfterHello                             (* xio_send of the first token, :172 *)
| AfterToken (extra_out : option Z)      (* xio_send of a later one, :337; output_buffers[1] *)
| AfterBytes (extra : option Z)          (* the user's on_bytes_received, :454; the EXTRA buffer *)
| AfterChunk (rest : list N) (cb : callback).    (* xio_send in send_chunk, :759; what is left to send *)

(* What the user and the underlying io see. *)
Inductive out :=
| OpenComplete (ctx : N) (ok : bool)
| CloseComplete (ctx : N)
| Bytes (ctx : N) (data : list N)
| Error (ctx : N)
| XioOpen | XioClose
| XioSend (bytes : list N) (cb : callback)
| SendReturns (ok : bool)
| OpenReturns (ok : bool)
| CloseReturns (ok : bool).

(* tlsio_schannel.c:33-54 *)
Record io := mk {
  tlsio_state : TLSIO_STATE;
  received_bytes : list N;               (* the first received_byte_count bytes of the block *)
  buffer_size : Z;
  needed_bytes : option Z;               (* None: never written *)
  on_io_open_complete : callback; on_io_close_complete : callback;
  on_bytes_received : callback; on_io_error : callback;
  credential_handle_allocated : bool;
  credentials : nat;                     (* handles Schannel gave and did not get back *)
  contexts : nat;                        (* security contexts, likewise *)
  tokens : nat;                          (* blocks Schannel allocated for tokens, likewise *)
  frames : list frame;                   (* innermost first *)
  outs : list out }.                     (* newest first *)

Definition set_state s i := mk s (received_bytes i) (buffer_size i) (needed_bytes i) (on_io_open_complete i) (on_io_close_complete i) (on_bytes_received i) (on_io_error i) (credential_handle_allocated i) (credentials i) (contexts i) (tokens i) (frames i) (outs i).
Definition set_buf b z i := mk (tlsio_state i) b z (needed_bytes i) (on_io_open_complete i) (on_io_close_complete i) (on_bytes_received i) (on_io_error i) (credential_handle_allocated i) (credentials i) (contexts i) (tokens i) (frames i) (outs i).
Definition set_needed n i := mk (tlsio_state i) (received_bytes i) (buffer_size i) n (on_io_open_complete i) (on_io_close_complete i) (on_bytes_received i) (on_io_error i) (credential_handle_allocated i) (credentials i) (contexts i) (tokens i) (frames i) (outs i).
Definition set_open_cbs o b e i := mk (tlsio_state i) (received_bytes i) (buffer_size i) (needed_bytes i) o (on_io_close_complete i) b e (credential_handle_allocated i) (credentials i) (contexts i) (tokens i) (frames i) (outs i).
Definition set_close_cb c i := mk (tlsio_state i) (received_bytes i) (buffer_size i) (needed_bytes i) (on_io_open_complete i) c (on_bytes_received i) (on_io_error i) (credential_handle_allocated i) (credentials i) (contexts i) (tokens i) (frames i) (outs i).
Definition set_owned f c x t i := mk (tlsio_state i) (received_bytes i) (buffer_size i) (needed_bytes i) (on_io_open_complete i) (on_io_close_complete i) (on_bytes_received i) (on_io_error i) f c x t (frames i) (outs i).
Definition set_frames f i := mk (tlsio_state i) (received_bytes i) (buffer_size i) (needed_bytes i) (on_io_open_complete i) (on_io_close_complete i) (on_bytes_received i) (on_io_error i) (credential_handle_allocated i) (credentials i) (contexts i) (tokens i) f (outs i).
Definition emit o i := mk (tlsio_state i) (received_bytes i) (buffer_size i) (needed_bytes i) (on_io_open_complete i) (on_io_close_complete i) (on_bytes_received i) (on_io_error i) (credential_handle_allocated i) (credentials i) (contexts i) (tokens i) (frames i) (o :: outs i).
Definition push f i := set_frames (f :: frames i) i.

(* tlsio_schannel.c:67-73 *)
Definition indicate_error (i : io) : io := match on_io_error i with Some c => emit (Error c) i | None => i end.
Definition open_complete (ok : bool) (i : io) : io := match on_io_open_complete i with Some c => emit (OpenComplete c ok) i | None => i end.
Definition close_complete (i : io) : io := match on_io_close_complete i with Some c => emit (CloseComplete c) i | None => i end.
Definition failed_open (i : io) : io := open_complete false (set_state TLSIO_STATE_ERROR i).
Definition failed (i : io) : io := indicate_error (set_state TLSIO_STATE_ERROR i).
Definition count (i : io) : Z := Z.of_nat (length (received_bytes i)).

(* tlsio_schannel.c:75-99; None: realloc failed *)
Definition resize_receive_buffer (memory : bool) (n : Z) (i : io) : option io :=
  if buffer_size i <? n then if memory then Some (set_buf (received_bytes i) n i) else None else Some i.
(* tlsio_schannel.c:196-213; the block is cut to this size, never below the count here *)
Definition set_receive_buffer (memory : bool) (n : Z) (i : io) : option io :=
  if memory then Some (set_buf (received_bytes i) n i) else None.

(* Answers of InitializeSecurityContext: missing is the SECBUFFER_MISSING of input_buffers[1],
   extra_in its SECBUFFER_EXTRA (which the code does not look at), extra_out the SECBUFFER_EXTRA
   of output_buffers[1]. *)
Inductive isc :=
| IscIncomplete (missing : option Z)
| IscOk (extra_in extra_out : option Z)
| IscContinue (token : list N) (extra_in extra_out : option Z)
| IscUntrusted
| IscOther.
(* Answers of DecryptMessage: missing; the DATA in security_buffers[1]; EXTRA in one of them. *)
Inductive dec :=
| DecIncomplete (missing : option Z)
| DecOk (data : option (list N)) (extra : option Z)
| DecOther.

(* consumed_bytes, memmove, received_byte_count (:305-312, :347-354, :457-468): the last [extra] bytes are
   kept; None: more than there are (the memmove is out of bounds) *)
Definition consume (extra : option Z) (i : io) : option io :=
  match extra with
  | None => Some (set_buf [] (buffer_size i) i)
  | Some e => if (0 <=? e) && (e <=? count i)
              then Some (set_buf (skipn (Z.to_nat (count i - e)) (received_bytes i)) (buffer_size i) i)
              else None
  end.

(* None: undefined behaviour *)
Notation "x <- m ;; f" := (match m with Some x => f | None => None end) (at level 61, m at next level, right associativity).

(* :304-333: the handshake is done *)
Definition handshake_done (memory : bool) (extra_out : option Z) (i : io) : option io :=
  i <- consume extra_out i ;;
  let i := set_needed (Some 1) i in
  Some (match set_receive_buffer memory (1 + count i) i with
        | None => failed_open i
        | Some i => open_complete true (set_state TLSIO_STATE_OPEN i)
        end).
(* :346-371 *)
Definition handshake_goes_on (memory : bool) (extra_out : option Z) (i : io) : option io :=
  i <- consume extra_out i ;;
  let i := set_needed (Some 1) i in
  Some (match set_receive_buffer memory (1 + count i) i with
        | None => failed_open i
        | Some i => set_state TLSIO_STATE_HANDSHAKE_CLIENT_HELLO_SENT i
        end).
(* :457-478 *)
Definition data_done (memory : bool) (extra : option Z) (i : io) : option io :=
  i <- consume extra i ;;
  let i := set_needed (Some 1) i in
  Some (match set_receive_buffer memory (1 + count i) i with
        | None => failed i
        | Some i => i
        end).

(* the answers of one delivery of bytes: memory for the bytes; memory afterwards; Schannel *)
Record answers := { memory1 : bool; memory2 : bool; a_isc : isc; a_dec : dec }.

(* tlsio_schannel.c:242-397 *)
Definition handshake (a : answers) (i : io) : option io :=
  match a_isc a with
  | IscIncomplete missing =>
      let n := match missing with Some m => m | None => 1 end in
      let i := set_needed (Some n) i in
      Some (match resize_receive_buffer (memory2 a) (count i + n) i with
            | None => failed_open i | Some i => i
            end)
  | IscOk _ extra_out => handshake_done (memory2 a) extra_out i
  | IscContinue token _ extra_out =>
      match token with
      | [] => handshake_goes_on (memory2 a) extra_out i
      | _ => let i := set_owned (credential_handle_allocated i) (credentials i) (contexts i) (S (tokens i)) i in
             Some (push (AfterToken extra_out) (emit (XioSend token None) i))
      end
  | IscUntrusted => Some (failed_open i)
  | IscOther => Some i
  end.
(* tlsio_schannel.c:399-481 *)
Definition decrypt (a : answers) (i : io) : option io :=
  match a_dec a with
  | DecIncomplete missing =>
      let n := match missing with Some m => m | None => 1 end in
      let i := set_needed (Some n) i in
      Some (match resize_receive_buffer (memory2 a) (count i + n) i with
            | None => failed i | Some i => i
            end)
  | DecOk None _ => Some (failed i)
  | DecOk (Some data) extra =>
      match on_bytes_received i with
      | Some c => Some (push (AfterBytes extra) (emit (Bytes c data) i))
      | None => data_done (memory2 a) extra i
      end
  | DecOther => Some i
  end.
(* tlsio_schannel.c:215-485.  needed_bytes is read when it was never written only while the
   underlying io opens; the value then has no effect (it is set before it is looked at again). *)
Definition on_underlying_io_bytes_received (bytes : list N) (a : answers) (i : io) : option io :=
  let size := Z.of_nat (length bytes) in
  match resize_receive_buffer (memory1 a) (count i + size) i with
  | None => Some i
  | Some i =>
      let i := set_buf (received_bytes i ++ bytes) (buffer_size i) i in
      if buffer_size i <? count i then None       (* the memcpy is out of bounds *)
      else
        let i := set_needed (match needed_bytes i with
                             | Some n => Some (if n <? size then 0 else n - size)
                             | None => None
                             end) i in
        match tlsio_state i with
        | TLSIO_STATE_HANDSHAKE_CLIENT_HELLO_SENT =>
            match needed_bytes i with
            | Some n => if n =? 0 then handshake a i else Some i
            | None => None
            end
        | TLSIO_STATE_OPEN =>
            match needed_bytes i with
            | Some n => if n =? 0 then decrypt a i else Some i
            | None => None
            end
        | _ => Some i
        end
  end.

(* tlsio_schannel.c:114-194.  io_open_result is not looked at.  [cred]: AcquireCredentialsHandle
   succeeds; [hello]: the token of InitializeSecurityContext when it returns one of the three
   statuses, else None (with a context made or not: [ctx]) *)
Definition on_underlying_io_open_complete (ok cred : bool) (ctx : bool) (hello : option (list N)) (i : io) : io :=
  match tlsio_state i with
  | TLSIO_STATE_OPENING_UNDERLYING_IO =>
      if cred then
        let i := set_owned true (S (credentials i)) (if ctx then S (contexts i) else contexts i)
                           (match hello with Some _ => S (tokens i) | None => tokens i end) i in
        match hello with
        | Some token => push AfterHello (emit (XioSend token None) i)
        | None => i
        end
      else failed i
  | _ => failed i
  end.
(* :172-190 when xio_send returned *)
Definition after_hello (sent memory : bool) (i : io) : io :=
  if sent then
    let i := set_needed (Some 1) i in
    match resize_receive_buffer memory (1 + count i) i with
    | None => failed i
    | Some i => set_state TLSIO_STATE_HANDSHAKE_CLIENT_HELLO_SENT i
    end
  else failed i.
(* :337-371 *)
Definition after_token (sent memory : bool) (extra_out : option Z) (i : io) : option io :=
  if sent then handshake_goes_on memory extra_out i else Some (failed_open i).

(* tlsio_schannel.c:101-112 *)
Definition on_underlying_io_close_complete (i : io) : io :=
  match tlsio_state i with
  | TLSIO_STATE_CLOSING => close_complete (set_state TLSIO_STATE_NOT_OPEN i)
  | _ => i
  end.

(* tlsio_schannel.c:487-521 *)
Definition on_underlying_io_error (i : io) : io :=
  match tlsio_state i with
  | TLSIO_STATE_NOT_OPEN | TLSIO_STATE_ERROR => i
  | TLSIO_STATE_OPENING_UNDERLYING_IO | TLSIO_STATE_HANDSHAKE_CLIENT_HELLO_SENT => failed_open i
  | TLSIO_STATE_CLOSING => close_complete (set_state TLSIO_STATE_ERROR i)
  | TLSIO_STATE_OPEN => failed i
  end.

(* tlsio_schannel.c:616-657; [ret]: xio_open returns 0 *)
Definition tlsio_schannel_open (o b e : callback) (ret : bool) (i : io) : io :=
  match tlsio_state i with
  | TLSIO_STATE_NOT_OPEN => emit (OpenReturns ret) (emit XioOpen (set_state TLSIO_STATE_OPENING_UNDERLYING_IO (set_open_cbs o b e i)))
  | _ => emit (OpenReturns false) i
  end.

(* tlsio_schannel.c:659-693 *)
Definition tlsio_schannel_close (c : callback) (ret : bool) (i : io) : io :=
  match tlsio_state i with
  | TLSIO_STATE_NOT_OPEN | TLSIO_STATE_CLOSING => emit (CloseReturns false) i
  | _ => emit (CloseReturns ret) (emit XioClose (set_close_cb c (set_state TLSIO_STATE_CLOSING i)))
  end.

(* send_chunk up to xio_send (:695-759): what is sent for the chunk; None: QueryContextAttributes,
   malloc or EncryptMessage fails *)
Definition CHUNK : nat := N.to_nat 16384.
(* tlsio_schannel.c:785-816, one round of the loop; [cipher]: what EncryptMessage makes of the chunk *)
Definition send_loop (bytes : list N) (cb : callback) (cipher : list N -> option (list N)) (i : io) : io :=
  match bytes with
  | [] => emit (SendReturns true) i
  | _ =>
      match tlsio_state i with
      | TLSIO_STATE_OPEN =>
          match cipher (firstn CHUNK bytes) with
          | Some c => push (AfterChunk (skipn CHUNK bytes) cb)
                           (emit (XioSend c (if (length bytes <=? CHUNK)%nat then cb else None)) i)
          | None => emit (SendReturns false) i
          end
      | _ => emit (SendReturns false) i
      end
  end.

(* ------------------------------------------------------------------ *)
(** * Events *)

Inductive event :=
| Open (o b e : callback) (ret : bool)
| Close (c : callback) (ret : bool)
| Send (bytes : list N) (cb : callback) (cipher : list N -> option (list N))
| UOpened (ok cred ctx : bool) (hello : option (list N))
| UBytes (bytes : list N) (a : answers)
| UError
| UClosed
(* the innermost call returns: with success or not (xio_send); with memory or not *)
| Return (ok memory : bool) (cipher : list N -> option (list N)).

Definition after (f : frame) (ok memory : bool) (cipher : list N -> option (list N)) (i : io) : option io :=
  match f with
  | AfterHello => Some (after_hello ok memory i)
  | AfterToken extra => after_token ok memory extra i
  | AfterBytes extra => data_done memory extra i
  | AfterChunk rest cb => Some (if ok then send_loop rest cb cipher i else emit (SendReturns false) i)
  end.

(* Undefined: undefined behaviour; Idle: there is no call to return from *)
Inductive result := Next (i : io) | Undefined | Idle.
Definition step (e : event) (i : io) : result :=
  match e with
  | Open o b c ret => Next (tlsio_schannel_open o b c ret i)
  | Close c ret => Next (tlsio_schannel_close c ret i)
  | Send bytes cb cipher => Next (send_loop bytes cb cipher i)
  | UOpened ok cred ctx hello => Next (on_underlying_io_open_complete ok cred ctx hello i)
  | UBytes bytes a => match on_underlying_io_bytes_received bytes a i with Some i => Next i | None => Undefined end
  | UError => Next (on_underlying_io_error i)
  | UClosed => Next (on_underlying_io_close_complete i)
  | Return ok memory cipher =>
      match frames i with
      | [] => Idle
      | f :: fs => match after f ok memory cipher (set_frames fs i) with Some i => Next i | None => Undefined end
      end
  end.
Fixpoint run (es : list event) (i : io) : result :=
  match es with
  | [] => Next i
  | e :: es => match step e i with Next i => run es i | r => r end
  end.

(* tlsio_schannel.c:523-593: the io tlsio_schannel_create makes.  needed_bytes is not set. *)
Definition created : io :=
  mk TLSIO_STATE_NOT_OPEN [] 0 None None None None None false 0 0 0 [] [].

(* ------------------------------------------------------------------ *)
(** * create and destroy *)

(* what the io owns besides Schannel's handles *)
Inductive block := Instance | HostName | SocketIo | Received.
(* tlsio_schannel.c:523-593: the answers of malloc (twice), socketio_get_interface_description and
   xio_create; the config is given or NULL.  What exists afterwards, and whether a handle is returned. *)
Definition tlsio_schannel_create (config m1 m2 iface sock : bool) : bool * list block :=
  if negb config then (false, [])
  else if negb m1 then (false, [])
  else if negb m2 then (false, [])                            (* free(result) *)
  else if negb iface then (false, [])                         (* free(host_name), free(result) *)
  else if negb sock then (false, [])
  else (true, [Instance; HostName; SocketIo]).
(* The blocks of an io that was created: realloc gave a received_bytes iff its size is positive. *)
Definition blocks (i : io) : list block :=
  [Instance; HostName; SocketIo] ++ (if 0 <? buffer_size i then [Received] else []).
(* tlsio_schannel.c:595-614: what is freed, and what is left: blocks, credential handles, contexts, tokens *)
Definition freed (i : io) : list block :=
  (if 0 <? buffer_size i then [Received] else []) ++ [SocketIo; HostName; Instance].
Record left := { l_credentials : nat; l_contexts : nat; l_tokens : nat }.
Definition tlsio_schannel_destroy (i : io) : left :=
  {| l_credentials := if credential_handle_allocated i then credentials i - 1 else credentials i;
     l_contexts := contexts i; l_tokens := tokens i |}.
