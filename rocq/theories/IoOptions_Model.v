(* Model of the options of a stack of ios: xio_setoption and the concrete setoption functions of
   src/tlsio_openssl.c, src/tlsio_wolfssl.c, src/tlsio_schannel.c and the socketio adapters.
   A stack is a list of TLS ios, the one the user holds first, each of which owns the next, and an io at the
   bottom.  OpenSSL and wolfSSL are adversaries: they may fail wherever their interfaces allow it. *)
From Verif Require Import Base Strings_Model.
Local Open Scope Z_scope.

(* a certificate *)
Definition cert := nat.
(* the const void* of an option: NULL, a C string, or a pointer to anything else *)
Inductive value := VNull | VText (s : list N) | VOther (p : nat).

(* src/tlsio_openssl.c:24-45, src/tlsio_wolfssl.c:23-43, src/tlsio_schannel.c:35-55: of the instances, the
   certificates the SSL context trusts *)
Inductive layer := OpenSsl (trusted : list cert) | Wolf (trusted : list cert) | Schannel.
(* the io below: a socket, or the application's own io, which answers each option as it likes and here notes it *)
Inductive bottom := SocketIo | Own (answer : list N -> value -> Z) (asked : list (list N * value)).
Record stack := { layers : list layer; below : bottom }.

(* what the libraries do with their objects: a BIO or an X509 is made; the store takes a reference of its own *)
Inductive use := BioNew (b : nat) | BioFree (b : nat) | X509New (x : nat) | X509UpRef (x : nat) | X509Free (x : nat).
Record world := { fresh_id : nat; uses : list use }.
Definition note (w : world) (u : list use) : world := {| fresh_id := fresh_id w; uses := uses w ++ u |}.
Definition take_id (w : world) : nat * world := (fresh_id w, {| fresh_id := S (fresh_id w); uses := uses w |}).

(* what the libraries answer in one call: SSL_CTX_get_cert_store, BIO_new_mem_buf and X509_STORE_add_cert of
   OpenSSL; whether wolfSSL_CTX_load_verify_buffer succeeds, and how many certificates it took *)
Record answers := { a_store : bool; a_bio : bool; a_add : bool; a_wolf : bool; a_loaded : nat }.

Section Libraries.
(* the certificates of a PEM text, in order, up to the first one that cannot be read *)
Variable pem : list N -> list cert.

(* src/tlsio_openssl.c:652-691 "TrustedCerts".  BIO_new_mem_buf refuses NULL and takes the length of the string;
   PEM_read_bio_X509 returns the first certificate of the text; X509_STORE_add_cert takes a reference of its own. *)
Definition openssl_trusted_certs (a : answers) (w : world) (trusted : list cert) (v : value) : option (Z * world * list cert) :=
  if negb (a_store a) then Some (659, w, trusted)
  else
    match v with
    | VOther _ => None                                             (* strlen of what is no string *)
    | VNull => Some (667, w, trusted)
    | VText t =>
        if negb (a_bio a) then Some (667, w, trusted)
        else
          let '(b, w) := take_id w in
          let w := note w [BioNew b] in
          match pem t with
          | [] => Some (674, note w [BioFree b], trusted)
          | c :: _ =>
              let '(x, w) := take_id w in
              let w := note w [X509New x] in
              if negb (a_add a) then Some (681, note w [X509Free x; BioFree b], trusted)
              else Some (0, note w [X509UpRef x; BioFree b], trusted ++ [c])
          end
    end.

(* src/tlsio_wolfssl.c:536-547 "TrustedCerts": strlen of the value (:538); the library takes some of the
   certificates of the text *)
Definition wolfssl_trusted_certs (a : answers) (trusted : list cert) (v : value) : option (Z * list cert) :=
  match v with
  | VText t => let trusted := trusted ++ firstn (a_loaded a) (pem t) in Some (if negb (a_wolf a) then (541, trusted) else (0, trusted))
  | _ => None
  end.

(* adapters/socketio_berkeley.c:529-533; socketio_win32.c:519-523 and socketio_mbed.c:419-423 return other lines *)
Definition bottom_setoption (b : bottom) (name : list N) (v : value) : Z * bottom :=
  match b with
  | SocketIo => (532, SocketIo)
  | Own f l => (f name v, Own f (l ++ [(name, v)]))
  end.

(* src/tlsio_openssl.c:639-699, src/tlsio_wolfssl.c:524-555, src/tlsio_schannel.c:827-842; each passes what it
   does not know to xio_setoption (src/xio.c:167-187) of the io it owns, which is not NULL and calls that io's
   function.  The NULL check is xio_setoption's, below. *)
Fixpoint layers_setoption (ls : list layer) (b : bottom) (name : list N) (v : value) (a : answers) (w : world) :
    option (Z * stack * world) :=
  match ls with
  | [] => let '(r, b) := bottom_setoption b name v in Some (r, {| layers := []; below := b |}, w)
  | l :: ls =>
      let pass :=
        match layers_setoption ls b name v a w with
        | Some (r, s, w) => Some (r, {| layers := l :: layers s; below := below s |}, w)
        | None => None
        end in
      match l with
      | OpenSsl t =>
          if strcmp (str "TrustedCerts") name =? 0 then
            match openssl_trusted_certs a w t v with
            | Some (r, w, t) => Some (r, {| layers := OpenSsl t :: ls; below := b |}, w)
            | None => None
            end
          else pass
      | Wolf t =>
          if strcmp (str "TrustedCerts") name =? 0 then
            match wolfssl_trusted_certs a t v with
            | Some (r, t) => Some (r, {| layers := Wolf t :: ls; below := b |}, w)
            | None => None
            end
          else pass
      | Schannel => pass
      end
  end.

(* src/xio.c:167-187: the user's call.  A NULL xio is [None]. *)
Definition xio_setoption (x : option stack) (name : option (list N)) (v : value) (a : answers) (w : world) :
    option (Z * option stack * world) :=
  match x, name with
  | Some s, Some n =>
      match layers_setoption (layers s) (below s) n v a w with
      | Some (r, s, w) => Some (r, Some s, w)
      | None => None
      end
  | _, _ => Some (174, x, w)
  end.

(* a client sets one option after the other *)
Fixpoint set_all (calls : list (option (list N) * value * answers)) (x : option stack) (w : world) : option (list Z * option stack * world) :=
  match calls with
  | [] => Some ([], x, w)
  | (n, v, a) :: calls =>
      match xio_setoption x n v a w with
      | Some (r, x, w) =>
          match set_all calls x w with Some (rs, x, w) => Some (r :: rs, x, w) | None => None end
      | None => None
      end
  end.
End Libraries.
