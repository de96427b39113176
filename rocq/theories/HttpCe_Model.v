(* Model of adapters/httpapi_wince.c.

   The file's readLine, readChunk and skipN (254-318) and HTTPAPI_ExecuteRequest from the request
   line on (412-680) are those of adapters/httpapi_mbed.cpp with send and recv in place of
   send_all and receive, and with more log lines; they are taken from HttpApiMbed_Model.v.  (Not
   modelled: the last log line, which prints the BUFFER_HANDLE itself as if it was text.)

   What Windows CE does is listed in the arguments: which calls succeed, what the resolver
   answers, which certificates are in which store.  As documented, SOCKET is unsigned and
   INVALID_SOCKET is all ones; every call on INVALID_SOCKET fails; send on a socket that is not
   connected fails; CertFindCertificateInStore gives the next certificate with that issuer after
   the one passed, whose context it frees; CertCompareCertificate says whether the two
   certificates are the same.  Operator new does not fail.  Sockets are numbered in the order
   socket() gave them.  What the platform was told is the trace, oldest first. *)
From Verif Require Import Base Map_Model HttpHeaders_Spec.
From Verif Require Import HttpApiMbed_Model.
Local Open Scope Z_scope.

(* ------------------------------------------------------------------ *)
(** * Certificates *)

(* the parts of a CERT_CONTEXT that matter: the issuer's name, the rest of the certificate, and
   two things the code never asks about *)
Record certificate := mkcert { c_issuer : text; c_content : text; c_host : text; c_expired : bool }.
Definition cert_eqb (a b : certificate) : bool :=
  text_eqb (c_issuer a) (c_issuer b) && text_eqb (c_content a) (c_content b) &&
  text_eqb (c_host a) (c_host b) && Bool.eqb (c_expired a) (c_expired b).

(* schnlsp.h, sslsock.h; those used *)
Inductive ssl_result := SSL_ERR_OKAY | SSL_ERR_NO_CERT | SSL_ERR_CERT_UNKNOWN | SSL_ERR_FAILED.

(* httpapi_wince.c:36-40 *)
Definition SSL_OPT_NO_CHECK := 0. Definition SSL_OPT_ISSUER_CHECK := 1. Definition SSL_OPT_STRICT_CHECK := 2.
Definition SSL_OPT_DEFAULT := SSL_OPT_STRICT_CHECK.

(* httpapi_wince.c:79-104, the do loop over one store from where it stands: whether it broke with
   SSL_ERR_OKAY, and how many certificate contexts there are then ([n] before: pPrevCertContext
   is one of them if [prev]) *)
Fixpoint search (options : Z) (passed : certificate) (store : list certificate) (prev : bool) (n : nat) : bool * nat :=
  match store with
  | [] => (false, if prev then (n - 1)%nat else n)
  | c :: rest =>
    if text_eqb (c_issuer c) (c_issuer passed) then
      let n := if prev then n else S n in
      if options =? SSL_OPT_ISSUER_CHECK then (true, n)
      else if options =? SSL_OPT_STRICT_CHECK then
        if cert_eqb c passed then (true, n) else search options passed rest true n
      else search options passed rest true n
    else search options passed rest prev n
  end.

(* httpapi_wince.c:67-109: the stores in order; None: it cannot be opened.  [opened] counts the
   stores opened and not closed. *)
Fixpoint in_stores (options : Z) (passed : certificate) (stores : list (option (list certificate))) (n opened : nat) : bool * nat * nat :=
  match stores with
  | [] => (false, n, opened)
  | None :: rest => in_stores options passed rest n opened
  | Some store :: rest =>
    let opened := S opened in
    let (found, n) := search options passed store false n in
    let opened := (opened - 1)%nat in
    if found then (true, n, opened) else in_stores options passed rest n opened
  end.

(* httpapi_wince.c:46-117: the answer, the certificate contexts and stores left.  [parsed]: what
   CertCreateCertificateContext makes of the first certificate of the chain. *)
Definition SSLValidateCertHook (options : Z) (x509 : bool) (parsed : option certificate)
    (stores : list (option (list certificate))) (n opened : nat) : ssl_result * nat * nat :=
  if negb x509 then (SSL_ERR_CERT_UNKNOWN, n, opened)
  else if options =? SSL_OPT_NO_CHECK then (SSL_ERR_OKAY, n, opened)
  else match parsed with
       | None => (SSL_ERR_FAILED, n, opened)
       | Some passed =>
         let '(found, n, opened) := in_stores options passed stores (S n) opened in
         let n := if found then (n - 1)%nat else n in
         ((if found then SSL_ERR_OKAY else SSL_ERR_NO_CERT), (n - 1)%nat, opened)
       end.

(* ------------------------------------------------------------------ *)
(** * Sockets *)

Inductive event :=
| Opened (s : nat)
| Secured (s : nat)                     (* SO_SECURE is SO_SEC_SSL *)
| Hooked (s : nat)                      (* SSLValidateCertHook will judge the certificate *)
| OnlyTls1 (s : nat)
| Connected (s : nat) (address : text) (port : N) (options : Z)   (* and g_SslOptions then *)
| Sent (s : nat) (bytes : list N)
| Closed (s : nat)
| Started                               (* WSAStartup succeeded *)
| CleanedUp.

Record state := mkst { next : nat; g_SslOptions : Z; trace : list event }.
Definition log (e : event) (st : state) : state := mkst (next st) (g_SslOptions st) (trace st ++ [e]).
Definition state0 : state := mkst 0 SSL_OPT_DEFAULT [].

(* httpapi_wince.c:24-30; _sock_fd: None is -1; whether it is connected is Windows' knowledge *)
Record handle := mkh { h_name : text; h_sock : option (nat * bool) }.

(* what happens during one HTTPAPI_ExecuteRequest *)
Record script := mkx {
  x_socket : bool; x_dns : option text; x_secure : bool; x_hook : bool; x_protocols : bool; x_connect : bool;
  x_result : HTTPAPI_RESULT;      (* what the variable result holds before anything is stored in it *)
  x_net : world }.                (* what the connection takes and gives, see HttpApiMbed_Model.v *)

(* httpapi_wince.c:120-160; 0 is true here.  On INVALID_SOCKET the first call fails. *)
Definition SSLInit (s : option nat) (options : Z) (x : script) (st : state) : bool * state :=
  let st := mkst (next st) options (trace st) in
  match s with
  | None => (false, st)
  | Some s =>
    if negb (x_secure x) then (false, st)
    else
      let st := log (Secured s) st in
      if negb (x_hook x) then (false, st)
      else
        let st := log (Hooked s) st in
        if negb (x_protocols x) then (false, st) else (true, log (OnlyTls1 s) st)
  end.

(* the %3u of httpapi_wince.c:370: what is left after the number *)
Fixpoint at_most (n : nat) (s : text) : text :=
  match n, s with
  | S n, c :: t => match dec_digit c with Some _ => at_most n t | None => s end
  | _, _ => s
  end.
Definition scan_u3 (s : text) : option text :=
  let s := skip_spaces s in
  let (width, s) := match s with c :: t => if (c =? 45)%N || (c =? 43)%N then (2%nat, t) else (3%nat, s) | [] => (3%nat, []) end in
  match s with
  | c :: _ => match dec_digit c with Some _ => Some (at_most width s) | None => None end
  | [] => None
  end.

(* httpapi_wince.c:370-372 sscanf(host, "%3u.%3u.%3u.%3u", ...): the [i]th number is stored in the
   four bytes at address[i], and address has five: None when one of them is not in address;
   otherwise how many numbers were stored *)
Fixpoint scan_address (n i : nat) (s : text) : option nat :=
  match n with
  | O => Some i
  | S n =>
    match scan_u3 s with
    | None => Some i
    | Some rest =>
      if (5 <? i + 4)%nat then None
      else match rest with
           | c :: rest => if (c =? 46)%N then scan_address n (S i) rest else Some (S i)
           | [] => Some (S i)
           end
    end
  end.

Inductive connect_result :=
| Ready | Stops (res : HTTPAPI_RESULT) | Overflows.

(* httpapi_wince.c:354-407.  "socket(...) < 0" is false for an unsigned SOCKET.  Four numbers are
   never stored (shown), so the address always comes from the resolver.  When that has none, the
   result is stored in the inner variable of that name, and the outer one is returned. *)
Definition connecting (h : handle) (x : script) (st : state) : connect_result * handle * state :=
  match h_sock h with
  | Some _ => (Ready, h, st)
  | None =>
    let (s, st) := if x_socket x then (Some (next st), log (Opened (next st)) (mkst (S (next st)) (g_SslOptions st) (trace st)))
                   else (None, st) in
    let h := mkh (h_name h) (match s with Some s => Some (s, false) | None => None end) in
    match scan_address 4 0 (h_name h) with
    | None => (Overflows, h, st)
    | Some _ =>
      match x_dns x with
      | None => (Stops (x_result x), h, st)
      | Some address =>
        let (ok, st) := SSLInit s SSL_OPT_DEFAULT x st in
        match s with
        | Some s =>
          if negb ok then (Stops HTTPAPI_ERROR, h, st)
          else if negb (x_connect x) then (Stops HTTPAPI_ERROR, mkh (h_name h) None, log (Closed s) st)
          else (Ready, mkh (h_name h) (Some (s, true)), log (Connected s address 443 (g_SslOptions st)) st)
        | None => (Stops HTTPAPI_ERROR, h, st)
        end
      end
    end
  end.

(* the world the exchange starts in: receivedContent is not set, nothing was stored or sent; on a
   socket that is not connected send answers SOCKET_ERROR *)
Definition start (up : bool) (w : world) : world :=
  set_out [] (if up then w_sends w else [-1]) (set_lens [] (set_status None (set_body (w_body w) false w))).

Inductive outcome :=
| Returns (res : HTTPAPI_RESULT) (h : option handle) (w : world) (st : state)
| Undefined (h : option handle) (st : state)
| Never.

Definition transmitted (s : nat) (up : bool) (w : world) (st : state) : state :=
  if up then log (Sent s (w_out w)) st else st.

(* httpapi_wince.c:412-680 *)
Definition exchange (m path : text) (headers : list (text * text)) (r : request) : H HTTPAPI_RESULT :=
  send_request m path headers (r_content r) (r_length r) ;; read_response r.

(* httpapi_wince.c:322-684 *)
Definition HTTPAPI_ExecuteRequest (h : option handle) (r : request) (x : script) (st : state) : outcome :=
  match h, r_path r, r_headers r, method_of (r_type r) with
  | Some d, Some path, Some headers, Some m =>
    let '(c, d, st) := connecting d x st in
    match c with
    | Overflows => Undefined (Some d) st
    | Stops res => Returns res (Some d) (start true (x_net x)) st
    | Ready =>
      match h_sock d with
      | None => Undefined (Some d) st
      | Some (s, up) =>
        match exchange m path headers r (start up (x_net x)) with
        | Ret res w => Returns res (Some d) w (transmitted s up w st)
        | Fail res w => Returns res (Some d) w (transmitted s up w st)
        | Undef w => Undefined (Some d) (transmitted s up w st)
        | NoFuel => Never
        end
      end
    end
  | _, _, _, _ => Returns HTTPAPI_INVALID_ARG h (start true (x_net x)) st
  end.

(* httpapi_wince.c:162-195; [version]: whether the version Windows offers is 2.2 *)
Definition HTTPAPI_Init (started version : bool) (st : state) : bool * state :=
  if negb started then (false, st)
  else let st := log Started st in if negb version then (false, log CleanedUp st) else (true, st).

(* httpapi_wince.c:197-200 *)
Definition HTTPAPI_Deinit (st : state) : state := log CleanedUp st.

(* httpapi_wince.c:202-230; MAX_HOSTNAME is 64, and strcpy_s wants room for the terminator *)
Definition HTTPAPI_CreateConnection (host : option text) : option handle :=
  match host with
  | None => None
  | Some t => if (64 <=? length t)%nat then None else Some (mkh t None)
  end.

(* httpapi_wince.c:232-249 *)
Definition HTTPAPI_CloseConnection (h : option handle) (st : state) : state :=
  match h with
  | Some d => match h_sock d with Some (s, _) => log (Closed s) st | None => st end
  | None => st
  end.

(* httpapi_wince.c:686-705 *)
Definition HTTPAPI_SetOption (h : option handle) (name value : option text) : HTTPAPI_RESULT := HTTPAPI_INVALID_ARG.

(* httpapi_wince.c:707-726; the second part: what is stored in *savedValue (inner None: NULL) *)
Definition HTTPAPI_CloneOption (name value : option text) (saved : bool) : HTTPAPI_RESULT * option (option text) :=
  match name, value with
  | Some _, Some _ => if saved then (HTTPAPI_INVALID_ARG, Some None) else (HTTPAPI_INVALID_ARG, None)
  | _, _ => (HTTPAPI_INVALID_ARG, None)
  end.

(* ------------------------------------------------------------------ *)
(** * Histories *)

Inductive op := Create (host : option text) | Execute (i : nat) (r : request) (x : script) | Close (i : nat).

(* the handles given out, in order; None: NULL was given, or it was closed *)
Record system := mksys { handles : list (option handle); st : state }.
Definition system0 : system := mksys [] state0.
Fixpoint put_at {A} (i : nat) (a : A) (l : list A) {struct l} : list A :=
  match l, i with [], _ => [] | _ :: t, O => a :: t | b :: t, S i => b :: put_at i a t end.

(* None: undefined behaviour; a request on a handle that is closed or NULL is one on NULL *)
Definition step (o : op) (sy : system) : option system :=
  match o with
  | Create host => Some (mksys (handles sy ++ [HTTPAPI_CreateConnection host]) (st sy))
  | Execute i r x =>
    match HTTPAPI_ExecuteRequest (nth i (handles sy) None) r x (st sy) with
    | Returns _ h _ s => Some (mksys (put_at i h (handles sy)) s)
    | _ => None
    end
  | Close i => Some (mksys (put_at i None (handles sy)) (HTTPAPI_CloseConnection (nth i (handles sy) None) (st sy)))
  end.
Fixpoint run (ops : list op) (sy : system) : option system :=
  match ops with [] => Some sy | o :: ops => match step o sy with Some sy => run ops sy | None => None end end.
