(* Model of adapters/httpapi_curl.c.

   libcurl is modelled by what its documentation says about the options used
   here: an easy handle is a record of options ([easy]); any call of
   curl_easy_setopt may fail, and then changes nothing; curl_easy_perform is
   a script of the outside world: it hands over response header lines and
   pieces of the body, through the functions set, and then answers.  Header
   objects are lists of (name, value) pairs changed by the specification of
   HTTPHeaders_AddHeaderNameValuePair (proved about src/httpheaders.c in
   HttpHeaders_Props.v; the link is [put_is_add] in HttpApiCurl_Props.v).
   BUFFER_build replaces the content or fails and leaves it.  The request
   headers, the response headers and the response buffer are distinct
   objects.  long and size_t have 64 bits.  The log is not modelled. *)
From Verif Require Import Base Map_Model Map_Spec HttpHeaders_Model HttpHeaders_Spec.
Local Open Scope N_scope.

Inductive HTTPAPI_RESULT :=
| HTTPAPI_OK | HTTPAPI_INVALID_ARG | HTTPAPI_ERROR | HTTPAPI_OPEN_REQUEST_FAILED
| HTTPAPI_SET_OPTION_FAILED | HTTPAPI_STRING_PROCESSING_ERROR | HTTPAPI_ALLOC_FAILED
| HTTPAPI_HTTP_HEADERS_FAILED | HTTPAPI_QUERY_HEADERS_FAILED | HTTPAPI_READ_DATA_FAILED
| HTTPAPI_INSUFFICIENT_RESPONSE_BUFFER | HTTPAPI_INIT_FAILED.

(* ------------------------------------------------------------------ *)
(** * Init and Deinit *)

Inductive global_call := GlobalInit (ok : bool) | GlobalCleanup.

(* httpapi_curl.c:42-65; [n]: nUsersOfHTTPAPI; [ok]: what curl_global_init answers *)
Definition HTTPAPI_Init (n : N) (ok : bool) : list global_call * HTTPAPI_RESULT * N :=
  if n =? 0 then
    if negb ok then ([GlobalInit false], HTTPAPI_INIT_FAILED, n)
    else ([GlobalInit true], HTTPAPI_OK, n + 1)
  else ([], HTTPAPI_OK, n + 1).

(* httpapi_curl.c:67-77 *)
Definition HTTPAPI_Deinit (n : N) : list global_call * N :=
  if 0 <? n then
    let n := n - 1 in
    if n =? 0 then ([GlobalCleanup], n) else ([], n)
  else ([], n).

(* ------------------------------------------------------------------ *)
(** * libcurl *)

Inductive httpreq := REQ_GET | REQ_POST.

(* The options this file sets.  Pointers that libcurl keeps (header list,
   body, the two data pointers) carry the number of the request that set
   them: what they point to is gone when that request has returned. *)
Record easy := {
  o_verbose : Z; o_timeout : Z; o_lslimit : Z; o_lstime : Z; o_fresh : Z; o_forbid : Z;
  o_url : option text;
  o_version : bool;                       (* CURL_HTTP_VERSION_1_1 asked for *)
  o_req : httpreq;                        (* CURLOPT_HTTPGET / CURLOPT_POST *)
  o_custom : option text;                 (* CURLOPT_CUSTOMREQUEST *)
  o_headers : option (nat * list text);   (* CURLOPT_HTTPHEADER *)
  o_body : option (nat * list N);         (* CURLOPT_POSTFIELDS *)
  o_size : Z;                             (* CURLOPT_POSTFIELDSIZE *)
  o_hdata : option nat; o_hfun : bool;    (* CURLOPT_WRITEHEADER, CURLOPT_HEADERFUNCTION *)
  o_wdata : option nat; o_wfun : bool }.  (* CURLOPT_WRITEDATA, CURLOPT_WRITEFUNCTION *)

Definition set_verbose v e := {| o_verbose := v; o_timeout := o_timeout e; o_lslimit := o_lslimit e; o_lstime := o_lstime e; o_fresh := o_fresh e; o_forbid := o_forbid e; o_url := o_url e; o_version := o_version e; o_req := o_req e; o_custom := o_custom e; o_headers := o_headers e; o_body := o_body e; o_size := o_size e; o_hdata := o_hdata e; o_hfun := o_hfun e; o_wdata := o_wdata e; o_wfun := o_wfun e |}.
Definition set_timeout v e := {| o_verbose := o_verbose e; o_timeout := v; o_lslimit := o_lslimit e; o_lstime := o_lstime e; o_fresh := o_fresh e; o_forbid := o_forbid e; o_url := o_url e; o_version := o_version e; o_req := o_req e; o_custom := o_custom e; o_headers := o_headers e; o_body := o_body e; o_size := o_size e; o_hdata := o_hdata e; o_hfun := o_hfun e; o_wdata := o_wdata e; o_wfun := o_wfun e |}.
Definition set_lslimit v e := {| o_verbose := o_verbose e; o_timeout := o_timeout e; o_lslimit := v; o_lstime := o_lstime e; o_fresh := o_fresh e; o_forbid := o_forbid e; o_url := o_url e; o_version := o_version e; o_req := o_req e; o_custom := o_custom e; o_headers := o_headers e; o_body := o_body e; o_size := o_size e; o_hdata := o_hdata e; o_hfun := o_hfun e; o_wdata := o_wdata e; o_wfun := o_wfun e |}.
Definition set_lstime v e := {| o_verbose := o_verbose e; o_timeout := o_timeout e; o_lslimit := o_lslimit e; o_lstime := v; o_fresh := o_fresh e; o_forbid := o_forbid e; o_url := o_url e; o_version := o_version e; o_req := o_req e; o_custom := o_custom e; o_headers := o_headers e; o_body := o_body e; o_size := o_size e; o_hdata := o_hdata e; o_hfun := o_hfun e; o_wdata := o_wdata e; o_wfun := o_wfun e |}.
Definition set_fresh v e := {| o_verbose := o_verbose e; o_timeout := o_timeout e; o_lslimit := o_lslimit e; o_lstime := o_lstime e; o_fresh := v; o_forbid := o_forbid e; o_url := o_url e; o_version := o_version e; o_req := o_req e; o_custom := o_custom e; o_headers := o_headers e; o_body := o_body e; o_size := o_size e; o_hdata := o_hdata e; o_hfun := o_hfun e; o_wdata := o_wdata e; o_wfun := o_wfun e |}.
Definition set_forbid v e := {| o_verbose := o_verbose e; o_timeout := o_timeout e; o_lslimit := o_lslimit e; o_lstime := o_lstime e; o_fresh := o_fresh e; o_forbid := v; o_url := o_url e; o_version := o_version e; o_req := o_req e; o_custom := o_custom e; o_headers := o_headers e; o_body := o_body e; o_size := o_size e; o_hdata := o_hdata e; o_hfun := o_hfun e; o_wdata := o_wdata e; o_wfun := o_wfun e |}.
Definition set_url v e := {| o_verbose := o_verbose e; o_timeout := o_timeout e; o_lslimit := o_lslimit e; o_lstime := o_lstime e; o_fresh := o_fresh e; o_forbid := o_forbid e; o_url := Some v; o_version := o_version e; o_req := o_req e; o_custom := o_custom e; o_headers := o_headers e; o_body := o_body e; o_size := o_size e; o_hdata := o_hdata e; o_hfun := o_hfun e; o_wdata := o_wdata e; o_wfun := o_wfun e |}.
Definition set_version e := {| o_verbose := o_verbose e; o_timeout := o_timeout e; o_lslimit := o_lslimit e; o_lstime := o_lstime e; o_fresh := o_fresh e; o_forbid := o_forbid e; o_url := o_url e; o_version := true; o_req := o_req e; o_custom := o_custom e; o_headers := o_headers e; o_body := o_body e; o_size := o_size e; o_hdata := o_hdata e; o_hfun := o_hfun e; o_wdata := o_wdata e; o_wfun := o_wfun e |}.
Definition set_req v e := {| o_verbose := o_verbose e; o_timeout := o_timeout e; o_lslimit := o_lslimit e; o_lstime := o_lstime e; o_fresh := o_fresh e; o_forbid := o_forbid e; o_url := o_url e; o_version := o_version e; o_req := v; o_custom := o_custom e; o_headers := o_headers e; o_body := o_body e; o_size := o_size e; o_hdata := o_hdata e; o_hfun := o_hfun e; o_wdata := o_wdata e; o_wfun := o_wfun e |}.
Definition set_custom v e := {| o_verbose := o_verbose e; o_timeout := o_timeout e; o_lslimit := o_lslimit e; o_lstime := o_lstime e; o_fresh := o_fresh e; o_forbid := o_forbid e; o_url := o_url e; o_version := o_version e; o_req := o_req e; o_custom := v; o_headers := o_headers e; o_body := o_body e; o_size := o_size e; o_hdata := o_hdata e; o_hfun := o_hfun e; o_wdata := o_wdata e; o_wfun := o_wfun e |}.
Definition set_headers v e := {| o_verbose := o_verbose e; o_timeout := o_timeout e; o_lslimit := o_lslimit e; o_lstime := o_lstime e; o_fresh := o_fresh e; o_forbid := o_forbid e; o_url := o_url e; o_version := o_version e; o_req := o_req e; o_custom := o_custom e; o_headers := v; o_body := o_body e; o_size := o_size e; o_hdata := o_hdata e; o_hfun := o_hfun e; o_wdata := o_wdata e; o_wfun := o_wfun e |}.
(* "Using CURLOPT_POSTFIELDS implies setting CURLOPT_POST to 1." *)
Definition set_body v e := {| o_verbose := o_verbose e; o_timeout := o_timeout e; o_lslimit := o_lslimit e; o_lstime := o_lstime e; o_fresh := o_fresh e; o_forbid := o_forbid e; o_url := o_url e; o_version := o_version e; o_req := REQ_POST; o_custom := o_custom e; o_headers := o_headers e; o_body := v; o_size := o_size e; o_hdata := o_hdata e; o_hfun := o_hfun e; o_wdata := o_wdata e; o_wfun := o_wfun e |}.
Definition set_size v e := {| o_verbose := o_verbose e; o_timeout := o_timeout e; o_lslimit := o_lslimit e; o_lstime := o_lstime e; o_fresh := o_fresh e; o_forbid := o_forbid e; o_url := o_url e; o_version := o_version e; o_req := o_req e; o_custom := o_custom e; o_headers := o_headers e; o_body := o_body e; o_size := v; o_hdata := o_hdata e; o_hfun := o_hfun e; o_wdata := o_wdata e; o_wfun := o_wfun e |}.
Definition set_hdata v e := {| o_verbose := o_verbose e; o_timeout := o_timeout e; o_lslimit := o_lslimit e; o_lstime := o_lstime e; o_fresh := o_fresh e; o_forbid := o_forbid e; o_url := o_url e; o_version := o_version e; o_req := o_req e; o_custom := o_custom e; o_headers := o_headers e; o_body := o_body e; o_size := o_size e; o_hdata := v; o_hfun := o_hfun e; o_wdata := o_wdata e; o_wfun := o_wfun e |}.
Definition set_hfun v e := {| o_verbose := o_verbose e; o_timeout := o_timeout e; o_lslimit := o_lslimit e; o_lstime := o_lstime e; o_fresh := o_fresh e; o_forbid := o_forbid e; o_url := o_url e; o_version := o_version e; o_req := o_req e; o_custom := o_custom e; o_headers := o_headers e; o_body := o_body e; o_size := o_size e; o_hdata := o_hdata e; o_hfun := v; o_wdata := o_wdata e; o_wfun := o_wfun e |}.
Definition set_wdata v e := {| o_verbose := o_verbose e; o_timeout := o_timeout e; o_lslimit := o_lslimit e; o_lstime := o_lstime e; o_fresh := o_fresh e; o_forbid := o_forbid e; o_url := o_url e; o_version := o_version e; o_req := o_req e; o_custom := o_custom e; o_headers := o_headers e; o_body := o_body e; o_size := o_size e; o_hdata := o_hdata e; o_hfun := o_hfun e; o_wdata := v; o_wfun := o_wfun e |}.
Definition set_wfun v e := {| o_verbose := o_verbose e; o_timeout := o_timeout e; o_lslimit := o_lslimit e; o_lstime := o_lstime e; o_fresh := o_fresh e; o_forbid := o_forbid e; o_url := o_url e; o_version := o_version e; o_req := o_req e; o_custom := o_custom e; o_headers := o_headers e; o_body := o_body e; o_size := o_size e; o_hdata := o_hdata e; o_hfun := o_hfun e; o_wdata := o_wdata e; o_wfun := v |}.

(* What curl_easy_perform does: the header lines and body pieces the server's
   answer leads to, in order; the result code of the transfer; the answer of
   curl_easy_getinfo (None: it fails). *)
Inductive delivery :=
| HeaderLine (line after : list N)  (* the bytes, and what follows them in memory *)
| Piece (bytes : list N).
Record script := { s_deliveries : list delivery; s_ok : bool; s_code : option Z }.

(* httpapi_curl.c:33-38.  The buffer: NULL, allocated, or a pointer to freed
   memory. *)
Inductive rbuffer := Null | Held (l : list N) | Dangling.

(* The world of one connection. *)
Record world := {
  w_easy : easy;
  w_oracle : list bool;             (* answers of setopt and of allocation; used up: success *)
  w_response : list (text * text);  (* the response headers object *)
  w_content : list N;               (* the content of the response buffer object *)
  w_rbuf : rbuffer;                 (* responseContentBuffer.buffer *)
  w_error : bool;                   (* responseContentBuffer.error *)
  w_live : nat;                     (* blocks allocated and not freed *)
  w_sent : list easy }.             (* the options at each curl_easy_perform, newest first *)

Definition C (A : Type) := world -> option (A * world).   (* None: undefined behaviour *)
Definition done {A} (a : A) : C A := fun w => Some (a, w).
Definition bindC {A B} (m : C A) (f : A -> C B) : C B :=
  fun w => match m w with Some (a, w) => f a w | None => None end.
Notation "x <- m ;; f" := (bindC m (fun x => f)) (at level 61, m at next level, right associativity).
Notation "m ;; f" := (bindC m (fun _ => f)) (at level 61, right associativity).
Definition undefined {A} : C A := fun _ => None.
Definition get : C world := fun w => Some (w, w).

Definition with_easy (w : world) e := {| w_easy := e; w_oracle := w_oracle w; w_response := w_response w; w_content := w_content w; w_rbuf := w_rbuf w; w_error := w_error w; w_live := w_live w; w_sent := w_sent w |}.
Definition with_oracle (w : world) o := {| w_easy := w_easy w; w_oracle := o; w_response := w_response w; w_content := w_content w; w_rbuf := w_rbuf w; w_error := w_error w; w_live := w_live w; w_sent := w_sent w |}.
Definition with_response (w : world) r := {| w_easy := w_easy w; w_oracle := w_oracle w; w_response := r; w_content := w_content w; w_rbuf := w_rbuf w; w_error := w_error w; w_live := w_live w; w_sent := w_sent w |}.
Definition with_content (w : world) c := {| w_easy := w_easy w; w_oracle := w_oracle w; w_response := w_response w; w_content := c; w_rbuf := w_rbuf w; w_error := w_error w; w_live := w_live w; w_sent := w_sent w |}.
Definition with_rbuf (w : world) b := {| w_easy := w_easy w; w_oracle := w_oracle w; w_response := w_response w; w_content := w_content w; w_rbuf := b; w_error := w_error w; w_live := w_live w; w_sent := w_sent w |}.
Definition with_error (w : world) b := {| w_easy := w_easy w; w_oracle := w_oracle w; w_response := w_response w; w_content := w_content w; w_rbuf := w_rbuf w; w_error := b; w_live := w_live w; w_sent := w_sent w |}.
Definition with_live (w : world) n := {| w_easy := w_easy w; w_oracle := w_oracle w; w_response := w_response w; w_content := w_content w; w_rbuf := w_rbuf w; w_error := w_error w; w_live := n; w_sent := w_sent w |}.
Definition with_sent (w : world) l := {| w_easy := w_easy w; w_oracle := w_oracle w; w_response := w_response w; w_content := w_content w; w_rbuf := w_rbuf w; w_error := w_error w; w_live := w_live w; w_sent := l |}.

Definition change (f : world -> world) : C unit := fun w => Some (tt, f w).
(* one answer: of an allocation or of curl_easy_setopt *)
Definition answer : C bool := fun w =>
  match w_oracle w with
  | [] => Some (true, w)
  | b :: o => Some (b, with_oracle w o)
  end.
Definition allocated : C unit := change (fun w => with_live w (S (w_live w))).
Definition freed : C unit := fun w =>
  match w_live w with O => None | S n => Some (tt, with_live w n) end.
(* curl_easy_setopt: true = CURLE_OK *)
Definition setopt (f : easy -> easy) : C bool :=
  b <- answer ;;
  if (b : bool) then change (fun w => with_easy w (f (w_easy w))) ;; done true else done false.

(* ------------------------------------------------------------------ *)
(** * The response *)

(* HTTPHeaders_AddHeaderNameValuePair on a list of pairs; m: memory. *)
Definition put (l : list (text * text)) (n v : text) (m : bool) : list (text * text) :=
  if negb (legal_name n) then l
  else if negb m then l
  else match lookup n l with
       | None => l ++ [(n, trim v)]
       | Some old => replace_value n (old ++ str ", " ++ trim v) l
       end.

(* strtok(s, "\r\n") on the text from the current position: the next token
   and where the search will go on; None: no more tokens *)
Definition crlf (c : N) : bool := (c =? 13) || (c =? 10).
Fixpoint skip_delims (s : text) : text :=
  match s with c :: t => if crlf c then skip_delims t else s | [] => [] end.
Fixpoint take_token (s : text) : text * text :=
  match s with
  | [] => ([], [])
  | c :: t => if crlf c then ([], t) else let '(a, b) := take_token t in (c :: a, b)
  end.
Definition strtok (s : text) : option (text * text) :=
  match skip_delims s with
  | [] => None
  | s => Some (take_token s)
  end.

(* strchr(token, ':') : the text before and after the first colon *)
Fixpoint split_colon (s : text) : option (text * text) :=
  match s with
  | [] => None
  | c :: t => if c =? ch ":" then Some ([], t)
              else match split_colon t with Some (a, b) => Some (c :: a, b) | None => None end
  end.

(* httpapi_curl.c:149-165; every round takes at least one character, so the
   length of the text is enough fuel *)
Fixpoint header_tokens (fuel : nat) (s : text) : C unit :=
  match fuel with
  | O => done tt
  | S fuel =>
      match strtok s with
      | None => done tt
      | Some (token, rest) =>
          match split_colon token with
          | Some (name, value) =>                         (* :154-159 *)
              m <- answer ;;
              change (fun w => with_response w (put (w_response w) name value m))
          | None => done tt                               (* :160-163 *)
          end ;;
          header_tokens fuel rest
      end
  end.

(* httpapi_curl.c:142-169.  strtok reads up to a 0: if there is none in the
   line, it goes on with what lies behind it in memory. *)
Definition HeadersWriteFunction (line after : list N) : C unit :=
  match c_string_of (line ++ after) with
  | None => undefined
  | Some s => header_tokens (length s) s
  end.

(* httpapi_curl.c:171-197, for ptr and userdata not NULL; the sum of the
   sizes stays below 2^64 *)
Definition ContentWriteFunction (bytes : list N) : C unit :=
  if (length bytes =? 0)%nat then done tt                 (* :176 *)
  else
    w <- get ;;
    match w_rbuf w with
    | Dangling => undefined                               (* :178: realloc of freed memory *)
    | _ =>
        m <- answer ;;
        if (m : bool) then                                (* :179-184 *)
          match w_rbuf w with
          | Held l => change (fun w => with_rbuf w (Held (l ++ bytes)))
          | _ => allocated ;; change (fun w => with_rbuf w (Held bytes))
          end
        else                                              (* :185-193 *)
          change (fun w => with_error w true) ;;
          match w_rbuf w with
          | Held _ => freed ;; change (fun w => with_rbuf w Dangling)
          | _ => done tt
          end
    end.

(* one delivery during curl_easy_perform of request number n *)
Definition deliver (n : nat) (d : delivery) : C unit :=
  w <- get ;;
  match d with
  | HeaderLine line after =>
      if o_hfun (w_easy w) then
        match o_hdata (w_easy w) with
        | Some k => if (k =? n)%nat then HeadersWriteFunction line after else undefined
        | None => done tt
        end
      else done tt     (* no function: WRITEHEADER is NULL as well, nothing is written *)
  | Piece bytes =>
      match o_wfun (w_easy w), o_wdata (w_easy w) with
      | true, Some k => if (k =? n)%nat then ContentWriteFunction bytes else undefined
      | _, _ => undefined     (* the default function would write to a FILE pointer *)
      end
  end.
Fixpoint deliver_all (n : nat) (ds : list delivery) : C unit :=
  match ds with
  | [] => done tt
  | d :: ds => deliver n d ;; deliver_all n ds
  end.

(* curl_easy_perform reads what the kept pointers point to *)
Definition valid_at (n : nat) (e : easy) : bool :=
  match o_headers e with Some (k, _) => (k =? n)%nat | None => true end &&
  match o_req e, o_body e with REQ_POST, Some (k, _) => (k =? n)%nat | _, _ => true end.
Definition perform (n : nat) (s : script) : C bool :=
  w <- get ;;
  change (fun w => with_sent w (w_easy w :: w_sent w)) ;;
  if negb (valid_at n (w_easy w)) then undefined
  else deliver_all n (s_deliveries s) ;; done (s_ok s).

(* ------------------------------------------------------------------ *)
(** * Connections and requests *)

(* httpapi_curl.c:21-31; curl is [w_easy] *)
Record HTTP_HANDLE_DATA := {
  hostURL : option text;       (* None: NULL *)
  timeout : Z; lowSpeedLimit : Z; lowSpeedTime : Z; forbidReuse : Z; freshConnect : Z; verbose : Z }.

(* httpapi_curl.c:79-129.  The answers: the two mallocs and curl_easy_init.
   Result: the handle (None: NULL), and how many blocks and easy handles stay
   allocated.  strcpy_s and strcat_s cannot fail here: the block has exactly
   the right size (Crt_Props.v).  When the second malloc fails the block is
   returned with hostURL NULL and every other field, among them curl,
   indeterminate; such a handle is written [Broken]. *)
Inductive created := NoHandle | Broken | Connection (h : HTTP_HANDLE_DATA).
Definition HTTPAPI_CreateConnection (hostName : option text) (m1 m2 curl : bool) : created * nat * nat :=
  match hostName with
  | None => (NoHandle, 0%nat, 0%nat)
  | Some host =>
      if negb m1 then (NoHandle, 0%nat, 0%nat)
      else if negb m2 then (Broken, 1%nat, 0%nat)                                  (* :90-93 *)
      else if negb curl then (NoHandle, 0%nat, 0%nat)                              (* :100-105 *)
      else (Connection {| hostURL := Some (str "https://" ++ host);                (* :88-97 *)
                          timeout := 242000; lowSpeedLimit := 0; lowSpeedTime := 0;
                          forbidReuse := 0; freshConnect := 0; verbose := 0 |},    (* :108-115 *)
            2%nat, 1%nat)
  end.

(* httpapi_curl.c:131-140: blocks freed, easy handles cleaned up; None:
   undefined (curl_easy_cleanup of an indeterminate pointer) *)
Definition HTTPAPI_CloseConnection (h : created) : option (nat * nat) :=
  match h with
  | NoHandle => Some (0, 0)%nat
  | Broken => None
  | Connection _ => Some (2, 1)%nat
  end.

Inductive HTTPAPI_REQUEST_TYPE :=
  HTTPAPI_REQUEST_GET | HTTPAPI_REQUEST_POST | HTTPAPI_REQUEST_PUT
| HTTPAPI_REQUEST_DELETE | HTTPAPI_REQUEST_PATCH | OtherRequest.

Record request := {
  r_type : HTTPAPI_REQUEST_TYPE;
  r_path : option text;
  r_headers : option (list (text * text));
  r_content : option (list N); r_length : N;   (* content (None: NULL), contentLength *)
  r_status : bool;                             (* statusCode is not NULL *)
  r_response : bool;                           (* responseHeadersHandle is not NULL *)
  r_body : bool }.                             (* responseContent is not NULL *)

(* a chain of setopt calls, as in an if/else-if or || chain: stops at the
   first that fails *)
Fixpoint setopts (fs : list (easy -> easy)) : C bool :=
  match fs with
  | [] => done true
  | f :: fs => b <- setopt f ;; if (b : bool) then setopts fs else done false
  end.

(* httpapi_curl.c:286-375 *)
Definition method_options (t : HTTPAPI_REQUEST_TYPE) : option (list (easy -> easy)) :=
  match t with
  | HTTPAPI_REQUEST_GET => Some [set_req REQ_GET; set_custom None]
  | HTTPAPI_REQUEST_POST => Some [set_req REQ_POST; set_custom None]
  | HTTPAPI_REQUEST_PUT => Some [set_req REQ_POST; set_custom (Some (str "PUT"))]
  | HTTPAPI_REQUEST_DELETE => Some [set_req REQ_POST; set_custom (Some (str "DELETE"))]
  | HTTPAPI_REQUEST_PATCH => Some [set_req REQ_POST; set_custom (Some (str "PATCH"))]
  | OtherRequest => None
  end.

(* httpapi_curl.c:383-409: the list of header lines so far (newest last); the
   list is one allocation per element *)
Fixpoint header_list (l : list (text * text)) (acc : list text) : C (HTTPAPI_RESULT * list text) :=
  match l with
  | [] => done (HTTPAPI_OK, acc)
  | (n, v) :: l =>
      m <- answer ;;                                           (* :386 *)
      if negb m then done (HTTPAPI_HTTP_HEADERS_FAILED, acc)
      else
        allocated ;;
        a <- answer ;;                                         (* :395 *)
        if negb a then freed ;; done (HTTPAPI_ALLOC_FAILED, acc)    (* :396-402 *)
        else allocated ;; freed ;;                             (* :405 *)
             header_list l (acc ++ [n ++ str ": " ++ v])
  end.
(* :551 *)
Fixpoint slist_free_all (l : list text) : C unit :=
  match l with [] => done tt | _ :: l => freed ;; slist_free_all l end.

(* *statusCode = httpCode, line :511: long to unsigned int *)
Definition status_of (code : Z) : Z := (code mod 2^32)%Z.

(* httpapi_curl.c:485-545: the transfer and what follows; result code and
   what is stored in *statusCode *)
Definition transfer (n : nat) (r : request) (s : script) : C (HTTPAPI_RESULT * option Z) :=
  ok <- perform n s ;;
  res <-
    (if negb ok then done (HTTPAPI_OPEN_REQUEST_FAILED, None)             (* :486-491 *)
     else match s_code s with
          | None => done (HTTPAPI_QUERY_HEADERS_FAILED, None)             (* :497-501 *)
          | Some code =>
              w <- get ;;
              if w_error w then done (HTTPAPI_READ_DATA_FAILED, None)     (* :502-506 *)
              else
                let status := if r_status r then Some (status_of code) else None in
                result <-
                  (if r_body r then                                        (* :515-526 *)
                     match w_rbuf w with
                     | Held l =>
                         m <- answer ;;
                         if (m : bool) then change (fun w => with_content w l) ;; done HTTPAPI_OK
                         else done HTTPAPI_INSUFFICIENT_RESPONSE_BUFFER
                     | Null => done HTTPAPI_OK
                     | Dangling => undefined
                     end
                   else done HTTPAPI_OK) ;;
                if (code >=? 300)%Z then done (result, status)             (* :528-533 *)
                else done (HTTPAPI_OK, status)                             (* :536 *)
          end) ;;
  w <- get ;;
  match w_rbuf w with                                                      (* :542-545 *)
  | Null => done tt
  | Held _ => freed
  | Dangling => undefined
  end ;;
  done res.

(* httpapi_curl.c:199-559; n: the number of this request on the connection *)
Definition HTTPAPI_ExecuteRequest (n : nat) (h : created) (r : request) (s : script)
  : C (HTTPAPI_RESULT * option Z) :=
  match h, r_path r, r_headers r with
  | NoHandle, _, _ | _, None, _ | _, _, None => done (HTTPAPI_INVALID_ARG, None)   (* :209-217 *)
  | _, Some path, Some headers =>
      if (match r_content r with None => true | _ => false end) && (0 <? r_length r)
      then done (HTTPAPI_INVALID_ARG, None)                                        (* :212 *)
      else
        match h with
        | NoHandle | Broken => undefined              (* :226: strlen(NULL) *)
        | Connection hd =>
            match hostURL hd with
            | None => undefined
            | Some url =>
                m <- answer ;;                                                     (* :227 *)
                if negb m then done (HTTPAPI_ERROR, None)
                else
                  allocated ;;
                  res <-
                    (b <- setopts [set_verbose (verbose hd); set_url (url ++ path);
                             set_timeout (timeout hd); set_lslimit (lowSpeedLimit hd);
                             set_lstime (lowSpeedTime hd); set_fresh (freshConnect hd);
                             set_forbid (forbidReuse hd); set_version] ;;          (* :235-281 *)
                     if negb b then done (HTTPAPI_SET_OPTION_FAILED, None)
                     else
                       match method_options (r_type r) with
                       | None => done (HTTPAPI_INVALID_ARG, None)                  (* :288-291 *)
                       | Some fs =>
                           b <- setopts fs ;;
                           if negb b then done (HTTPAPI_SET_OPTION_FAILED, None)
                           else
                             hl <- header_list headers [] ;;                       (* :380-409 *)
                             let '(code, lines) := hl in
                             res <-
                               (match code with
                                | HTTPAPI_OK =>
                                    b <- setopt (set_headers
                                           (match lines with [] => None | _ => Some (n, lines) end)) ;; (* :413 *)
                                    if negb b then done (HTTPAPI_SET_OPTION_FAILED, None)
                                    else
                                      b <- (match r_content r with
                                            | Some c =>
                                                if 0 <? r_length r then             (* :421-430 *)
                                                  setopts [set_body (Some (n, c)); set_size (Z.of_N (r_length r))]
                                                else
                                                  match r_type r with
                                                  | HTTPAPI_REQUEST_GET => done true
                                                  | _ => setopts [set_body None; set_size 0]
                                                  end
                                            | None =>                               (* :431-446 *)
                                                match r_type r with
                                                | HTTPAPI_REQUEST_GET => done true
                                                | _ => setopts [set_body None; set_size 0]
                                                end
                                            end) ;;
                                      if negb b then done (HTTPAPI_SET_OPTION_FAILED, None)
                                      else
                                        b <- setopts [set_hdata None; set_hfun false; set_wfun true] ;; (* :450-456 *)
                                        if negb b then done (HTTPAPI_SET_OPTION_FAILED, None)
                                        else
                                          b <- (if r_response r
                                                then setopts [set_hdata (Some n); set_hfun true]  (* :459-468 *)
                                                else done true) ;;
                                          if negb b then done (HTTPAPI_SET_OPTION_FAILED, None)
                                          else
                                            change (fun w => with_error (with_rbuf w Null) false) ;; (* :472-474 *)
                                            b <- setopt (set_wdata (Some n)) ;;        (* :476-480 *)
                                            if negb b then done (HTTPAPI_SET_OPTION_FAILED, None)
                                            else transfer n r s
                                | code => done (code, None)
                                end) ;;
                             slist_free_all lines ;;                               (* :551 *)
                             done res
                       end) ;;
                  freed ;;                                                         (* :554 *)
                  done res
            end
        end
  end.

(* ------------------------------------------------------------------ *)
(** * Options *)

(* What an option value points to: an unsigned int or a long; reading one
   where the other is meant is undefined here. *)
Inductive value := VUint (u : Z) | VLong (l : Z).
Inductive option_name :=
  OTimeout | OLowSpeedLimit | OLowSpeedTime | OFreshConnect | OForbidReuse | OVerbose.
Definition option_of (s : text) : option option_name :=
  if teq (str "timeout") s then Some OTimeout
  else if teq (str "CURLOPT_LOW_SPEED_LIMIT") s then Some OLowSpeedLimit
  else if teq (str "CURLOPT_LOW_SPEED_TIME") s then Some OLowSpeedTime
  else if teq (str "CURLOPT_FRESH_CONNECT") s then Some OFreshConnect
  else if teq (str "CURLOPT_FORBID_REUSE") s then Some OForbidReuse
  else if teq (str "CURLOPT_VERBOSE") s then Some OVerbose
  else None.

(* httpapi_curl.c:561-614, for a handle and a name that are not NULL *)
Definition HTTPAPI_SetOption (h : HTTP_HANDLE_DATA) (name : text) (v : option value)
  : option (HTTPAPI_RESULT * HTTP_HANDLE_DATA) :=
  match v with
  | None => Some (HTTPAPI_INVALID_ARG, h)
  | Some v =>
      match option_of name, v with
      | None, _ => Some (HTTPAPI_INVALID_ARG, h)
      | Some OTimeout, VUint u =>
          Some (HTTPAPI_OK, {| hostURL := hostURL h; timeout := u; lowSpeedLimit := lowSpeedLimit h; lowSpeedTime := lowSpeedTime h; forbidReuse := forbidReuse h; freshConnect := freshConnect h; verbose := verbose h |})
      | Some OLowSpeedLimit, VLong l =>
          Some (HTTPAPI_OK, {| hostURL := hostURL h; timeout := timeout h; lowSpeedLimit := l; lowSpeedTime := lowSpeedTime h; forbidReuse := forbidReuse h; freshConnect := freshConnect h; verbose := verbose h |})
      | Some OLowSpeedTime, VLong l =>
          Some (HTTPAPI_OK, {| hostURL := hostURL h; timeout := timeout h; lowSpeedLimit := lowSpeedLimit h; lowSpeedTime := l; forbidReuse := forbidReuse h; freshConnect := freshConnect h; verbose := verbose h |})
      | Some OFreshConnect, VLong l =>
          Some (HTTPAPI_OK, {| hostURL := hostURL h; timeout := timeout h; lowSpeedLimit := lowSpeedLimit h; lowSpeedTime := lowSpeedTime h; forbidReuse := forbidReuse h; freshConnect := l; verbose := verbose h |})
      | Some OForbidReuse, VLong l =>
          Some (HTTPAPI_OK, {| hostURL := hostURL h; timeout := timeout h; lowSpeedLimit := lowSpeedLimit h; lowSpeedTime := lowSpeedTime h; forbidReuse := l; freshConnect := freshConnect h; verbose := verbose h |})
      | Some OVerbose, VLong l =>
          Some (HTTPAPI_OK, {| hostURL := hostURL h; timeout := timeout h; lowSpeedLimit := lowSpeedLimit h; lowSpeedTime := lowSpeedTime h; forbidReuse := forbidReuse h; freshConnect := freshConnect h; verbose := l |})
      | Some _, _ => None
      end
  end.

(* httpapi_curl.c:616-676, for a savedValue that is not NULL; m: memory *)
Definition HTTPAPI_CloneOption (name : option text) (v : option value) (m : bool)
  : option (HTTPAPI_RESULT * option value) :=
  match name, v with
  | Some name, Some v =>
      match option_of name, v with
      | None, _ => Some (HTTPAPI_INVALID_ARG, None)
      | Some OTimeout, VUint u =>
          if m then Some (HTTPAPI_OK, Some (VUint u)) else Some (HTTPAPI_ERROR, None)
      | Some OTimeout, VLong _ => None
      | Some _, VLong l =>
          if m then Some (HTTPAPI_OK, Some (VLong l)) else Some (HTTPAPI_ERROR, None)
      | Some _, VUint _ => None
      end
  | _, _ => Some (HTTPAPI_INVALID_ARG, None)
  end.
