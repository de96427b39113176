(* What the user of the curl adapter asks for and gets, written without the
   functions of the model that do the work. *)
From Verif Require Import Base Map_Model Map_Spec HttpHeaders_Model HttpHeaders_Spec HttpApiCurl_Model.
Local Open Scope N_scope.

(** * Init and Deinit *)

(* A history: calls of Init with the answer curl_global_init would give, and of Deinit. *)
Inductive api_call := Init (ok : bool) | Deinit.
(* Users after a history: successful Inits not yet undone; Deinit without users does nothing. *)
Fixpoint users (h : list api_call) (n : nat) : nat :=
  match h with
  | [] => n
  | Init ok :: h => users h (match n with O => if ok then 1 else 0 | S _ => S n end)%nat
  | Deinit :: h => users h (pred n)
  end.
(* libcurl is up after these calls, if it was [up] before; None: initialised twice or cleaned
   up when not up *)
Fixpoint curl_up (up : bool) (cs : list global_call) : option bool :=
  match cs with
  | [] => Some up
  | GlobalInit ok :: cs => if up then None else curl_up ok cs
  | GlobalCleanup :: cs => if up then curl_up false cs else None
  end.

(** * What goes over the wire *)

Definition method_name (t : HTTPAPI_REQUEST_TYPE) : text :=
  match t with
  | HTTPAPI_REQUEST_GET => str "GET" | HTTPAPI_REQUEST_POST => str "POST"
  | HTTPAPI_REQUEST_PUT => str "PUT" | HTTPAPI_REQUEST_DELETE => str "DELETE"
  | HTTPAPI_REQUEST_PATCH => str "PATCH" | OtherRequest => []
  end.

(* The method libcurl sends with these options. *)
Definition wire_method (e : easy) : text :=
  match o_custom e, o_req e with
  | Some m, _ => m
  | None, REQ_GET => str "GET"
  | None, REQ_POST => str "POST"
  end.
(* The body it sends; None: it would read one from somewhere else (stdin), or from the buffer
   of another request. *)
Definition wire_body (n : nat) (e : easy) : option (list N) :=
  match o_req e, o_body e with
  | REQ_GET, _ => Some []
  | REQ_POST, None => if (o_size e =? 0)%Z then Some [] else None
  | REQ_POST, Some (k, b) => if (k =? n)%nat then Some (firstn (Z.to_nat (o_size e)) b) else None
  end.
(* The header lines it sends; None: from the list of another request. *)
Definition wire_headers (n : nat) (e : easy) : option (list text) :=
  match o_headers e with
  | None => Some []
  | Some (k, l) => if (k =? n)%nat then Some l else None
  end.

Definition asked_body (r : request) : list N :=
  match r_content r with Some c => firstn (N.to_nat (r_length r)) c | None => [] end.
Definition asked_headers (r : request) : list text :=
  match r_headers r with
  | Some l => map (fun p => fst p ++ str ": " ++ snd p) l
  | None => []
  end.
Definition asked_path (r : request) : text := match r_path r with Some p => p | None => [] end.

(* Request number n was handed to libcurl as asked, with the settings of the connection; the
   method is compared apart. *)
Definition as_asked (n : nat) (url : text) (h : HTTP_HANDLE_DATA) (r : request) (e : easy) : Prop :=
  o_url e = Some (url ++ asked_path r) /\
  o_version e = true /\
  o_timeout e = timeout h /\ o_lslimit e = lowSpeedLimit h /\ o_lstime e = lowSpeedTime h /\
  o_fresh e = freshConnect h /\ o_forbid e = forbidReuse h /\ o_verbose e = verbose h /\
  wire_headers n e = Some (asked_headers r) /\
  wire_body n e = Some (asked_body r).

(** * The answer *)

(* The text cut at every CR and LF. *)
Fixpoint lines_of (s : text) : list text :=
  match s with
  | [] => [[]]
  | c :: t => if (c =? 13) || (c =? 10) then [] :: lines_of t
              else match lines_of t with l :: ls => (c :: l) :: ls | [] => [[c]] end
  end.
(* A field: "name:value", the colon being the first one. *)
Definition field (line name value : text) : Prop := line = name ++ 58 :: value /\ ~ In 58 name.
(* The fields of the lines, in order. *)
Inductive fields : list text -> list (text * text) -> Prop :=
| fields_nil : fields [] []
| fields_some line name value ls fs : field line name value -> fields ls fs ->
    fields (line :: ls) ((name, value) :: fs)
| fields_none line ls fs : ~ In 58 line -> fields ls fs -> fields (line :: ls) fs.

(* Headers [l'] are [l] after adding the fields; for each, memory is available or not;
   [oom]: it may be not *)
Inductive added (oom : Prop) : list (text * text) -> list (text * text) -> list (text * text) -> Prop :=
| added_nil l : added oom [] l l
| added_put n v fs l l' : added oom fs (put l n v true) l' -> added oom ((n, v) :: fs) l l'
| added_oom n v fs l l' : oom -> added oom fs l l' -> added oom ((n, v) :: fs) l l'.

(* The text of a header line as a C string: up to the first 0, also when that lies behind it. *)
Definition line_text (line after : list N) (s : text) : Prop :=
  exists rest, line ++ after = s ++ 0 :: rest /\ ~ In 0 s.
Inductive script_fields : list delivery -> list (text * text) -> Prop :=
| sf_nil : script_fields [] []
| sf_line line after s fs ds gs : line_text line after s -> fields (lines_of s) fs ->
    script_fields ds gs -> script_fields (HeaderLine line after :: ds) (fs ++ gs)
| sf_piece b ds gs : script_fields ds gs -> script_fields (Piece b :: ds) gs.
Definition piece (d : delivery) : list N := match d with Piece b => b | _ => [] end.
(* The body: all pieces one after the other. *)
Definition body (s : script) : list N := concat (map piece (s_deliveries s)).
(* Two pieces that are not empty: the second needs the buffer to grow. *)
Definition grows (ds : list delivery) : Prop :=
  exists a d b d' c, ds = a ++ d :: b ++ d' :: c /\ piece d <> [] /\ piece d' <> [].
(* A header line in which no 0 follows. *)
Definition unterminated (ds : list delivery) : Prop :=
  exists line after, In (HeaderLine line after) ds /\ ~ In 0 (line ++ after).

(* What the caller gets of an answer: result code, what is stored in *statusCode (None: nothing),
   and the content of the response buffer afterwards ([old] before). *)
Inductive answered (oom : Prop) (r : request) (s : script) (old : list N)
  : HTTPAPI_RESULT -> option Z -> list N -> Prop :=
| answered_failed : s_ok s = false ->                      (* the transfer failed *)
    answered oom r s old HTTPAPI_OPEN_REQUEST_FAILED None old
| answered_no_code : s_ok s = true -> s_code s = None ->   (* there is no status *)
    answered oom r s old HTTPAPI_QUERY_HEADERS_FAILED None old
| answered_read_failed code : s_ok s = true -> s_code s = Some code -> oom -> body s <> [] ->
    answered oom r s old HTTPAPI_READ_DATA_FAILED None old (* no memory to collect the body *)
| answered_empty code : s_ok s = true -> s_code s = Some code -> r_body r = false \/ body s = [] ->
    answered oom r s old HTTPAPI_OK (if r_status r then Some (code mod 2^32)%Z else None) old
| answered_body code : s_ok s = true -> s_code s = Some code -> r_body r = true -> body s <> [] ->
    answered oom r s old HTTPAPI_OK (if r_status r then Some (code mod 2^32)%Z else None) (body s)
| answered_lost code : s_ok s = true -> s_code s = Some code -> r_body r = true -> body s <> [] -> oom ->
    answered oom r s old                                   (* BUFFER_build had no memory *)
      (if (code >=? 300)%Z then HTTPAPI_INSUFFICIENT_RESPONSE_BUFFER else HTTPAPI_OK)
      (if r_status r then Some (code mod 2^32)%Z else None) old.

(* The response headers: the fields of the lines delivered are added, if the caller wants them. *)
Definition headers_of_answer (oom : Prop) (r : request) (s : script) (old new : list (text * text)) : Prop :=
  if r_response r then exists fs, script_fields (s_deliveries s) fs /\ added oom fs old new
  else new = old.

(* The request is one that can be sent. *)
Definition valid_request (r : request) : Prop :=
  r_path r <> None /\ r_headers r <> None /\ (r_content r = None -> r_length r = 0) /\
  r_type r <> OtherRequest.
Definition has_content (r : request) : bool :=
  match r_content r with Some _ => 0 <? r_length r | None => false end.
(* Nothing was sent: the request is not valid, or something could not be allocated or set. *)
Definition refused (oom : Prop) (r : request) (res : HTTPAPI_RESULT) : Prop :=
  ~ valid_request r /\ res = HTTPAPI_INVALID_ARG \/
  oom /\ In res [HTTPAPI_ERROR; HTTPAPI_SET_OPTION_FAILED; HTTPAPI_HTTP_HEADERS_FAILED; HTTPAPI_ALLOC_FAILED].
