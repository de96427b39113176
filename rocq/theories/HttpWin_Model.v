(* Model of adapters/httpapi_winhttp.c over WinHTTP.

   What WinHTTP, malloc and the header and buffer modules answer is part of the script of a call.
   The request headers are the pairs of the HTTPHeaders handle (src/httpheaders.c is modelled
   separately); HTTPHeaders_GetHeader gives "name: value" in a block of its own, which is freed at
   once.  The code page maps byte to character one to one.  The log is left out.  Blocks have a
   length and cells that may be unwritten. *)
From Verif Require Import Base.

Inductive HTTPAPI_RESULT :=
| HTTPAPI_OK | HTTPAPI_INVALID_ARG | HTTPAPI_ERROR | HTTPAPI_OPEN_REQUEST_FAILED | HTTPAPI_SET_OPTION_FAILED | HTTPAPI_SEND_REQUEST_FAILED
| HTTPAPI_RECEIVE_RESPONSE_FAILED | HTTPAPI_QUERY_HEADERS_FAILED | HTTPAPI_QUERY_DATA_AVAILABLE_FAILED | HTTPAPI_READ_DATA_FAILED
| HTTPAPI_NOT_INIT | HTTPAPI_HTTP_HEADERS_FAILED | HTTPAPI_STRING_PROCESSING_ERROR | HTTPAPI_ALLOC_FAILED | HTTPAPI_INIT_FAILED | HTTPAPI_SET_TIMEOUTS_FAILED.
Inductive HTTPAPI_REQUEST_TYPE := GET | POST | PUT | DELETE | PATCH.

(* --- the headers of the request --- *)
(* strlen and strcat on a block; None: undefined behaviour *)
Fixpoint c_len (b : block) : option nat :=
  match b with
  | Some c :: t => if (c =? 0)%N then Some 0 else option_map S (c_len t)
  | _ => None
  end.
Definition strcat (b : block) (s : list N) : option block :=
  match c_len b with Some n => store_all b n (s ++ [0%N]) | None => None end.
Definition header_text (h : list N * list N) : list N := fst h ++ str ": " ++ snd h.
(* httpapi_winhttp.c:88-105; the answers of HTTPHeaders_GetHeader; None: one failed *)
Fixpoint measure (hs : list (list N * list N)) (a : list bool) : option nat :=
  match hs, a with
  | [], _ => Some 0
  | h :: hs, true :: a => option_map (fun n => length (header_text h) + 2 + n) (measure hs a)
  | _, _ => None
  end.
(* httpapi_winhttp.c:120-137.  None: undefined; Some None: a copy failed *)
Fixpoint fill (hs : list (list N * list N)) (a : list bool) (b : block) : option (option block) :=
  match hs, a with
  | [], _ => Some (Some b)
  | h :: hs, true :: a =>
      match strcat b (header_text h) with
      | Some b => match strcat b [13%N; 10%N] with Some b => fill hs a b | None => None end
      | None => None
      end
  | _, _ => Some None
  end.
(* httpapi_winhttp.c:74-152: None: undefined; Some None: NULL.  [memory]: malloc.  On failure the block is freed (:139-143) *)
Definition ConstructHeadersString (hs : list (list N * list N)) (first second : list bool) (memory : bool) : option (option block) :=
  match measure hs first with
  | None => Some None
  | Some toAlloc =>
      if memory then
        match store (fresh (toAlloc + 1)) 0 0 with
        | Some b => fill hs second b
        | None => None
        end
      else Some None
  end.

(* --- the session --- *)
Record api := mkapi { users : nat; session : bool; initialised : bool; opened : nat; closed : nat }.
Definition api0 : api := mkapi 0 false false 0 0.
(* httpapi_winhttp.c:154-187; [ok]: WinHttpOpen succeeds *)
Definition HTTPAPI_Init (ok : bool) (s : api) : HTTPAPI_RESULT * api :=
  if users s =? 0 then
    if ok then (HTTPAPI_OK, mkapi (users s + 1) true true (opened s + 1) (closed s))
    else (HTTPAPI_INIT_FAILED, mkapi (users s) false (initialised s) (opened s) (closed s))
  else (HTTPAPI_OK, mkapi (users s + 1) (session s) (initialised s) (opened s) (closed s)).
(* httpapi_winhttp.c:189-208 *)
Definition HTTPAPI_Deinit (s : api) : api :=
  if 0 <? users s then
    if users s - 1 =? 0 then
      if session s then mkapi (users s - 1) false false (opened s) (closed s + 1) else mkapi (users s - 1) (session s) (initialised s) (opened s) (closed s)
    else mkapi (users s - 1) (session s) (initialised s) (opened s) (closed s)
  else s.

(* --- connections --- *)
(* ConnectionHandle: None: never written; Some false: NULL *)
Record connection := mkc { c_handle : option bool; c_timeout : option N }.
(* blocks and WinHTTP handles there are *)
Record world := mkw { blocks : nat; handles : nat }.
Definition get_block w := mkw (S (blocks w)) (handles w).
Definition free_block w := mkw (blocks w - 1) (handles w).
Definition get_handle w := mkw (blocks w) (S (handles w)).
Definition close_handle w := mkw (blocks w) (handles w - 1).
(* httpapi_winhttp.c:210-274; malloc, MultiByteToWideChar, malloc, MultiByteToWideChar, WinHttpConnect *)
Definition HTTPAPI_CreateConnection (s : api) (memory size memory2 convert connect : bool) (w : world) : option connection * world :=
  if negb (initialised s) then (None, w)
  else if memory then
    let w := get_block w in
    let result := mkc None None in
    if size then
      if memory2 then
        let w := get_block w in
        let '(result, w) :=
          if convert then
            if connect then (Some (mkc (Some true) (Some 30000%N)), get_handle w)
            else (None, free_block w)
          else (None, free_block w) in
        (result, free_block w)
      else (Some result, w)                                    (* :236-239 *)
    else (Some result, w)                                      (* :229-232 *)
  else (None, w).
(* httpapi_winhttp.c:276-296.  None: undefined *)
Definition HTTPAPI_CloseConnection (s : api) (c : option connection) (w : world) : option world :=
  if negb (initialised s) then Some w
  else match c with
  | None => Some w
  | Some c =>
      match c_handle c with
      | None => None
      | Some true => Some (free_block (close_handle w))
      | Some false => Some (free_block w)
      end
  end.

(* --- a request --- *)
(* httpapi_winhttp.c:322-348 *)
Definition method (t : option HTTPAPI_REQUEST_TYPE) : option (list N) :=
  match t with
  | Some GET => Some (str "GET") | Some POST => Some (str "POST") | Some PUT => Some (str "PUT")
  | Some DELETE => Some (str "DELETE") | Some PATCH => Some (str "PATCH") | None => None
  end.
(* WinHttpSendRequest on a request that was opened with a method and a path *)
Record message := mkmsg { m_method : list N; m_path : list N; m_headers : list N; m_content : list N; m_timeout : N }.

(* WinHttpQueryDataAvailable, BUFFER_enlarge and WinHttpReadData *)
Inductive body_answer :=
| QueryFails
| Available (n : nat) (memory : bool) (read : option (list N)).
Inductive body_result := BDone (r : HTTPAPI_RESULT) (content : block) | BWaiting.
(* httpapi_winhttp.c:491-567; a read of more than there is room for does not happen (BWaiting) *)
Fixpoint read_body (a : list body_answer) (content : block) : body_result :=
  match a with
  | [] => BWaiting
  | QueryFails :: _ => BDone HTTPAPI_QUERY_DATA_AVAILABLE_FAILED content
  | Available n memory read :: a =>
      if n =? 0 then BDone HTTPAPI_OK content
      else if memory then
        let content := content ++ fresh n in
        match read with
        | None => BDone HTTPAPI_READ_DATA_FAILED content
        | Some bs =>
            if n <? length bs then BWaiting
            else match store_all content (length content - n) bs with
            | None => BWaiting
            | Some c => if length bs =? 0 then BDone HTTPAPI_READ_DATA_FAILED c else read_body a c
            end
        end
      else BDone HTTPAPI_ERROR content
  end.

(* wcstok_s with "\r\n": the tokens of a text *)
Definition delimiter (c : N) : bool := (c =? 13)%N || (c =? 10)%N.
Fixpoint tokens (cur : list N) (t : list N) : list (list N) :=
  match t with
  | [] => match cur with [] => [] | _ => [rev cur] end
  | c :: t =>
      if delimiter c then match cur with [] => tokens [] t | _ => rev cur :: tokens [] t end
      else tokens (c :: cur) t
  end.
(* strchr(':') *)
Fixpoint at_colon (t : list N) : option (list N * list N) :=
  match t with
  | [] => None
  | c :: t => if (c =? 58)%N then Some ([], t) else option_map (fun x => (c :: fst x, snd x)) (at_colon t)
  end.
(* what one token meets: WideCharToMultiByte, malloc, WideCharToMultiByte, HTTPHeaders_AddHeaderNameValuePair *)
Record token_answer := mkt { t_size : bool; t_memory : bool; t_convert : bool; t_add : bool }.
(* httpapi_winhttp.c:616-666: the headers added *)
Fixpoint add_headers (ts : list (list N)) (a : list token_answer) (w : world) (hs : list (list N * list N)) : HTTPAPI_RESULT * world * list (list N * list N) :=
  match ts, a with
  | t :: ts, x :: a =>
      if t_size x then
        if t_memory x then
          let w := get_block w in
          if t_convert x then
            match at_colon t with
            | Some (n, v) => if t_add x then add_headers ts a (free_block w) (hs ++ [(n, v)])
                             else (HTTPAPI_HTTP_HEADERS_FAILED, w, hs)                         (* :652: break *)
            | None => add_headers ts a (free_block w) hs
            end
          else add_headers ts a (free_block w) hs
        else add_headers ts a w hs
      else add_headers ts a w hs
  | _, _ => (HTTPAPI_OK, w, hs)
  end.

Record request := mkr {
  r_type : option HTTPAPI_REQUEST_TYPE;
  r_path : option (list N);
  r_headers : option (list (list N * list N));
  r_content : list N;
  r_status : bool; r_response : bool;             (* statusCode, responseHeadersHandle: not NULL *)
  r_buffer : option block }.                      (* responseContent *)
Record script := mks {
  s_first : list bool; s_second : list bool; s_text : bool;           (* ConstructHeadersString *)
  s_pathmem : bool; s_pathconv : bool; s_headmem : bool; s_headconv : bool;
  s_open : bool; s_timeouts : bool; s_security : bool; s_send : bool; s_receive : bool;
  s_status : option N; s_buffer : bool;                               (* BUFFER_new *)
  s_body : list body_answer;
  s_rawmem : bool; s_raw : option (list N); s_tokens : list token_answer }.
(* what a call leaves *)
Record answer := mka { a_result : HTTPAPI_RESULT; a_sent : list message; a_status : option N; a_headers : list (list N * list N); a_content : option block; a_world : world }.
Inductive outcome := Returns (a : answer) | Undefined | Waits.
Definition with_world (f : world -> world) (o : outcome) : outcome :=
  match o with Returns a => Returns (mka (a_result a) (a_sent a) (a_status a) (a_headers a) (a_content a) (f (a_world a))) | _ => o end.

(* httpapi_winhttp.c:587-675: the response headers *)
Definition response_headers (r : request) (s : script) (sent : list message) (st : option N) (content : option block) (w : world) : outcome :=
  if s_rawmem s then
    let w := get_block w in
    match s_raw s with
    | Some raw =>
        let '(x, w, hs) := add_headers (tokens [] raw) (s_tokens s) w [] in
        Returns (mka x sent st hs content (free_block w))
    | None => Returns (mka HTTPAPI_OK sent st [] content (free_block w))
    end
  else Returns (mka HTTPAPI_ALLOC_FAILED sent st [] content w).

(* httpapi_winhttp.c:458-675: after WinHttpReceiveResponse *)
Definition response (r : request) (s : script) (sent : list message) (w : world) : outcome :=
  match s_status s with
  | None => Returns (mka HTTPAPI_QUERY_HEADERS_FAILED sent None [] (r_buffer r) w)
  | Some code =>
      let st := if r_status r then Some code else None in
      let '(use, w) := match r_buffer r with Some b => (Some b, w) | None => if s_buffer s then (Some [], get_block w) else (None, w) end in
      match use with
      | None => Returns (mka HTTPAPI_ERROR sent st [] None w)
      | Some b =>
          match read_body (s_body s) b with
          | BWaiting => Waits
          | BDone x c =>
              let '(content, w) := match r_buffer r with Some _ => (Some c, w) | None => (None, free_block w) end in
              match x with
              | HTTPAPI_OK => if r_response r then response_headers r s sent st content w else Returns (mka HTTPAPI_OK sent st [] content w)
              | _ => Returns (mka x sent st [] content w)
              end
          end
      end
  end.

(* httpapi_winhttp.c:411-679: with an open request; (DWORD)contentLength *)
Definition send_and_receive (r : request) (s : script) (m : list N) (path text : list N) (timeout : N) (w : world) : outcome :=
  let fails x sent := Returns (mka x sent None [] (r_buffer r) w) in
  if s_timeouts s then
    if s_security s then
      let sent := [mkmsg m path text (firstn (N.to_nat (N.of_nat (length (r_content r)) mod 2 ^ 32)) (r_content r)) timeout] in
      if s_send s then
        if s_receive s then response r s sent w
        else fails HTTPAPI_RECEIVE_RESPONSE_FAILED sent
      else fails HTTPAPI_SEND_REQUEST_FAILED sent
    else fails HTTPAPI_SET_OPTION_FAILED []
  else fails HTTPAPI_SET_TIMEOUTS_FAILED [].

(* the text in the block of ConstructHeadersString *)
Fixpoint c_str (b : block) : option (list N) :=
  match b with
  | Some c :: t => if (c =? 0)%N then Some [] else option_map (cons c) (c_str t)
  | _ => None
  end.

(* httpapi_winhttp.c:298-700 *)
Definition HTTPAPI_ExecuteRequest (i : api) (handle : option connection) (r : request) (s : script) (w : world) : outcome :=
  let fails x w := Returns (mka x [] None [] (r_buffer r) w) in
  if negb (initialised i) then fails HTTPAPI_NOT_INIT w
  else match handle, r_path r, r_headers r with
  | Some c, Some path, Some hs =>
      match method (r_type r) with
      | None => fails HTTPAPI_INVALID_ARG w
      | Some m =>
          match ConstructHeadersString hs (s_first s) (s_second s) (s_text s) with
          | None => Undefined
          | Some None => fails HTTPAPI_ALLOC_FAILED w
          | Some (Some b) =>
              let w := get_block w in
              with_world free_block
                (if s_pathmem s then
                   let w := get_block w in
                   with_world free_block
                     (if s_pathconv s then
                        if s_headmem s then
                          let w := get_block w in
                          with_world free_block
                            (if s_headconv s then
                               match c_str b, c_handle c, c_timeout c with
                               | Some text, Some true, Some timeout =>
                                   if s_open s then
                                     with_world close_handle (send_and_receive r s m path text timeout (get_handle w))
                                   else fails HTTPAPI_OPEN_REQUEST_FAILED w
                               | _, _, _ => Undefined
                               end
                             else fails HTTPAPI_STRING_PROCESSING_ERROR w)
                        else fails HTTPAPI_STRING_PROCESSING_ERROR w
                      else fails HTTPAPI_STRING_PROCESSING_ERROR w)
                 else fails HTTPAPI_ALLOC_FAILED w)
          end
      end
  | _, _, _ => fails HTTPAPI_INVALID_ARG w
  end.

(* httpapi_winhttp.c:702-730; the value by convention an unsigned int; None: a NULL argument *)
Definition HTTPAPI_SetOption (handle : option connection) (name : option (list N)) (value : option N) : HTTPAPI_RESULT * option connection :=
  match handle, name, value with
  | Some c, Some n, Some v => if list_eq_dec N.eq_dec n (str "timeout") then (HTTPAPI_OK, Some (mkc (c_handle c) (Some v))) else (HTTPAPI_INVALID_ARG, handle)
  | _, _, _ => (HTTPAPI_INVALID_ARG, handle)
  end.
(* httpapi_winhttp.c:732-769: the saved value *)
Definition HTTPAPI_CloneOption (name : option (list N)) (value : option N) (saved memory : bool) : HTTPAPI_RESULT * option N :=
  match name, value, saved with
  | Some n, Some v, true =>
      if list_eq_dec N.eq_dec n (str "timeout") then if memory then (HTTPAPI_OK, Some v) else (HTTPAPI_ERROR, None) else (HTTPAPI_INVALID_ARG, None)
  | _, _, _ => (HTTPAPI_INVALID_ARG, None)
  end.
