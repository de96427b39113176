(* Model of adapters/httpapi_tirtos.c over TI's HTTPCli.

   What HTTPCli, malloc and the header and buffer modules answer is part of the script of a call.
   The request headers are the pairs of the HTTPHeaders handle (src/httpheaders.c is modelled
   separately); HTTPHeaders_GetHeader gives "name: value" in a block of its own.  HTTPCli delivers
   a response header in pieces of 1 to 128 bytes.  Blocks have a length and cells that may be
   unwritten; reading such a cell or outside is undefined. *)
From Verif Require Import Base.
Local Open Scope Z_scope.

(* httpapi.h:31-49: the position in the list is the value of the enumerator *)
Inductive HTTPAPI_RESULT :=
| HTTPAPI_OK | HTTPAPI_INVALID_ARG | HTTPAPI_ERROR | HTTPAPI_OPEN_REQUEST_FAILED | HTTPAPI_SET_OPTION_FAILED | HTTPAPI_SEND_REQUEST_FAILED
| HTTPAPI_RECEIVE_RESPONSE_FAILED | HTTPAPI_QUERY_HEADERS_FAILED | HTTPAPI_QUERY_DATA_AVAILABLE_FAILED | HTTPAPI_READ_DATA_FAILED | HTTPAPI_ALREADY_INIT
| HTTPAPI_NOT_INIT | HTTPAPI_HTTP_HEADERS_FAILED | HTTPAPI_STRING_PROCESSING_ERROR | HTTPAPI_ALLOC_FAILED | HTTPAPI_INIT_FAILED
| HTTPAPI_INSUFFICIENT_RESPONSE_BUFFER | HTTPAPI_SET_TIMEOUTS_FAILED.
Definition code (r : HTTPAPI_RESULT) : Z :=
  match r with
  | HTTPAPI_OK => 0 | HTTPAPI_INVALID_ARG => 1 | HTTPAPI_ERROR => 2 | HTTPAPI_OPEN_REQUEST_FAILED => 3 | HTTPAPI_SET_OPTION_FAILED => 4
  | HTTPAPI_SEND_REQUEST_FAILED => 5 | HTTPAPI_RECEIVE_RESPONSE_FAILED => 6 | HTTPAPI_QUERY_HEADERS_FAILED => 7 | HTTPAPI_QUERY_DATA_AVAILABLE_FAILED => 8
  | HTTPAPI_READ_DATA_FAILED => 9 | HTTPAPI_ALREADY_INIT => 10 | HTTPAPI_NOT_INIT => 11 | HTTPAPI_HTTP_HEADERS_FAILED => 12 | HTTPAPI_STRING_PROCESSING_ERROR => 13
  | HTTPAPI_ALLOC_FAILED => 14 | HTTPAPI_INIT_FAILED => 15 | HTTPAPI_INSUFFICIENT_RESPONSE_BUFFER => 16 | HTTPAPI_SET_TIMEOUTS_FAILED => 17
  end.
Inductive HTTPAPI_REQUEST_TYPE := GET | POST | PUT | DELETE | PATCH.

(* httpapi_tirtos.c:17-33; HTTPStd_* are the names; another number gives NULL (None) *)
Definition getHttpMethod (t : option HTTPAPI_REQUEST_TYPE) : option (list N) :=
  match t with
  | Some GET => Some (str "GET") | Some POST => Some (str "POST") | Some PUT => Some (str "PUT")
  | Some DELETE => Some (str "DELETE") | Some PATCH => Some (str "PATCH") | None => None
  end.

(* the C library on a block: None: undefined behaviour *)
Fixpoint c_str (b : block) : option (list N) :=
  match b with
  | Some c :: t => if (c =? 0)%N then Some [] else option_map (cons c) (c_str t)
  | _ => None
  end.
Fixpoint strchr (c : N) (b : block) : option (option nat) :=
  match b with
  | Some x :: t => if (x =? c)%N then Some (Some 0%nat) else if (x =? 0)%N then Some None else option_map (option_map S) (strchr c t)
  | _ => None
  end.
(* httpapi_tirtos.c:43-45 *)
Fixpoint skip_spaces (b : block) : option block :=
  match b with
  | Some c :: t => if (c =? 32)%N then skip_spaces t else Some b
  | _ => None
  end.
(* httpapi_tirtos.c:34-48: None: undefined; Some None: -1; else the block and where the value starts *)
Definition splitHeader (b : block) : option (option (block * block)) :=
  match strchr 58 b with
  | None => None
  | Some None => Some None
  | Some (Some i) =>
      match store b i 0 with
      | None => None
      | Some b => match skip_spaces (skipn (S i) b) with None => None | Some v => Some (Some (b, v)) end
      end
  end.

(* What is sent *)
Inductive sent :=
| SendRequest (method path : list N)
| SendField (name value : list N)
| SendEnd                                 (* the empty field *)
| SendBody (content : list N).

(* one request header: the copy can be made; HTTPCli_sendField does not fail *)
Record field_answer := mkf { f_memory : bool; f_sent : bool }.
(* httpapi_tirtos.c:137-158; the headers last first.  Result: the fields sent, and HTTPAPI_OK or the failure *)
Fixpoint send_fields (hs : list (list N * list N)) (a : list field_answer) : option (list sent * HTTPAPI_RESULT) :=
  match hs, a with
  | [], _ => Some ([], HTTPAPI_OK)
  | (n, v) :: hs, a0 :: a =>
      if f_memory a0 then
        match splitHeader (filled (n ++ str ": " ++ v ++ [0%N])) with
        | None => None
        | Some None => Some ([], HTTPAPI_SEND_REQUEST_FAILED)
        | Some (Some (nb, vb)) =>
            match c_str nb, c_str vb with
            | Some n', Some v' =>
                if f_sent a0 then option_map (fun r => (SendField n' v' :: fst r, snd r)) (send_fields hs a)
                else Some ([SendField n' v'], HTTPAPI_SEND_REQUEST_FAILED)
            | _, _ => None
            end
        end
      else Some ([], HTTPAPI_QUERY_HEADERS_FAILED)
  | _, [] => Some ([], HTTPAPI_QUERY_HEADERS_FAILED)          (* no answer: taken for a failed copy *)
  end.

(* What HTTPCli_readResponseHeader answers, with the fortunes of realloc and HTTPHeaders_AddHeaderNameValuePair *)
Inductive header_answer :=
| HFail | HEnd
| HPiece (bs : list N) (more memory added : bool).
(* hname with its block, cnt, offset, blocks lost, headers added *)
Record header_state := mkh { hname : option block; offset : nat; lost : nat; headers : list (list N * list N) }.
Inductive header_result := HDone (r : HTTPAPI_RESULT) (s : header_state) | HUndefined | HWaiting.
Definition size (h : option block) : nat := match h with Some b => length b | None => 0 end.
(* realloc to n bytes *)
Definition grown (h : option block) (n : nat) : block :=
  match h with Some b => b ++ fresh (n - length b) | None => fresh n end.
(* httpapi_tirtos.c:183-239; cnt is the size of the block *)
Fixpoint read_headers (a : list header_answer) (s : header_state) : header_result :=
  match a with
  | [] => HWaiting
  | HFail :: _ => HDone HTTPAPI_RECEIVE_RESPONSE_FAILED s
  | HEnd :: _ => HDone HTTPAPI_OK s
  | HPiece bs more memory added :: a =>
      if (length bs =? 0)%nat || (128 <? length bs)%nat then HWaiting else
      if (size (hname s) <? offset s + length bs)%nat && negb memory
      then HDone HTTPAPI_ALLOC_FAILED (mkh None (offset s) (lost s + match hname s with Some _ => 1 | None => 0 end) (headers s))   (* :197-202 *)
      else
        let b := if (size (hname s) <? offset s + length bs)%nat then grown (hname s) (offset s + length bs)
                 else match hname s with Some b => b | None => [] end in
        match store_all b (offset s) bs with                                   (* :206 *)
        | None => HUndefined
        | Some b =>
            let o := (offset s + length bs)%nat in
            if more then read_headers a (mkh (Some b) o (lost s) (headers s))
            else
              match splitHeader b with
              | None => HUndefined
              | Some None => HDone HTTPAPI_HTTP_HEADERS_FAILED (mkh (Some b) o (lost s) (headers s))
              | Some (Some (nb, vb)) =>
                  match c_str nb, c_str vb with
                  | Some n, Some v =>
                      if added then read_headers a (mkh (Some nb) 0 (lost s) (headers s ++ [(n, v)]))
                      else HDone HTTPAPI_HTTP_HEADERS_FAILED (mkh (Some nb) o (lost s) (headers s))
                  | _, _ => HUndefined
                  end
              end
        end
  end.

(* What HTTPCli_readResponseBody answers, with the fortune of BUFFER_enlarge *)
Inductive body_answer := BFail | BChunk (bs : list N) (more memory : bool).
Inductive body_result := BDone (ret : Z) (content : block) | BUndefined | BWaiting.
(* httpapi_tirtos.c:242-276; [content]: the buffer *)
Fixpoint read_body (a : list body_answer) (offset : nat) (content : block) : body_result :=
  match a with
  | [] => BWaiting
  | BFail :: _ => BDone (code HTTPAPI_RECEIVE_RESPONSE_FAILED) content
  | BChunk bs more memory :: a =>
      if (128 <? length bs)%nat then BWaiting else
      if (length bs =? 0)%nat then if more then read_body a offset content else BDone 0 content
      else if memory then
        match store_all (content ++ fresh (length bs)) offset bs with
        | None => BUndefined
        | Some c => if more then read_body a (offset + length bs) c else BDone 0 c
        end
      else BDone (code HTTPAPI_ALLOC_FAILED) content
  end.

Record request := mkr {
  r_type : option HTTPAPI_REQUEST_TYPE;
  r_path : option (list N);                       (* None: NULL *)
  r_headers : option (list (list N * list N));
  r_content : option (list N);
  r_status : bool; r_response : bool;             (* statusCode, responseHeadersHandle: not NULL *)
  r_buffer : option block }.                      (* responseContent *)
Record script := mksc {
  s_request : bool; s_fields : list field_answer; s_end : bool; s_body : bool;
  s_status : option Z;                            (* None: negative *)
  s_headers : list header_answer;
  s_chunks : list body_answer }.
(* What a call leaves: the result, what was sent, *statusCode, the response headers, the buffer, blocks lost *)
Record answer := mka { a_result : HTTPAPI_RESULT; a_sent : list sent; a_status : option Z; a_headers : list (list N * list N); a_content : option block; a_lost : nat }.
Inductive outcome := Returns (a : answer) | Undefined | Waits.

(* httpapi_tirtos.c:98-286 with a connection *)
Definition HTTPAPI_ExecuteRequest (r : request) (s : script) : outcome :=
  let fails x l := Returns (mka x l None [] (r_buffer r) 0) in
  match getHttpMethod (r_type r), r_path r with
  | Some method, Some path =>
      if negb (r_status r && r_response r) then fails HTTPAPI_INVALID_ARG []
      else match r_headers r with
      | None => fails HTTPAPI_QUERY_HEADERS_FAILED []
      | Some hs =>
          let l0 := [SendRequest method path] in
          if s_request s then
            match send_fields (rev hs) (s_fields s) with
            | None => Undefined
            | Some (l1, HTTPAPI_OK) =>
                let l2 := l0 ++ l1 ++ [SendEnd] in
                if s_end s then
                  let l3 := match r_content r with Some (c :: t) => l2 ++ [SendBody (c :: t)] | _ => l2 end in
                  if match r_content r with Some (_ :: _) => s_body s | _ => true end then
                    match s_status s with
                    | None => fails HTTPAPI_RECEIVE_RESPONSE_FAILED l3
                    | Some st =>
                        match read_headers (s_headers s) (mkh None 0 0 []) with
                        | HUndefined => Undefined
                        | HWaiting => Waits
                        | HDone HTTPAPI_OK h =>
                            match r_buffer r with
                            | None => Returns (mka HTTPAPI_OK l3 (Some st) (headers h) None (lost h))
                            | Some c =>
                                match read_body (s_chunks s) 0 c with
                                | BUndefined => Undefined
                                | BWaiting => Waits
                                | BDone ret c =>
                                    if ret <? 0                                    (* :278-282: BUFFER_unbuild *)
                                    then Returns (mka HTTPAPI_ERROR l3 (Some st) (headers h) (Some []) (lost h))
                                    else Returns (mka HTTPAPI_OK l3 (Some st) (headers h) (Some c) (lost h))
                                end
                            end
                        | HDone x h => Returns (mka x l3 (Some st) (headers h) (r_buffer r) (lost h))
                        end
                    end
                  else fails HTTPAPI_SEND_REQUEST_FAILED l3
                else fails HTTPAPI_SEND_REQUEST_FAILED l2
            | Some (l1, x) => fails x (l0 ++ l1)
            end
          else fails HTTPAPI_SEND_REQUEST_FAILED l0
      end
  | _, _ => fails HTTPAPI_INVALID_ARG []
  end.

(* httpapi_tirtos.c:59-96: the address, the client and the connection can be had; the clients there are afterwards *)
Definition HTTPAPI_CreateConnection (address create connect : bool) (clients : nat) : bool * nat :=
  if address then if create then if connect then (true, S clients) else (false, S clients - 1)%nat else (false, clients) else (false, clients).
Definition HTTPAPI_CloseConnection (handle : bool) (clients : nat) : nat := if handle then (clients - 1)%nat else clients.
