(* Model of adapters/httpapi_mbed.cpp and adapters/wolfssl_connection.cpp.

   The functions readLine, readChunk and skipN and the part of
   HTTPAPI_ExecuteRequest after the connection is made are, up to the calls of
   recv and send in place of con->receive and con->send_all and the log, also
   those of adapters/httpapi_wince.c (lines 254-318 and 412-680).

   size_t, int and pointers have 32 bits.  The TLS library is modelled by what
   its documentation says: wolfSSL_read gives some of the bytes the peer sent
   (at least one, at most as many as asked for), 0 when the connection was
   closed, or a negative number; wolfSSL_write takes some of the bytes or
   answers a negative number; wolfSSL_CTX_free gives back one reference to the
   context and wolfSSL_new takes one; mbed's Socket::init_socket refuses when a
   socket is open, and ~Socket closes it.  What happens next is listed in the
   world: the answers of wolfSSL_read ([w_sched]), of wolfSSL_write
   ([w_sends]), of allocation ([w_alloc]) and of the other library calls
   ([w_lib]).  The request headers, the response headers and the response
   buffer are distinct objects; header objects are lists of pairs changed by
   [put] of HttpApiCurl_Model.v (shown there to be what src/httpheaders.c
   does).  scanf numbers that do not fit are clamped, as newlib's strtol and
   strtoul do.  Operator new does not fail.  The log is not modelled. *)
From Verif Require Import Base Map_Model HttpHeaders_Spec.
From Verif Require HttpApiCurl_Model.
Local Open Scope Z_scope.

Notation put := HttpApiCurl_Model.put.
Notation request := HttpApiCurl_Model.request.
Notation r_type := HttpApiCurl_Model.r_type.
Notation r_path := HttpApiCurl_Model.r_path.
Notation r_headers := HttpApiCurl_Model.r_headers.
Notation r_content := HttpApiCurl_Model.r_content.
Notation r_length := HttpApiCurl_Model.r_length.
Notation r_status := HttpApiCurl_Model.r_status.
Notation r_response := HttpApiCurl_Model.r_response.
Notation r_body := HttpApiCurl_Model.r_body.

(* inc/azure_c_shared_utility/httpapi.h:31-49; those used here *)
Inductive HTTPAPI_RESULT :=
| HTTPAPI_OK | HTTPAPI_INVALID_ARG | HTTPAPI_ERROR | HTTPAPI_SEND_REQUEST_FAILED
| HTTPAPI_RECEIVE_RESPONSE_FAILED | HTTPAPI_READ_DATA_FAILED | HTTPAPI_HTTP_HEADERS_FAILED
| HTTPAPI_STRING_PROCESSING_ERROR | HTTPAPI_ALLOC_FAILED.

(* wolfssl_connection.cpp; the members of WolfSSLConnection and of mbed's Socket, and ghosts:
   how many references to the context object are held (0: it was freed), and how many WOLFSSL
   objects exist *)
Record con := {
  c_ctx : bool;          (* sslContext is not NULL *)
  c_refs : nat;          (* ghost *)
  c_ssls : nat;          (* ghost *)
  c_open : bool;         (* _sock_fd is not -1 *)
  c_connected : bool }.  (* isConnected *)

Record world := {
  w_in : list N;                    (* what the peer sends and was not received yet *)
  w_sched : list Z;                 (* answers of wolfSSL_read; used up: 0 *)
  w_out : list N;                   (* what the TLS library accepted *)
  w_sends : list Z;                 (* answers of wolfSSL_write; used up: everything is taken *)
  w_alloc : list bool;              (* answers of allocation; used up: success *)
  w_lib : list bool;                (* answers of other library calls; used up: success *)
  w_buf : list N;                   (* the first bytes of buf[4096], as far as they were written *)
  w_c0 : N;                         (* what the uninitialised c of readLine holds *)
  w_resp : list (text * text);      (* the response headers object *)
  w_body : option (list (option N));(* the response buffer object: NULL, or the block; a byte of
                                       it that was never written is None *)
  w_ptr : bool;                     (* receivedContent was set, and is the block of w_body *)
  w_status : option Z;              (* what was stored in *statusCode *)
  w_lens : list Z;                  (* ghost: the lengths the response announced, newest first *)
  w_con : con }.

(* set by name *)
Definition set_in v w := {| w_in := v; w_sched := w_sched w; w_out := w_out w; w_sends := w_sends w; w_alloc := w_alloc w; w_lib := w_lib w; w_buf := w_buf w; w_c0 := w_c0 w; w_resp := w_resp w; w_body := w_body w; w_ptr := w_ptr w; w_status := w_status w; w_lens := w_lens w; w_con := w_con w |}.
Definition set_sched v w := {| w_in := w_in w; w_sched := v; w_out := w_out w; w_sends := w_sends w; w_alloc := w_alloc w; w_lib := w_lib w; w_buf := w_buf w; w_c0 := w_c0 w; w_resp := w_resp w; w_body := w_body w; w_ptr := w_ptr w; w_status := w_status w; w_lens := w_lens w; w_con := w_con w |}.
Definition set_out v s w := {| w_in := w_in w; w_sched := w_sched w; w_out := v; w_sends := s; w_alloc := w_alloc w; w_lib := w_lib w; w_buf := w_buf w; w_c0 := w_c0 w; w_resp := w_resp w; w_body := w_body w; w_ptr := w_ptr w; w_status := w_status w; w_lens := w_lens w; w_con := w_con w |}.
Definition set_alloc v w := {| w_in := w_in w; w_sched := w_sched w; w_out := w_out w; w_sends := w_sends w; w_alloc := v; w_lib := w_lib w; w_buf := w_buf w; w_c0 := w_c0 w; w_resp := w_resp w; w_body := w_body w; w_ptr := w_ptr w; w_status := w_status w; w_lens := w_lens w; w_con := w_con w |}.
Definition set_lib v w := {| w_in := w_in w; w_sched := w_sched w; w_out := w_out w; w_sends := w_sends w; w_alloc := w_alloc w; w_lib := v; w_buf := w_buf w; w_c0 := w_c0 w; w_resp := w_resp w; w_body := w_body w; w_ptr := w_ptr w; w_status := w_status w; w_lens := w_lens w; w_con := w_con w |}.
Definition set_buf v w := {| w_in := w_in w; w_sched := w_sched w; w_out := w_out w; w_sends := w_sends w; w_alloc := w_alloc w; w_lib := w_lib w; w_buf := v; w_c0 := w_c0 w; w_resp := w_resp w; w_body := w_body w; w_ptr := w_ptr w; w_status := w_status w; w_lens := w_lens w; w_con := w_con w |}.
Definition set_resp v w := {| w_in := w_in w; w_sched := w_sched w; w_out := w_out w; w_sends := w_sends w; w_alloc := w_alloc w; w_lib := w_lib w; w_buf := w_buf w; w_c0 := w_c0 w; w_resp := v; w_body := w_body w; w_ptr := w_ptr w; w_status := w_status w; w_lens := w_lens w; w_con := w_con w |}.
Definition set_body v p w := {| w_in := w_in w; w_sched := w_sched w; w_out := w_out w; w_sends := w_sends w; w_alloc := w_alloc w; w_lib := w_lib w; w_buf := w_buf w; w_c0 := w_c0 w; w_resp := w_resp w; w_body := v; w_ptr := p; w_status := w_status w; w_lens := w_lens w; w_con := w_con w |}.
Definition set_status v w := {| w_in := w_in w; w_sched := w_sched w; w_out := w_out w; w_sends := w_sends w; w_alloc := w_alloc w; w_lib := w_lib w; w_buf := w_buf w; w_c0 := w_c0 w; w_resp := w_resp w; w_body := w_body w; w_ptr := w_ptr w; w_status := v; w_lens := w_lens w; w_con := w_con w |}.
Definition set_lens v w := {| w_in := w_in w; w_sched := w_sched w; w_out := w_out w; w_sends := w_sends w; w_alloc := w_alloc w; w_lib := w_lib w; w_buf := w_buf w; w_c0 := w_c0 w; w_resp := w_resp w; w_body := w_body w; w_ptr := w_ptr w; w_status := w_status w; w_lens := v; w_con := w_con w |}.
Definition set_con v w := {| w_in := w_in w; w_sched := w_sched w; w_out := w_out w; w_sends := w_sends w; w_alloc := w_alloc w; w_lib := w_lib w; w_buf := w_buf w; w_c0 := w_c0 w; w_resp := w_resp w; w_body := w_body w; w_ptr := w_ptr w; w_status := w_status w; w_lens := w_lens w; w_con := v |}.

(* Outcomes: a value; "goto exit" with this result; undefined behaviour; not enough fuel for a
   loop (shown not to happen). *)
Inductive outcome (A : Type) :=
| Ret (a : A) (w : world) | Fail (res : HTTPAPI_RESULT) (w : world) | Undef (w : world) | NoFuel.
Arguments Ret {A}. Arguments Fail {A}. Arguments Undef {A}. Arguments NoFuel {A}.
Definition H (A : Type) := world -> outcome A.
Definition ret {A} (a : A) : H A := fun w => Ret a w.
Definition bind {A B} (m : H A) (f : A -> H B) : H B :=
  fun w => match m w with
           | Ret a w => f a w | Fail res w => Fail res w | Undef w => Undef w | NoFuel => NoFuel
           end.
Notation "x <- m ;; f" := (bind m (fun x => f)) (at level 61, m at next level, right associativity).
Notation "m ;; f" := (bind m (fun _ => f)) (at level 61, right associativity).
Definition fail {A} (res : HTTPAPI_RESULT) : H A := fun w => Fail res w.
Definition undef {A} : H A := fun w => Undef w.
Definition nofuel {A} : H A := fun _ => NoFuel.
Definition get : H world := fun w => Ret w w.
Definition change (f : world -> world) : H unit := fun w => Ret tt (f w).

Definition allocates : H bool :=
  fun w => match w_alloc w with [] => Ret true w | b :: bs => Ret b (set_alloc bs w) end.
Definition succeeds : H bool :=
  fun w => match w_lib w with [] => Ret true w | b :: bs => Ret b (set_lib bs w) end.

(* 32-bit arithmetic *)
Definition size32 (z : Z) : Z := z mod 4294967296.
Definition int32 (z : Z) : Z := if size32 z <? 2147483648 then size32 z else size32 z - 4294967296.

(* ------------------------------------------------------------------ *)
(** * Sending and receiving *)

(* wolfssl_connection.cpp:149-167 send, send_all (isConnected holds where it is called; a length
   above INT_MAX arrives as a negative number and is refused) *)
Definition send_all (bs : list N) : H Z := fun w =>
  if 2147483648 <=? Z.of_nat (length bs) then Ret (-1) w
  else match w_sends w with
       | [] => Ret (Z.of_nat (length bs)) (set_out (w_out w ++ bs) [] w)
       | r :: rs => if r <? 0 then Ret r (set_out (w_out w) rs w)
                    else Ret (Z.min r (Z.of_nat (length bs))) (set_out (w_out w ++ firstn (Z.to_nat r) bs) rs w)
       end.

(* wolfssl_connection.cpp:169-187 receive: what is returned, and the bytes stored at the pointer
   given.  Once 0 was answered everything that follows is 0.  A negative length is refused
   (BAD_FUNC_ARG, -173). *)
Definition receive (n : Z) : H (Z * list N) := fun w =>
  match w_sched w with
  | [] => Ret (0, []) w
  | k :: ks =>
    if n <? 0 then Ret (-173, []) (set_sched ks w)
    else if k <? 0 then Ret (k, []) (set_sched ks w)
    else let m := Z.min (Z.min k n) (Z.of_nat (length (w_in w))) in
         if m =? 0 then Ret (0, []) (set_sched [] w)
         else Ret (m, firstn (Z.to_nat m) (w_in w)) (set_in (skipn (Z.to_nat m) (w_in w)) (set_sched ks w))
  end.

(* the character variable after receive(&c, 1) *)
Definition got (bs : list N) (c : N) : N := match bs with b :: _ => b | [] => c end.

(* httpapi_mbed.cpp:98-117 (httpapi_wince.c:254-273); [room]: how many more characters fit; [line]: those
   stored.  Where -1 is returned nothing of buf is looked at any more, so the characters
   stored by then are not recorded. *)
Fixpoint line_loop (room : nat) (line : list N) (c : N) : H Z :=
  if (c =? 13)%N then
    change (fun w => set_buf (line ++ 0%N :: skipn (S (length line)) (w_buf w)) w) ;;
    p <- receive 1 ;;
    if (fst p <? 0) || negb (got (snd p) c =? 10)%N then ret (-1)
    else ret (Z.of_nat (length line))
  else match room with
       | O => ret (-1)
       | S room =>
         p <- receive 1 ;;
         if fst p <? 0 then ret (-1) else line_loop room (line ++ [c]) (got (snd p) c)
       end.
(* size is sizeof(buf) = TEMP_BUFFER_SIZE in every call *)
Definition readLine : H Z :=
  w <- get ;;
  p <- receive 1 ;;
  if fst p <? 0 then ret (-1) else line_loop (N.to_nat 4095) [] (got (snd p) (w_c0 w)).

(* Where readChunk stores: in buf, or in the block receivedContent points to, from an offset on. *)
Inductive dest := ToBuf | ToBody (base : Z).
Definition overwrite {A} (i : nat) (bs l : list A) : list A := firstn i l ++ bs ++ skipn (i + length bs) l.
(* Bytes stored at buf + offset, or at receivedContent + base + offset.  (The bytes of buf below
   the offset were written before: an offset that is not beyond the block is one up to which
   bytes were received.) *)
Definition store (d : dest) (offset : Z) (bs : list N) : H unit := fun w =>
  match bs with
  | [] => Ret tt w
  | _ =>
    match d with
    | ToBuf => if offset + Z.of_nat (length bs) <=? 4096
               then Ret tt (set_buf (overwrite (Z.to_nat offset) bs (w_buf w)) w)
               else Undef w
    | ToBody base =>
      match w_body w with
      | Some block => let i := size32 (base + offset) in
                      if i + Z.of_nat (length bs) <=? Z.of_nat (length block)
                      then Ret tt (set_body (Some (overwrite (Z.to_nat i) (map Some bs) block)) (w_ptr w) w)
                      else Undef w
      | None => Undef w
      end
    end
  end.

(* httpapi_mbed.cpp:119-141 (httpapi_wince.c:275-297): size, cur and offset are size_t *)
Fixpoint chunk_loop (fuel : nat) (d : dest) (size offset : Z) : H Z :=
  match fuel with
  | O => nofuel
  | S fuel =>
    if size =? 0 then ret (int32 offset)
    else
      p <- receive (int32 size) ;;
      store d offset (snd p) ;;
      let cur := size32 (fst p) in
      if cur =? 0 then ret (int32 offset)
      else chunk_loop fuel d (size32 (size - cur)) (size32 (offset + cur))
  end.
Definition readChunk (d : dest) (size : Z) : H Z :=
  fun w => chunk_loop (S (length (w_sched w))) d size 0 w.

(* httpapi_mbed.cpp:143-160 (httpapi_wince.c:299-316) *)
Fixpoint skip_loop (fuel : nat) (org n : Z) : H Z :=
  match fuel with
  | O => nofuel
  | S fuel =>
    if 4096 <? n then
      r <- readChunk ToBuf 4096 ;;
      if r <? 0 then ret (-1) else skip_loop fuel org (n - 4096)
    else
      r <- readChunk ToBuf n ;;
      if r <? 0 then ret (-1) else ret (int32 org)
  end.
Definition skipN (n : Z) : H Z := skip_loop (S (Z.to_nat (n / 4096))) n n.

(* ------------------------------------------------------------------ *)
(** * sscanf and string functions *)

Definition isspace (c : N) : bool := ((9 <=? c) && (c <=? 13) || (c =? 32))%N.
Fixpoint skip_spaces (s : text) : text :=
  match s with c :: t => if isspace c then skip_spaces t else s | [] => [] end.
Definition dec_digit (c : N) : option Z := if ((48 <=? c) && (c <=? 57))%N then Some (Z.of_N c - 48) else None.
Definition hex_digit (c : N) : option Z :=
  if ((48 <=? c) && (c <=? 57))%N then Some (Z.of_N c - 48)
  else if ((97 <=? c) && (c <=? 102))%N then Some (Z.of_N c - 87)
  else if ((65 <=? c) && (c <=? 70))%N then Some (Z.of_N c - 55)
  else None.
(* the digits at the beginning, read with this base, going on from [acc]; and the rest *)
Fixpoint digits (digit : N -> option Z) (base : Z) (acc : Z) (s : text) : Z * text :=
  match s with
  | c :: t => match digit c with Some d => digits digit base (acc * base + d) t | None => (acc, s) end
  | [] => (acc, [])
  end.
Definition some_digits (digit : N -> option Z) (base : Z) (s : text) : option (Z * text) :=
  match s with
  | c :: t => match digit c with Some d => Some (digits digit base d t) | None => None end
  | [] => None
  end.
(* a sign: true for '-' *)
Definition sign (s : text) : bool * text :=
  match s with c :: t => if (c =? 45)%N then (true, t) else if (c =? 43)%N then (false, t) else (false, s) | [] => (false, []) end.
(* %d *)
Definition scan_d (s : text) : option (Z * text) :=
  let '(neg, t) := sign (skip_spaces s) in
  match some_digits dec_digit 10 t with
  | Some (v, rest) => Some (Z.max (-2147483648) (Z.min 2147483647 (if neg then - v else v)), rest)
  | None => None
  end.
(* 0x before hexadecimal digits *)
Definition skip_0x (s : text) : text :=
  match s with
  | z :: x :: c :: t => if ((z =? 48) && ((x =? 120) || (x =? 88)))%N
                        then match hex_digit c with Some _ => c :: t | None => s end
                        else s
  | _ => s
  end.
(* %x: the value as unsigned int *)
Definition scan_x (s : text) : option Z :=
  let '(neg, t) := sign (skip_spaces s) in
  match some_digits hex_digit 16 (skip_0x t) with
  | Some (v, _) => let v := Z.min v 4294967295 in Some (if neg then size32 (- v) else v)
  | None => None
  end.
Fixpoint literal (p s : text) : option text :=
  match p with
  | [] => Some s
  | c :: p => match s with d :: s => if (c =? d)%N then literal p s else None | [] => None end
  end.
(* sscanf(buf, "HTTP/%*d.%*d %d %*[^\r\n]", &ret) == 1 *)
Definition scan_status (s : text) : option Z :=
  match literal (str "HTTP/") s with
  | Some s =>
    match scan_d s with
    | Some (_, s) =>
      match literal (str ".") s with
      | Some s =>
        match scan_d s with
        | Some (_, s) => match scan_d (skip_spaces s) with Some (v, _) => Some v | None => None end
        | None => None
        end
      | None => None
      end
    | None => None
    end
  | None => None
  end.
Definition lower (c : N) : N := if ((65 <=? c) && (c <=? 90))%N then (c + 32)%N else c.
Fixpoint text_eqb (a b : text) : bool :=
  match a, b with
  | [], [] => true
  | x :: a, y :: b => (x =? y)%N && text_eqb a b
  | _, _ => false
  end.
(* strncasecmp(s, p, strlen(p)) == 0 for a lower case p *)
Definition prefix_ci (p s : text) : bool := text_eqb (map lower (firstn (length p) s)) p.
(* strchr(s, ':') *)
Fixpoint colon (s : text) : option (text * text) :=
  match s with
  | [] => None
  | c :: t => if (c =? 58)%N then Some ([], t)
              else match colon t with Some (n, v) => Some (c :: n, v) | None => None end
  end.

(* buf as a C string *)
Definition buf_text : H text := fun w => match c_string_of (w_buf w) with Some s => Ret s w | None => Undef w end.

(* ------------------------------------------------------------------ *)
(** * The connection: wolfssl_connection.cpp *)

Definition new_con := {| c_ctx := false; c_refs := 0; c_ssls := 0; c_open := false; c_connected := false |}.
Definition con_refs n c := {| c_ctx := c_ctx c; c_refs := n; c_ssls := c_ssls c; c_open := c_open c; c_connected := c_connected c |}.
Definition con_open b c := {| c_ctx := c_ctx c; c_refs := c_refs c; c_ssls := c_ssls c; c_open := b; c_connected := c_connected c |}.
Definition con_connected b c := {| c_ctx := c_ctx c; c_refs := c_refs c; c_ssls := c_ssls c; c_open := c_open c; c_connected := b |}.
Definition con_ctx b n c := {| c_ctx := b; c_refs := n; c_ssls := c_ssls c; c_open := c_open c; c_connected := c_connected c |}.
Definition con_ssl n c := {| c_ctx := c_ctx c; c_refs := S (c_refs c); c_ssls := n; c_open := c_open c; c_connected := c_connected c |}.
Definition on_con (f : con -> con) : H unit := change (fun w => set_con (f (w_con w)) w).

(* wolfSSL_CTX_free *)
Definition ctx_free : H unit := fun w =>
  match c_refs (w_con w) with O => Undef w | S n => Ret tt (set_con (con_refs n (w_con w)) w) end.

(* wolfssl_connection.cpp:14-30 *)
Definition con_construct : H unit :=
  on_con (fun _ => new_con) ;;
  m <- succeeds ;;
  if (m : bool) then c <- succeeds ;; if (c : bool) then on_con (con_ctx true 1) else ret tt else ret tt.

(* wolfssl_connection.cpp:32-41, and ~Socket *)
Definition con_destruct : H unit :=
  w <- get ;;
  (if c_ctx (w_con w) then ctx_free ;; on_con (fun c => con_ctx false (c_refs c) c) else ret tt) ;;
  on_con (con_open false).

(* wolfssl_connection.cpp:189-207 *)
Definition con_close : H unit :=
  w <- get ;;
  if negb (c_connected (w_con w)) then ret tt
  else on_con (con_connected false) ;; ctx_free ;; on_con (con_open false).

(* wolfssl_connection.cpp:84-142; true: connected *)
Definition con_connect : H bool :=
  w <- get ;;
  if negb (c_ctx (w_con w)) then ret false
  else if c_open (w_con w) then ret false                 (* init_socket: already open *)
  else s <- succeeds ;; if negb s then ret false          (* init_socket *)
  else on_con (con_open true) ;;
       a <- succeeds ;; if negb a then ret false          (* set_address *)
  else k <- succeeds ;; if negb k then con_close ;; ret false  (* lwip_connect *)
  else n <- succeeds ;; if negb n then ret false          (* wolfSSL_new *)
  else (* one more reference to the context; the old value of ssl is lost *)
       on_con (fun c => con_ssl (S (c_ssls c)) c) ;;
       h <- succeeds ;; if negb h then ret false          (* wolfSSL_connect *)
  else on_con (con_connected true) ;; ret true.

(* wolfssl_connection.cpp:209-224 *)
Definition con_load_certificate : H bool :=
  w <- get ;; if negb (c_ctx (w_con w)) then ret false else succeeds.

(* ------------------------------------------------------------------ *)
(** * HTTPAPI_ExecuteRequest *)

(* httpapi_mbed.cpp:27-33 *)
Record HTTP_HANDLE_DATA := { h_host : text; h_certificate : option text }.

Definition sending (bs : list N) : H unit :=
  r <- send_all bs ;; if r <? 0 then fail HTTPAPI_SEND_REQUEST_FAILED else ret tt.

(* httpapi_mbed.cpp:180-185 *)
Definition method_of (t : HttpApiCurl_Model.HTTPAPI_REQUEST_TYPE) : option text :=
  match t with
  | HttpApiCurl_Model.HTTPAPI_REQUEST_GET => Some (str "GET")
  | HttpApiCurl_Model.HTTPAPI_REQUEST_POST => Some (str "POST")
  | HttpApiCurl_Model.HTTPAPI_REQUEST_PUT => Some (str "PUT")
  | HttpApiCurl_Model.HTTPAPI_REQUEST_DELETE => Some (str "DELETE")
  | HttpApiCurl_Model.HTTPAPI_REQUEST_PATCH => Some (str "PATCH")
  | HttpApiCurl_Model.OtherRequest => None
  end.

(* httpapi_mbed.cpp:237-261; HTTPHeaders_GetHeader makes "name: value" or has no memory *)
Fixpoint send_headers (l : list (text * text)) : H unit :=
  match l with
  | [] => ret tt
  | (n, v) :: l =>
    m <- allocates ;;
    if negb m then fail HTTPAPI_HTTP_HEADERS_FAILED
    else sending (n ++ str ": " ++ v) ;; sending [13; 10]%N ;; send_headers l
  end.

(* httpapi_mbed.cpp:201-218 *)
Definition connecting (h : HTTP_HANDLE_DATA) : H unit :=
  w <- get ;;
  if c_connected (w_con w) then ret tt
  else
    l <- match h_certificate h with Some _ => con_load_certificate | None => ret true end ;;
    if negb l then fail HTTPAPI_ERROR
    else c <- con_connect ;; if negb c then fail HTTPAPI_ERROR else ret tt.

(* httpapi_mbed.cpp:221-281 *)
Definition send_request (method path : text) (headers : list (text * text)) (content : option (list N)) (len : N) : H unit :=
  let line := method ++ str " " ++ path ++ str " HTTP/1.1" ++ [13; 10]%N in
  if 4096 <=? Z.of_nat (length line) then fail HTTPAPI_STRING_PROCESSING_ERROR
  else
    change (fun w => set_buf (line ++ [0%N]) w) ;;
    sending line ;;
    send_headers headers ;;
    sending [13; 10]%N ;;
    match content with
    | Some bs => if (0 <? len)%N then sending (firstn (N.to_nat len) bs) else ret tt
    | None => ret tt
    end.

(* readLine(...) < 0: goto exit *)
Definition a_line : H unit :=
  r <- readLine ;; if r <? 0 then fail HTTPAPI_READ_DATA_FAILED else ret tt.

(* httpapi_mbed.cpp:284-301; ret is int, *statusCode unsigned *)
Definition read_status (r : request) : H unit :=
  a_line ;;
  s <- buf_text ;;
  match scan_status s with
  | None => fail HTTPAPI_READ_DATA_FAILED
  | Some v => if r_status r then change (set_status (Some (size32 v))) else ret tt
  end.

(* httpapi_mbed.cpp:314-336: bodyLength and chunked after the line s *)
Definition framing (s : text) (len : Z) (chunked : bool) : H (Z * bool) :=
  if prefix_ci (str "content-length:") s then
    match scan_d (skip_spaces (skipn 15 s)) with
    | None => fail HTTPAPI_READ_DATA_FAILED
    | Some (v, _) => change (fun w => set_lens (size32 v :: w_lens w) w) ;; ret (size32 v, chunked)
    end
  else if prefix_ci (str "transfer-encoding:") s then
    if text_eqb (map lower (skip_spaces (skipn 18 s))) (str "chunked") then ret (len, true) else ret (len, chunked)
  else ret (len, chunked).

(* httpapi_mbed.cpp:338-343; the colon in buf is overwritten *)
Definition add_header (r : request) (s : text) : H unit :=
  match colon s with
  | Some (n, v) =>
    if r_response r then
      m <- allocates ;;
      change (fun w => set_resp (put (w_resp w) n v m) (set_buf (overwrite (length n) [0%N] (w_buf w)) w))
    else ret tt
  | None => ret tt
  end.

(* httpapi_mbed.cpp:311-351 *)
Fixpoint headers_loop (fuel : nat) (r : request) (len : Z) (chunked : bool) : H (Z * bool) :=
  match fuel with
  | O => nofuel
  | S fuel =>
    s <- buf_text ;;
    match s with
    | [] => ret (len, chunked)
    | _ :: _ =>
      f <- framing s len chunked ;;
      add_header r s ;;
      a_line ;;
      headers_loop fuel r (fst f) (snd f)
    end
  end.
Definition read_headers (r : request) : H (Z * bool) :=
  a_line ;;
  w <- get ;; headers_loop (S (length (w_in w))) r 0 false.

(* src/buffer.c:151-187, 189-205 on the response buffer; true: both succeeded.  receivedContent
   is set only then. *)
Definition pre_build (n : Z) : H bool :=
  w <- get ;;
  match w_body w with
  | Some _ => ret false
  | None =>
    if n =? 0 then ret false
    else m <- allocates ;;
         if (m : bool) then change (set_body (Some (repeat None (Z.to_nat n))) true) ;; ret true else ret false
  end.
(* src/buffer.c:237-267, 189-205.  When size + enlargeSize is 0 modulo 2^32 the old block is
   freed by realloc and freed again by BUFFER_unbuild.  On failure BUFFER_unbuild frees the
   block. *)
Definition enlarge (n : Z) : H bool :=
  w <- get ;;
  let old := match w_body w with Some l => l | None => [] end in
  let size := size32 (Z.of_nat (length old) + n) in
  if size =? 0 then undef
  else m <- allocates ;;
       if (m : bool) then change (set_body (Some (firstn (Z.to_nat size) (old ++ repeat None (Z.to_nat n)))) true) ;; ret true
       else change (set_body None false) ;; ret false.
(* receivedContent is read *)
Definition use_ptr : H unit := w <- get ;; if w_ptr w then ret tt else undef.

(* httpapi_mbed.cpp:355-397 *)
Definition read_sized_body (r : request) (len : Z) : H HTTPAPI_RESULT :=
  if len =? 0 then ret HTTPAPI_OK
  else if r_body r then
    b <- pre_build len ;;                    (* HTTPAPI_ALLOC_FAILED is overwritten below *)
    use_ptr ;;
    n <- readChunk (ToBody 0) len ;;
    if n <? 0 then fail HTTPAPI_READ_DATA_FAILED else ret HTTPAPI_OK
  else skipN len ;; ret HTTPAPI_OK.

(* buf[0] != '\r' || buf[1] != '\n', after readChunk(con, buf, 2) < 0 *)
Definition crlf_missing : H bool :=
  n <- readChunk ToBuf 2 ;;
  if n <? 0 then ret true
  else w <- get ;;
       match w_buf w with
       | a :: b :: _ => ret (negb ((a =? 13) && (b =? 10))%N)
       | _ => undef
       end.

(* httpapi_mbed.cpp:401-468; [result]: the variable *)
Fixpoint chunks_loop (fuel : nat) (r : request) (size : Z) (result : HTTPAPI_RESULT) : H HTTPAPI_RESULT :=
  match fuel with
  | O => nofuel
  | S fuel =>
    a_line ;;
    s <- buf_text ;;
    match scan_x s with
    | None => fail HTTPAPI_RECEIVE_RESPONSE_FAILED
    | Some n =>
      change (fun w => set_lens (n :: w_lens w) w) ;;
      if n =? 0 then
        e <- crlf_missing ;;
        if (e : bool) then (if r_body r then change (set_body None false) else ret tt) ;; fail HTTPAPI_READ_DATA_FAILED
        else ret result
      else
        result <- (if r_body r then
                     b <- enlarge n ;;
                     use_ptr ;;
                     k <- readChunk (ToBody size) n ;;
                     if k <? 0 then fail HTTPAPI_READ_DATA_FAILED
                     else ret (if (b : bool) then result else HTTPAPI_ALLOC_FAILED)
                   else
                     k <- skipN n ;;
                     if k <? 0 then fail HTTPAPI_READ_DATA_FAILED else ret result) ;;
        e <- crlf_missing ;;
        if (e : bool) then fail HTTPAPI_READ_DATA_FAILED
        else chunks_loop fuel r (size32 (size + n)) result
    end
  end.
Definition read_chunked_body (r : request) : H HTTPAPI_RESULT :=
  w <- get ;; chunks_loop (S (length (w_in w))) r 0 HTTPAPI_OK.

(* httpapi_mbed.cpp:284-470 *)
Definition read_response (r : request) : H HTTPAPI_RESULT :=
  read_status r ;;
  f <- read_headers r ;;
  if snd f then read_chunked_body r else read_sized_body r (fst f).

(* httpapi_mbed.cpp:164-474; receivedContent is not initialised *)
Definition execute (h : option HTTP_HANDLE_DATA) (r : request) : H HTTPAPI_RESULT :=
  change (fun w => set_lens [] (set_status None (set_body (w_body w) false w))) ;;
  match h, r_path r, r_headers r, method_of (r_type r) with
  | Some h, Some path, Some headers, Some method =>
    connecting h ;;
    send_request method path headers (r_content r) (r_length r) ;;
    read_response r
  | _, _, _, _ => fail HTTPAPI_INVALID_ARG
  end.

(* What the caller of HTTPAPI_ExecuteRequest sees: a result and what changed, or undefined
   behaviour, or that it does not return. *)
Inductive seen := Returns (res : HTTPAPI_RESULT) (w : world) | Undefined (w : world) | Never.
Definition HTTPAPI_ExecuteRequest (h : option HTTP_HANDLE_DATA) (r : request) (w : world) : seen :=
  match execute h r w with
  | Ret res w => Returns res w | Fail res w => Returns res w | Undef w => Undefined w | NoFuel => Never
  end.

(* ------------------------------------------------------------------ *)
(** * Handles *)

(* httpapi_mbed.cpp:51-75; None: NULL, and the connection that was constructed is destructed *)
Definition HTTPAPI_CreateConnection (host : option text) : H (option HTTP_HANDLE_DATA) :=
  match host with
  | None => ret None
  | Some t =>
    con_construct ;;
    if 64 <=? Z.of_nat (length t) then con_destruct ;; ret None
    else ret (Some {| h_host := t; h_certificate := None |})
  end.

(* httpapi_mbed.cpp:77-96 *)
Definition HTTPAPI_CloseConnection (h : option HTTP_HANDLE_DATA) : H unit :=
  match h with
  | None => ret tt
  | Some _ =>
    w <- get ;;
    (if c_connected (w_con w) then con_close else ret tt) ;;
    con_destruct
  end.

(* httpapi_mbed.cpp:476-516 *)
Definition HTTPAPI_SetOption (h : option HTTP_HANDLE_DATA) (name value : option text) : HTTPAPI_RESULT * option HTTP_HANDLE_DATA :=
  match h, name, value with
  | Some d, Some n, Some v =>
    if text_eqb n (str "TrustedCerts") then (HTTPAPI_OK, Some {| h_host := h_host d; h_certificate := Some v |})
    else (HTTPAPI_INVALID_ARG, h)
  | _, _, _ => (HTTPAPI_INVALID_ARG, h)
  end.

(* httpapi_mbed.cpp:518-551; the copy stored in *savedValue *)
Definition HTTPAPI_CloneOption (name value : option text) (saved : bool) : H (HTTPAPI_RESULT * option text) :=
  match name, value, saved with
  | Some n, Some v, true =>
    if text_eqb n (str "TrustedCerts") then
      m <- allocates ;; if (m : bool) then ret (HTTPAPI_OK, Some v) else ret (HTTPAPI_INVALID_ARG, None)
    else ret (HTTPAPI_INVALID_ARG, None)
  | _, _, _ => ret (HTTPAPI_INVALID_ARG, None)
  end.
