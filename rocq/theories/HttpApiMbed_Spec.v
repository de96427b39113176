(* What a user of the mbed HTTP adapter sends and gets, written without the functions of the
   model that do the work. *)
From Verif Require Import Base Map_Model HttpHeaders_Spec HttpApiMbed_Model.
Local Open Scope Z_scope.

Definition CRLF : list N := [13; 10]%N.

(** * Requests *)

Definition method_text (t : HttpApiCurl_Model.HTTPAPI_REQUEST_TYPE) : text :=
  match t with
  | HttpApiCurl_Model.HTTPAPI_REQUEST_GET => str "GET" | HttpApiCurl_Model.HTTPAPI_REQUEST_POST => str "POST"
  | HttpApiCurl_Model.HTTPAPI_REQUEST_PUT => str "PUT" | HttpApiCurl_Model.HTTPAPI_REQUEST_DELETE => str "DELETE"
  | HttpApiCurl_Model.HTTPAPI_REQUEST_PATCH => str "PATCH" | HttpApiCurl_Model.OtherRequest => []
  end.
Definition request_line (r : request) : text :=
  method_text (r_type r) ++ str " " ++ match r_path r with Some p => p | None => [] end ++ str " HTTP/1.1".
Definition request_content (r : request) : list N :=
  match r_content r with Some bs => firstn (N.to_nat (r_length r)) bs | None => [] end.
Definition request_fields (r : request) : list (text * text) :=
  match r_headers r with Some l => l | None => [] end.
(* The bytes of the request. *)
Definition request_bytes (r : request) : list N :=
  request_line r ++ CRLF ++
  concat (map (fun f => fst f ++ str ": " ++ snd f ++ CRLF) (request_fields r)) ++ CRLF ++
  request_content r.
(* A request that can be sent. *)
Definition sendable (r : request) : Prop :=
  r_type r <> HttpApiCurl_Model.OtherRequest /\ r_path r <> None /\ r_headers r <> None.
(* No part of it is longer than a signed int counts, and the first line has its place in 4096 bytes. *)
Definition sizes_ok (r : request) : Prop :=
  Z.of_nat (length (request_line r)) + 2 < 4096 /\
  Z.of_nat (length (request_content r)) < 2147483648 /\
  Forall (fun f => Z.of_nat (length (fst f)) + 2 + Z.of_nat (length (snd f)) < 2147483648) (request_fields r).

Definition is_prefix {A} (a b : list A) : Prop := exists c, b = a ++ c.

(** * Responses *)

Definition is_dec (c : N) : Prop := (48 <= c <= 57)%N.
Definition is_hex (c : N) : Prop := (48 <= c <= 57)%N \/ (97 <= c <= 102)%N \/ (65 <= c <= 70)%N.
Definition digit_of (c : N) : Z :=
  if (c <=? 57)%N then Z.of_N c - 48 else if (c <=? 70)%N then Z.of_N c - 55 else Z.of_N c - 87.
Definition numeral (base : Z) (s : text) : Z := fold_left (fun a c => a * base + digit_of c) s 0.
Definition is_space (c : N) : Prop := (c = 9 \/ c = 10 \/ c = 11 \/ c = 12 \/ c = 13 \/ c = 32)%N.

Inductive payload :=
| Sized (data : list N)
  (* chunks: the size in hexadecimal, what follows it on the line, the data; then the size line
     of the last chunk *)
| Chunked (chunks : list (text * text * list N)) (last : text * text).
Record reply := {
  rp_major : text; rp_minor : text; rp_code : text; rp_reason : text;
  rp_fields : list (text * text);
  rp_payload : payload }.

Definition status_line (rp : reply) : text :=
  str "HTTP/" ++ rp_major rp ++ str "." ++ rp_minor rp ++ str " " ++ rp_code rp ++ str " " ++ rp_reason rp.
Definition field_line (f : text * text) : text := fst f ++ str ":" ++ snd f.
Definition chunk_bytes (c : text * text * list N) : list N :=
  let '(size, ext, data) := c in size ++ ext ++ CRLF ++ data ++ CRLF.
Definition payload_bytes (p : payload) : list N :=
  match p with
  | Sized d => d
  | Chunked cs (size, ext) => concat (map chunk_bytes cs) ++ size ++ ext ++ CRLF ++ CRLF
  end.
Definition reply_bytes (rp : reply) : list N :=
  status_line rp ++ CRLF ++
  concat (map (fun f => field_line f ++ CRLF) (rp_fields rp)) ++ CRLF ++
  payload_bytes (rp_payload rp).
(* The content of the reply. *)
Definition reply_data (rp : reply) : list N :=
  match rp_payload rp with Sized d => d | Chunked cs _ => concat (map snd cs) end.

(* A line that readers accept: no CR, no 0, not too long. *)
Definition line_ok (l : text) : Prop := ~ In 13%N l /\ ~ In 0%N l /\ Z.of_nat (length l) < 4096.
Definition decimal (s : text) : Prop := s <> [] /\ Forall is_dec s.
Definition size_line_ok (size ext : text) : Prop :=
  size <> [] /\ Forall is_hex size /\ line_ok (size ++ ext) /\
  (ext = [] \/ exists t, ext = 59%N :: t \/ ext = 32%N :: t) /\ ~ In 10%N ext.

Definition small (c : N) : N := if ((65 <=? c) && (c <=? 90))%N then (c + 32)%N else c.
Definition same_ci (a b : text) : Prop := map small a = map small b.
Definition says_chunked (f : text * text) : Prop :=
  same_ci (fst f) (str "Transfer-Encoding") /\
  exists sp v, snd f = sp ++ v /\ Forall is_space sp /\ same_ci v (str "chunked").
Definition says_length (f : text * text) (n : Z) : Prop :=
  same_ci (fst f) (str "Content-Length") /\
  exists sp v, snd f = sp ++ v /\ Forall is_space sp /\ decimal v /\ numeral 10 v = n.

(* A reply this client is meant to understand. *)
Record well_formed (rp : reply) : Prop := {
  wf_major : decimal (rp_major rp);
  wf_minor : decimal (rp_minor rp);
  wf_code : decimal (rp_code rp);
  wf_code_small : numeral 10 (rp_code rp) < 2147483648;
  wf_status : line_ok (status_line rp);
  wf_fields : Forall (fun f => ~ In 58%N (fst f) /\ line_ok (field_line f)) (rp_fields rp);
  wf_lengths : forall f, In f (rp_fields rp) -> same_ci (fst f) (str "Content-Length") ->
      exists n, says_length f n /\ n < 2147483648;
  wf_payload :
      match rp_payload rp with
      | Sized d =>
          (forall f, In f (rp_fields rp) -> ~ says_chunked f) /\
          (forall f n, In f (rp_fields rp) -> says_length f n -> n = Z.of_nat (length d)) /\
          (d <> [] -> exists f n, In f (rp_fields rp) /\ says_length f n)
      | Chunked cs (size, ext) =>
          (exists f, In f (rp_fields rp) /\ says_chunked f) /\
          Forall (fun c => let '(s, e, d) := c in
                           size_line_ok s e /\ d <> [] /\ numeral 16 s = Z.of_nat (length d) /\
                           Z.of_nat (length d) < 2147483648) cs /\
          size_line_ok size ext /\ numeral 16 size = 0
      end;
  wf_total : Z.of_nat (length (reply_data rp)) < 2147483648
}.

(** * The network *)

(* No call of receive fails. *)
Definition no_errors (w : world) : Prop := Forall (fun k => 0 <= k) (w_sched w).
(* The peer does not close before these bytes were received, however they are cut in pieces. *)
Definition arrives (bs : list N) (w : world) : Prop :=
  Forall (fun k => 0 < k) (w_sched w) /\ (length bs <= length (w_sched w))%nat.
(* Every send takes everything or fails. *)
Definition whole_sends (w : world) : Prop := Forall (fun k => k < 0 \/ 2147483648 <= k) (w_sends w).
Definition all_sent (w : world) : Prop := Forall (fun k => 2147483648 <= k) (w_sends w).
Definition memory (w : world) : Prop := Forall (fun b => b = true) (w_alloc w).

(* The response headers object after these fields were added. *)
Definition headers_after (fs : list (text * text)) (l : list (text * text)) : list (text * text) :=
  fold_left (fun l f => put l (fst f) (snd f) true) fs l.

(* The content of a response buffer. *)
Definition holds (data : list N) (body : option (list (option N))) : Prop :=
  match data with [] => body = None | _ => body = Some (map Some data) end.

(* The same, where some of the bytes may never have been written. *)
Definition filled (content : list (option N)) (body : option (list (option N))) : Prop :=
  match content with [] => body = None | _ => body = Some content end.

(** * Any bytes the peer may send *)

(* A line in memory is a C string: it ends at the first 0. *)
Fixpoint c_text (l : list N) : text :=
  match l with [] => [] | c :: t => if (c =? 0)%N then [] else c :: c_text t end.
(* What is read as one line. *)
Definition raw_line (l : list N) : Prop := ~ In 13%N l /\ Z.of_nat (length l) < 4096.

Definition sign_of (s : text) (neg : bool) : Prop := (s = [] /\ neg = false) \/ (s = [43%N] /\ neg = false) \/ (s = [45%N] /\ neg = true).
Definition clamp (v : Z) : Z := Z.max (-2147483648) (Z.min 2147483647 v).
(* The text begins with a number, as scanf reads it; the rest begins after its last digit. *)
Inductive int_at : text -> Z -> text -> Prop :=
| int_at_intro sp sg neg ds rest :
    Forall is_space sp -> sign_of sg neg -> decimal ds -> match rest with [] => True | c :: _ => ~ is_dec c end ->
    int_at (sp ++ sg ++ ds ++ rest) (clamp (if neg then - numeral 10 ds else numeral 10 ds)) rest.
Inductive hex_at : text -> Z -> Prop :=
| hex_at_intro sp sg neg ox ds rest :
    Forall is_space sp -> sign_of sg neg ->
    (ox = [] /\ (forall x d t, ds ++ rest = 48%N :: x :: d :: t -> x = 120%N \/ x = 88%N -> ~ is_hex d) \/
     ox = str "0x" \/ ox = str "0X") ->
    ds <> [] -> Forall is_hex ds -> match rest with [] => True | c :: _ => ~ is_hex c end ->
    hex_at (sp ++ sg ++ ox ++ ds ++ rest)
      ((if neg then - Z.min (numeral 16 ds) 4294967295 else Z.min (numeral 16 ds) 4294967295) mod 4294967296).
Definition status_says (t : text) (v : Z) : Prop :=
  exists a v1 b v2 c rest, t = str "HTTP/" ++ a /\ int_at a v1 (str "." ++ b) /\ int_at b v2 c /\ int_at c v rest.

(* What a header line says about the length and the coding of the content. *)
Inductive line_says (t : text) (len : Z) (ch : bool) : Z -> bool -> Prop :=
| says_a_length v rest : same_ci (firstn 15 t) (str "Content-Length:") -> int_at (skipn 15 t) v rest ->
    line_says t len ch (v mod 4294967296) ch
| says_coding sp v : same_ci (firstn 18 t) (str "Transfer-Encoding:") -> skipn 18 t = sp ++ v -> Forall is_space sp ->
    same_ci v (str "chunked") -> line_says t len ch len true
| says_nothing : ~ same_ci (firstn 15 t) (str "Content-Length:") ->
    ~ (same_ci (firstn 18 t) (str "Transfer-Encoding:") /\
       exists sp v, skipn 18 t = sp ++ v /\ Forall is_space sp /\ same_ci v (str "chunked")) ->
    line_says t len ch len ch.
Inductive lines_say : list (list N) -> Z -> bool -> Z -> bool -> Prop :=
| lines_say_nil len ch : lines_say [] len ch len ch
| lines_say_cons l ls len ch len1 ch1 len2 ch2 :
    line_says (c_text l) len ch len1 ch1 -> lines_say ls len1 ch1 len2 ch2 -> lines_say (l :: ls) len ch len2 ch2.
(* Their fields: the text before and after the first colon. *)
Inductive fields_of : list (list N) -> list (text * text) -> Prop :=
| fields_of_nil : fields_of [] []
| fields_of_some l ls n v fs : c_text l = n ++ 58%N :: v -> ~ In 58%N n -> fields_of ls fs -> fields_of (l :: ls) ((n, v) :: fs)
| fields_of_none l ls fs : ~ In 58%N (c_text l) -> fields_of ls fs -> fields_of (l :: ls) fs.

(* Chunks: size line, data, line end; a size of 0 ends them.  [cut]: the last line end lacks its
   LF, because the connection was closed; this is read as the end only if the second character of
   the last size line is an LF. *)
Inductive chunks (cut : bool) : list N -> list N -> Prop :=
| chunks_end l : raw_line l -> hex_at (c_text l) 0 -> (cut = true -> exists c t, l = c :: 10%N :: t) ->
    chunks cut (l ++ CRLF ++ (if cut then [13%N] else CRLF)) []
| chunks_more l d p ds : raw_line l -> d <> [] -> hex_at (c_text l) (Z.of_nat (length d)) -> chunks cut p ds ->
    chunks cut (l ++ CRLF ++ d ++ CRLF ++ p) (d ++ ds).

(* [bytes] is a response with this status, these header fields, and this content.  A content
   with a length may have been cut: the bytes that are missing are None. *)
Inductive response (bytes : list N) (code : Z) (fs : list (text * text)) (content : list (option N)) (cut : bool) : Prop :=
| a_response first lines last payload len chunked v :
    bytes = first ++ CRLF ++ concat (map (fun l => l ++ CRLF) lines) ++ last ++ CRLF ++ payload ->
    raw_line first -> Forall (fun l => raw_line l /\ c_text l <> []) lines -> raw_line last -> c_text last = [] ->
    status_says (c_text first) v -> code = v mod 4294967296 ->
    lines_say lines 0 false len chunked -> fields_of lines fs ->
    (if chunked : bool then
       exists data, chunks cut payload data /\ content = map Some data
     else
       Z.of_nat (length payload) <= len /\
       content = map Some payload ++ repeat None (Z.to_nat len - length payload) /\
       (cut = false <-> Z.of_nat (length payload) = len)) ->
    response bytes code fs content cut.

(* The lengths the response announced are such that they and their sum can be counted. *)
Definition lengths_ok (w : world) : Prop :=
  Forall (fun n => n < 2147483648) (w_lens w) /\ fold_right Z.add 0 (w_lens w) < 4294967296.
