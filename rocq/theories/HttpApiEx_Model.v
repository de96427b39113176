(* Model of src/httpapiex.c, over the models of httpheaders.c, buffer.c and
   crt_abstractions.c.  The functions it calls below (HTTPAPI_Init, HTTPAPI_CreateConnection,
   ...) belong to a platform adapter: here they are an adversary, a list of answers, one
   taken by each call; every call is recorded in a trace.
   Simplifications: one HTTPAPIEX handle (handles share nothing); the saved host name is its
   text; the vector of saved options is a list (vector.c is modelled in Vector_Model); the
   bytes of an option value are opaque, a clone of one is a heap block of its own. *)
From Verif Require Import Base Mem Map_Model HttpHeaders_Model Buffer_Model Strings_Model Crt_Model.
Open Scope N_scope.

(** * The layer below *)

(* HTTPAPI_RESULT, as far as httpapiex.c looks at it *)
Inductive low_result := LowOk | LowInvalidArg | LowOther.
Definition low_ok (r : low_result) : bool := match r with LowOk => true | _ => false end.

(* What the next call below will do: its result; the handle if it is HTTPAPI_CreateConnection
   (None = NULL); the status code, response headers and response body it writes if it is
   HTTPAPI_ExecuteRequest (whatever its result). *)
Record answer := { a_result : low_result; a_handle : option nat;
                   a_status : N; a_headers : list (text * text); a_body : list N }.
(* when the list is used up *)
Definition last_answer : answer :=
  {| a_result := LowOk; a_handle := Some 0%nat; a_status := 200; a_headers := []; a_body := [] |}.

(* An HTTPAPI_ExecuteRequest call: its arguments, the headers as they are then, what it did,
   and whether it could store all of the response (there was memory for it) *)
Record request := { r_conn : option nat; r_type : N; r_path : text;
                    r_headers : option nat; r_state : hstate;
                    r_content : option block; r_length : N;
                    r_answer : answer; r_stored : bool }.

Inductive event :=
| EInit (r : low_result)
| EDeinit
| ECreate (host : text) (h : option nat)
| EClose (h : option nat)
| EOption (h : option nat) (name : text) (value : list N) (r : low_result)
| ERequest (q : request).

(** * The state *)

(* httpapiex.c:16-28 *)
Record exdata := { hostName : text; k : Z; httpHandle : option nat; savedOptions : list (text * nat) }.

(* Everything else: the header and buffer objects, the cloned option values (None once
   freed), the caller's status variable, the answers to come, the calls made. *)
Record world := { w_headers : hstate; w_buffers : buffers; w_clones : list (option (list N));
                  w_status : N; w_answers : list answer; w_trace : list event }.

Definition next_answer (w : world) : answer * world :=
  (match w_answers w with a :: _ => a | [] => last_answer end,
   {| w_headers := w_headers w; w_buffers := w_buffers w; w_clones := w_clones w; w_status := w_status w;
      w_answers := tl (w_answers w); w_trace := w_trace w |}).
Definition log (w : world) (e : event) : world :=
  {| w_headers := w_headers w; w_buffers := w_buffers w; w_clones := w_clones w; w_status := w_status w;
     w_answers := w_answers w; w_trace := w_trace w ++ [e] |}.
Definition with_objects (w : world) (hs : hstate) (bs : buffers) : world :=
  {| w_headers := hs; w_buffers := bs; w_clones := w_clones w; w_status := w_status w;
     w_answers := w_answers w; w_trace := w_trace w |}.
Definition with_clones (w : world) (c : list (option (list N))) : world :=
  {| w_headers := w_headers w; w_buffers := w_buffers w; w_clones := c; w_status := w_status w;
     w_answers := w_answers w; w_trace := w_trace w |}.
Definition with_status (w : world) (s : N) : world :=
  {| w_headers := w_headers w; w_buffers := w_buffers w; w_clones := w_clones w; w_status := s;
     w_answers := w_answers w; w_trace := w_trace w |}.

Definition clone_value (w : world) (i : nat) : option (list N) :=
  match nth_error (w_clones w) i with Some (Some v) => Some v | _ => None end.
(* free of a cloned value *)
Definition free_clone (w : world) (i : nat) : option world :=
  match clone_value w i with Some _ => Some (with_clones w (upd (w_clones w) i None)) | None => None end.

Definition is_ok (r : hret) : bool := match r with HRC HTTP_HEADERS_OK => true | _ => false end.

(* HTTPAPI_ExecuteRequest below: it may add response headers (with C strings), and set the
   response body (of fewer than 2^64 bytes), before it gives its result; the boolean: all of
   that could be stored *)
Fixpoint add_headers (hs : hstate) (h : option nat) (l : list (text * text)) : M (bool * hstate) :=
  match l with
  | [] => ret (true, hs)
  | (n, v) :: t =>
      if cstr_okb n && cstr_okb v
      then (x <- HTTPHeaders_AddHeaderNameValuePair hs h (Some n) (HStr v) ;;
            y <- add_headers (snd x) h t ;;
            ret (is_ok (fst x) && fst y, snd y))%m
      else (y <- add_headers hs h t ;; ret (false, snd y))%m
  end.
Definition respond (a : answer) (w : world) (writeStatus : bool) (rh rb : option nat) : M (bool * world) :=
  (x <- add_headers (w_headers w) rh (a_headers a) ;;
   b <- (if N.of_nat (length (a_body a)) <? two64
         then BUFFER_build (w_buffers w) rb (BSBytes (a_body a)) (N.of_nat (length (a_body a)))
         else ret (BRI false, w_buffers w)) ;;
   ret (fst x && match fst b with BRI ok => ok | _ => false end,
        with_objects (if writeStatus then with_status w (a_status a) else w) (snd x) (snd b)))%m.

(** * Requests *)

(* the objects used by a call: given by the caller (original = true) or temporary *)
Record used := { u_reqh : option nat; o_reqh : bool; u_reqc : option nat; o_reqc : bool;
                 u_resh : option nat; o_resh : bool; u_resc : option nat; o_resc : bool;
                 u_path : text; u_status : bool; u_type : N }.

(* httpapiex.c:170-193 buildBufferIfNotExist: the handle, NULL when it failed *)
Definition buildBufferIfNotExist (bs : buffers) (orig : option nat) : M (option nat * bool * buffers) :=
  match orig with
  | None => (x <- BUFFER_new bs ;;
             match fst x with BRH h => ret (h, false, snd x) | _ => undef end)%m
  | Some _ => ret (orig, true, bs)
  end.

(* httpapiex.c:145-167 buildResponseHttpHeadersHandle *)
Definition buildResponseHttpHeadersHandle (hs : hstate) (orig : option nat) : M (option nat * bool * hstate) :=
  match orig with
  | None => (x <- HTTPHeaders_Alloc hs ;;
             match fst x with HRH h => ret (h, false, snd x) | _ => undef end)%m
  | Some _ => ret (orig, true, hs)
  end.

(* httpapiex.c:87-143 buildRequestHttpHeadersHandle *)
Definition buildRequestHttpHeadersHandle (d : exdata) (hs : hstate) (bs : buffers) (content orig : option nat)
    : M (option nat * bool * hstate) :=
  (x <- (match orig with
         | Some _ => ret (orig, true, hs)
         | None => (x <- HTTPHeaders_Alloc hs ;;
                    match fst x with HRH h => ret (h, false, snd x) | _ => undef end)
         end) ;;
   match x with
   | (None, original, hs) => ret (None, original, hs)
   | (h, original, hs) =>
       n <- BUFFER_length bs content ;;
       len <- lift (match fst n with BRN v => Some v | _ => None end) ;;
       t <- lift (size_tToString (Some (fresh 22)) 22 len) ;;
       temp <- lift (match snd t with Some b => ctext b | None => None end) ;;
       r1 <- HTTPHeaders_ReplaceHeaderNameValuePair hs h (Some (str "Host")) (HStr (hostName d)) ;;
       r2 <- (if is_ok (fst r1)
              then HTTPHeaders_ReplaceHeaderNameValuePair (snd r1) h (Some (str "Content-Length")) (HStr temp)
              else ret r1) ;;
       if is_ok (fst r2) then ret (h, original, snd r2)
       else (f <- (if original then ret r2 else HTTPHeaders_Free (snd r2) h) ;;
             ret (None, original, snd f))
   end)%m.

Definition free_buffer (bs : buffers) (original : bool) (h : option nat) : M buffers :=
  if original then ret bs else (x <- BUFFER_delete bs h ;; ret (snd x))%m.
Definition free_headers (hs : hstate) (original : bool) (h : option nat) : M hstate :=
  if original then ret hs else (x <- HTTPHeaders_Free hs h ;; ret (snd x))%m.

(* httpapiex.c:197-298 buildAllRequests; None = it failed *)
Definition buildAllRequests (d : exdata) (hs : hstate) (bs : buffers) (type : N) (path : option text)
    (reqh reqc : option nat) (status : bool) (resh resc : option nat) : M (option used * hstate * buffers) :=
  ('(c, oc, bs) <- buildBufferIfNotExist bs reqc ;;
   match c with
   | None => ret (None, hs, bs)
   | Some _ =>
       '(h, oh, hs) <- buildRequestHttpHeadersHandle d hs bs c reqh ;;
       match h with
       | None => bs <- free_buffer bs oc c ;; ret (None, hs, bs)
       | Some _ =>
           '(rh, orh, hs) <- buildResponseHttpHeadersHandle hs resh ;;
           match rh with
           | None => bs <- free_buffer bs oc c ;; hs <- free_headers hs oh h ;; ret (None, hs, bs)
           | Some _ =>
               '(rc, orc, bs) <- buildBufferIfNotExist bs resc ;;
               match rc with
               | None => bs <- free_buffer bs oc c ;; hs <- free_headers hs oh h ;;
                         hs <- free_headers hs orh rh ;; ret (None, hs, bs)
               | Some _ => ret (Some {| u_reqh := h; o_reqh := oh; u_reqc := c; o_reqc := oc;
                                        u_resh := rh; o_resh := orh; u_resc := rc; o_resc := orc;
                                        u_path := match path with None => [] | Some p => p end;
                                        u_status := status; u_type := type |}, hs, bs)
               end
           end
       end
   end)%m.

Definition set_handle (d : exdata) (h : option nat) : exdata :=
  {| hostName := hostName d; k := k d; httpHandle := h; savedOptions := savedOptions d |}.
Definition set_k (d : exdata) (x : Z) : exdata :=
  {| hostName := hostName d; k := x; httpHandle := httpHandle d; savedOptions := savedOptions d |}.

(* httpapiex.c:394-405: all saved options go to the new connection; failures are ignored *)
Fixpoint replay (h : option nat) (l : list (text * nat)) (w : world) : M world :=
  match l with
  | [] => ret w
  | (n, c) :: t =>
      (v <- lift (clone_value w c) ;;
       let '(a, w) := next_answer w in
       replay h t (log w (EOption h n v (a_result a))))%m
  end.

(* httpapiex.c:372-428: one step of the sequence; the boolean is goOn *)
Definition attempt (u : used) (d : exdata) (w : world) : M (bool * exdata * world) :=
  match k d with
  | 0%Z => let '(a, w) := next_answer w in ret (low_ok (a_result a), d, log w (EInit (a_result a)))
  | 1%Z =>
      let '(a, w) := next_answer w in
      let w := log w (ECreate (hostName d) (a_handle a)) in
      let d := set_handle d (a_handle a) in
      match a_handle a with
      | None => ret (false, d, w)
      | Some _ => (w <- replay (a_handle a) (savedOptions d) w ;; ret (true, d, w))%m
      end
  | 2%Z =>
      (c <- BUFFER_u_char (w_buffers w) (u_reqc u) ;;
       content <- lift (match fst c with BRP p => Some p | _ => None end) ;;
       n <- BUFFER_length (w_buffers w) (u_reqc u) ;;
       len <- lift (match fst n with BRN v => Some v | _ => None end) ;;
       let '(a, w) := next_answer w in
       '(stored, w2) <- respond a w (u_status u) (u_resh u) (u_resc u) ;;
       ret (low_ok (a_result a), d,
            log w2 (ERequest {| r_conn := httpHandle d; r_type := u_type u; r_path := u_path u;
                                r_headers := u_reqh u; r_state := w_headers w;
                                r_content := content; r_length := len; r_answer := a; r_stored := stored |})))%m
  | _ => ret (false, d, w)
  end.

(* bool st[3], indexed by k: anything but 0, 1, 2 is out of bounds *)
Definition st_get (st : list bool) (i : Z) : option bool :=
  if (i <? 0)%Z then None else nth_error st (Z.to_nat i).
Definition st_set (st : list bool) (i : Z) (b : bool) : option (list bool) :=
  match st_get st i with Some _ => Some (upd st (Z.to_nat i) b) | None => None end.

Inductive ex_result := HTTPAPIEX_OK | HTTPAPIEX_INVALID_ARG | HTTPAPIEX_ERROR | HTTPAPIEX_RECOVERYFAILED
| StillRunning.                      (* not a code: the loop has not come to its end *)

(* httpapiex.c:446-472: going back a step *)
Definition step_back (d : exdata) (w : world) : exdata * world :=
  let d := set_k d (k d - 1)%Z in
  match k d with
  | 0%Z => (d, log w EDeinit)
  | 1%Z => (set_handle d None, log w (EClose (httpHandle d)))
  | _ => (d, w)
  end.

(* httpapiex.c:356-473: one round of the loop: a result, or st and k for the next round *)
Definition round (u : used) (st : list bool) (d : exdata) (w : world)
    : M (option ex_result * list bool * exdata * world) :=
  let while st d w := ret (if (0 <=? k d)%Z then None else Some HTTPAPIEX_RECOVERYFAILED, st, d, w) in
  if (2 <? k d)%Z then ret (Some HTTPAPIEX_RECOVERYFAILED, st, d, w)
  else
    (tried <- lift (st_get st (k d)) ;;
     '(goOn, d, w) <- (if tried then ret (false, d, w) else attempt u d w) ;;
     if (goOn : bool) then
       if (k d =? 2)%Z then ret (Some HTTPAPIEX_OK, st, d, w)
       else
         st <- lift (st_set st (k d) true) ;;
         st <- lift (st_set st (k d + 1)%Z false) ;;
         while st (set_k d (k d + 1)%Z) w
     else
       st <- lift (st_set st (k d) false) ;;
       let '(d, w) := step_back d w in while st d w)%m.

(* httpapiex.c:356-476: the loop, for at most fuel rounds *)
Fixpoint sequence (fuel : nat) (u : used) (st : list bool) (d : exdata) (w : world) : M (ex_result * exdata * world) :=
  match fuel with
  | O => ret (StillRunning, d, w)
  | S fuel' =>
      ('(r, st, d, w) <- round u st d w ;;
       match r with
       | Some r => ret (r, d, w)
       | None => sequence fuel' u st d w
       end)%m
  end.

(* httpapiex.c:300-499 HTTPAPIEX_ExecuteRequest with a non-NULL handle *)
Definition HTTPAPIEX_ExecuteRequest (fuel : nat) (d : exdata) (w : world) (type : N) (path : option text)
    (reqh reqc : option nat) (status : bool) (resh resc : option nat) : M (ex_result * exdata * world) :=
  if 5 <=? type then ret (HTTPAPIEX_INVALID_ARG, d, w)
  else
    ('(b, hs, bs) <- buildAllRequests d (w_headers w) (w_buffers w) type path reqh reqc status resh resc ;;
     let w := with_objects w hs bs in
     match b with
     | None => ret (HTTPAPIEX_ERROR, d, w)
     | Some u =>
         let d := if (k d =? -1)%Z then set_k d 0 else d in
         '(r, d, w) <- sequence fuel u [false; false; false] d w ;;
         bs <- free_buffer (w_buffers w) (o_reqc u) (u_reqc u) ;;
         hs <- free_headers (w_headers w) (o_reqh u) (u_reqh u) ;;
         bs <- free_buffer bs (o_resc u) (u_resc u) ;;
         hs <- free_headers hs (o_resh u) (u_resh u) ;;
         ret (r, d, with_objects w hs bs)
     end)%m.

(* httpapiex.c:34-82 HTTPAPIEX_Create: malloc, STRING_construct (2 allocations), VECTOR_create *)
Definition HTTPAPIEX_Create (host : option text) : M (option exdata) :=
  match host with
  | None => ret None
  | Some t =>
      if negb (cstr_okb t) then undef
      else (ok <- allocs 4 ;;
            ret (if ok then Some {| hostName := t; k := -1; httpHandle := None; savedOptions := [] |} else None))%m
  end.

(* httpapiex.c:518-524 *)
Fixpoint free_options (l : list (text * nat)) (w : world) : option world :=
  match l with
  | [] => Some w
  | (_, c) :: t => match free_clone w c with Some w' => free_options t w' | None => None end
  end.

(* httpapiex.c:502-533 HTTPAPIEX_Destroy *)
Definition HTTPAPIEX_Destroy (d : exdata) (w : world) : M world :=
  let w := if (k d =? 2)%Z then log (log w (EClose (httpHandle d))) EDeinit else w in
  lift (free_options (savedOptions d) w).

(* httpapiex.c:535-553: VECTOR_find_if with sameName: the first option of that name; its value is replaced *)
Fixpoint update_option (l : list (text * nat)) (n : text) (c : nat) : option (nat * list (text * nat)) :=
  match l with
  | [] => None
  | (m, x) :: t => if (strcmp m n =? 0)%Z then Some (x, (m, c) :: t)
                   else match update_option t n c with Some (y, t') => Some (y, (m, x) :: t') | None => None end
  end.

(* httpapiex.c:542-581 createOrUpdateOption; the boolean: it succeeded *)
Definition createOrUpdateOption (d : exdata) (w : world) (n : text) (c : nat) : M (bool * exdata * world) :=
  let set l := {| hostName := hostName d; k := k d; httpHandle := httpHandle d; savedOptions := l |} in
  match update_option (savedOptions d) n c with
  | Some (old, l) => (w <- lift (free_clone w old) ;; ret (true, set l, w))%m
  | None =>
      (ok <- allocs 2 ;;                        (* mallocAndStrcpy_s, VECTOR_push_back *)
       if ok then ret (true, set (savedOptions d ++ [(n, c)]), w)
       else w <- lift (free_clone w c) ;; ret (false, d, w))%m
  end.

(* httpapiex.c:583-658 HTTPAPIEX_SetOption with a non-NULL handle *)
Definition HTTPAPIEX_SetOption (d : exdata) (w : world) (name : option text) (value : option (list N))
    : M (ex_result * exdata * world) :=
  match name, value with
  | Some n, Some v =>
      if negb (cstr_okb n) then undef
      else
        (* HTTPAPI_CloneOption: on success a new block with the value *)
        let '(a, w) := next_answer w in
        match a_result a with
        | LowInvalidArg => ret (HTTPAPIEX_INVALID_ARG, d, w)
        | LowOther => ret (HTTPAPIEX_ERROR, d, w)
        | LowOk =>
            let c := length (w_clones w) in
            let w := with_clones w (w_clones w ++ [Some v]) in
            ('(ok, d, w) <- createOrUpdateOption d w n c ;;
             if negb ok then ret (HTTPAPIEX_ERROR, d, w)
             else match httpHandle d with
                  | None => ret (HTTPAPIEX_OK, d, w)
                  | Some _ =>
                      let '(a, w) := next_answer w in
                      let w := log w (EOption (httpHandle d) n v (a_result a)) in
                      ret (match a_result a with
                           | LowOk => HTTPAPIEX_OK
                           | LowInvalidArg => HTTPAPIEX_INVALID_ARG
                           | LowOther => HTTPAPIEX_ERROR
                           end, d, w)
                  end)%m
        end
  | _, _ => ret (HTTPAPIEX_INVALID_ARG, d, w)
  end.

(** * Histories *)

(* Calls on one handle, and what its caller does between them with headers and buffers. *)
Inductive exop :=
| XExecute (type : N) (path : option text) (reqh reqc : option nat) (status : bool) (resh resc : option nat)
| XSetOption (name : option text) (value : option (list N))
| XHeaders (op : hop)
| XBuffers (op : bop).

Inductive exret := XR (r : ex_result) | XH (r : hret) | XB (r : bret).

Definition exstep (fuel : nat) (s : exdata * world) (op : exop) : M (exret * (exdata * world)) :=
  let '(d, w) := s in
  match op with
  | XExecute type path reqh reqc status resh resc =>
      ('(r, d, w) <- HTTPAPIEX_ExecuteRequest fuel d w type path reqh reqc status resh resc ;; ret (XR r, (d, w)))%m
  | XSetOption n v => ('(r, d, w) <- HTTPAPIEX_SetOption d w n v ;; ret (XR r, (d, w)))%m
  | XHeaders op => (x <- hstep (w_headers w) op ;; ret (XH (fst x), (d, with_objects w (snd x) (w_buffers w))))%m
  | XBuffers op => (x <- bstep (w_buffers w) op ;; ret (XB (fst x), (d, with_objects w (w_headers w) (snd x))))%m
  end.
