(* Specification of HTTPAPIEX, on the calls it makes to the HTTPAPI below it. *)
From Verif Require Import Base Mem Map_Model Map_Spec HttpHeaders_Model HttpHeaders_Spec Buffer_Model Buffer_Spec Crt_Spec HttpApiEx_Model.
Open Scope N_scope.

(** * C51: the discipline of the layer below *)

(* Not initialised; or initialised, with a connection or without *)
Inductive low_state := Down | Up (conn : option nat).

(* None = the call breaks the discipline *)
Definition low_step (s : low_state) (e : event) : option low_state :=
  match s, e with
  | Down, EInit LowOk => Some (Up None)
  | Down, EInit _ => Some Down
  | Up None, EDeinit => Some Down
  | Up None, ECreate _ h => Some (Up h)
  | Up (Some h), EClose (Some h') => if (h =? h')%nat then Some (Up None) else None
  | Up (Some h), EOption (Some h') _ _ _ => if (h =? h')%nat then Some s else None
  | Up (Some h), ERequest q => match r_conn q with
                               | Some h' => if (h =? h')%nat then Some s else None
                               | None => None
                               end
  | _, _ => None
  end.
Fixpoint low_run (s : low_state) (l : list event) : option low_state :=
  match l with
  | [] => Some s
  | e :: t => match low_step s e with Some s' => low_run s' t | None => None end
  end.

(** * C50: numbers of calls *)

Definition count (p : event -> bool) (l : list event) : nat := length (filter p l).
Definition is_init (e : event) : bool := match e with EInit _ => true | _ => false end.
Definition is_create (e : event) : bool := match e with ECreate _ _ => true | _ => false end.
Definition is_request (e : event) : bool := match e with ERequest _ => true | _ => false end.

(** * C52: the last request *)

Fixpoint last_request (l : list event) : option request :=
  match l with
  | [] => None
  | e :: t => match last_request t with
              | Some q => Some q
              | None => match e with ERequest q => Some q | _ => None end
              end
  end.
Definition succeeded (q : request) : Prop := a_result (r_answer q) = LowOk.

(** * C53: options *)

Definition settings := list (text * list N).
Fixpoint setting (n : text) (l : settings) : option (list N) :=
  match l with [] => None | (m, v) :: t => if teq m n then Some v else setting n t end.
(* the latest first *)
Definition put (n : text) (v : list N) (l : settings) : settings := (n, v) :: l.

(* The calls below, given the settings in force (latest first): on every request, each
   setting in force is what the connection was last told for that name. *)
Fixpoint told (latest : settings) (conn : settings) (l : list event) : Prop :=
  match l with
  | [] => True
  | ECreate _ _ :: t => told latest [] t
  | EOption _ n v _ :: t => told latest (put n v conn) t
  | ERequest _ :: t => (forall n v, setting n latest = Some v -> setting n conn = Some v) /\ told latest conn t
  | _ :: t => told latest conn t
  end.
(* what the connection has been told after these calls *)
Fixpoint told_after (conn : settings) (l : list event) : settings :=
  match l with
  | [] => conn
  | ECreate _ _ :: t => told_after [] t
  | EOption _ n v _ :: t => told_after (put n v conn) t
  | _ :: t => told_after conn t
  end.

(** * C54: headers *)

(* the headers l with name set to value: replaced where it is, or added at the end *)
Definition with_header (name value : text) (l : list (text * text)) : list (text * text) :=
  match lookup name l with
  | Some _ => map (fun p => if teq (fst p) name then (name, value) else p) l
  | None => l ++ [(name, value)]
  end.

(* the headers sent *)
Definition full_headers (host ds : text) (l : list (text * text)) : list (text * text) :=
  with_header (str "Content-Length") ds (with_header (str "Host") (trim host) l).

(** * Objects given to a call *)

(* the objects handed to a call are live, and what is received does not overwrite what is sent *)
Record usable (hsp : header_lists) (bsp : contents) (reqh reqc resh resc : option nat) : Prop := {
  us_h : forall i, reqh = Some i \/ resh = Some i -> hlive hsp i <> None;
  us_b : forall i, reqc = Some i \/ resc = Some i -> blive bsp i <> None;
  us_hh : reqh <> None -> reqh <> resh;
  us_bb : reqc <> None -> reqc <> resc
}.

(* what the caller's handle holds; a missing one counts as empty *)
Definition headers_at (hsp : header_lists) (h : option nat) : list (text * text) :=
  match h with Some i => match hlive hsp i with Some l => l | None => [] end | None => [] end.
Definition content_at (bsp : contents) (h : option nat) : option (list (option N)) :=
  match h with Some i => match blive bsp i with Some c => c | None => None end | None => None end.

(* a request carries the caller's headers with Host and Content-Length set, and the content *)
Definition carries (host : text) (l : list (text * text)) (c : option (list (option N))) (q : request) : Prop :=
  exists h hsp ds, r_headers q = Some h /\ hrepresents (r_state q) hsp /\ hlive hsp h = Some (full_headers host ds l) /\
    decimal (r_length q) ds /\ r_length q = lenN (bytes_of c) /\ r_content q = c.

(** * C52: the response *)

(* the headers with one more, as HTTPHeaders_AddHeaderNameValuePair puts it *)
Definition received (l : list (text * text)) (p : text * text) : list (text * text) :=
  match lookup (fst p) l with
  | None => l ++ [(fst p, trim (snd p))]
  | Some old => replace_value (fst p) (old ++ str ", " ++ trim (snd p)) l
  end.

(* the content of a buffer that was given these bytes *)
Definition body_content (b : list N) : option (list (option N)) := match b with [] => None | _ => Some (map Some b) end.
(* the requests among these calls *)
Fixpoint requests (l : list event) : list request :=
  match l with [] => [] | ERequest q :: t => q :: requests t | _ :: t => requests t end.
Definition all_stored (qs : list request) : Prop := forall q, In q qs -> r_stored q = true.
(* response headers and body after these requests *)
Definition response_headers (l : list (text * text)) (qs : list request) : list (text * text) :=
  fold_left received (concat (map (fun q => a_headers (r_answer q)) qs)) l.
Definition response_body (c : option (list (option N))) (qs : list request) : option (list (option N)) :=
  fold_left (fun _ q => body_content (a_body (r_answer q))) qs c.

(** * C73: nothing else changes *)

(* of the live handles, only the given ones have changed; there are no others, and these are live *)
Definition only (given : option nat -> Prop) (hsp hsp' : header_lists) : Prop :=
  forall j, hlive hsp' j = hlive hsp j \/ (given (Some j) /\ hlive hsp' j <> None).

Definition onlyb (given : option nat -> Prop) (bsp bsp' : contents) : Prop :=
  forall j, blive bsp' j = blive bsp j \/ (given (Some j) /\ blive bsp' j <> None).

(** * Histories of calls on one handle *)

(* a call, its result, and the calls below it made *)
Definition call := (exop * exret * list event)%type.
Fixpoint history (fuel : nat) (s : exdata * world) (ops : list exop) : M (list call * (exdata * world)) :=
  match ops with
  | [] => ret ([], s)
  | op :: t =>
      (x <- exstep fuel s op ;;
       y <- history fuel (snd x) t ;;
       ret ((op, fst x, skipn (length (w_trace (snd s))) (w_trace (snd (snd x)))) :: fst y, snd y))%m
  end.
Definition events (h : list call) : list event := concat (map snd h).
(* the caller has made some headers and buffers; nothing was called below, no option was cloned *)
Definition start (hs : hstate) (bs : buffers) (status : N) (answers : list answer) : world :=
  {| w_headers := hs; w_buffers := bs; w_clones := []; w_status := status; w_answers := answers; w_trace := [] |}.

(* C51: is the layer below up after these calls? *)
Definition up_after (up : bool) (c : call) : bool :=
  match c with
  | (XExecute _ _ _ _ _ _ _, XR HTTPAPIEX_OK, _) => true
  | (XExecute _ _ _ _ _ _ _, XR HTTPAPIEX_RECOVERYFAILED, _) => false
  | _ => up
  end.

(* C53: the settings in force after a call (latest first): those of HTTPAPIEX_SetOption calls that
   returned OK, or that passed the option to the live connection *)
Definition is_option (e : event) : bool := match e with EOption _ _ _ _ => true | _ => false end.
Definition in_force (latest : settings) (c : call) : settings :=
  match c with
  | (XSetOption (Some n) (Some v), XR HTTPAPIEX_OK, _) => put n v latest
  | (XSetOption (Some n) (Some v), _, evs) => if existsb is_option evs then put n v latest else latest
  | _ => latest
  end.
Fixpoint told_all (latest conn : settings) (h : list call) : Prop :=
  match h with
  | [] => True
  | c :: t => told (in_force latest c) conn (snd c) /\ told_all (in_force latest c) (told_after conn (snd c)) t
  end.

(* A handle created for this host, after these calls, whatever objects the caller had made
   before, whatever the layer below answers and whatever allocation fails *)
Definition reached (fuel : nat) (host : text) (h : list call) (d : exdata) (w : world) : Prop :=
  exists d0 hs bs st ans ops o o1 o2,
    HTTPAPIEX_Create (Some host) o = Some (Some d0, o1) /\
    history fuel (d0, start hs bs st ans) ops o1 = Some ((h, (d, w)), o2).

(* C53, taken literally: the settings HTTPAPIEX_SetOption returned OK for *)
Definition accepted (latest : settings) (c : call) : settings :=
  match c with
  | (XSetOption (Some n) (Some v), XR HTTPAPIEX_OK, _) => put n v latest
  | _ => latest
  end.
Fixpoint accepted_told (latest conn : settings) (h : list call) : Prop :=
  match h with
  | [] => True
  | c :: t => told (accepted latest c) conn (snd c) /\ accepted_told (accepted latest c) (told_after conn (snd c)) t
  end.
(* header names are the same whatever the case of their letters *)
Definition lower (c : N) : N := if (65 <=? c) && (c <=? 90) then c + 32 else c.
Definition same_header (a b : text) : bool := teq (map lower a) (map lower b).
