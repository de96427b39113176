(* Specification of the socket io, in terms of histories of calls and of what is observed during
   them: the kernel calls and the callbacks. *)
From Verif Require Import Base SocketIo_Model.
Open Scope Z_scope.

(* ---------------- histories ---------------- *)
Record scall := { s_op : op; s_ret : option Z; s_events : list event }.
Fixpoint history (w : world) (ops : list op) : M (list scall * world) :=
  match ops with
  | [] => ret ([], w)
  | o :: t => (x <- step w o ;;
               y <- history (snd x) t ;;
               ret ({| s_op := o; s_ret := fst x; s_events := skipn (length (log w)) (log (snd x)) |} :: fst y, snd y))%m
  end.
(* a world with a newly created io, whatever the kernel will answer *)
Definition newborn (x : sio) (sys sends : list Z) (recvs : list (option N)) : world :=
  {| io := Some x; k_sys := sys; k_send := sends; k_recv := recvs; log := []; cut := false |}.
(* h is a history of calls on an io created with configuration c; w is the world after it *)
Definition runs (c : config) (h : list scall) (w : world) : Prop :=
  exists o x o1 sys sends recvs ops o2,
    socketio_create (Some c) o = Some (Some x, o1) /\ history (newborn x sys sends recvs) ops o1 = Some ((h, w), o2).
(* everything observed during it *)
Definition observed (h : list scall) : list event := concat (map s_events h).

Definition prefix {A} (a b : list A) : Prop := exists c, b = a ++ c.

(* ---------------- messages, bytes, completions ---------------- *)
Record message := { m_bytes : list N; m_callback : pointer; m_context : pointer }.
(* the message a call tries to send *)
Definition message_of (o : op) : list message :=
  match o with
  | OSend true (Some buf) (S n) cb ctx => [{| m_bytes := firstn (S n) buf; m_callback := cb; m_context := ctx |}]
  | _ => []
  end.
(* the messages of a history, and whether they were accepted (the call returned 0) *)
Definition attempts (h : list scall) : list (message * bool) :=
  concat (map (fun c => map (fun m => (m, match s_ret c with Some 0 => true | _ => false end)) (message_of (s_op c))) h).
(* the bytes of the accepted ones *)
Definition accepted_bytes (h : list scall) : list N :=
  concat (map (fun a : message * bool => if snd a then m_bytes (fst a) else []) (attempts h)).
(* the bytes the kernel took *)
Definition taken (e : event) : list N := match e with ESend _ b r => firstn (Z.to_nat r) b | _ => [] end.
Definition handed (l : list event) : list N := concat (map taken l).
(* the completion callbacks *)
Definition completion (e : event) : list (nat * pointer * Z) := match e with ESendComplete c x r => [(c, x, r)] | _ => [] end.
Definition completions (l : list event) : list (nat * pointer * Z) := concat (map completion l).

(* C57 *)
Definition stream_preserved (h : list scall) : Prop := prefix (handed (observed h)) (accepted_bytes h).
(* The kernel takes all that socketio_dowork gives it, and a send that is refused has not been
   taken in part. *)
Definition smooth (c : scall) : Prop :=
  match s_op c with
  | ODowork _ => forall fd b r, In (ESend fd b r) (s_events c) -> r = Z.of_nat (length b)
  | OSend _ _ _ _ _ => s_ret c = Some 0 \/ handed (s_events c) = []
  | _ => True
  end.

(* C58.  What became of each message: completed with OK, given up after acceptance, refused by
   socketio_send, or still queued; and which bytes were handed to the kernel on its behalf. *)
Inductive fate := Done | Dropped | Refused | Waiting.
Record journey := { j_msg : message; j_seg : list N; j_fate : fate }.
Definition accepted (f : fate) : bool := match f with Refused => false | _ => true end.
Definition callback_due (j : journey) : list (nat * pointer * Z) :=
  match j_fate j, m_callback (j_msg j) with Done, Some c => [(c, m_context (j_msg j), 0)] | _, _ => [] end.
Definition comparable {A} (a b : list A) : Prop := prefix a b \/ prefix b a.
(* The journeys account for the events [l] seen while these messages were sent: *)
Record explains (sent : list (message * bool)) (l : list event) (js : list journey) : Prop := {
  ex_messages : map (fun j => (j_msg j, accepted (j_fate j))) js = sent;
  (* the kernel was handed the messages one after the other, in the order of the calls, *)
  ex_bytes : handed l = concat (map j_seg js);
  ex_comparable : forall j, In j js -> comparable (m_bytes (j_msg j)) (j_seg j);
  (* the completed ones entirely, *)
  ex_complete : forall j, In j js -> j_fate j = Done -> prefix (m_bytes (j_msg j)) (j_seg j);
  (* the completion callbacks are one for each completed message, in order, *)
  ex_callbacks : completions l = concat (map callback_due js);
  (* each made when all its bytes had been handed over, and none of the next message; *)
  ex_timing : forall a j b, js = a ++ j :: b -> forall cb, callback_due j = [cb] ->
     exists l1 e l2, l = l1 ++ e :: l2 /\ completion e = [cb] /\ handed l1 = concat (map j_seg (a ++ [j])) /\ completions l1 = concat (map callback_due a);
  (* a message is given up only if the kernel refused to take its bytes *)
  ex_dropped : (forall fd b, ~ In (ESend fd b (-1)) l) -> forall j, In j js -> j_fate j <> Dropped
}.
Definition none_waiting (js : list journey) : Prop := forall j, In j js -> j_fate j <> Waiting.
(* ---------------- states ---------------- *)
Inductive mode := MClosed | MOpen | MFailed | MDestroyed.
Definition is_failure (e : event) : bool := match e with ESend _ _ r => r =? -1 | _ => false end.
Definition next_mode (m : mode) (c : scall) : mode :=
  match s_op c with
  | OOpen true _ _ _ _ _ _ => match s_ret c with Some 0 => MOpen | _ => m end
  | OClose true _ _ => MClosed
  | ODowork true => if existsb is_failure (s_events c) then MFailed else m
  | ODestroy true => MDestroyed
  | _ => m
  end.
Definition mode_of (h : list scall) : mode := fold_left next_mode h MClosed.

(* the callbacks given to the last successful open *)
Record registered := { r_bytes : pointer; r_bytes_ctx : pointer; r_error : pointer; r_error_ctx : pointer }.
Definition next_registered (r : registered) (c : scall) : registered :=
  match s_op c, s_ret c with
  | OOpen true _ _ b bc e ec, Some 0 => {| r_bytes := b; r_bytes_ctx := bc; r_error := e; r_error_ctx := ec |}
  | _, _ => r
  end.
Definition registered_by (h : list scall) : registered :=
  fold_left next_registered h {| r_bytes := None; r_bytes_ctx := None; r_error := None; r_error_ctx := None |}.
Definition notify (cb : pointer) (f : nat -> event) : list event := match cb with Some c => [f c] | None => [] end.
(* every received byte goes at once to the bytes callback, every failed send to the error callback *)
Definition react (r : registered) (e : event) : list event :=
  match e with
  | ERecv _ (Some b) => e :: notify (r_bytes r) (fun c => EBytesReceived c (r_bytes_ctx r) [b])
  | ESend _ _ (-1) => e :: notify (r_error r) (fun c => EIoError c (r_error_ctx r))
  | _ => [e]
  end.
Definition is_report (e : event) : bool := match e with EBytesReceived _ _ _ | EIoError _ _ => true | _ => false end.
Definition reports (r : registered) (l : list event) : Prop :=
  l = concat (map (react r) (filter (fun e => negb (is_report e)) l)).

(* ---------------- descriptors ---------------- *)
(* the descriptor the io owns, as seen from the kernel calls *)
Definition next_owner (f : option Z) (e : event) : option Z :=
  match e with
  | ESocket r => if r <? 0 then f else Some r
  | ECloseFd _ => None
  | _ => f
  end.
Definition owner (start : option Z) (l : list event) : option Z := fold_left next_owner l start.
Definition uses (e : event) : option Z :=
  match e with EConnect fd _ | EFcntl fd _ | EShutdown fd | ECloseFd fd | ESend fd _ _ | ERecv fd _ => Some fd | _ => None end.
(* the descriptor the io is created with *)
Definition given (c : config) : option Z := match c_hostname c with Some _ => None | None => c_accepted c end.
(* every kernel call is on the descriptor the io owns, and it never gets a second one *)
Fixpoint disciplined (own : option Z) (l : list event) : Prop :=
  match l with
  | [] => True
  | e :: t => (forall fd, uses e = Some fd -> own = Some fd) /\ (match e with ESocket _ => own = None | _ => True end) /\ disciplined (next_owner own e) t
  end.

(* ---------------- the state machine (C60) ---------------- *)
Definition is_open_complete (e : event) : bool := match e with EOpenComplete _ _ _ => true | _ => false end.
(* what a call does in each mode *)
Definition machine (m : mode) (c : scall) : Prop :=
  match s_op c with
  | OOpen true a b _ _ _ _ =>
      (s_ret c = Some 0 -> m = MClosed) /\
      (m <> MClosed -> s_events c = []) /\
      (* the open callback: once, with OK, exactly when the call succeeds *)
      filter is_open_complete (s_events c) = match s_ret c with Some 0 => notify a (fun q => EOpenComplete q b true) | _ => [] end
  | OClose true a b =>
      match m with
      | MClosed => s_events c = []
      | _ => s_ret c = Some 0 /\ exists fd, s_events c = [EShutdown fd; ECloseFd fd] ++ notify a (fun q => ECloseComplete q b)
      end
  | OSend true _ _ _ _ => (s_ret c = Some 0 -> m = MOpen) /\ (m <> MOpen -> s_events c = [])
  | ODowork true => m <> MOpen -> s_events c = []
  | ODestroy true => m <> MDestroyed
  | _ => s_events c = [] /\ s_ret c <> Some 0
  end.
(* C60 as documented also wants: *)
Definition close_when_closed_fails (m : mode) (c : scall) : Prop :=
  forall a b, s_op c = OClose true a b -> m = MClosed -> s_ret c <> Some 0.

(* what C58 also wants: when the io has failed, was closed or destroyed, every accepted message has had its completion *)
Definition completed_at_the_end (h : list scall) : Prop :=
  mode_of h <> MOpen -> forall m c, In (m, true) (attempts h) -> m_callback m = Some c -> exists r, In (c, m_context m, r) (completions (observed h)).
(* C59: what follows a close is accounted for by the messages sent after it *)
Definition close_discards (h : list scall) : Prop :=
  forall a k b x y, h = a ++ k :: b -> s_op k = OClose true x y -> exists js, explains (attempts b) (observed b) js.
(* C76: the number of send() calls in a call *)
Definition sends (l : list event) : nat := length (filter (fun e => match e with ESend _ _ _ => true | _ => false end) l).
(* the kernel takes at least a byte each time *)
Definition progress (l : list event) : Prop := forall fd b r, In (ESend fd b r) l -> 0 < r.
