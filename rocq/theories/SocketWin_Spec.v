(* What a user of the Windows socket io relies on. *)
From Verif Require Import Base SocketWin_Model.
Local Open Scope Z_scope.

(* the bytes the sockets took; what the user was given; his callbacks *)
Definition wire (l : list out) : list N := flat_map (fun o => match o with Wire _ b => b | _ => [] end) (rev l).
Definition given (l : list out) : list N := flat_map (fun o => match o with Bytes _ b => b | _ => [] end) (rev l).
Definition completed (l : list out) : list N := flat_map (fun o => match o with SendComplete c => [c] | _ => [] end) (rev l).
(* the messages socketio_send accepted, and their callbacks *)
Definition accepted (l : list out) : list (list N * callback) :=
  flat_map (fun o => match o with SendReturns b c true => [(b, c)] | _ => [] end) (rev l).
Definition accepted_bytes (l : list out) : list N := flat_map fst (accepted l).
Definition accepted_callbacks (l : list out) : list N := flat_map (fun m => match snd m with Some c => [c] | None => [] end) (accepted l).
(* the sockets made or taken over, and those closed, in order *)
Definition made (l : list out) : list nat := flat_map (fun o => match o with Socket s => [s] | _ => [] end) (rev l).
Definition closed (l : list out) : list nat := flat_map (fun o => match o with Closed s => [s] | _ => [] end) (rev l).
(* opens and closes that succeeded; errors reported *)
Definition opens (l : list out) : nat := length (filter (fun o => match o with OpenReturns true => true | _ => false end) l).
Definition closes (l : list out) : nat := length (filter (fun o => match o with CloseReturns true => true | _ => false end) l).
Definition errors (l : list out) : nat := length (filter (fun o => match o with Error _ => true | _ => false end) l).
(* the bytes that came *)
Definition came (es : list event) : list N := flat_map (fun e => match e with Received (Byte b) => [b] | _ => [] end) es.

(* The user does not destroy the io in a callback, nor use it after that, nor call socketio_dowork in the
   on_send_complete of a message socketio_dowork sent. *)
Definition calm_event (e : event) (i : io) : Prop :=
  match e with
  | Open _ _ _ _ | Close _ | Send _ _ _ _ _ => alive i = true
  | Destroy => alive i = true /\ frames i = []
  | Dowork => alive i = true /\ match frames i with AfterDone _ :: _ => False | _ => True end
  | _ => True
  end.
(* A socket takes all it is given, or nothing; and what waits does not meet an error. *)
Definition whole_event (e : event) (i : io) : Prop :=
  match e with
  | Send bs _ r _ _ => r = -1 \/ r = Z.of_nat (length bs)
  | Sent r e => r = -1 /\ e = WSAEWOULDBLOCK \/ exists p q, queue i = p :: q /\ r = Z.of_nat (length (p_bytes p))
  | _ => True
  end.
Fixpoint always (P : event -> io -> Prop) (es : list event) (i : io) : Prop :=
  match es with
  | [] => True
  | e :: es => P e i /\ match step e i with Next j => always P es j | _ => True end
  end.
(* a new io, of either kind *)
Definition fresh (i : io) : Prop := i = created_accepted \/ exists h, i = created h.
