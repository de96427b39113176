(* What a user of the mbed socket io relies on. *)
From Verif Require Import Base SocketMbed_Model.
Local Open Scope Z_scope.

(* the bytes the connections took; what the user was given; the messages accepted by socketio_send; its callbacks *)
Definition wire (l : list out) : list N := flat_map (fun o => match o with Wire _ b => b | _ => [] end) (rev l).
Definition given (l : list out) : list N := flat_map (fun o => match o with Bytes _ b => b | _ => [] end) (rev l).
Definition completed (l : list out) : list N := flat_map (fun o => match o with SendComplete c => [c] | _ => [] end) (rev l).

(* the messages socketio_send accepted, and their callbacks *)
Definition accepted (l : list out) : list (list N * callback) :=
  flat_map (fun o => match o with SendReturns b c true => [(b, c)] | _ => [] end) (rev l).
Definition accepted_bytes (l : list out) : list N := flat_map fst (accepted l).
Definition accepted_callbacks (l : list out) : list N := flat_map (fun m => match snd m with Some c => [c] | None => [] end) (accepted l).

(* In his callbacks the user does nothing with the io but send; the io is opened only when it is closed,
   and not used after destroy; no send is refused for want of memory after its beginning went out. *)
Definition calm_event (e : event) (i : io) : Prop :=
  match e with
  | Open _ _ _ _ => alive i = true /\ frames i = [] /\ io_state i = IO_STATE_CLOSED
  | Close _ | Dowork | Destroy => alive i = true /\ frames i = []
  | Send bs _ r memory => alive i = true /\ (memory = false -> r <= 0)
  | _ => True
  end.
(* The connection takes all that socketio_dowork gives it, or nothing. *)
Definition whole_event (e : event) (i : io) : Prop :=
  match e with
  | Sent r => r <= 0 \/ exists p q, queue i = p :: q /\ r = Z.of_nat (length (p_bytes p))
  | _ => True
  end.
Fixpoint always (P : event -> io -> Prop) (es : list event) (i : io) : Prop :=
  match es with
  | [] => True
  | e :: es => P e i /\ match step e i with Next j => always P es j | _ => True end
  end.
(* the bytes that came *)
Definition came (es : list event) : list N := flat_map (fun e => match e with Received (Some bs) => bs | _ => [] end) es.
(* opens and closes that succeeded *)
Definition opens (l : list out) : nat := count_occ bool_dec (map (fun o => match o with OpenReturns true => true | _ => false end) l) true.
Definition closes (l : list out) : nat := count_occ bool_dec (map (fun o => match o with CloseReturns true => true | _ => false end) l) true.
(* the connection objects never deleted once the io is destroyed *)
Definition leaked (i : io) : nat := length (live i).
