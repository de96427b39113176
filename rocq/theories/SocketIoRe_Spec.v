(* Specification of the socket io under re-entrant callbacks. *)
From Verif Require Import Base SocketIo_Model SocketIo_Spec SocketIoRe_Model.
Open Scope Z_scope.

(* ---------------- what the user's code may call from a callback ---------------- *)
(* callbacks after which the function that made them returns without touching the io *)
Definition last_act (f : frame) : bool := match f with InOpen _ | InClose _ | InSendFailed _ => true | _ => false end.
(* the completion callback of a message that socketio_dowork has just sent *)
Definition work_completion (f : frame) : bool := match f with InWorkSent _ _ => true | _ => false end.
(* The rules, for the callbacks that are running now: nothing after the io was destroyed; destroy
   only where every running callback is a last act; dowork anywhere but within the completion of a
   message sent by dowork.  Open, send and close anywhere. *)
Definition permitted (destroyed : bool) (running : list frame) (o : rop) : bool :=
  negb destroyed &&
  match o with
  | RDestroy => forallb last_act running
  | RDowork => negb (existsb work_completion running)
  | _ => true
  end.
Definition is_destroy (e : seen) : bool := match e with Called _ RDestroy => true | _ => false end.
Fixpoint law_abiding (logging : bool) (s : st) (l : list label) : Prop :=
  match l with
  | [] => True
  | a :: t => (match a with LCall o _ => permitted (existsb is_destroy (out s)) (stack s) o = true | _ => True end) /\
              match re_step logging s a with Ok s => law_abiding logging s t | _ => True end
  end.
(* what socketio_create gives: closed, with an accepted socket or none *)
Definition new_io (x : sio) : Prop := state x = CLOSED /\ -1 <= sock x.
(* s is reached by a user who keeps the rules *)
Definition re_reach (logging : bool) (x : sio) (s : st) : Prop :=
  new_io x /\ exists l, law_abiding logging (re_start x) l /\ re_run logging (re_start x) l = Ok s.
(* s is reached in any way *)
Definition re_any (logging : bool) (x : sio) (s : st) : Prop := new_io x /\ exists l, re_run logging (re_start x) l = Ok s.

(* ---------------- what is seen ---------------- *)
Definition events_of (l : list seen) : list event := concat (map (fun e => match e with Did e => [e] | _ => [] end) l).
(* the messages the user tried to send, in the order of the calls, and whether the call returned 0 *)
Definition sends_of (l : list seen) : list (nat * message) :=
  concat (map (fun e => match e with
                        | Called n (RSend (b :: t) cb ctx) => [(n, {| m_bytes := b :: t; m_callback := cb; m_context := ctx |})]
                        | _ => [] end) l).
Definition returned_ok (l : list seen) (n : nat) : bool :=
  existsb (fun e => match e with Returned k (Some 0) => (k =? n)%nat | _ => false end) l.
Definition re_attempts (l : list seen) : list (message * bool) := map (fun a => (snd a, returned_ok l (fst a))) (sends_of l).
(* control is back in the user's program *)
Definition quiescent (s : st) : Prop := at_ s = User /\ stack s = [].

(* ---------------- descriptors ---------------- *)
(* every kernel call is on the descriptor the io owns, or on the invalid one; never two at a time *)
Fixpoint tidy (own : option Z) (l : list event) : Prop :=
  match l with
  | [] => True
  | e :: t => (forall fd, uses e = Some fd -> fd <> -1 -> own = Some fd) /\ (match e with ESocket _ => own = None | _ => True end) /\ tidy (next_owner own e) t
  end.
Definition owned_at_birth (x : sio) : option Z := if sock x =? -1 then None else Some (sock x).

(* ---------------- closing ---------------- *)
(* callbacks after which socketio_dowork goes on sending *)
Definition sending_frame (f : frame) : bool := match f with InWorkSent _ _ | InWorkFailed _ => true | _ => false end.
(* the messages still to be sent: the one whose completion callback is running has been *)
Definition rest_items (s : st) (x : rio) : list nat := if existsb work_completion (stack s) then tl (items x) else items x.
Definition is_open_call (l : label) : bool := match l with LCall (ROpen _ _ _ _ _ _) _ => true | _ => false end.
Definition moves_bytes (e : event) : bool := match e with ESend _ _ _ | ERecv _ (Some _) => true | _ => false end.
Definition io_state_of (s : st) : option io_state := match inst s with Some x => Some (state (core x)) | None => None end.

(* ---------------- the buffer of a send ---------------- *)
Definition is_callback (e : seen) : bool :=
  match e with Did (EOpenComplete _ _ _ | ECloseComplete _ _ | ESendComplete _ _ _ | EBytesReceived _ _ _ | EIoError _ _) => true | _ => false end.
(* every read of the buffer of call n comes after the call and before the next callback *)
Definition buffer_read_early (l : list seen) : Prop :=
  forall l1 n l2, l = l1 ++ Read n :: l2 -> exists l0 o l', l1 = l0 ++ Called n o :: l' /\ existsb is_callback l' = false.
