(* Specification of xio: histories of calls, each with its result and the concrete calls made
   during it; who owns a handle is read off the history alone. *)
From Verif Require Import Base Xio_Model.
Open Scope N_scope.

Record xcall := { x_op : xop; x_ret : xret; x_made : list ccall }.

(* run from the start, whatever the concrete functions answer *)
Fixpoint xhistory (s : xstate) (ops : list xop) : M (list xcall * xstate) :=
  match ops with
  | [] => ret ([], s)
  | op :: t => (x <- xstep s op ;;
                y <- xhistory (snd x) t ;;
                ret ({| x_op := op; x_ret := fst x; x_made := skipn (length (calls s)) (calls (snd x)) |} :: fst y, snd y))%m
  end.
Definition xstart (hs : list pointer) (rs : list Z) : xstate := {| instances := []; answers_handle := hs; answers_int := rs; calls := [] |}.

(* every function is there *)
Definition complete (d : io_interface) : Prop :=
  concrete_io_create d <> None /\ concrete_io_destroy d <> None /\ concrete_io_open d <> None /\ concrete_io_close d <> None /\
  concrete_io_send d <> None /\ concrete_io_dowork d <> None /\ concrete_io_setoption d <> None.

(* this call created handle i for interface d, with the concrete handle h *)
Definition creates (c : xcall) (i : nat) (d : io_interface) (h : nat) : Prop :=
  exists p l f, x_op c = XCreate (Some d) p l /\ x_ret c = XRH (Some i) /\ concrete_io_create d = Some f /\ x_made c = [CCreate f p l (Some h)].
(* handle i is of interface d and concrete handle h, and not destroyed *)
Definition owns (past : list xcall) (i : nat) (d : io_interface) (h : nat) : Prop :=
  exists a c b, past = a ++ c :: b /\ creates c i d h /\ forall x, In x b -> x_op x <> XDestroy (Some i).

(* What a call must do, given the calls before it *)
Definition faithful (past : list xcall) (c : xcall) : Prop :=
  match x_op c with
  | XCreate d p l =>
      match x_ret c with
      | XRH (Some i) => exists d' h, d = Some d' /\ complete d' /\ creates c i d' h /\ (forall x d'' h', In x past -> ~ creates x i d'' h')
      | XRH None => x_made c = [] \/ exists d' f, d = Some d' /\ complete d' /\ concrete_io_create d' = Some f /\ x_made c = [CCreate f p l None]
      | _ => False
      end
  | XDestroy None => x_made c = []
  | XDestroy (Some i) => exists d h f, owns past i d h /\ concrete_io_destroy d = Some f /\ x_made c = [CDestroy f h]
  | XOpen None _ _ _ _ _ _ => x_made c = [] /\ x_ret c <> XRI 0
  | XOpen (Some i) a1 a2 a3 a4 a5 a6 => exists d h f r, owns past i d h /\ concrete_io_open d = Some f /\
      x_made c = [COpen f h a1 a2 a3 a4 a5 a6 r] /\ (exists r', x_ret c = XRI r' /\ (r' = 0 <-> r = 0)%Z)
  | XClose None _ _ => x_made c = [] /\ x_ret c <> XRI 0
  | XClose (Some i) a1 a2 => exists d h f r, owns past i d h /\ concrete_io_close d = Some f /\
      x_made c = [CClose f h a1 a2 r] /\ (exists r', x_ret c = XRI r' /\ (r' = 0 <-> r = 0)%Z)
  | XSend None _ _ _ _ => x_made c = [] /\ x_ret c <> XRI 0
  | XSend (Some i) b n a1 a2 => exists d h f r, owns past i d h /\ concrete_io_send d = Some f /\
      x_made c = [CSend f h b n a1 a2 r] /\ x_ret c = XRI r
  | XDowork None => x_made c = []
  | XDowork (Some i) => exists d h f, owns past i d h /\ concrete_io_dowork d = Some f /\ x_made c = [CDowork f h]
  | XSetOption None _ _ | XSetOption _ None _ => x_made c = [] /\ x_ret c <> XRI 0
  | XSetOption (Some i) (Some n) v => exists d h f r, owns past i d h /\ concrete_io_setoption d = Some f /\
      x_made c = [CSetOption f h (Some n) v r] /\ x_ret c = XRI r
  end.

(* Given an incomplete interface, or no memory, no handle: the first with no call at all *)
Definition refuses (c : xcall) : Prop :=
  forall d p l, x_op c = XCreate d p l -> (forall d', d = Some d' -> ~ complete d') -> x_ret c = XRH None /\ x_made c = [].

(* the concrete calls of a history *)
Definition made (h : list xcall) : list ccall := concat (map x_made h).
Definition is_destroy (f h : nat) (c : ccall) : bool := match c with CDestroy f' h' => (f' =? f)%nat && (h' =? h)%nat | _ => false end.
