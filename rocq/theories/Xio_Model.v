(* Model of src/xio.c.  The concrete functions behind an interface are an adversary: each call
   of one takes the next answer, and is recorded with its arguments and that answer. *)
From Verif Require Import Base.
Open Scope N_scope.

Definition pointer := option nat.            (* NULL, or some address or callback *)

(* inc/azure_c_shared_utility/xio.h:47-56 IO_INTERFACE_DESCRIPTION: function pointers *)
Record io_interface := { concrete_io_create : pointer; concrete_io_destroy : pointer; concrete_io_open : pointer;
                         concrete_io_close : pointer; concrete_io_send : pointer; concrete_io_dowork : pointer;
                         concrete_io_setoption : pointer }.

(* Calls of concrete functions: the function called, its arguments, what it returned *)
Inductive ccall :=
| CCreate (f : nat) (params logger : pointer) (result : pointer)
| CDestroy (f : nat) (h : nat)
| COpen (f : nat) (h : nat) (onopen openctx onbytes bytesctx onerror errorctx : pointer) (result : Z)
| CClose (f : nat) (h : nat) (onclose ctx : pointer) (result : Z)
| CSend (f : nat) (h : nat) (buf : pointer) (size : N) (onsent ctx : pointer) (result : Z)
| CDowork (f : nat) (h : nat)
| CSetOption (f : nat) (h : nat) (name value : pointer) (result : Z).

(* xio.c:12-16 *)
Record xio_instance := { io_interface_description : io_interface; concrete_xio_handle : nat }.

(* slot i: instance i, None once freed *)
Record xstate := { instances : list (option xio_instance); answers_handle : list pointer; answers_int : list Z; calls : list ccall }.

Definition with_call (s : xstate) (c : ccall) : xstate :=
  {| instances := instances s; answers_handle := answers_handle s; answers_int := answers_int s; calls := calls s ++ [c] |}.
Definition with_instances (s : xstate) (l : list (option xio_instance)) : xstate :=
  {| instances := l; answers_handle := answers_handle s; answers_int := answers_int s; calls := calls s |}.
Definition get_xio (s : xstate) (i : nat) : option xio_instance :=
  match nth_error (instances s) i with Some (Some x) => Some x | _ => None end.

(* what the next concrete function returns *)
Definition next_int (s : xstate) : Z * xstate :=
  (hd 0%Z (answers_int s),
   {| instances := instances s; answers_handle := answers_handle s; answers_int := tl (answers_int s); calls := calls s |}).
Definition next_pointer (s : xstate) : pointer * xstate :=
  (hd None (answers_handle s),
   {| instances := instances s; answers_handle := tl (answers_handle s); answers_int := answers_int s; calls := calls s |}).

Inductive xop :=
| XCreate (d : option io_interface) (params logger : pointer)
| XDestroy (x : pointer)
| XOpen (x onopen openctx onbytes bytesctx onerror errorctx : pointer)
| XClose (x onclose ctx : pointer)
| XSend (x buf : pointer) (size : N) (onsent ctx : pointer)
| XDowork (x : pointer)
| XSetOption (x name value : pointer).
Inductive xret := XRH (h : pointer) | XRI (r : Z) | XRU.

(* xio.c:18-56 xio_create *)
Definition xio_create (s : xstate) (d : option io_interface) (params logger : pointer) : M (xret * xstate) :=
  match d with
  | None => ret (XRH None, s)
  | Some d =>
      match concrete_io_create d, concrete_io_destroy d, concrete_io_open d, concrete_io_close d, concrete_io_send d, concrete_io_dowork d, concrete_io_setoption d with
      | Some f, Some _, Some _, Some _, Some _, Some _, Some _ =>
          (ok <- alloc ;;
           if negb ok then ret (XRH None, s)
           else
             let '(h, s) := next_pointer s in
             let s := with_call s (CCreate f params logger h) in
             match h with
             | None => ret (XRH None, s)
             | Some h => ret (XRH (Some (length (instances s))),
                              with_instances s (instances s ++ [Some {| io_interface_description := d; concrete_xio_handle := h |}]))
             end)%m
      | _, _, _, _, _, _, _ => ret (XRH None, s)
      end
  end.

(* a call through a function pointer of the interface: NULL is undefined *)
Definition through (p : pointer) : M nat := lift p.

(* xio.c:58-71 xio_destroy *)
Definition xio_destroy (s : xstate) (x : pointer) : M (xret * xstate) :=
  match x with
  | None => ret (XRU, s)
  | Some i => (xi <- lift (get_xio s i) ;;
               f <- through (concrete_io_destroy (io_interface_description xi)) ;;
               let s := with_call s (CDestroy f (concrete_xio_handle xi)) in
               ret (XRU, with_instances s (upd (instances s) i None)))%m
  end.

(* xio.c:73-100 xio_open *)
Definition xio_open (s : xstate) (x onopen openctx onbytes bytesctx onerror errorctx : pointer) : M (xret * xstate) :=
  match x with
  | None => ret (XRI 80, s)
  | Some i => (xi <- lift (get_xio s i) ;;
               f <- through (concrete_io_open (io_interface_description xi)) ;;
               let '(r, s) := next_int s in
               let s := with_call s (COpen f (concrete_xio_handle xi) onopen openctx onbytes bytesctx onerror errorctx r) in
               ret (XRI (if (r =? 0)%Z then 0 else 90), s))%m
  end.

(* xio.c:102-129 xio_close *)
Definition xio_close (s : xstate) (x onclose ctx : pointer) : M (xret * xstate) :=
  match x with
  | None => ret (XRI 109, s)
  | Some i => (xi <- lift (get_xio s i) ;;
               f <- through (concrete_io_close (io_interface_description xi)) ;;
               let '(r, s) := next_int s in
               let s := with_call s (CClose f (concrete_xio_handle xi) onclose ctx r) in
               ret (XRI (if (r =? 0)%Z then 0 else 119), s))%m
  end.

(* xio.c:131-153 xio_send *)
Definition xio_send (s : xstate) (x buf : pointer) (size : N) (onsent ctx : pointer) : M (xret * xstate) :=
  match x with
  | None => ret (XRI 139, s)
  | Some i => (xi <- lift (get_xio s i) ;;
               f <- through (concrete_io_send (io_interface_description xi)) ;;
               let '(r, s) := next_int s in
               ret (XRI r, with_call s (CSend f (concrete_xio_handle xi) buf size onsent ctx r)))%m
  end.

(* xio.c:155-165 xio_dowork *)
Definition xio_dowork (s : xstate) (x : pointer) : M (xret * xstate) :=
  match x with
  | None => ret (XRU, s)
  | Some i => (xi <- lift (get_xio s i) ;;
               f <- through (concrete_io_dowork (io_interface_description xi)) ;;
               ret (XRU, with_call s (CDowork f (concrete_xio_handle xi))))%m
  end.

(* xio.c:167-187 xio_setoption *)
Definition xio_setoption (s : xstate) (x name value : pointer) : M (xret * xstate) :=
  match x, name with
  | Some i, Some _ => (xi <- lift (get_xio s i) ;;
               f <- through (concrete_io_setoption (io_interface_description xi)) ;;
               let '(r, s) := next_int s in
               ret (XRI r, with_call s (CSetOption f (concrete_xio_handle xi) name value r)))%m
  | _, _ => ret (XRI 174, s)
  end.

Definition xstep (s : xstate) (op : xop) : M (xret * xstate) :=
  match op with
  | XCreate d p l => xio_create s d p l
  | XDestroy x => xio_destroy s x
  | XOpen x a b c d e f => xio_open s x a b c d e f
  | XClose x a b => xio_close s x a b
  | XSend x b n a c => xio_send s x b n a c
  | XDowork x => xio_dowork s x
  | XSetOption x n v => xio_setoption s x n v
  end.
