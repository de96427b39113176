(* Model of src/constbuffer.c (one thread; the interleavings of threads are in
   Refcount_Model.v), together with the BUFFERs it copies from. *)
From Verif Require Import Base Buffer_Model Refcount_Model.
Open Scope N_scope.

(* constbuffer.c:17-22 with the counter of refcount.h:44-49 *)
Record CONSTBUFFER := { cb_buffer : ptr; cb_size : N; cb_count : N }.
Record cbstate := { bufs : buffers; cbs : list (option CONSTBUFFER) }.

Inductive cbret :=
| CBH (h : option nat)                      (* CONSTBUFFER_HANDLE *)
| CBC (c : option (block * N))              (* const CONSTBUFFER*: the size bytes at buffer, and size *)
| CBU
| CBB (r : bret).                           (* result of a BUFFER call *)

Inductive cbop :=
| CBCreate (s : bsrc) (n : N)
| CBCreateFromBuffer (h : option nat)
| CBClone (h : option nat)
| CBGetContent (h : option nat)
| CBDestroy (h : option nat)
| CBBuf (op : bop).                         (* any BUFFER call *)

Definition getcb (st : cbstate) (h : nat) : option CONSTBUFFER :=
  match nth_error (cbs st) h with Some (Some c) => Some c | _ => None end.
Definition with_cbs (st : cbstate) (l : list (option CONSTBUFFER)) : cbstate := {| bufs := bufs st; cbs := l |}.

(* constbuffer.c:24-68 CONSTBUFFER_Create_Internal; src n = the n bytes at source *)
Definition CONSTBUFFER_Create_Internal (st : cbstate) (src : nat -> option block) (n : N) : M (cbret * cbstate) :=
  (ok <- alloc ;;
   if negb ok then ret (CBH None, st)
   else if n =? 0 then
     ret (CBH (Some (length (cbs st))),
          with_cbs st (cbs st ++ [Some {| cb_buffer := PNull; cb_size := n; cb_count := 1 |}]))
   else
     ok2 <- alloc ;;
     if negb ok2 then ret (CBH None, st)
     else
       cs <- lift (src (N.to_nat n)) ;;
       b <- lift (memcpy_to (fresh (N.to_nat n)) 0 cs) ;;
       ret (CBH (Some (length (cbs st))),
            with_cbs st (cbs st ++ [Some {| cb_buffer := PBlock b; cb_size := n; cb_count := 1 |}])))%m.

(* constbuffer.c:70-87 CONSTBUFFER_Create *)
Definition CONSTBUFFER_Create (st : cbstate) (s : bsrc) (n : N) : M (cbret * cbstate) :=
  if is_null s && negb (n =? 0) then ret (CBH None, st)
  else CONSTBUFFER_Create_Internal st (read_src (bufs st) s) n.

(* constbuffer.c:90-104 CONSTBUFFER_CreateFromBuffer *)
Definition CONSTBUFFER_CreateFromBuffer (st : cbstate) (h : option nat) : M (cbret * cbstate) :=
  match h with
  | None => ret (CBH None, st)
  | Some i => (p <- BUFFER_u_char (bufs st) (Some i) ;;
               n <- BUFFER_length (bufs st) (Some i) ;;
               CONSTBUFFER_Create_Internal st
                 (fun k => match fst p with
                           | BRP (Some c) => if (k <=? length c)%nat then Some (firstn k c) else None
                           | _ => None
                           end)
                 (match fst n with BRN k => k | _ => 0 end))%m
  end.

(* constbuffer.c:106-119 CONSTBUFFER_Clone *)
Definition CONSTBUFFER_Clone (st : cbstate) (h : option nat) : M (cbret * cbstate) :=
  match h with
  | None => ret (CBH None, st)
  | Some i => (c <- lift (getcb st i) ;;
               ret (CBH (Some i), with_cbs st (upd (cbs st) i (Some {| cb_buffer := cb_buffer c; cb_size := cb_size c;
                                                                       cb_count := inc_ref (cb_count c) |}))))%m
  end.

(* constbuffer.c:121-136 CONSTBUFFER_GetContent, and the client reading the bytes *)
Definition CONSTBUFFER_GetContent (st : cbstate) (h : option nat) : M (cbret * cbstate) :=
  match h with
  | None => ret (CBC None, st)
  | Some i => (c <- lift (getcb st i) ;;
               b <- lift (read_ptr (cb_buffer c) (N.to_nat (cb_size c))) ;;
               ret (CBC (Some (b, cb_size c)), st))%m
  end.

(* constbuffer.c:138-152 CONSTBUFFER_Destroy; a = the kind of atomics *)
Definition CONSTBUFFER_Destroy (a : atomics) (st : cbstate) (h : option nat) : M (cbret * cbstate) :=
  match h with
  | None => ret (CBU, st)
  | Some i => (c <- lift (getcb st i) ;;
               if dec_hits_zero a (cb_count c)
               then _ <- lift (free_ptr (cb_buffer c)) ;; ret (CBU, with_cbs st (upd (cbs st) i None))
               else ret (CBU, with_cbs st (upd (cbs st) i (Some {| cb_buffer := cb_buffer c; cb_size := cb_size c;
                                                                   cb_count := dec_ref (cb_count c) |}))))%m
  end.

Definition cbstep (a : atomics) (st : cbstate) (op : cbop) : M (cbret * cbstate) :=
  match op with
  | CBCreate s n => CONSTBUFFER_Create st s n
  | CBCreateFromBuffer h => CONSTBUFFER_CreateFromBuffer st h
  | CBClone h => CONSTBUFFER_Clone st h
  | CBGetContent h => CONSTBUFFER_GetContent st h
  | CBDestroy h => CONSTBUFFER_Destroy a st h
  | CBBuf op => (x <- bstep (bufs st) op ;; ret (CBB (fst x), {| bufs := snd x; cbs := cbs st |}))%m
  end.
