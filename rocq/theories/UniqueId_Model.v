(* Model of adapters/uniqueid_stub.c: UniqueId_Generate.

   rand() is an argument: the sixteen values it will return, in order.  The
   caller's buffer is a block of cells; a write outside it is undefined
   behaviour (None).  The log is not modelled. *)
From Verif Require Import Base.
Local Open Scope N_scope.

(* uniqueid.h: UNIQUEID_RESULT *)
Inductive UNIQUEID_RESULT := UNIQUEID_OK | UNIQUEID_INVALID_ARG | UNIQUEID_ERROR.

(* uniqueid_stub.c:12 (tochar); an index above 15 would be out of bounds *)
Definition tochar : list N := str "0123456789ABCDEF".

(* reading and writing a byte of the local array (16 bytes) *)
Definition get (a : list N) (i : nat) : option N := nth_error a i.
Fixpoint set (a : list N) (i : nat) (v : N) : option (list N) :=
  match a, i with
  | [], _ => None
  | _ :: t, O => Some (v :: t)
  | c :: t, S j => match set t j v with Some t' => Some (c :: t') | None => None end
  end.

Notation "x <- m ;; f" := (match m with Some x => f | None => None end)
  (at level 61, m at next level, right associativity).

(* uniqueid_stub.c:19 : (unsigned char)rand() *)
Definition to_uchar (r : Z) : N := Z.to_N (r mod 256).

(* uniqueid_stub.c:13-34; the loop :17-20 fills the array from the first
   sixteen answers of rand() *)
Definition generate128BitUUID (rand : nat -> Z) : option (list N) :=
  let a := map (fun i => to_uchar (rand i)) (seq 0 16) in
  b7 <- get a 7 ;;
  a <- set a 7 (N.land b7 0x0f) ;;                 (* :25 *)
  b7 <- get a 7 ;;
  a <- set a 7 (N.lor b7 0x40) ;;                  (* :26 *)
  b8 <- get a 8 ;;
  a <- set a 8 (N.land b8 0xf3) ;;                 (* :31 *)
  b8 <- get a 8 ;;
  set a 8 (N.lor b8 0x08).                         (* :32 *)

(* The state of the loops :57-71: the local array, the caller's buffer and
   characterPosition. *)
Definition state : Type := (list N * list (option N) * nat)%type.

(* uniqueid_stub.c:60-70, one round of the inner loop *)
Definition round (i : nat) (s : state) : option state :=
  let '(a, uid, pos) := s in
  b <- get a i ;;
  hexChar <- nth_error tochar (N.to_nat (N.land b 0xf)) ;;           (* :61 *)
  up <-
    (if ((pos =? 8) || (pos =? 13) || (pos =? 18) || (pos =? 23))%nat  (* :62 *)
     then uid <- store uid pos (ch "-") ;; Some (uid, S pos)           (* :64-65 *)
     else Some (uid, pos)) ;;
  let '(uid, pos) := up in
  uid <- store uid pos hexChar ;;                                      (* :67 *)
  a <- set a i (N.shiftr b 4) ;;                                       (* :69 *)
  Some (a, uid, S pos).                                                (* :68 *)

(* uniqueid_stub.c:57-71: rounds left of the outer loop, each with
   shiftCount = 0, 1 *)
Fixpoint rounds (i n : nat) (s : state) : option state :=
  match n with
  | O => Some s
  | S n => s <- round i s ;; s <- round i s ;; rounds (S i) n s
  end.

(* uniqueid_stub.c:37-76.  [uid] None is a NULL pointer.  The result gives
   the buffer afterwards. *)
Definition UniqueId_Generate (uid : option (list (option N))) (len : N) (rand : nat -> Z)
  : option (UNIQUEID_RESULT * option (list (option N))) :=
  match uid with
  | None => Some (UNIQUEID_INVALID_ARG, None)
  | Some blk =>
      if len <? 37 then Some (UNIQUEID_INVALID_ARG, Some blk)
      else
        a <- generate128BitUUID rand ;;
        s <- rounds 0 16 (a, blk, 0%nat) ;;
        let '(_, blk, pos) := s in
        blk <- store blk pos 0 ;;                                      (* :72 *)
        Some (UNIQUEID_OK, Some blk)
  end.
