(* Model of several threads, each hashing one message in a context of its own with sha1.c,
   sha224.c or sha384-512.c.  The three files keep a scratch variable of the AddLength macro,
   addTemp, in static storage: the only thing threads share.  It is written once and read once
   for each byte, so a thread's work on a byte is cut in two steps, between which others run.
   Simplified: each access of addTemp is one indivisible step (the C program has a data race,
   undefined in C11); each thread gives its message with one Input call; what it does between
   two accesses of addTemp is one step. *)
From Verif Require Import Base Sha_Model.
Open Scope N_scope.
Open Scope o_scope.

(* the static variables: sha1.c:59, sha224.c:70, sha384-512.c:300 *)
Inductive file := F_sha1 | F_sha224 | F_sha384.
Definition file_of (which : N) : file := match which with 0 => F_sha1 | 1 | 2 => F_sha224 | _ => F_sha384 end.
Definition file_eqb (x y : file) : bool :=
  match x, y with F_sha1, F_sha1 | F_sha224, F_sha224 | F_sha384, F_sha384 => true | _, _ => false end.

(* t_left: bytes of the message not yet read; t_mid: addTemp was written for the byte last put
   in the block, and not yet read; t_out: the code of Result and the digest, when it returned *)
Record thread := { t_which : N; t_ctx : context; t_left : list N; t_mid : bool; t_out : option (N * option (list N)) }.

(* addTemp was written; Length_Low += length, compared with addTemp, and so on: sha1.c:62-64,
   sha224.c:72-74, sha384-512.c:302-304 *)
Definition AddLength_rest (V : variant) (temp : N) (c : context) (n : N) : context :=
  let low := (Length_Low c + n) mod 2 ^ word_bits V in
  let carry := low <? temp in
  let high := if carry then (Length_High c + 1) mod 2 ^ word_bits V else Length_High c in
  {| Intermediate_Hash := Intermediate_Hash c; Length_Low := low; Length_High := high;
     Message_Block_Index := Message_Block_Index c; Message_Block := Message_Block c;
     Computed := Computed c; Corrupted := if carry && (high =? 0) then 1 else 0 |}.

(* one step of a thread, given addTemp; the new addTemp.  The loop of Input (sha1.c:146-155,
   sha224.c:246-256, sha384-512.c:485-494), then Result. *)
Definition tstep (temp : N) (t : thread) : option (N * thread) :=
  V <- variant_of (t_which t) ;;
  let with_ c l mid out := {| t_which := t_which t; t_ctx := c; t_left := l; t_mid := mid; t_out := out |} in
  match t_out t with
  | Some _ => Some (temp, t)
  | None =>
      if t_mid t then
        let c2 := AddLength_rest V temp (t_ctx t) 8 in
        c3 <- (if (Corrupted c2 =? 0) && (Message_Block_Index c2 =? Block_Size V)%nat then ProcessMessageBlock V c2 else Some c2) ;;
        Some (temp, with_ c3 (t_left t) false None)
      else
        match t_left t with
        | b :: l =>
            if Corrupted (t_ctx t) =? 0 then
              c1 <- put_byte (t_ctx t) (N.land b 0xFF) ;; Some (Length_Low c1, with_ c1 l true None)
            else Some (temp, with_ (t_ctx t) [] false None)
        | [] => r <- sha_result V (Some (t_ctx t)) true ;; c' <- snd r ;; Some (temp, with_ c' [] false (Some (fst r)))
        end
  end.

Record rstate := { addTemp : file -> N; threads : list thread }.

Definition rstep (s : rstate) (i : nat) : option rstate :=
  match nth_error (threads s) i with
  | None => Some s
  | Some t =>
      r <- tstep (addTemp s (file_of (t_which t))) t ;;
      Some {| addTemp := fun f => if file_eqb f (file_of (t_which t)) then fst r else addTemp s f; threads := upd (threads s) i (snd r) |}
  end.

(* a schedule: which thread takes the next step *)
Fixpoint rrun (s : rstate) (sched : list nat) : option rstate :=
  match sched with [] => Some s | i :: k => s' <- rstep s i ;; rrun s' k end.

(* the threads after Reset (sha_reset's lines), with the selector and the message of each *)
Fixpoint start_threads (jobs : list (N * list N)) : option (list thread) :=
  match jobs with
  | [] => Some []
  | (w, m) :: k => V <- variant_of w ;; r <- start_threads k ;;
                   Some ({| t_which := w; t_ctx := sha_reset V; t_left := m; t_mid := false; t_out := None |} :: r)
  end.
Definition rstart (jobs : list (N * list N)) : option rstate :=
  ts <- start_threads jobs ;; Some {| addTemp := fun _ => 0; threads := ts |}.
