(* Model of src/buffer.c.  The heap of BUFFER objects is a list of slots (None once
   deleted).  Sizes are 64-bit unsigned (size_t), sums wrap.  malloc(0) may succeed
   (a block of no bytes) or fail, as the oracle says.  realloc(p, 0) behaves as in
   glibc: p is freed and NULL is returned.  memcpy copies bytes, also never-written
   ones; memcpy with size 0 touches nothing, even for NULL. *)
From Verif Require Import Base.
From Verif Require Export Mem.
Open Scope N_scope.

(* buffer.c:22-26 *)
Record BUFFER := { buffer : ptr; size : N }.

Definition buffers := list (option BUFFER).

(* A source argument: NULL, bytes elsewhere, or a pointer into a BUFFER's block. *)
Inductive bsrc := BSNull | BSBytes (l : list N) | BSOf (h k : nat).

Inductive bret :=
| BRH (h : option nat)         (* BUFFER_HANDLE *)
| BRI (ok : bool)              (* int: true = 0 *)
| BRP (c : option block)       (* pointer: NULL or what it points to *)
| BRN (n : N).                 (* size_t *)

Inductive bop :=
| BNew
| BCreate (s : bsrc) (n : N)
| BDelete (h : option nat)
| BBuild (h : option nat) (s : bsrc) (n : N)
| BPreBuild (h : option nat) (n : N)
| BContent (h : option nat)
| BUnbuild (h : option nat)
| BEnlarge (h : option nat) (n : N)
| BSize (h : option nat)
| BAppend (h1 h2 : option nat)
| BPrepend (h1 h2 : option nat)
| BUChar (h : option nat)
| BLength (h : option nat)
| BClone (h : option nat)
| BPoke (h i : nat) (v : N).   (* the client writes through BUFFER_u_char *)

Definition getbuf (st : buffers) (h : nat) : option BUFFER :=
  match nth_error st h with Some (Some b) => Some b | _ => None end.

(* The n bytes a source points to; None = not n readable bytes there. *)
Definition read_src (st : buffers) (s : bsrc) (n : nat) : option block :=
  match s with
  | BSNull => if (n =? 0)%nat then Some [] else None
  | BSBytes l => if (n <=? length l)%nat then Some (firstn n (filled l)) else None
  | BSOf h k => match getbuf st h with
                | Some b => match buffer b with
                            | PBlock c => if (k + n <=? length c)%nat then Some (firstn n (skipn k c)) else None
                            | _ => None
                            end
                | None => None
                end
  end.

Definition is_null (s : bsrc) : bool := match s with BSNull => true | _ => false end.
Definition src_aliases (s : bsrc) (h : nat) : bool :=
  match s with BSOf h' _ => (h' =? h)%nat | _ => false end.

Definition bpush (st : buffers) (b : BUFFER) : bret * buffers :=
  (BRH (Some (length st)), st ++ [Some b]).
Definition bset (st : buffers) (h : nat) (b : BUFFER) : buffers := upd st h (Some b).

(* buffer.c:29-39 BUFFER_new *)
Definition BUFFER_new (st : buffers) : M (bret * buffers) :=
  (ok <- alloc ;;
   ret (if ok then bpush st {| buffer := PNull; size := 0 |} else (BRH None, st)))%m.

(* buffer.c:41-76 BUFFER_create *)
Definition BUFFER_create (st : buffers) (s : bsrc) (n : N) : M (bret * buffers) :=
  if is_null s then ret (BRH None, st)
  else (ok <- allocs 2 ;;
        if ok then
          cs <- lift (read_src st s (N.to_nat n)) ;;
          b <- lift (memcpy_to (fresh (N.to_nat n)) 0 cs) ;;
          ret (bpush st {| buffer := PBlock b; size := n |})
        else ret (BRH None, st))%m.

(* buffer.c:79-92 BUFFER_delete *)
Definition BUFFER_delete (st : buffers) (h : option nat) : M (bret * buffers) :=
  match h with
  | None => ret (BRI true, st)
  | Some i => (b <- lift (getbuf st i) ;; _ <- lift (free_ptr (buffer b)) ;;
               ret (BRI true, upd st i None))%m
  end.

(* buffer.c:97-146 BUFFER_build; a source inside the block being reallocated is
   invalid at the memcpy of line 138 *)
Definition BUFFER_build (st : buffers) (h : option nat) (s : bsrc) (n : N) : M (bret * buffers) :=
  match h with
  | None => ret (BRI false, st)
  | Some i =>
      (b <- lift (getbuf st i) ;;
       if n =? 0 then
         _ <- lift (free_ptr (buffer b)) ;;
         ret (BRI true, bset st i {| buffer := PNull; size := 0 |})
       else if is_null s then ret (BRI false, st)
       else
         x <- realloc_ptr (buffer b) n ;;
         match x with
         | (Some (PBlock nb), _) =>
             cs <- lift (if src_aliases s i then None else read_src st s (N.to_nat n)) ;;
             b' <- lift (memcpy_to nb 0 cs) ;;
             ret (BRI true, bset st i {| buffer := PBlock b'; size := n |})
         | (_, p) => ret (BRI false, bset st i {| buffer := p; size := size b |})
         end)%m
  end.

(* buffer.c:151-187 BUFFER_pre_build *)
Definition BUFFER_pre_build (st : buffers) (h : option nat) (n : N) : M (bret * buffers) :=
  match h with
  | None => ret (BRI false, st)
  | Some i =>
      if n =? 0 then ret (BRI false, st)
      else (b <- lift (getbuf st i) ;;
            match buffer b with
            | PNull =>
                ok <- alloc ;;
                ret (if ok then (BRI true, bset st i {| buffer := PBlock (fresh (N.to_nat n)); size := n |})
                     else (BRI false, bset st i {| buffer := PNull; size := size b |}))
            | _ => ret (BRI false, st)
            end)%m
  end.

(* buffer.c:190-205 BUFFER_content (content pointer given) and 378-392 BUFFER_u_char:
   the memory at the returned pointer.  The model hands out the whole block. *)
Definition content_of (b : BUFFER) : option (option block) :=
  match buffer b with PNull => Some None | PBlock c => Some (Some c) | PFreed => None end.
Definition BUFFER_content (st : buffers) (h : option nat) : M (bret * buffers) :=
  match h with
  | None => ret (BRI false, st)
  | Some i => (b <- lift (getbuf st i) ;; c <- lift (content_of b) ;; ret (BRP c, st))%m
  end.
Definition BUFFER_u_char (st : buffers) (h : option nat) : M (bret * buffers) :=
  match h with
  | None => ret (BRP None, st)
  | Some i => (b <- lift (getbuf st i) ;; c <- lift (content_of b) ;; ret (BRP c, st))%m
  end.

(* buffer.c:209-234 BUFFER_unbuild *)
Definition BUFFER_unbuild (st : buffers) (h : option nat) : M (bret * buffers) :=
  match h with
  | None => ret (BRI false, st)
  | Some i =>
      (b <- lift (getbuf st i) ;;
       match buffer b with
       | PNull => ret (BRI false, st)
       | PBlock _ => ret (BRI true, bset st i {| buffer := PNull; size := 0 |})
       | PFreed => undef
       end)%m
  end.

(* buffer.c:237-267 BUFFER_enlarge *)
Definition BUFFER_enlarge (st : buffers) (h : option nat) (n : N) : M (bret * buffers) :=
  match h with
  | None => ret (BRI false, st)
  | Some i =>
      if n =? 0 then ret (BRI false, st)
      else
        (b <- lift (getbuf st i) ;;
         x <- realloc_ptr (buffer b) (wrap (size b + n)) ;;
         match x with
         | (Some p, _) => ret (BRI true, bset st i {| buffer := p; size := wrap (size b + n) |})
         | (None, p) => ret (BRI false, bset st i {| buffer := p; size := size b |})
         end)%m
  end.

(* buffer.c:270-285 BUFFER_size (size pointer given), 395-409 BUFFER_length *)
Definition BUFFER_size (st : buffers) (h : option nat) : M (bret * buffers) :=
  match h with
  | None => ret (BRI false, st)
  | Some i => (b <- lift (getbuf st i) ;; ret (BRN (size b), st))%m
  end.
Definition BUFFER_length (st : buffers) (h : option nat) : M (bret * buffers) :=
  match h with
  | None => ret (BRN 0, st)
  | Some i => (b <- lift (getbuf st i) ;; ret (BRN (size b), st))%m
  end.

(* buffer.c:288-329 BUFFER_append *)
Definition BUFFER_append (st : buffers) (h1 h2 : option nat) : M (bret * buffers) :=
  match h1, h2 with
  | Some i, Some j =>
      if (i =? j)%nat then ret (BRI false, st)
      else
        (b1 <- lift (getbuf st i) ;;
         b2 <- lift (getbuf st j) ;;
         match buffer b1, buffer b2 with
         | PNull, _ => ret (BRI false, st)
         | _, PNull => ret (BRI false, st)
         | p1, p2 =>
             x <- realloc_ptr p1 (wrap (size b1 + size b2)) ;;
             match x with
             | (Some (PBlock nb), _) =>
                 cs <- lift (read_ptr p2 (N.to_nat (size b2))) ;;
                 nb' <- lift (memcpy_to nb (N.to_nat (size b1)) cs) ;;
                 ret (BRI true, bset st i {| buffer := PBlock nb'; size := wrap (size b1 + size b2) |})
             | (_, p) => ret (BRI false, bset st i {| buffer := p; size := size b1 |})
             end
         end)%m
  | _, _ => ret (BRI false, st)
  end.

(* buffer.c:331-374 BUFFER_prepend *)
Definition BUFFER_prepend (st : buffers) (h1 h2 : option nat) : M (bret * buffers) :=
  match h1, h2 with
  | Some i, Some j =>
      if (i =? j)%nat then ret (BRI false, st)
      else
        (b1 <- lift (getbuf st i) ;;
         b2 <- lift (getbuf st j) ;;
         match buffer b1, buffer b2 with
         | PNull, _ => ret (BRI false, st)
         | _, PNull => ret (BRI false, st)
         | p1, p2 =>
             ok <- alloc ;;
             if ok then
               cs2 <- lift (read_ptr p2 (N.to_nat (size b2))) ;;
               t1 <- lift (memcpy_to (fresh (N.to_nat (wrap (size b1 + size b2)))) 0 cs2) ;;
               cs1 <- lift (read_ptr p1 (N.to_nat (size b1))) ;;
               t2 <- lift (memcpy_to t1 (N.to_nat (size b2)) cs1) ;;
               _ <- lift (free_ptr p1) ;;
               ret (BRI true, bset st i {| buffer := PBlock t2; size := wrap (size b1 + size b2) |})
             else ret (BRI false, st)
         end)%m
  | _, _ => ret (BRI false, st)
  end.

(* buffer.c:411-442 BUFFER_clone *)
Definition BUFFER_clone (st : buffers) (h : option nat) : M (bret * buffers) :=
  match h with
  | None => ret (BRH None, st)
  | Some i =>
      (b <- lift (getbuf st i) ;;
       ok <- allocs 2 ;;
       if ok then
         cs <- lift (read_ptr (buffer b) (N.to_nat (size b))) ;;
         nb <- lift (memcpy_to (fresh (N.to_nat (size b))) 0 cs) ;;
         ret (bpush st {| buffer := PBlock nb; size := size b |})
       else ret (BRH None, st))%m
  end.

(* Not library code: the client stores a byte through the pointer. *)
Definition client_poke (st : buffers) (h i : nat) (v : N) : M (bret * buffers) :=
  (b <- lift (getbuf st h) ;;
   match buffer b with
   | PBlock c => c' <- lift (store c i v) ;;
                 ret (BRI true, bset st h {| buffer := PBlock c'; size := size b |})
   | _ => undef
   end)%m.

Definition bstep (st : buffers) (op : bop) : M (bret * buffers) :=
  match op with
  | BNew => BUFFER_new st
  | BCreate s n => BUFFER_create st s n
  | BDelete h => BUFFER_delete st h
  | BBuild h s n => BUFFER_build st h s n
  | BPreBuild h n => BUFFER_pre_build st h n
  | BContent h => BUFFER_content st h
  | BUnbuild h => BUFFER_unbuild st h
  | BEnlarge h n => BUFFER_enlarge st h n
  | BSize h => BUFFER_size st h
  | BAppend h1 h2 => BUFFER_append st h1 h2
  | BPrepend h1 h2 => BUFFER_prepend st h1 h2
  | BUChar h => BUFFER_u_char st h
  | BLength h => BUFFER_length st h
  | BClone h => BUFFER_clone st h
  | BPoke h i v => client_poke st h i v
  end.
