(* Vocabulary shared by the models of the modules that realloc blocks: 64-bit sizes,
   pointers to heap blocks, memcpy, realloc and free.  realloc(p, 0) behaves as in
   glibc: p is freed and NULL is returned.  Nothing here models a particular source
   file. *)
From Verif Require Import Base.
Open Scope N_scope.

Definition two64 : N := 2 ^ 64.
Definition wrap (n : N) : N := n mod two64.

(* A pointer to the start of a heap block. *)
Inductive ptr := PNull | PBlock (b : block) | PFreed.

(* memcpy of the cells cs to position i of block b *)
Definition memcpy_to (b : block) (i : nat) (cs : block) : option block :=
  if (i + length cs <=? length b)%nat
  then Some (firstn i b ++ cs ++ skipn (i + length cs) b) else None.

(* The first n bytes of what a pointer points to; n = 0 needs no object. *)
Definition read_ptr (p : ptr) (n : nat) : option block :=
  if (n =? 0)%nat then Some []
  else match p with
       | PBlock c => if (n <=? length c)%nat then Some (firstn n c) else None
       | _ => None
       end.

(* realloc of pointer p to n bytes: the new pointer, or failure; None = p invalid.
   On failure p stays valid unless n = 0. *)
Definition realloc_ptr (p : ptr) (n : N) : M (option ptr * ptr) :=
  match p with
  | PFreed => undef
  | PNull =>
      (ok <- alloc ;; ret (if ok then Some (PBlock (fresh (N.to_nat n))) else None, PNull))%m
  | PBlock b =>
      if n =? 0 then ret (None, PFreed)
      else (ok <- alloc ;;
            ret (if ok then Some (PBlock (firstn (N.to_nat n) b ++ fresh (N.to_nat n - length b)))
                 else None, p))%m
  end.

Definition free_ptr (p : ptr) : option unit :=
  match p with PFreed => None | _ => Some tt end.

Lemma memcpy_all (n : nat) cs : length cs = n -> memcpy_to (fresh n) 0 cs = Some cs.
Proof.
  intros <-. unfold memcpy_to. rewrite fresh_length. cbn [Nat.add]. rewrite Nat.leb_refl.
  cbn [firstn app]. rewrite skipn_all2 by (rewrite fresh_length; lia). rewrite app_nil_r. reflexivity.
Qed.

Lemma memcpy_over b cs : length cs = length b -> memcpy_to b 0 cs = Some cs.
Proof.
  intros H. unfold memcpy_to. cbn [Nat.add]. rewrite H, Nat.leb_refl.
  cbn [firstn app]. rewrite skipn_all. rewrite app_nil_r. reflexivity.
Qed.

Lemma memcpy_tail a b cs : length b = length cs -> memcpy_to (a ++ b) (length a) cs = Some (a ++ cs).
Proof.
  intros H. unfold memcpy_to. rewrite app_length, H, Nat.leb_refl.
  rewrite firstn_app, firstn_all, Nat.sub_diag. cbn [firstn]. rewrite app_nil_r.
  rewrite skipn_all2 by (rewrite app_length; lia). rewrite app_nil_r. reflexivity.
Qed.

Lemma read_ptr_all l : read_ptr (PBlock l) (length l) = Some l.
Proof.
  unfold read_ptr. destruct (Nat.eqb_spec (length l) 0) as [H|H].
  - destruct l; [reflexivity|discriminate].
  - rewrite Nat.leb_refl, firstn_all. reflexivity.
Qed.

Lemma wrap_small n : n < two64 -> wrap n = n.
Proof. intros H. unfold wrap. apply N.mod_small, H. Qed.

