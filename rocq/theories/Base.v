(* Shared vocabulary of the models: bytes, C strings, memory blocks, and a
   small monad for functions that may fail to allocate and may run into
   undefined behaviour.  Nothing here models a particular source file. *)
From Coq Require Export String Ascii.
From Coq Require Export List Arith NArith ZArith Lia Bool.
From Coq Require Export ZifyBool ZifyNat ZifyN.
Export ListNotations.
#[export] Set Default Goal Selector "1".
Ltac Zify.zify_post_hook ::= Z.div_mod_to_equations.
#[global] Arguments N.add : simpl never.
#[global] Arguments N.sub : simpl never.
#[global] Arguments N.mul : simpl never.
#[global] Arguments N.div : simpl never.
#[global] Arguments N.modulo : simpl never.
#[global] Arguments N.pow : simpl never.
#[global] Arguments N.shiftl : simpl never.
#[global] Arguments N.shiftr : simpl never.
#[global] Arguments N.land : simpl never.
#[global] Arguments N.lor : simpl never.
#[global] Arguments N.lxor : simpl never.
#[global] Arguments N.to_nat : simpl never.
#[global] Arguments N.of_nat : simpl never.
#[global] Arguments Nat.div : simpl never.
#[global] Arguments Nat.modulo : simpl never.

(* ------------------------------------------------------------------ *)
(** * Bytes and text *)

(* A byte / C character is its unsigned value. *)
Definition byte := N.
Definition byte_ok (b : N) : Prop := (b < 256)%N.
Definition bytes_ok (l : list N) : Prop := Forall byte_ok l.

(* The contents of a NUL-terminated C string: its characters without the
   terminator; none of them is 0. *)
Definition char_ok (b : N) : Prop := (0 < b < 256)%N.
Definition cstr_ok (l : list N) : Prop := Forall char_ok l.

(* Readable literals. *)
Definition ch (a : ascii) : N := N_of_ascii a.
Fixpoint str (s : string) : list N :=
  match s with
  | EmptyString => []
  | String a t => ch a :: str t
  end.

(* What a C library reading bytes from memory sees as the string starting at
   the beginning of [l]: up to the first 0; None when there is no 0. *)
Fixpoint c_string_of (l : list N) : option (list N) :=
  match l with
  | [] => None
  | c :: t => if (c =? 0)%N then Some []
              else match c_string_of t with
                   | Some r => Some (c :: r)
                   | None => None
                   end
  end.

(* ------------------------------------------------------------------ *)
(** * Memory blocks *)

(* A cell is None until it is written: reading such a cell yields an
   indeterminate value. *)
Notation cell := (option N) (only parsing).
Notation block := (list (option N)) (only parsing).

Definition fresh (n : nat) : block := repeat None n.
Definition filled (l : list N) : block := map Some l.

(* A write at index i; None = out of bounds = undefined behaviour. *)
Fixpoint store (b : block) (i : nat) (v : N) : option block :=
  match b, i with
  | [], _ => None
  | _ :: t, O => Some (Some v :: t)
  | c :: t, S j => match store t j v with
                   | Some t' => Some (c :: t')
                   | None => None
                   end
  end.

(* Consecutive writes starting at index i. *)
Fixpoint store_all (b : block) (i : nat) (vs : list N) : option block :=
  match vs with
  | [] => Some b
  | v :: t => match store b i v with
              | Some b' => store_all b' (S i) t
              | None => None
              end
  end.

(* ------------------------------------------------------------------ *)
(** * Allocation oracle and undefined behaviour *)

(* The answers malloc/calloc/realloc will give: true = success.  A pattern
   that is used up means success from then on, so finite patterns cover
   every finite run. *)
Definition oracle := list bool.

(* A computation: None = undefined behaviour. *)
Definition M (A : Type) := oracle -> option (A * oracle).

Definition ret {A} (a : A) : M A := fun o => Some (a, o).
Definition undef {A} : M A := fun _ => None.
Definition bind {A B} (m : M A) (f : A -> M B) : M B :=
  fun o => match m o with
           | Some (a, o') => f a o'
           | None => None
           end.
Definition alloc : M bool :=
  fun o => match o with
           | [] => Some (true, [])
           | b :: t => Some (b, t)
           end.
Definition lift {A} (x : option A) : M A :=
  fun o => match x with Some a => Some (a, o) | None => None end.

Declare Scope m_scope.
Delimit Scope m_scope with m.
Notation "x <- m ;; f" := (bind m (fun x => f))
  (at level 61, m at next level, right associativity) : m_scope.
Notation "' p <- m ;; f" := (bind m (fun x => let p := x in f))
  (at level 61, p pattern, m at next level, right associativity) : m_scope.

(* ------------------------------------------------------------------ *)
(** * Lemmas *)

Lemma store_length b i v b' : store b i v = Some b' -> length b' = length b.
Proof.
  revert i b'; induction b as [|c t IH]; intros i b' H; [discriminate|].
  destruct i as [|j]; cbn in H.
  - injection H as <-. reflexivity.
  - destruct (store t j v) as [t'|] eqn:E; [|discriminate].
    injection H as <-. cbn. f_equal. eapply IH; eauto.
Qed.

Lemma store_app pre x post v :
  store (pre ++ x :: post) (length pre) v = Some (pre ++ Some v :: post).
Proof.
  induction pre as [|c t IH]; cbn; [reflexivity|]. rewrite IH. reflexivity.
Qed.

Lemma store_none b i v : store b i v = None <-> length b <= i.
Proof.
  revert i; induction b as [|c t IH]; intros i; cbn.
  - split; [lia|reflexivity].
  - destruct i as [|j]; cbn.
    + split; [discriminate|lia].
    + specialize (IH j). destruct (store t j v) as [t'|].
      * split; [discriminate|]. intros H. destruct IH as [_ IH].
        assert (Hn : length t <= j) by lia. specialize (IH Hn). discriminate.
      * split; [|reflexivity]. intros _. destruct IH as [IH _].
        specialize (IH eq_refl). lia.
Qed.

Lemma store_all_app_gen vs pre mid post :
  length mid = length vs ->
  store_all (pre ++ mid ++ post) (length pre) vs
  = Some (pre ++ filled vs ++ post).
Proof.
  revert pre mid; induction vs as [|v vs IH]; intros pre mid Hl.
  - destruct mid; [reflexivity|discriminate].
  - destruct mid as [|x mid]; [discriminate|]. injection Hl as Hl.
    cbn [store_all]. change ((x :: mid) ++ post) with (x :: (mid ++ post)).
    rewrite store_app.
    specialize (IH (pre ++ [Some v]) mid Hl).
    rewrite app_length in IH. cbn in IH.
    replace (length pre + 1) with (S (length pre)) in IH by lia.
    rewrite <- !app_assoc in IH. cbn in IH. exact IH.
Qed.

Lemma store_all_exact vs blk :
  length blk = length vs -> store_all blk 0 vs = Some (filled vs).
Proof.
  intros H. pose proof (store_all_app_gen vs [] blk [] H) as E.
  cbn in E. rewrite !app_nil_r in E. exact E.
Qed.

Lemma store_all_none vs blk i :
  vs <> [] -> length blk < i + length vs -> store_all blk i vs = None.
Proof.
  revert blk i; induction vs as [|v vs IH]; intros blk i Hne Hl; [congruence|].
  cbn [store_all]. destruct (store blk i v) as [b'|] eqn:E; [|reflexivity].
  pose proof (store_length _ _ _ _ E) as Hl'.
  destruct vs as [|w vs].
  - cbn in Hl. assert (Hi : length blk <= i) by lia.
    apply (proj2 (store_none blk i v)) in Hi. congruence.
  - apply IH; [discriminate|]. rewrite Hl'. cbn in *. lia.
Qed.

Lemma store_all_cat blk i a b :
  store_all blk i (a ++ b) =
  match store_all blk i a with
  | Some blk' => store_all blk' (i + length a) b
  | None => None
  end.
Proof.
  revert blk i; induction a as [|v a IH]; intros blk i; cbn.
  - rewrite Nat.add_0_r. reflexivity.
  - destruct (store blk i v) as [b'|]; [|reflexivity].
    rewrite IH. rewrite Nat.add_succ_comm. reflexivity.
Qed.

Lemma store_all_prefix vs blk :
  length vs <= length blk ->
  store_all blk 0 vs = Some (filled vs ++ skipn (length vs) blk).
Proof.
  intros H. rewrite <- (firstn_skipn (length vs) blk) at 1.
  pose proof (store_all_app_gen vs [] (firstn (length vs) blk)
                (skipn (length vs) blk)) as E.
  cbn in E. apply E. rewrite firstn_length. lia.
Qed.

Lemma fresh_length n : length (fresh n) = n.
Proof. apply repeat_length. Qed.

Lemma filled_length l : length (filled l) = length l.
Proof. apply map_length. Qed.

Lemma filled_inj a b : filled a = filled b -> a = b.
Proof.
  revert b; induction a as [|x a IH]; intros [|y b] H; cbn in H;
    try discriminate; [reflexivity|].
  injection H as -> H. f_equal. auto.
Qed.

(* Bit arithmetic as arithmetic. *)
Lemma land_mask x k : N.land x (N.ones k) = (x mod 2 ^ k)%N.
Proof. apply N.land_ones. Qed.

Lemma lor_shift_add a b k : (b < 2 ^ k)%N ->
  N.lor (N.shiftl a k) b = (a * 2 ^ k + b)%N.
Proof.
  intros Hb.
  assert (D : N.land (N.shiftl a k) b = 0%N).
  { apply N.bits_inj. intros n. rewrite N.land_spec, N.bits_0.
    destruct (N.lt_ge_cases n k) as [H|H].
    - rewrite N.shiftl_spec_low by assumption. reflexivity.
    - destruct (N.eq_dec b 0) as [->|Hz]; [rewrite N.bits_0; apply andb_false_r|].
      rewrite (N.bits_above_log2 b); [apply andb_false_r|].
      apply N.log2_lt_pow2 in Hb; lia. }
  rewrite <- N.shiftl_mul_pow2, (N.add_nocarry_lxor _ _ D), (N.lxor_lor _ _ D).
  reflexivity.
Qed.

Lemma c_string_of_app s rest :
  cstr_ok s -> c_string_of (s ++ 0%N :: rest) = Some s.
Proof.
  induction 1 as [|c t Hc Ht IH]; cbn; [reflexivity|].
  destruct (N.eqb_spec c 0) as [->|_]; [unfold char_ok in Hc; lia|].
  rewrite IH. reflexivity.
Qed.

Lemma cstr_bytes l : cstr_ok l -> bytes_ok l.
Proof. apply Forall_impl. unfold char_ok, byte_ok. lia. Qed.

(* ------------------------------------------------------------------ *)
(** * Several allocations in a row, updates *)

(* n allocations one after the other, stopping at the first that fails; true if
   all succeeded. *)
Fixpoint allocs (n : nat) : M bool :=
  match n with
  | O => ret true
  | S k => (ok <- alloc ;; if ok then allocs k else ret false)%m
  end.

Lemma alloc_spec o : exists ok o' used,
  alloc o = Some (ok, o') /\ o = used ++ o' /\ (ok = false -> In false used).
Proof.
  destruct o as [|b t].
  - exists true, [], []. repeat split; discriminate.
  - exists b, t, [b]. split; [reflexivity|]. split; [reflexivity|]. intros ->. left. reflexivity.
Qed.

Lemma allocs_spec n o : exists ok o' used,
  allocs n o = Some (ok, o') /\ o = used ++ o' /\ (ok = false -> In false used).
Proof.
  revert o; induction n as [|n IH]; intros o.
  - exists true, o, []. repeat split; discriminate.
  - cbn. unfold bind. destruct (alloc_spec o) as (ok & o1 & u1 & E & Ho & Hf). rewrite E.
    destruct ok.
    + destruct (IH o1) as (ok2 & o2 & u2 & E2 & Ho2 & Hf2). exists ok2, o2, (u1 ++ u2).
      split; [exact E2|]. split; [rewrite Ho, Ho2; apply app_assoc|].
      intros H. apply in_or_app. right. apply Hf2, H.
    + exists false, o1, u1. split; [reflexivity|]. split; [exact Ho|]. exact Hf.
Qed.

(* Replace element i. *)
Fixpoint upd {A} (l : list A) (i : nat) (x : A) : list A :=
  match l, i with
  | [], _ => []
  | _ :: t, O => x :: t
  | c :: t, S j => c :: upd t j x
  end.

Lemma upd_length {A} (l : list A) i x : length (upd l i x) = length l.
Proof. revert i; induction l as [|c t IH]; intros [|i]; cbn; auto. Qed.

Lemma upd_same {A} (l : list A) i x : i < length l -> nth_error (upd l i x) i = Some x.
Proof.
  revert i; induction l as [|c t IH]; intros [|i] H; cbn in *; try lia; [reflexivity|].
  apply IH. lia.
Qed.

Lemma upd_other {A} (l : list A) i j x : i <> j -> nth_error (upd l i x) j = nth_error l j.
Proof.
  revert i j; induction l as [|c t IH]; intros [|i] [|j] H; cbn; try congruence; auto.
Qed.

Lemma Forall2_nth_error {A B} (P : A -> B -> Prop) l1 l2 i y :
  Forall2 P l1 l2 -> nth_error l2 i = Some y -> exists x, nth_error l1 i = Some x /\ P x y.
Proof.
  intros H. revert i; induction H as [|a b l1 l2 Hab H IH]; intros [|i] E; cbn in *; try discriminate.
  - injection E as <-. exists a. auto.
  - apply IH, E.
Qed.

Lemma Forall2_upd {A B} (P : A -> B -> Prop) l1 l2 i x y :
  Forall2 P l1 l2 -> P x y -> Forall2 P (upd l1 i x) (upd l2 i y).
Proof.
  intros H Hp. revert i; induction H as [|a b l1 l2 Hab H IH]; intros [|i]; cbn; constructor; auto.
Qed.

Lemma nth_error_upd_self {A} (l : list A) i x : nth_error l i = Some x -> upd l i x = l.
Proof.
  revert i; induction l as [|c t IH]; intros [|i] H; cbn in *; try discriminate.
  - congruence.
  - f_equal. auto.
Qed.

(* Decidable version of cstr_ok. *)
Definition cstr_okb (l : list N) : bool := forallb (fun c => ((0 <? c) && (c <? 256))%N) l.
Lemma cstr_okb_ok l : cstr_okb l = true <-> cstr_ok l.
Proof.
  unfold cstr_okb, cstr_ok, char_ok. rewrite forallb_forall, Forall_forall.
  split; intros H x Hx; specialize (H x Hx); lia.
Qed.

Lemma NoDup_app_intro {A} (l1 l2 : list A) : NoDup l1 -> NoDup l2 ->
  (forall x, In x l1 -> In x l2 -> False) -> NoDup (l1 ++ l2).
Proof.
  induction l1 as [|a l1 IH]; intros N1 N2 H; [exact N2|]. inversion N1; subst. cbn. constructor.
  - rewrite in_app_iff. intros [H1|H1]; [contradiction|]. eapply H; [left; reflexivity|exact H1].
  - apply IH; auto. intros x Hx. apply H. right. exact Hx.
Qed.
Lemma NoDup_app_elim {A} (l1 l2 : list A) : NoDup (l1 ++ l2) ->
  NoDup l1 /\ NoDup l2 /\ (forall x, In x l1 -> In x l2 -> False).
Proof.
  induction l1 as [|a l1 IH]; intros N; cbn in N.
  - split; [constructor|]. split; [exact N|intros x []].
  - inversion N as [|? ? Hn N']; subst. destruct (IH N') as (N1 & N2 & H). rewrite in_app_iff in Hn.
    split; [constructor; tauto|]. split; [exact N2|]. intros x [->|Hx] H2; [tauto|eauto].
Qed.
