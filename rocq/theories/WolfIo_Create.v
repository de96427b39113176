(* tlsio_wolfssl_create and tlsio_wolfssl_destroy (src/tlsio_wolfssl.c:266-374), and the block of
   received bytes (:119-135, :189-215): what is acquired and what is released: C104. *)
From Verif Require Import Base.

Inductive resource := Instance | Context_ | Underlying | Ssl | Block (i : nat).
Inductive rev := Got (r : resource) | Freed (r : resource) | Wrote (i : nat) (upto : nat).   (* Wrote: the first upto bytes of a block are read or written *)

(* The answers of the calls that may fail, in the order of the code *)
Record answers := {
  config_given : bool;        (* :271 *)
  malloc_ok : bool;           (* :277 *)
  ctx_ok : bool;              (* :300 wolfSSL_CTX_new *)
  interface_ok : bool;        (* :308 *)
  xio_ok : bool;              (* :317 xio_create *)
  ssl_ok : bool               (* :326 wolfSSL_new *)
}.

(* :266-356; true: a handle is returned *)
Definition create (a : answers) : bool * list rev :=
  if negb (config_given a) then (false, [])
  else if negb (malloc_ok a) then (false, [])
  else if negb (ctx_ok a) then (false, [Got Instance; Freed Instance])
  else if negb (interface_ok a) then (false, [Got Instance; Got Context_; Freed Context_; Freed Instance])
  else if negb (xio_ok a) then (false, [Got Instance; Got Context_; Freed Context_; Freed Instance])
  else if negb (ssl_ok a) then (false, [Got Instance; Got Context_; Got Underlying; Freed Context_; Freed Instance])
  else (true, [Got Instance; Got Context_; Got Underlying; Got Ssl]).

(* socket_io_read_bytes and socket_io_read_byte_count; blocks are numbered in the order they are
   allocated, and a realloc that succeeds may always move its block *)
Record buffer := { block : option nat; bcount : nat; next : nat }.
Definition no_buffer : buffer := {| block := None; bcount := 0; next := 0 |}.       (* :335-336 *)
Definition release (b : option nat) : list rev := match b with Some i => [Freed (Block i)] | None => [] end.
Inductive bop := Receive (size : nat) (ok : bool) | Take (sz : nat) (ok : bool).
Definition bstep (b : buffer) (o : bop) : buffer * list rev :=
  match o with
  | Receive size ok =>                                                               (* :123-134 *)
      if ok then ({| block := Some (next b); bcount := bcount b + size; next := S (next b) |},
                  [Got (Block (next b))] ++ release (block b) ++ [Wrote (next b) (bcount b + size)])
      else (b, [])
  | Take sz ok =>                                                                    (* :189-215 *)
      let result := min (bcount b) sz in
      if (0 <? result)%nat then
        let touch := match block b with Some i => [Wrote i (bcount b)] | None => [Wrote (next b) (bcount b)] end in
        let left := (bcount b - result)%nat in
        if (0 <? left)%nat then
          if ok then ({| block := Some (next b); bcount := left; next := S (next b) |}, touch ++ [Got (Block (next b))] ++ release (block b))
          else ({| block := block b; bcount := left; next := next b |}, touch)
        else ({| block := None; bcount := 0; next := next b |}, touch ++ release (block b))
      else (b, [])
  end.
Fixpoint brun (b : buffer) (l : list bop) : buffer * list rev :=
  match l with
  | [] => (b, [])
  | o :: l => let (b1, e1) := bstep b o in let (b2, e2) := brun b1 l in (b2, e1 ++ e2)
  end.

(* :358-374 *)
Definition destroy (b : buffer) : list rev :=
  [Freed Ssl; Freed Context_] ++ release (block b) ++ [Freed Underlying; Freed Instance].

(* Specification: what is held after such a sequence; None: something was released or touched that
   was not held *)
Definition resource_eq (a b : resource) : {a = b} + {a <> b}.
Proof. decide equality. apply Nat.eq_dec. Defined.
Fixpoint held (l : list rev) (h : resource -> bool) : option (resource -> bool) :=
  match l with
  | [] => Some h
  | Got r :: l => held l (fun x => if resource_eq x r then true else h x)
  | Freed r :: l => if h r then held l (fun x => if resource_eq x r then false else h x) else None
  | Wrote i _ :: l => if h (Block i) then held l h else None
  end.
Definition nothing : resource -> bool := fun _ => false.

Lemma held_app a : forall b h, held (a ++ b) h = match held a h with Some h => held b h | None => None end.
Proof. induction a as [|[r|r|i n] a IH]; intros b h; cbn; [reflexivity|apply IH| |]; destruct (h _); auto. Qed.

(* what is held while the io lives *)
Definition alive (b : buffer) (h : resource -> bool) : Prop :=
  (forall r, h r = match r with Block i => match block b with Some j => (i =? j)%nat | None => false end | _ => true end) /\
  (forall j, block b = Some j -> (j < next b)%nat) /\ (block b = None -> bcount b = 0%nat).
Lemma alive_step b o h : alive b h -> exists h', held (snd (bstep b o)) h = Some h' /\ alive (fst (bstep b o)) h'.
Proof.
  intros (H1 & H2 & H3). destruct o as [size ok|sz ok]; cbn [bstep].
  - destruct ok; [|exists h; split; [reflexivity|split; [exact H1|split; assumption]]]. cbn [fst snd].
    destruct (block b) as [j|] eqn:Eb; cbn [release app held].
    + specialize (H2 j eq_refl). destruct (resource_eq (Block j) (Block (next b))) as [C|_]; [injection C as C; lia|]. rewrite H1, Nat.eqb_refl. destruct (resource_eq (Block (next b)) (Block j)) as [C|_]; [injection C as C; lia|]. destruct (resource_eq (Block (next b)) (Block (next b))); [|congruence]. eexists. split; [reflexivity|]. split; [|split; [cbn; intros ? C; injection C as <-; lia|discriminate]].
      intros r. cbn [block]. destruct (resource_eq r (Block j)) as [->|Nj]; [rewrite (proj2 (Nat.eqb_neq j (next b))); [reflexivity|lia]|]. destruct (resource_eq r (Block (next b))) as [->|Nb]; [rewrite Nat.eqb_refl; reflexivity|].
      rewrite H1. destruct r as [| | | |i]; try reflexivity. rewrite (proj2 (Nat.eqb_neq i j)), (proj2 (Nat.eqb_neq i (next b))); congruence.
    + destruct (resource_eq (Block (next b)) (Block (next b))); [|congruence]. eexists. split; [reflexivity|]. split; [|split; [cbn; intros ? C; injection C as <-; lia|discriminate]]. intros r. cbn [block]. destruct (resource_eq r (Block (next b))) as [->|Nb]; [rewrite Nat.eqb_refl; reflexivity|]. rewrite H1. destruct r as [| | | |i]; try reflexivity. rewrite (proj2 (Nat.eqb_neq i (next b))); congruence.
  - destruct (0 <? Nat.min (bcount b) sz)%nat eqn:Em; [|exists h; split; [reflexivity|split; [exact H1|split; assumption]]]. apply Nat.ltb_lt in Em.
    destruct (block b) as [j|] eqn:Eb; [|specialize (H3 eq_refl); lia]. specialize (H2 j eq_refl).
    destruct (0 <? bcount b - Nat.min (bcount b) sz)%nat.
    + destruct ok; cbn [fst snd release app held]; rewrite H1, Nat.eqb_refl; cbn [held].
      * destruct (resource_eq (Block j) (Block (next b))) as [C|_]; [injection C as C; lia|]. eexists. split; [reflexivity|]. split; [|split; [cbn; intros ? C; injection C as <-; lia|discriminate]].
        intros r. cbn [block]. destruct (resource_eq r (Block j)) as [->|Nj]; [rewrite (proj2 (Nat.eqb_neq j (next b))); [reflexivity|lia]|]. destruct (resource_eq r (Block (next b))) as [->|Nb]; [rewrite Nat.eqb_refl; reflexivity|].
        rewrite H1. destruct r as [| | | |i]; try reflexivity. rewrite (proj2 (Nat.eqb_neq i j)), (proj2 (Nat.eqb_neq i (next b))); congruence.
      * exists h. split; [reflexivity|]. split; [exact H1|]. split; [cbn; intros ? C; injection C as <-; exact H2|discriminate].
    + cbn [fst snd release app held]. rewrite !H1, Nat.eqb_refl. eexists. split; [reflexivity|]. split; [|split; [discriminate|reflexivity]]. intros r. cbn [block]. destruct (resource_eq r (Block j)) as [->|Nj]; [reflexivity|]. rewrite H1. destruct r as [| | | |i]; try reflexivity. rewrite (proj2 (Nat.eqb_neq i j)); congruence.
Qed.
Lemma alive_run l : forall b h, alive b h -> exists h', held (snd (brun b l)) h = Some h' /\ alive (fst (brun b l)) h'.
Proof.
  induction l as [|o l IH]; intros b h H; [exists h; split; [reflexivity|exact H]|]. cbn [brun]. destruct (alive_step b o h H) as (h1 & E1 & A1). destruct (bstep b o) as [b1 e1]. cbn [fst snd] in *.
  destruct (IH b1 h1 A1) as (h2 & E2 & A2). destruct (brun b1 l) as [b2 e2]. cbn [fst snd] in *. exists h2. split; [|exact A2]. rewrite held_app, E1. exact E2.
Qed.

(* C104: a handle stands for everything; whatever bytes are received and taken, every block touched
   is held, and destroying the io gives everything back, once. *)
Theorem wolf_destroy_releases_everything : forall a l, create a = (true, l) -> forall ops b e, brun no_buffer ops = (b, e) ->
  exists h, held (l ++ e ++ destroy b) nothing = Some h /\ forall r, h r = false.
Proof.
  intros a l Hc ops b e Hb. assert (l = [Got Instance; Got Context_; Got Underlying; Got Ssl]) as -> by (destruct a as [ [] [] [] [] [] [] ]; cbn in Hc; congruence).
  assert (A0 : exists h, held [Got Instance; Got Context_; Got Underlying; Got Ssl] nothing = Some h /\ alive no_buffer h).
  { eexists. split; [reflexivity|]. split; [intros []; reflexivity|]. split; [discriminate|reflexivity]. }
  destruct A0 as (h0 & E0 & A0). destruct (alive_run ops _ _ A0) as (h1 & E1 & (A1 & A2 & A3)). rewrite Hb in E1, A1, A2, A3. cbn [fst snd] in *.
  rewrite held_app, E0, held_app, E1. unfold destroy. destruct (block b) as [j|] eqn:Eb; cbn; rewrite !A1, ?Nat.eqb_refl;
    (eexists; split; [reflexivity|]); intros r; cbv beta; repeat (destruct (resource_eq r _); [reflexivity|]); rewrite A1; destruct r as [| | | |i]; try congruence. apply Nat.eqb_neq. congruence.
Qed.
(* A failed create gives everything back, except the underlying io, *)
Theorem wolf_failed_create_partial : forall a l, create a = (false, l) ->
  exists h, held l nothing = Some h /\ (forall r, r <> Underlying -> h r = false) /\ (h Underlying = true -> xio_ok a = true /\ ssl_ok a = false).
Proof.
  intros a l. destruct a as [ [] [] [] [] [] [] ]; cbn; intro H; inversion H; subst; cbn;
  eexists; (split; [reflexivity|]); (split; [intros []; cbn; unfold nothing; congruence|]); cbn; unfold nothing; auto; discriminate.
Qed.
(* which is leaked whenever wolfSSL_new fails. *)
Theorem wolf_failed_create_leaks_refuted : forall a l, config_given a = true -> malloc_ok a = true -> ctx_ok a = true -> interface_ok a = true -> xio_ok a = true -> ssl_ok a = false ->
  create a = (false, l) -> exists h, held l nothing = Some h /\ h Underlying = true.
Proof. intros [ ] l. cbn. intros -> -> -> -> -> -> H. injection H as <-. eexists. split; reflexivity. Qed.

Example create_case : create {| config_given := true; malloc_ok := true; ctx_ok := true; interface_ok := true; xio_ok := true; ssl_ok := true |} = (true, [Got Instance; Got Context_; Got Underlying; Got Ssl]).
Proof. reflexivity. Qed.
Example buffer_case : brun no_buffer [Receive 5 true; Take 2 true; Receive 4 false; Take 9 false] =
  ({| block := None; bcount := 0; next := 2 |}, [Got (Block 0); Wrote 0 5; Wrote 0 5; Got (Block 1); Freed (Block 0); Wrote 1 3; Freed (Block 1)]).
Proof. reflexivity. Qed.
