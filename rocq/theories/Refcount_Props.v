(* Theorems about the reference counts: C32, C33. *)
From Verif Require Import Base Refcount_Model.
Open Scope N_scope.

Section Object.
  Context {C : Type}.
  Variable c0 : C.

  (* all references to the object, in whatever thread *)
  Definition total (ts : list thread) : nat := list_sum (map refs ts).
  Definition freeing (ts : list thread) : nat :=
    length (filter (fun x => match at_ x with Idle => false | _ => true end) ts).

  Lemma total_cons x l : total (x :: l) = (refs x + total l)%nat.
  Proof. reflexivity. Qed.

  Lemma total_upd ts t x y : nth_error ts t = Some x ->
    (total (upd ts t y) + refs x = total ts + refs y)%nat.
  Proof.
    revert t. induction ts as [|z ts IH]; intros [|t] H; cbn [upd nth_error] in *; try discriminate; rewrite !total_cons.
    - injection H as ->. lia.
    - specialize (IH _ H). lia.
  Qed.

  Definition isf (x : thread) : nat := match at_ x with Idle => 0 | _ => 1 end.
  Lemma freeing_cons x l : freeing (x :: l) = (isf x + freeing l)%nat.
  Proof. unfold freeing, isf. cbn. destruct (at_ x); reflexivity. Qed.

  Lemma freeing_upd ts t x y : nth_error ts t = Some x ->
    (freeing (upd ts t y) + isf x = freeing ts + isf y)%nat.
  Proof.
    revert t. induction ts as [|z ts IH]; intros [|t] H; cbn [upd nth_error] in *; try discriminate;
      rewrite !freeing_cons.
    - injection H as ->. lia.
    - specialize (IH _ H). lia.
  Qed.

  Lemma freeing_in ts t x : nth_error ts t = Some x -> at_ x <> Idle -> (1 <= freeing ts)%nat.
  Proof.
    revert t. induction ts as [|z ts IH]; intros [|t] H Hx; cbn in H; try discriminate; rewrite freeing_cons.
    - injection H as ->. unfold isf. destruct (at_ x); congruence || lia.
    - specialize (IH _ H Hx). lia.
  Qed.

  Lemma freeing_two ts t u x y : t <> u -> nth_error ts t = Some x -> nth_error ts u = Some y ->
    at_ x <> Idle -> at_ y <> Idle -> (2 <= freeing ts)%nat.
  Proof.
    revert t u. induction ts as [|z ts IH]; intros [|t] [|u] Hn Ht Hu Hx Hy; cbn in Ht, Hu; try discriminate; try congruence;
      rewrite freeing_cons.
    - injection Ht as ->. pose proof (freeing_in _ _ _ Hu Hy). unfold isf. destruct (at_ x); congruence || lia.
    - injection Hu as ->. pose proof (freeing_in _ _ _ Ht Hx). unfold isf. destruct (at_ y); congruence || lia.
    - assert (t <> u) by congruence. specialize (IH _ _ H Ht Hu Hx Hy). lia.
  Qed.

  Lemma holder_inv s t (x : thread) : holder (C := C) s t = Some x ->
    nth_error (threads s) t = Some x /\ at_ x = Idle /\ (0 < refs x)%nat.
  Proof.
    unfold holder. destruct (nth_error (threads s) t) as [y|]; [|discriminate].
    destruct (at_ y) eqn:E; try discriminate. destruct (refs y) eqn:Er; [discriminate|].
    intros H. injection H as <-. repeat split; auto. lia.
  Qed.

  Lemma total_in (ts : list thread) t x : nth_error ts t = Some x -> (refs x <= total ts)%nat.
  Proof.
    revert t. induction ts as [|z ts IH]; intros [|t] H; cbn [nth_error] in *; try discriminate; rewrite total_cons.
    - injection H as ->. lia.
    - specialize (IH _ H). lia.
  Qed.

  (* The counter is the number of references; while there is one nothing is freed and
     nobody is freeing; otherwise one thread is freeing, or all is freed. *)
  Definition rc_inv (s : system C) : Prop :=
    counter (obj s) = N.of_nat (total (threads s)) mod two32 /\
    ((0 < total (threads s) /\ freeing (threads s) = 0 /\ inner (obj s) = Some c0 /\ outer (obj s) = true)
     \/ (total (threads s) = 0 /\ freeing (threads s) = 1 /\ outer (obj s) = true /\
         exists t x, nth_error (threads s) t = Some x /\
           ((at_ x = FreeInner /\ inner (obj s) = Some c0) \/ (at_ x = FreeOuter /\ inner (obj s) = None)))
     \/ (total (threads s) = 0 /\ freeing (threads s) = 0 /\ inner (obj s) = None /\ outer (obj s) = false))%nat.

  Definition small (s : system C) : Prop := N.of_nat (total (threads s)) < two32.

  Lemma hits_zero a n : (0 < n)%nat -> N.of_nat n < two32 ->
    dec_hits_zero a (N.of_nat n mod two32) = (n =? 1)%nat /\
    dec_ref (N.of_nat n mod two32) = N.of_nat (pred n) mod two32.
  Proof.
    intros Hp Hs. rewrite (N.mod_small (N.of_nat n)) by exact Hs.
    assert (E : dec_ref (N.of_nat n) = N.of_nat (pred n)).
    { unfold dec_ref. replace (N.of_nat n + (two32 - 1)) with (N.of_nat (pred n) + 1 * two32) by (unfold two32 in *; lia).
      rewrite N.mod_add by (unfold two32; lia). apply N.mod_small. lia. }
    split; [|rewrite E, N.mod_small by lia; reflexivity].
    destruct a; cbn [dec_hits_zero]; [|rewrite E]; lia.
  Qed.

  Lemma rc_step_inv a s e : rc_inv s -> small s -> rc_step a s e <> UB /\
    forall s' seen, rc_step a s e = Next s' seen -> rc_inv s' /\ (forall c, seen = Some c -> c = c0).
  Proof.
    intros [Hc Hcase] Hs. unfold small in Hs. destruct e as [t|t|t|t|t u]; cbn [rc_step].
    - (* clone *)
      destruct (holder s t) as [x|] eqn:E; [|split; discriminate].
      destruct (holder_inv _ _ _ E) as (Et & Ea & Er). pose proof (total_in _ _ _ Et) as Ht.
      destruct Hcase as [(Hp & Hf & Hi & Ho)|[(Hz & _)|(Hz & _)]]; [|lia|lia]. rewrite Ho.
      split; [discriminate|]. intros s' seen H. injection H as <- <-. split; [|discriminate].
      pose proof (total_upd _ _ _ {| at_ := Idle; refs := S (refs x) |} Et) as Hu. cbn [refs] in Hu.
      pose proof (freeing_upd _ _ _ {| at_ := Idle; refs := S (refs x) |} Et) as Hfu. unfold isf in Hfu. rewrite Ea in Hfu. cbn in Hfu.
      unfold rc_inv. cbn [obj threads set_thread set_obj counter inner outer].
      split; [|left; repeat split; auto; lia].
      rewrite Hc. unfold inc_ref. replace (total (upd (threads s) t _)) with (S (total (threads s))) by lia.
      rewrite Nat2N.inj_succ, <- N.add_1_r. rewrite N.add_mod_idemp_l by (unfold two32; lia). reflexivity.
    - (* read *)
      destruct (holder s t) as [x|] eqn:E; [|split; discriminate].
      destruct (holder_inv _ _ _ E) as (Et & Ea & Er). pose proof (total_in _ _ _ Et) as Ht.
      destruct Hcase as [(Hp & Hf & Hi & Ho)|[(Hz & _)|(Hz & _)]]; [|lia|lia]. rewrite Ho, Hi.
      split; [discriminate|]. intros s' seen H. injection H as <- <-. split; [|congruence].
      split; [exact Hc|]. auto.
    - (* destroy *)
      destruct (holder s t) as [x|] eqn:E; [|split; discriminate].
      destruct (holder_inv _ _ _ E) as (Et & Ea & Er). pose proof (total_in _ _ _ Et) as Ht.
      destruct Hcase as [(Hp & Hf & Hi & Ho)|[(Hz & _)|(Hz & _)]]; [|lia|lia]. rewrite Ho.
      split; [discriminate|]. intros s' seen H. injection H as <- <-. split; [|discriminate].
      destruct (hits_zero a _ Hp Hs) as [Ez Ed]. rewrite Hc, Ez, Ed.
      unfold rc_inv. cbn [obj threads set_thread set_obj counter inner outer].
      set (y := {| at_ := if (total (threads s) =? 1)%nat then FreeInner else Idle; refs := pred (refs x) |}).
      pose proof (total_upd _ _ _ y Et) as Hu. pose proof (freeing_upd _ _ _ y Et) as Hfu.
      unfold isf in Hfu. rewrite Ea in Hfu. cbn [refs y] in Hu.
      split; [do 2 f_equal; lia|].
      destruct (Nat.eqb_spec (total (threads s)) 1) as [E1|E1]; cbn [at_ y] in Hfu.
      + right. left. repeat split; try lia. exists t, y. split; [apply upd_same, nth_error_Some; congruence|].
        left. split; [reflexivity|exact Hi].
      + left. repeat split; auto; lia.
    - (* run *)
      destruct (nth_error (threads s) t) as [x|] eqn:Et; [|split; discriminate].
      destruct (at_ x) eqn:Ea; [split; discriminate| |].
      + destruct Hcase as [(Hp & Hf & _)|[(Hz & Hf & Ho & u & y & Eu & Hy)|(Hz & Hf & _)]];
          try (pose proof (freeing_in _ _ _ Et ltac:(congruence)); lia).
        assert (t = u).
        { destruct (Nat.eq_dec t u) as [H|H]; [exact H|]. exfalso.
          assert (at_ y <> Idle) by (destruct Hy as [[-> _]|[-> _]]; discriminate).
          pose proof (freeing_two _ _ _ _ _ H Et Eu ltac:(congruence) H0). lia. }
        subst u. rewrite Et in Eu. injection Eu as <-. destruct Hy as [[_ Hi]|[Hy _]]; [|congruence].
        rewrite Ho, Hi. split; [discriminate|]. intros s' seen H. injection H as <- <-. split; [|discriminate].
        unfold rc_inv. cbn [obj threads set_thread set_obj counter inner outer].
        set (y := {| at_ := FreeOuter; refs := refs x |}).
        pose proof (total_upd _ _ _ y Et) as Hu. pose proof (freeing_upd _ _ _ y Et) as Hfu.
        unfold isf in Hfu. rewrite Ea in Hfu. cbn [at_ refs y] in Hu, Hfu.
        split; [rewrite Hc; do 2 f_equal; lia|]. right. left. repeat split; try lia.
        exists t, y. split; [apply upd_same, nth_error_Some; congruence|]. right. auto.
      + destruct Hcase as [(Hp & Hf & _)|[(Hz & Hf & Ho & u & y & Eu & Hy)|(Hz & Hf & _)]];
          try (pose proof (freeing_in _ _ _ Et ltac:(congruence)); lia).
        assert (t = u).
        { destruct (Nat.eq_dec t u) as [H|H]; [exact H|]. exfalso.
          assert (at_ y <> Idle) by (destruct Hy as [[-> _]|[-> _]]; discriminate).
          pose proof (freeing_two _ _ _ _ _ H Et Eu ltac:(congruence) H0). lia. }
        subst u. rewrite Et in Eu. injection Eu as <-. destruct Hy as [[Hy _]|[_ Hi]]; [congruence|].
        rewrite Ho. split; [discriminate|]. intros s' seen H. injection H as <- <-. split; [|discriminate].
        unfold rc_inv. cbn [obj threads set_thread set_obj counter inner outer].
        set (y := {| at_ := Idle; refs := refs x |}).
        pose proof (total_upd _ _ _ y Et) as Hu. pose proof (freeing_upd _ _ _ y Et) as Hfu.
        unfold isf in Hfu. rewrite Ea in Hfu. cbn [at_ refs y] in Hu, Hfu.
        split; [rewrite Hc; do 2 f_equal; lia|]. right. right. repeat split; auto; lia.
    - (* give *)
      destruct (holder s t) as [x|] eqn:E; [|split; discriminate].
      destruct (holder_inv _ _ _ E) as (Et & Ea & Er). pose proof (total_in _ _ _ Et) as Ht.
      destruct (nth_error (threads s) u) as [y|] eqn:Eu; [|split; discriminate].
      destruct (Nat.eqb_spec t u) as [Htu|Htu]; [split; discriminate|].
      split; [discriminate|]. intros s' seen H. injection H as <- <-. split; [|discriminate].
      destruct Hcase as [(Hp & Hf & Hi & Ho)|[(Hz & _)|(Hz & _)]]; [|lia|lia].
      unfold rc_inv. cbn [obj threads set_thread set_obj counter inner outer].
      set (x1 := {| at_ := Idle; refs := pred (refs x) |}). set (y1 := {| at_ := at_ y; refs := S (refs y) |}).
      pose proof (total_upd _ _ _ x1 Et) as Hu. pose proof (freeing_upd _ _ _ x1 Et) as Hfu.
      assert (Eu1 : nth_error (upd (threads s) t x1) u = Some y) by (rewrite upd_other by exact Htu; exact Eu).
      pose proof (total_upd _ _ _ y1 Eu1) as Hu1. pose proof (freeing_upd _ _ _ y1 Eu1) as Hfu1.
      unfold isf in Hfu, Hfu1. rewrite Ea in Hfu. cbn [at_ refs x1 y1] in Hu, Hfu, Hu1, Hfu1.
      split; [rewrite Hc; do 2 f_equal; lia|]. left. repeat split; auto; lia.
  Qed.

  Lemma created_total n : total (threads (created c0 n)) = 1%nat /\ freeing (threads (created c0 n)) = 0%nat.
  Proof.
    cbn [created threads]. rewrite total_cons, freeing_cons.
    assert (E : total (repeat {| at_ := Idle; refs := 0 |} n) = 0%nat /\ freeing (repeat {| at_ := Idle; refs := 0 |} n) = 0%nat).
    { induction n as [|n [IH1 IH2]]; [auto|]. cbn [repeat]. rewrite total_cons, freeing_cons. auto. }
    destruct E as [-> ->]. auto.
  Qed.

  Lemma created_inv n : rc_inv (created c0 n).
  Proof. destruct (created_total n) as [E1 E2]. split; [rewrite E1; reflexivity|]. left. rewrite E1, E2. auto. Qed.

  (* number of references in the course of a schedule stays below 2^32 *)
  Fixpoint always_small (a : atomics) (s : system C) (es : list event) : Prop :=
    small s /\
    match es with
    | [] => True
    | e :: t => match rc_step a s e with Next s' _ => always_small a s' t | _ => True end
    end.

  Lemma rc_run_inv a : forall es s, rc_inv s -> always_small a s es ->
    rc_run a s es <> UB /\ forall s' seen, rc_run a s es = Next s' seen -> rc_inv s' /\ small s'.
  Proof.
    induction es as [|e es IH]; intros s Hi Hs; cbn [rc_run always_small] in *.
    - split; [discriminate|]. intros s' seen H. injection H as <- <-. tauto.
    - destruct Hs as [Hs Ht]. destruct (rc_step_inv a s e Hi Hs) as [Hu Hn].
      destruct (rc_step a s e) as [| |s1 seen1]; [split; discriminate|congruence|].
      destruct (Hn s1 seen1 eq_refl) as [Hi1 _]. apply IH; assumption.
  Qed.

  (** * C32 *)

  (* For every number of threads and every schedule of Clone, read, Destroy and hand-over
     steps by holders of references with fewer than 2^32 references at any time: freed
     memory is never touched (nor freed again); *)
  Theorem refcount_no_use_after_free : forall a n es,
    always_small a (created c0 n) es -> rc_run a (created c0 n) es <> UB.
  Proof. intros a n es H. apply rc_run_inv; [apply created_inv|exact H]. Qed.

  (* as long as there is a reference nothing is freed and every read sees the content
     the object was created with; *)
  Theorem refcount_alive_while_referenced : forall a n es s seen,
    always_small a (created c0 n) es -> rc_run a (created c0 n) es = Next s seen ->
    (exists t x, nth_error (threads s) t = Some x /\ (0 < refs x)%nat) ->
    inner (obj s) = Some c0 /\ outer (obj s) = true /\
    forall t s' c, rc_step a s (ERead t) = Next s' (Some c) -> c = c0.
  Proof.
    intros a n es s seen Hs Hr (t & x & Et & Hx).
    destruct (rc_run_inv a es _ (created_inv n) Hs) as [_ Hn]. destruct (Hn s seen Hr) as [Hi Hsm].
    pose proof Hi as [_ [(_ & _ & H1 & H2)|[(Hz & _)|(Hz & _)]]];
      [|pose proof (total_in _ _ _ Et); lia|pose proof (total_in _ _ _ Et); lia].
    split; [exact H1|]. split; [exact H2|]. intros u s' c H.
    apply (proj2 (rc_step_inv a s (ERead u) Hi Hsm) _ _ H). reflexivity.
  Qed.

  (* and once the last reference is gone and the thread that destroyed it has finished
     that call, content and block have been freed (each once: see the first theorem). *)
  Theorem refcount_freed_after_last : forall a n es s seen,
    always_small a (created c0 n) es -> rc_run a (created c0 n) es = Next s seen ->
    (forall t x, nth_error (threads s) t = Some x -> refs x = 0%nat /\ at_ x = Idle) ->
    inner (obj s) = None /\ outer (obj s) = false.
  Proof.
    intros a n es s seen Hs Hr Hall.
    destruct (rc_run_inv a es _ (created_inv n) Hs) as [_ Hn]. destruct (Hn s seen Hr) as [[_ Hi] _].
    destruct Hi as [(Hp & _)|[(_ & _ & _ & t & x & Et & Hx)|(_ & _ & H1 & H2)]]; [| |auto].
    - exfalso. assert (E : total (threads s) = 0%nat); [|lia].
      clear - Hall. induction (threads s) as [|x ts IH]; [reflexivity|]. rewrite total_cons.
      destruct (Hall 0%nat x eq_refl) as [-> _]. apply IH. intros t. exact (Hall (S t)).
    - destruct (Hall _ _ Et) as [_ E]. destruct Hx as [[E1 _]|[E1 _]]; congruence.
  Qed.

  (** * C33: refuted *)

  Definition clones (k : nat) : list event := repeat (EClone 0) k.

  Lemma run_clones a : forall k (s : system C) x ts, threads s = {| at_ := Idle; refs := S x |} :: ts -> outer (obj s) = true ->
    counter (obj s) < two32 ->
    rc_run a s (clones k) =
      Next {| obj := {| inner := inner (obj s); outer := true; counter := (counter (obj s) + N.of_nat k) mod two32 |};
              threads := {| at_ := Idle; refs := S x + k |} :: ts |} None.
  Proof.
    induction k as [|k IH]; intros [[i ou c] tt] x ts Et Ho Hc; cbn [obj threads inner outer counter] in *; subst tt ou.
    - cbn [clones repeat rc_run]. rewrite Nat.add_0_r, N.add_0_r, N.mod_small by exact Hc. reflexivity.
    - cbn [clones repeat rc_run rc_step holder nth_error threads at_ refs outer obj].
      cbn [set_thread set_obj upd threads obj inner counter]. fold (clones k).
      rewrite (IH _ (S x) ts); cbn [obj threads inner outer counter set_thread set_obj upd]; [|reflexivity|reflexivity|].
      + unfold inc_ref. rewrite N.add_mod_idemp_l by (unfold two32; lia).
        replace (c + 1 + N.of_nat k) with (c + N.of_nat (S k)) by lia.
        replace (S (S x) + k)%nat with (S x + S k)%nat by lia. reflexivity.
      + unfold inc_ref. apply N.mod_lt. unfold two32. lia.
  Qed.

  (* After 2^32 clones (2^32 + 1 references) one Destroy frees the object while 2^32
     references are left, and the next use of any of them is undefined -- with either
     kind of atomics. *)
  Theorem refcount_overflow_refuted : forall a, exists s,
    rc_run a (created c0 0) (clones (N.to_nat two32) ++ [EDestroy 0; ERun 0; ERun 0]) = Next s None /\
    (exists x, nth_error (threads s) 0 = Some x /\ N.of_nat (refs x) = two32) /\
    inner (obj s) = None /\ outer (obj s) = false /\ rc_step a s (ERead 0) = UB.
  Proof.
    intros a.
    assert (Happ : forall es1 es2 (s s1 : system C), rc_run a s es1 = Next s1 None -> rc_run a s (es1 ++ es2) = rc_run a s1 es2).
    { induction es1 as [|e es1 IH]; intros es2 s s1 H; cbn [rc_run app] in *; [injection H as <-; reflexivity|].
      destruct (rc_step a s e); try discriminate. apply IH, H. }
    assert (Hz : N.to_nat two32 <> 0%nat) by (unfold two32; lia).
    destruct (N.to_nat two32) as [|k] eqn:Ek; [congruence|].
    rewrite (Happ _ _ _ _ (run_clones a (S k) (created c0 0) 0 [] eq_refl eq_refl ltac:(cbn; unfold two32; lia))).
    replace (N.of_nat (S k)) with two32 by lia.
    cbn [obj created inner counter]. replace ((1 + two32) mod two32) with 1 by reflexivity.
    cbn [rc_run rc_step holder nth_error threads at_ refs outer obj].
    assert (Hd : dec_hits_zero a 1 = true) by (destruct a; reflexivity).
    repeat progress (cbn [Nat.add pred set_thread set_obj upd threads obj inner counter nth_error at_ refs outer]; rewrite ?Hd).
    eexists. split; [reflexivity|]. cbn [obj threads inner outer nth_error].
    split; [eexists; split; [reflexivity|]; cbn [refs]; lia|]. auto.
  Qed.
End Object.

(* A schedule of two threads that meets the hypotheses: clone, hand over, destroy in
   both threads interleaved with the frees of the last one. *)
Example refcount_schedule :
  let es := [EClone 0; EGive 0 1; EDestroy 0; ERead 1; EClone 1; EDestroy 1; EDestroy 1; ERun 1; ERun 1] in
  always_small C11 (created (str "abc") 1) es /\
  exists s, rc_run C11 (created (str "abc") 1) es = Next s None /\ inner (obj s) = None /\ outer (obj s) = false.
Proof. cbn. unfold small. cbn. repeat split; try (unfold two32; lia). eexists. repeat split. Qed.
