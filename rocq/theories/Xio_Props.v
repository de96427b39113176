(* C56: xio dispatches faithfully. *)
From Verif Require Import Base Xio_Model Xio_Spec.
Open Scope N_scope.

(* The instances of a state are exactly those owned according to the history. *)
Record knows (past : list xcall) (s : xstate) : Prop := {
  kn_to : forall i xi, get_xio s i = Some xi -> complete (io_interface_description xi) /\ owns past i (io_interface_description xi) (concrete_xio_handle xi);
  kn_from : forall i d h, owns past i d h -> get_xio s i = Some {| io_interface_description := d; concrete_xio_handle := h |};
  kn_new : forall x i d h, In x past -> creates x i d h -> (i < length (instances s))%nat
}.

Lemma owns_snoc past c i d h : owns past i d h -> x_op c <> XDestroy (Some i) -> owns (past ++ [c]) i d h.
Proof.
  intros (a & x & b & -> & H & K) Hc. exists a, x, (b ++ [c]). rewrite <- app_assoc. split; [reflexivity|]. split; [exact H|].
  intros y Hy. apply in_app_or in Hy. destruct Hy as [Hy|[<-|[]]]; auto.
Qed.
Lemma owns_snoc_inv past c i d h : owns (past ++ [c]) i d h -> (owns past i d h /\ x_op c <> XDestroy (Some i)) \/ creates c i d h.
Proof.
  intros (a & x & b & E & H & K). destruct (rev b) as [|y r] eqn:Er.
  - apply (f_equal (@rev _)) in Er. rewrite rev_involutive in Er. cbn in Er. subst b. apply app_inj_tail in E. destruct E as [_ <-]. right. exact H.
  - apply (f_equal (@rev _)) in Er. rewrite rev_involutive in Er. cbn in Er. subst b. change (a ++ x :: rev r ++ [y]) with (a ++ (x :: rev r) ++ [y]) in E.
    rewrite app_assoc in E. apply app_inj_tail in E. destruct E as [-> <-]. left. split.
    + exists a, x, (rev r). split; [reflexivity|]. split; [exact H|]. intros z Hz. apply K. apply in_or_app. left. exact Hz.
    + apply K. apply in_or_app. right. left. reflexivity.
Qed.
Lemma owns_new past c i d h : creates c i d h -> owns (past ++ [c]) i d h.
Proof. intros H. exists past, c, []. split; [reflexivity|]. split; [exact H|intros x []]. Qed.

Lemma get_app l s s1 i : instances s = l -> forall y, get_xio (with_instances s1 (l ++ [y])) i = if (i =? length l)%nat then y else get_xio s i.
Proof.
  intros <- y. unfold get_xio. cbn. destruct (Nat.eqb_spec i (length (instances s))) as [->|Hn].
  - rewrite nth_error_app2, Nat.sub_diag by lia. cbn. destruct y; reflexivity.
  - destruct (Nat.lt_ge_cases i (length (instances s))) as [H|H].
    + rewrite nth_error_app1 by exact H. reflexivity.
    + rewrite (proj2 (nth_error_None _ i)) by (rewrite app_length; cbn; lia). rewrite (proj2 (nth_error_None _ i)) by lia. reflexivity.
Qed.
Lemma get_upd l s s1 i j : instances s = l -> (j < length l)%nat -> get_xio (with_instances s1 (upd l j None)) i = if (i =? j)%nat then None else get_xio s i.
Proof.
  intros <- Hj. unfold get_xio. cbn. destruct (Nat.eqb_spec i j) as [->|Hn]; [rewrite upd_same by exact Hj; reflexivity|]. rewrite upd_other by congruence. reflexivity.
Qed.
Lemma get_lt s i xi : get_xio s i = Some xi -> (i < length (instances s))%nat.
Proof. unfold get_xio. intros H. apply nth_error_Some. destruct (nth_error (instances s) i); congruence. Qed.

(* a call that is neither a successful creation nor a destruction *)
Lemma knows_other past s s' c : knows past s -> instances s' = instances s -> (forall i, x_op c <> XDestroy (Some i)) -> (forall i d h, ~ creates c i d h) -> knows (past ++ [c]) s'.
Proof.
  intros [K1 K2 K3] E Hd Hc. assert (G : forall i, get_xio s' i = get_xio s i) by (intros i; unfold get_xio; rewrite E; reflexivity). constructor.
  - intros i xi H. rewrite G in H. destruct (K1 i xi H). split; [assumption|]. apply owns_snoc; auto.
  - intros i d h H. rewrite G. apply owns_snoc_inv in H. destruct H as [[H _]|H]; [auto|destruct (Hc _ _ _ H)].
  - intros x i d h Hx H. rewrite E. apply in_app_or in Hx. destruct Hx as [Hx|[<-|[]]]; [eauto|destruct (Hc _ _ _ H)].
Qed.

Lemma skipn_snoc {A} (l : list A) x : skipn (length l) (l ++ [x]) = [x].
Proof. rewrite skipn_app, skipn_all, Nat.sub_diag. reflexivity. Qed.

Lemma step_faithful past s op o r s' o' : knows past s -> xstep s op o = Some ((r, s'), o') ->
  let c := {| x_op := op; x_ret := r; x_made := skipn (length (calls s)) (calls s') |} in
  faithful past c /\ refuses c /\ knows (past ++ [c]) s'.
Proof.
  intros K E. pose proof K as [K1 K2 K3]. cbn zeta.
  assert (Hcr : forall op' c, x_op c = op' -> (forall d p l, op' <> XCreate d p l) -> forall i d h, ~ creates c i d h).
  { intros op' c <- Hn i d h (p & l & f & H & _). exact (Hn _ _ _ H). }
  assert (Href : forall op' c, x_op c = op' -> (forall d p l, op' <> XCreate d p l) -> refuses c).
  { intros op' c <- Hn d p l H. destruct (Hn _ _ _ H). }
  destruct op as [d p l|x|x a1 a2 a3 a4 a5 a6|x a1 a2|x b n a1 a2|x|x n v]; cbn [xstep] in E.
  - (* create *)
    assert (Hnone : forall s1, s' = s1 -> instances s1 = instances s -> r = XRH None -> (calls s1 = calls s \/ exists d' f, d = Some d' /\ complete d' /\ concrete_io_create d' = Some f /\ calls s1 = calls s ++ [CCreate f p l None]) ->
       ((forall d', d = Some d' -> ~ complete d') -> calls s1 = calls s) ->
       let c := {| x_op := XCreate d p l; x_ret := r; x_made := skipn (length (calls s)) (calls s') |} in faithful past c /\ refuses c /\ knows (past ++ [c]) s').
    { intros s1 -> Hi -> Hc Hr c. split; [|split].
      - unfold c, faithful. cbn. destruct Hc as [->|(d' & f & H1 & H2 & H3 & ->)]; [left; apply skipn_all|right]. exists d', f. rewrite skipn_snoc. auto.
      - intros d0 p0 l0 H Hd. cbn in H. injection H as <- <- <-. split; [reflexivity|]. cbn. rewrite (Hr Hd). apply skipn_all.
      - apply (knows_other past s); auto; [intros i; discriminate|]. intros i d0 h (p0 & l0 & f & _ & H & _). discriminate. }
    destruct d as [d|]; [|injection E as <- <- <-; apply (Hnone s); auto].
    cbn [xio_create] in E. destruct (concrete_io_create d) as [f1|] eqn:E1, (concrete_io_destroy d) as [f2|] eqn:E2, (concrete_io_open d) as [f3|] eqn:E3, (concrete_io_close d) as [f4|] eqn:E4,
      (concrete_io_send d) as [f5|] eqn:E5, (concrete_io_dowork d) as [f6|] eqn:E6, (concrete_io_setoption d) as [f7|] eqn:E7;
      try (injection E as <- <- <-; apply (Hnone s); auto).
    assert (Hcomp : complete d) by (unfold complete; rewrite E1, E2, E3, E4, E5, E6, E7; repeat split; discriminate).
    unfold bind in E. destruct (alloc_spec o) as (ok & o1 & used & Ea & _). rewrite Ea in E. destruct ok; cbn [negb] in E; [|injection E as <- <- <-; apply (Hnone s); auto].
    unfold next_pointer in E. cbv zeta beta iota in E. destruct (hd None (answers_handle s)) as [h|].
    2:{ injection E as <- <- <-. eapply Hnone; [reflexivity|reflexivity|reflexivity| |].
        - right. exists d, f1. split; [reflexivity|]. split; [exact Hcomp|]. split; [exact E1|]. reflexivity.
        - intros H. destruct (H d eq_refl Hcomp). }
    cbn in E. injection E as <- <- <-. set (c := Build_xcall _ _ _). assert (C : creates c (length (instances s)) d h).
    { exists p, l, f1. split; [reflexivity|]. split; [reflexivity|]. split; [exact E1|]. cbn. apply skipn_snoc. }
    split; [|split].
    + unfold faithful, c. cbn [x_op x_ret]. fold c. exists d, h. split; [reflexivity|]. split; [exact Hcomp|]. split; [exact C|]. intros x d'' h' Hx H. pose proof (K3 _ _ _ _ Hx H). lia.
    + intros d0 p0 l0 H Hd. cbn in H. injection H as <- <- <-. destruct (Hd d eq_refl Hcomp).
    + set (xi := {| io_interface_description := d; concrete_xio_handle := h |}).
      assert (G : forall i, get_xio (with_instances (with_call {| instances := instances s; answers_handle := tl (answers_handle s); answers_int := answers_int s; calls := calls s |} (CCreate f1 p l (Some h))) (instances s ++ [Some xi])) i
           = if (i =? length (instances s))%nat then Some xi else get_xio s i) by (intros i; apply get_app; reflexivity).
      constructor.
      * intros i y H. rewrite G in H. destruct (Nat.eqb_spec i (length (instances s))) as [->|Hn].
        { injection H as <-. split; [exact Hcomp|]. apply owns_new, C. }
        destruct (K1 i y H). split; [assumption|]. apply owns_snoc; [assumption|discriminate].
      * intros i d0 h0 H. rewrite G. apply owns_snoc_inv in H. destruct H as [[H _]|H].
        -- pose proof (get_lt _ _ _ (K2 _ _ _ H)) as Hlt. replace (i =? length (instances s))%nat with false by lia. auto.
        -- destruct H as (p0 & l0 & f0 & H1 & H2 & _ & H3). destruct C as (p1 & l1 & f' & C1 & C2 & _ & C3). rewrite C1 in H1. rewrite C2 in H2. rewrite C3 in H3.
           injection H1 as <- _ _. injection H2 as <-. injection H3 as _ _ _ <-. rewrite Nat.eqb_refl. reflexivity.
      * intros x i d0 h0 Hx H. cbn. rewrite app_length. cbn. apply in_app_or in Hx. destruct Hx as [Hx|[<-|[]]].
        -- pose proof (K3 _ _ _ _ Hx H). lia.
        -- destruct H as (p0 & l0 & f0 & _ & H2 & _). cbn in H2. injection H2 as <-. lia.
  - (* destroy *)
    destruct x as [i|].
    2:{ injection E as <- <- <-. split; [apply skipn_all|]. split; [eapply Href; [reflexivity|discriminate]|]. apply (knows_other past s); auto; [intros j; discriminate|]. eapply Hcr; [reflexivity|discriminate]. }
    cbn [xio_destroy] in E. unfold bind, lift, through in E. destruct (get_xio s i) as [xi|] eqn:Ei; [|discriminate]. destruct (K1 i xi Ei) as [Hcomp Ho].
    destruct (concrete_io_destroy (io_interface_description xi)) as [f|] eqn:Ef; [|discriminate]. cbn in E. injection E as <- <- <-.
    split; [|split; [eapply Href; [reflexivity|discriminate]|]].
    + exists (io_interface_description xi), (concrete_xio_handle xi), f. split; [exact Ho|]. split; [exact Ef|]. cbn. apply skipn_snoc.
    + pose proof (get_lt _ _ _ Ei) as Hlt. set (s1 := with_instances _ _).
      assert (G : forall j, get_xio s1 j = if (j =? i)%nat then None else get_xio s j) by (intros j; apply get_upd; [reflexivity|exact Hlt]).
      constructor.
      * intros j y H. rewrite G in H. destruct (Nat.eqb_spec j i) as [->|Hn]; [discriminate|]. destruct (K1 j y H). split; [assumption|]. apply owns_snoc; [assumption|]. cbn. congruence.
      * intros j d0 h0 H. rewrite G. apply owns_snoc_inv in H. destruct H as [[H Hn]|H].
        -- cbn in Hn. destruct (Nat.eqb_spec j i) as [->|_]; [congruence|]. auto.
        -- exfalso. revert H. eapply Hcr; [reflexivity|discriminate].
      * intros x j d0 h0 Hx H. cbn. rewrite upd_length. apply in_app_or in Hx. destruct Hx as [Hx|[<-|[]]]; [eauto|]. exfalso. revert H. eapply Hcr; [reflexivity|discriminate].
  - destruct x as [i|].
    2:{ injection E as <- <- <-. split; [split; [apply skipn_all|discriminate]|]. split; [eapply Href; [reflexivity|discriminate]|]. apply (knows_other past s); auto; [intros j; discriminate|]. eapply Hcr; [reflexivity|discriminate]. }
    cbn [xio_open] in E. unfold bind, lift, through in E. destruct (get_xio s i) as [xi|] eqn:Ei; [|discriminate]. destruct (K1 i xi Ei) as [Hcomp Ho].
    destruct (concrete_io_open (io_interface_description xi)) as [f|] eqn:Ef; [|discriminate]. cbn in E. injection E as <- <- <-.
    split; [|split; [eapply Href; [reflexivity|discriminate]|]].
    + do 4 eexists. split; [exact Ho|]. split; [exact Ef|]. cbn. split; [apply skipn_snoc|]. eexists. split; [reflexivity|].
      destruct (Z.eqb_spec (hd 0%Z (answers_int s)) 0); intuition (try congruence); try lia.
    + apply (knows_other past s); auto; [intros j; discriminate|]. eapply Hcr; [reflexivity|discriminate].
  - destruct x as [i|].
    2:{ injection E as <- <- <-. split; [split; [apply skipn_all|discriminate]|]. split; [eapply Href; [reflexivity|discriminate]|]. apply (knows_other past s); auto; [intros j; discriminate|]. eapply Hcr; [reflexivity|discriminate]. }
    cbn [xio_close] in E. unfold bind, lift, through in E. destruct (get_xio s i) as [xi|] eqn:Ei; [|discriminate]. destruct (K1 i xi Ei) as [Hcomp Ho].
    destruct (concrete_io_close (io_interface_description xi)) as [f|] eqn:Ef; [|discriminate]. cbn in E. injection E as <- <- <-.
    split; [|split; [eapply Href; [reflexivity|discriminate]|]].
    + do 4 eexists. split; [exact Ho|]. split; [exact Ef|]. cbn. split; [apply skipn_snoc|]. eexists. split; [reflexivity|].
      destruct (Z.eqb_spec (hd 0%Z (answers_int s)) 0); intuition (try congruence); try lia.
    + apply (knows_other past s); auto; [intros j; discriminate|]. eapply Hcr; [reflexivity|discriminate].
  - destruct x as [i|].
    2:{ injection E as <- <- <-. split; [split; [apply skipn_all|discriminate]|]. split; [eapply Href; [reflexivity|discriminate]|]. apply (knows_other past s); auto; [intros j; discriminate|]. eapply Hcr; [reflexivity|discriminate]. }
    cbn [xio_send] in E. unfold bind, lift, through in E. destruct (get_xio s i) as [xi|] eqn:Ei; [|discriminate]. destruct (K1 i xi Ei) as [Hcomp Ho].
    destruct (concrete_io_send (io_interface_description xi)) as [f|] eqn:Ef; [|discriminate]. cbn in E. injection E as <- <- <-.
    split; [|split; [eapply Href; [reflexivity|discriminate]|]].
    + do 4 eexists. split; [exact Ho|]. split; [exact Ef|]. cbn. split; [apply skipn_snoc|]. reflexivity.
    + apply (knows_other past s); auto; [intros j; discriminate|]. eapply Hcr; [reflexivity|discriminate].
  - destruct x as [i|].
    2:{ injection E as <- <- <-. split; [apply skipn_all|]. split; [eapply Href; [reflexivity|discriminate]|]. apply (knows_other past s); auto; [intros j; discriminate|]. eapply Hcr; [reflexivity|discriminate]. }
    cbn [xio_dowork] in E. unfold bind, lift, through in E. destruct (get_xio s i) as [xi|] eqn:Ei; [|discriminate]. destruct (K1 i xi Ei) as [Hcomp Ho].
    destruct (concrete_io_dowork (io_interface_description xi)) as [f|] eqn:Ef; [|discriminate]. cbn in E. injection E as <- <- <-.
    split; [|split; [eapply Href; [reflexivity|discriminate]|]].
    + do 3 eexists. split; [exact Ho|]. split; [exact Ef|]. cbn. apply skipn_snoc.
    + apply (knows_other past s); auto; [intros j; discriminate|]. eapply Hcr; [reflexivity|discriminate].
  - destruct x as [i|].
    2:{ injection E as <- <- <-. split; [split; [apply skipn_all|discriminate]|]. split; [eapply Href; [reflexivity|discriminate]|]. apply (knows_other past s); auto; [intros j; discriminate|]. eapply Hcr; [reflexivity|discriminate]. }
    destruct n as [n|].
    2:{ injection E as <- <- <-. split; [split; [apply skipn_all|discriminate]|]. split; [eapply Href; [reflexivity|discriminate]|]. apply (knows_other past s); auto; [intros j; discriminate|]. eapply Hcr; [reflexivity|discriminate]. }
    cbn [xio_setoption] in E. unfold bind, lift, through in E. destruct (get_xio s i) as [xi|] eqn:Ei; [|discriminate]. destruct (K1 i xi Ei) as [Hcomp Ho].
    destruct (concrete_io_setoption (io_interface_description xi)) as [f|] eqn:Ef; [|discriminate]. cbn in E. injection E as <- <- <-.
    split; [|split; [eapply Href; [reflexivity|discriminate]|]].
    + do 4 eexists. split; [exact Ho|]. split; [exact Ef|]. cbn. split; [apply skipn_snoc|]. reflexivity.
    + apply (knows_other past s); auto; [intros j; discriminate|]. eapply Hcr; [reflexivity|discriminate].
Qed.

Lemma history_faithful ops : forall past s o h s' o', knows past s -> xhistory s ops o = Some ((h, s'), o') ->
  knows (past ++ h) s' /\ forall a c b, h = a ++ c :: b -> faithful (past ++ a) c /\ refuses c.
Proof.
  induction ops as [|op ops IH]; intros past s o h s' o' K E; cbn [xhistory] in E.
  - injection E as <- <- <-. rewrite app_nil_r. split; [exact K|]. intros [|? ?] c b H; discriminate.
  - unfold bind in E. destruct (xstep s op o) as [[[r s1] o1]|] eqn:E1; [|discriminate]. cbn [fst snd] in E.
    destruct (xhistory s1 ops o1) as [[[h1 s2] o2]|] eqn:E2; [|discriminate]. cbn in E. injection E as <- <- <-.
    destruct (step_faithful _ _ _ _ _ _ _ K E1) as (F & R & K'). destruct (IH _ _ _ _ _ _ K' E2) as [K2 H2]. rewrite <- app_assoc in K2. split; [exact K2|].
    intros [|c0 a] c b H; cbn in H; injection H as <- H.
    + rewrite app_nil_r. auto.
    + subst h1. specialize (H2 a c b eq_refl). rewrite <- app_assoc in H2. exact H2.
Qed.
Lemma knows_start hs rs : knows [] (xstart hs rs).
Proof.
  constructor.
  - intros i xi H. unfold get_xio in H. destruct i; discriminate.
  - intros i d h ([|? ?] & c & b & H & _); discriminate.
  - intros x i d h [].
Qed.

(* C56: in every history, whatever the concrete functions return and whatever allocations fail,
   each call makes exactly the concrete call it should, on the concrete handle of its xio, with
   the caller's arguments, and reports its result. *)
Theorem xio_faithful : forall hs rs ops o h s' o' a c b,
  xhistory (xstart hs rs) ops o = Some ((h, s'), o') -> h = a ++ c :: b -> faithful a c /\ refuses c.
Proof. intros hs rs ops o h s' o' a c b E H. exact (proj2 (history_faithful ops [] _ _ _ _ _ (knows_start hs rs) E) a c b H). Qed.

(* A handle that was created and not destroyed can be used: no call on it is undefined. *)
Definition target (op : xop) : option nat :=
  match op with
  | XCreate _ _ _ => None
  | XDestroy x | XOpen x _ _ _ _ _ _ | XClose x _ _ | XSend x _ _ _ _ | XDowork x | XSetOption x _ _ => x
  end.
Theorem xio_usable : forall hs rs ops o h s' o' op, xhistory (xstart hs rs) ops o = Some ((h, s'), o') ->
  (forall i, target op = Some i -> exists d c, owns h i d c) -> exists x o'', xstep s' op o' = Some (x, o'').
Proof.
  intros hs rs ops o h s' o' op E Ho. pose proof (proj1 (history_faithful ops [] _ _ _ _ _ (knows_start hs rs) E)) as K. cbn in K. destruct K as [K1 K2 _].
  destruct op as [d p l|x|x a1 a2 a3 a4 a5 a6|x a1 a2|x b n a1 a2|x|x n v]; cbn [xstep target] in *.
  1:{ unfold xio_create. destruct d as [d|]; [|do 2 eexists; reflexivity]. destruct (concrete_io_create d), (concrete_io_destroy d), (concrete_io_open d), (concrete_io_close d), (concrete_io_send d), (concrete_io_dowork d), (concrete_io_setoption d); try (do 2 eexists; reflexivity).
      unfold bind. destruct (alloc_spec o') as (ok & o1 & used & Ea & _). rewrite Ea. destruct ok; cbn [negb]; [|do 2 eexists; reflexivity]. unfold next_pointer. cbv zeta beta iota.
      destruct (hd None (answers_handle s')); do 2 eexists; reflexivity. }
  all: destruct x as [i|]; [|do 2 eexists; reflexivity]; destruct (Ho i eq_refl) as (d & c & Hi); apply K2 in Hi; destruct (K1 _ _ Hi) as [(F1 & F2 & F3 & F4 & F5 & F6 & F7) _]; cbn in *;
    unfold bind, lift, through; rewrite ?Hi; cbn.
  - destruct (concrete_io_destroy d); [do 2 eexists; reflexivity|congruence].
  - destruct (concrete_io_open d); [do 2 eexists; reflexivity|congruence].
  - destruct (concrete_io_close d); [do 2 eexists; reflexivity|congruence].
  - destruct (concrete_io_send d); [do 2 eexists; reflexivity|congruence].
  - destruct (concrete_io_dowork d); [do 2 eexists; reflexivity|congruence].
  - destruct n as [n|]; [|do 2 eexists; reflexivity]. destruct (concrete_io_setoption d); [do 2 eexists; reflexivity|congruence].
Qed.

(* With memory, a complete interface and a concrete handle, creation succeeds. *)
Theorem xio_create_succeeds : forall s d p l h o, complete d -> hd None (answers_handle s) = Some h -> ~ In false o ->
  exists i s' o', xio_create s (Some d) p l o = Some ((XRH (Some i), s'), o').
Proof.
  intros s d p l h o (F1 & F2 & F3 & F4 & F5 & F6 & F7) Hh Ho. unfold xio_create.
  destruct (concrete_io_create d), (concrete_io_destroy d), (concrete_io_open d), (concrete_io_close d), (concrete_io_send d), (concrete_io_dowork d), (concrete_io_setoption d); try congruence.
  unfold bind. destruct (alloc_spec o) as (ok & o1 & used & Ea & Hu & Hf). rewrite Ea. destruct ok; cbn [negb].
  - unfold next_pointer. cbv zeta beta iota. rewrite Hh. do 3 eexists; reflexivity.
  - exfalso. apply Ho. rewrite Hu. apply in_or_app. left. auto.
Qed.

(* A concrete handle is destroyed at most once for its xio: after xio_destroy the handle is nobody's. *)
Theorem xio_destroyed_once : forall hs rs ops o h s' o' a c1 b c2 d i,
  xhistory (xstart hs rs) ops o = Some ((h, s'), o') -> h = a ++ c1 :: b ++ c2 :: d ->
  x_op c1 = XDestroy (Some i) -> x_op c2 <> XDestroy (Some i).
Proof.
  intros hs rs ops o h s' o' a c1 b c2 d i E H H1 H2.
  destruct (xio_faithful _ _ _ _ _ _ _ a c1 (b ++ c2 :: d) E H) as [F1 _].
  assert (Hs : h = (a ++ c1 :: b) ++ c2 :: d) by (rewrite H, <- app_assoc; reflexivity).
  destruct (xio_faithful _ _ _ _ _ _ _ _ c2 d E Hs) as [F2 _]. unfold faithful in F1, F2. rewrite H1 in F1. rewrite H2 in F2.
  destruct F1 as (d1 & h1 & f1 & (p1 & y1 & q1 & E1 & C1 & N1) & _). destruct F2 as (d2 & h2 & f2 & (p2 & y2 & q2 & E2 & C2 & N2) & _).
  (* the creation seen by the second destroy is after the first, so it gave i again: impossible *)
  assert (Hafter : In y2 (c1 :: b) \/ exists q, a = p2 ++ y2 :: q /\ q2 = q ++ c1 :: b).
  { clear - E2. revert p2 E2. induction a as [|z a IH]; intros p2 E2; cbn in E2.
    - left. rewrite E2. apply in_or_app. right. left. reflexivity.
    - destruct p2 as [|z2 p2]; cbn in E2; injection E2 as -> E2.
      + right. exists a. split; [reflexivity|congruence].
      + destruct (IH p2 E2) as [K|(q & -> & ->)]; [left; exact K|right; exists q; split; reflexivity]. }
  destruct Hafter as [Hin|(q & _ & ->)].
  - destruct Hin as [<-|Hin].
    + destruct C2 as (p & l & f & K & _). congruence.
    + apply in_split in Hin. destruct Hin as (b1 & b2 & ->).
      assert (Hs2 : h = (a ++ c1 :: b1) ++ y2 :: b2 ++ c2 :: d) by (rewrite H; repeat (rewrite <- app_assoc; cbn); reflexivity).
      destruct (xio_faithful _ _ _ _ _ _ _ _ y2 (b2 ++ c2 :: d) E Hs2) as [F _]. unfold faithful in F. destruct C2 as (p & l & f & K1 & K2 & _). rewrite K1, K2 in F.
      destruct F as (d' & h' & _ & _ & _ & Hnew). apply (Hnew y1 d1 h1); [|exact C1]. apply in_or_app. left. rewrite E1. apply in_or_app. right. left. reflexivity.
  - apply (N2 c1); [|exact H1]. apply in_or_app. right. left. reflexivity.
Qed.

(* A history that meets the hypotheses: two interfaces, one incomplete. *)
Definition ex_interface (n : nat) : io_interface :=
  {| concrete_io_create := Some n; concrete_io_destroy := Some (n + 1)%nat; concrete_io_open := Some (n + 2)%nat; concrete_io_close := Some (n + 3)%nat;
     concrete_io_send := Some (n + 4)%nat; concrete_io_dowork := Some (n + 5)%nat; concrete_io_setoption := Some (n + 6)%nat |}.
Definition ex_incomplete : io_interface :=
  {| concrete_io_create := Some 1%nat; concrete_io_destroy := Some 1%nat; concrete_io_open := Some 1%nat; concrete_io_close := Some 1%nat;
     concrete_io_send := Some 1%nat; concrete_io_dowork := None; concrete_io_setoption := Some 1%nat |}.
Example xio_example :
  option_map (fun x => map (fun c => (x_ret c, x_made c)) (fst (fst x)))
    (xhistory (xstart [Some 5%nat; Some 6%nat] [0; 7; 3]%Z)
      [XCreate (Some (ex_interface 10)) None None; XCreate (Some ex_incomplete) None None; XCreate (Some (ex_interface 20)) (Some 1%nat) None;
       XOpen (Some 1%nat) (Some 1%nat) None (Some 2%nat) None (Some 3%nat) None; XSend (Some 0%nat) (Some 9%nat) 4 None None; XClose (Some 1%nat) None None;
       XDestroy (Some 0%nat); XDowork (Some 1%nat)] [])
  = Some [(XRH (Some 0%nat), [CCreate 10 None None (Some 5%nat)]); (XRH None, []); (XRH (Some 1%nat), [CCreate 20 (Some 1%nat) None (Some 6%nat)]);
          (XRI 0, [COpen 22 6 (Some 1%nat) None (Some 2%nat) None (Some 3%nat) None 0]); (XRI 7, [CSend 14 5 (Some 9%nat) 4 None None 7]);
          (XRI 119, [CClose 23 6 None None 3]); (XRU, [CDestroy 11 5]); (XRU, [CDowork 25 6])].
Proof. reflexivity. Qed.
