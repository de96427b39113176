(* Properties of the mbed socket io (C122-C126). *)
From Verif Require Import Base SocketMbed_Model SocketMbed_Spec.
Local Open Scope Z_scope.
Arguments wire : simpl never. Arguments given : simpl never. Arguments completed : simpl never.
Arguments accepted : simpl never. Arguments accepted_bytes : simpl never. Arguments accepted_callbacks : simpl never.

Definition dw (f : frame) : bool := match f with AfterSend => false | _ => true end.
Definition isdone (f : frame) : bool := match f with AfterDone _ => true | _ => false end.
Definition waits (f : frame) : bool := match f with Sending | Receiving => true | _ => false end.
Record inv (i : io) : Prop := {
  v_conn : alive i = true -> io_state i <> IO_STATE_CLOSED \/ filter dw (frames i) <> [] -> conn i <> None;
  v_dw : (length (filter dw (frames i)) <= 1)%nat;
  v_alive : alive i = false -> frames i = [];
  v_ids : NoDup (map p_id (queue i));
  v_fresh : Forall (fun p => (p_id p < next_id i)%nat) (queue i);
  v_done : forall id, In (AfterDone id) (frames i) -> exists p q, queue i = p :: q /\ p_id p = id;
  v_top : hd_error (frames i) = Some Sending -> queue i <> [];
  v_below : filter waits (tl (frames i)) = [] }.

Lemma filter_le {A} (f g : A -> bool) l : (forall x, f x = true -> g x = true) -> filter g l = [] -> filter f l = [].
Proof.
  intros H. induction l as [|x l IH]; [auto|]. cbn. destruct (g x) eqn:G; [discriminate|].
  destruct (f x) eqn:F; [apply H in F; congruence|auto].
Qed.
Lemma no_done fs : filter dw fs = [] -> forall id, ~ In (AfterDone id) fs.
Proof. intros H id I. assert (X : In (AfterDone id) (filter dw fs)) by (apply filter_In; auto). now rewrite H in X. Qed.
Lemma no_waits fs : filter dw fs = [] -> filter waits fs = [].
Proof. apply filter_le. intros []; auto. Qed.

Lemma inv_created : inv created.
Proof. constructor; cbn; auto; try constructor; try tauto; try congruence. Qed.

(* drain and receive, from a point of dowork: no other frame of dowork is there *)
Lemma inv_receive i : inv i -> filter dw (frames i) = [] -> conn i <> None -> alive i = true ->
  exists j, receive i = Next j /\ inv j.
Proof.
  intros [] D C A. unfold receive. destruct (conn i) eqn:E; [|congruence]. eexists; split; [reflexivity|].
  constructor; cbn; rewrite ?E; auto; try congruence.
  - rewrite D. cbn. lia.
  - intros id [X|X]; [discriminate|auto].
  - now apply no_waits.
Qed.
Lemma inv_drain i : inv i -> filter dw (frames i) = [] -> conn i <> None -> alive i = true ->
  exists j, drain i = Next j /\ inv j.
Proof.
  intros I D C A. unfold drain. destruct (queue i) eqn:Q; [now apply inv_receive|].
  destruct I as [I1 I2 I3 I4 I5 I6 I7 I8].
  destruct (conn i) eqn:E; [|congruence]. eexists; split; [reflexivity|].
  constructor; cbn; rewrite ?E; auto; try congruence.
  - rewrite D. cbn. lia.
  - intros id [X|X]; [discriminate|auto].
  - now apply no_waits.
Qed.
Lemma filter_head (p : pending) q : NoDup (map p_id (p :: q)) ->
  filter (fun x => negb (p_id x =? p_id p)%nat) (p :: q) = q.
Proof.
  intros H. cbn. rewrite Nat.eqb_refl. cbn. inversion H as [|? ? N _]; subst. clear H.
  induction q as [|x q IH]; [reflexivity|]. cbn in *. destruct (Nat.eqb_spec (p_id x) (p_id p)); [tauto|]. cbn. f_equal. apply IH. tauto.
Qed.
Lemma inv_tail p q i : inv i -> queue i = p :: q -> filter dw (frames i) = [] -> hd_error (frames i) <> Some Sending -> inv (set_queue q (next_id i) i).
Proof.
  intros [] Q D H. rewrite Q in *. constructor; cbn; auto.
  - now inversion v_ids0.
  - now inversion v_fresh0.
  - intros id X. destruct (no_done _ D _ X).
Qed.
Lemma inv_finish p q i : inv i -> queue i = p :: q -> filter dw (frames i) = [] -> conn i <> None -> alive i = true ->
  exists j, finish (p_id p) i = Next j /\ inv j.
Proof.
  intros I Q D C A. unfold finish. rewrite Q. cbn [existsb]. rewrite Nat.eqb_refl. cbn [orb].
  rewrite filter_head by (rewrite <- Q; apply I). apply inv_drain; auto. apply (inv_tail p); auto.
  intros X. destruct (frames i) as [|[] fs]; cbn in *; discriminate.
Qed.
Lemma inv_emit o i : inv i -> inv (emit o i).
Proof. intros []. constructor; auto. Qed.
Lemma inv_same_frames i j : inv i -> frames j = frames i -> queue j = queue i -> next_id j = next_id i -> alive j = alive i -> conn j = conn i ->
  io_state j = io_state i -> inv j.
Proof. intros [] F Q N A C S. constructor; rewrite ?F, ?Q, ?N, ?A, ?C, ?S; auto. Qed.

Lemma inv_pop f i : inv i -> hd_error (frames i) = Some f ->
  inv (pop i) /\ (dw f = true -> filter dw (frames (pop i)) = [] /\ conn i <> None) /\ alive i = true.
Proof.
  intros [] H. unfold pop. destruct (frames i) as [|g fs] eqn:F; [discriminate|]. cbn in H. injection H as ->.
  cbn in *. split; [|split].
  - constructor; cbn; auto.
    + intros A [X|X]; apply v_conn0; auto. right. destruct (dw f); [discriminate|exact X].
    + destruct (dw f); cbn in v_dw0; lia.
    + intros X. apply v_alive0 in X. discriminate.
    + intros X. exfalso. destruct fs as [|g gs]; [discriminate|]. cbn in X. injection X as ->. cbn in v_below0. discriminate.
    + destruct fs as [|g gs]; [reflexivity|]. cbn in *. destruct (waits g); [discriminate|exact v_below0].
  - intros Df. rewrite Df in *. cbn in v_dw0. split; [destruct (filter dw fs); [reflexivity|cbn in v_dw0; lia]|].
    apply v_conn0; [|right; discriminate]. destruct (alive i); [reflexivity|]. specialize (v_alive0 eq_refl). discriminate.
  - destruct (alive i); [reflexivity|]. specialize (v_alive0 eq_refl). discriminate.
Qed.

Lemma NoDup_snoc {A} (l : list A) x : NoDup l -> ~ In x l -> NoDup (l ++ [x]).
Proof.
  intros N X. apply NoDup_rev in N. rewrite <- (rev_involutive (l ++ [x])). apply NoDup_rev. rewrite rev_app_distr. cbn.
  constructor; [|exact N]. now rewrite <- in_rev.
Qed.
Lemma inv_add bs cb m i ok j : inv i -> add_pending_io bs cb m i = (ok, j) -> inv j.
Proof.
  intros I H. unfold add_pending_io in H. destruct m; inversion H; subst; [|exact I].
  destruct I. constructor; cbn; auto.
  - rewrite map_app. cbn. apply NoDup_snoc; auto. intros X. apply in_map_iff in X. destruct X as (p & E & P).
    rewrite Forall_forall in v_fresh0. apply v_fresh0 in P. lia.
  - apply Forall_app. split; [|repeat constructor]. eapply Forall_impl; [|exact v_fresh0]. cbn. lia.
  - intros id X. apply v_done0 in X. destruct X as (p & q & E & P). exists p, (q ++ [mkp (next_id i) bs cb]). now rewrite E.
  - intros X. destruct (queue i); discriminate.
Qed.

Lemma call_some i r j : call i r = Next j -> may_call i = true /\ alive i = true /\ r = Next j.
Proof. unfold call. destruct (may_call i), (alive i); intros; try discriminate; auto. Qed.
Lemma may_below i : inv i -> may_call i = true -> filter waits (frames i) = [].
Proof.
  intros [] M. unfold may_call in M. destruct (frames i) as [|f fs]; [reflexivity|]. cbn in *. destruct f; try discriminate; exact v_below0.
Qed.

Lemma inv_send bs cb r m i : inv i -> may_call i = true -> alive i = true -> 
  match socketio_send bs cb r m i with Next j => inv j | Undefined => False | Idle => True end.
Proof.
  intros I M A. unfold socketio_send. destruct bs as [|b bs]; [now apply inv_emit|]. 
  destruct (io_state i) eqn:S; try (now apply inv_emit).
  destruct (queue i) as [|p q] eqn:Q.
  - assert (C : conn i <> None) by (apply I; [auto|left; congruence]). destruct (conn i) as [c|] eqn:E; [|congruence].
    destruct (_ <? _); [exact Logic.I|]. destruct (_ =? _).
    + assert (J : inv (emit (SendReturns (b :: bs) cb true) (emit (Wire c (b :: bs)) i))) by (repeat apply inv_emit; exact I).
      destruct cb; [|exact J]. pose proof (may_below _ I M) as B. destruct I. constructor; cbn; auto; try congruence.
      intros id [X|X]; [discriminate|auto].
    + set (k := Z.to_nat _). set (i' := if (k =? 0)%nat then i else _). assert (J : inv i') by (unfold i'; destruct (_ =? _)%nat; auto using inv_emit).
      clearbody i'. destruct (add_pending_io (skipn k (b :: bs)) cb m i') as [ok j] eqn:X. apply inv_emit. eapply inv_add; eauto.
  - destruct (add_pending_io (b :: bs) cb m i) as [ok j] eqn:X. apply inv_emit. eapply inv_add; eauto.
Qed.

Definition good (r : result) : Prop := match r with Next j => inv j | Undefined => False | Idle => True end.
Lemma good_ex r : (exists j, r = Next j /\ inv j) -> good r.
Proof. intros (j & -> & H). exact H. Qed.

Lemma inv_push f i : inv i -> filter dw (frames i) = [] -> conn i <> None -> alive i = true -> waits f = false ->
  (forall id, f = AfterDone id -> exists p q, queue i = p :: q /\ p_id p = id) -> inv (push f i).
Proof.
  intros [] D C A W Q. constructor; cbn; auto.
  - destruct (dw f); rewrite D; cbn; lia.
  - congruence.
  - intros id [X|X]; auto.
  - intros X. injection X as ->. discriminate.
  - now apply no_waits.
Qed.
Lemma inv_error i : inv i -> conn i <> None -> inv (set_state IO_STATE_ERROR i).
Proof. intros [] C. constructor; auto. Qed.
Lemma inv_sent r i : inv i -> filter dw (frames i) = [] -> conn i <> None -> alive i = true -> (True -> queue i <> []) -> good (sent r i).
Proof.
  intros I D C A Q. specialize (Q Logic.I). unfold sent. destruct (queue i) as [|p q] eqn:E; [congruence|]. destruct (conn i) as [c|] eqn:F; [|congruence].
  assert (C' : conn i <> None) by congruence.
  destruct (_ <? r); [exact Logic.I|]. destruct (r =? _).
  - set (i' := if (_ =? 0)%nat then i else _).
    assert (J : inv i' /\ queue i' = p :: q /\ filter dw (frames i') = [] /\ conn i' <> None /\ alive i' = true)
      by (unfold i'; destruct (_ =? _)%nat; cbn; auto using inv_emit). clearbody i'. destruct J as (J & Q' & D' & C2 & A').
    destruct (p_cb p); [|apply good_ex; now apply (inv_finish p q)].
    apply inv_push; auto using inv_emit. intros id X. injection X as <-. exists p, q. auto.
  - destruct (r <? 0).
    + destruct (r <? -2); [|apply good_ex, inv_receive; auto].
      destruct (on_error _); [apply inv_push; cbn; auto using inv_emit, inv_error; discriminate|apply good_ex, inv_receive; cbn; auto using inv_error].
    + apply good_ex. set (i' := if (_ =? 0)%nat then i else _).
      assert (J : inv i' /\ queue i' = p :: q /\ filter dw (frames i') = [] /\ conn i' <> None /\ alive i' = true)
        by (unfold i'; destruct (_ =? _)%nat; cbn; auto using inv_emit). clearbody i'. destruct J as (J & Q' & D' & C2 & A').
      apply inv_drain; auto. destruct J. rewrite Q' in *. constructor; cbn in *; auto.
      * inversion v_fresh0; subst. constructor; auto.
      * intros id X. destruct (no_done _ D' _ X).
      * intros X. apply v_top0 in X. congruence.
Qed.

Lemma inv_step e i : inv i -> calm_event e i -> good (step e i).
Proof.
  intros I C. destruct e; cbn in C |- *.
  - destruct C as (A & F & S). unfold call. rewrite A. destruct (may_call i); [|exact Logic.I]. cbn. unfold socketio_open.
    destruct I. rewrite F in *. destruct connected; [destruct o|]; constructor; cbn; rewrite ?F; auto; try congruence; try (cbn; lia).
    + rewrite S. intros _ [X|X]; rewrite ?F in X; now destruct X.
  - destruct C as (A & F). unfold call. rewrite A. destruct (may_call i); [|exact Logic.I]. unfold socketio_close.
    destruct (io_state i) eqn:S; [now apply inv_emit| |];
      (destruct (conn i) eqn:E; [|exfalso; apply (v_conn _ I); [exact A|left; congruence|exact E] ];
       destruct I; rewrite F in *; destruct cb; constructor; cbn; rewrite ?F; auto; cbn; intros _ [X|X]; congruence).
  - destruct C as (A & MM). unfold call. rewrite A. destruct (may_call i) eqn:M; [|exact Logic.I]. now apply inv_send.
  - destruct C as (A & F). unfold call. rewrite A. destruct (may_call i) eqn:M; [|exact Logic.I]. unfold socketio_dowork.
    destruct (io_state i) eqn:S; [exact I| |exact I].
    apply good_ex. apply inv_drain; auto; [now rewrite F|]. apply (v_conn _ I); [exact A|left; congruence].
  - destruct C as (A & F). unfold call. rewrite A. destruct (may_call i) eqn:M; [|exact Logic.I]. cbn.
    constructor; cbn; rewrite ?F; cbn; auto; try constructor; try congruence; try tauto.
  - destruct (frames i) as [|f fs] eqn:F; [exact Logic.I|]. destruct f; try exact Logic.I.
    destruct (inv_pop Sending i I) as (J & D & A); [now rewrite F|]. destruct (D eq_refl) as [D1 D2].
    assert (Q : queue i <> []) by (apply (v_top _ I); now rewrite F).
    apply inv_sent; auto.
  - destruct (frames i) as [|f fs] eqn:F; [exact Logic.I|]. destruct f; try exact Logic.I.
    destruct (inv_pop Receiving i I) as (J & D & A); [now rewrite F|]. destruct (D eq_refl) as [D1 D2].
    unfold received. destruct r as [bs|]; [|exact J]. destruct (_ || _); [exact Logic.I|].
    destruct (on_bytes (pop i)) eqn:B; [|apply good_ex, inv_receive; auto].
    apply (inv_push AfterBytes (emit _ (pop i))); auto using inv_emit; discriminate.
  - destruct (frames i) as [|f fs] eqn:F; [exact Logic.I|]. destruct f; try exact Logic.I.
    + destruct (inv_pop (AfterDone id) i I) as (J & D & A); [now rewrite F|]. destruct (D eq_refl) as [D1 D2]. rewrite A.
      destruct (v_done _ I id) as (p & q & Q & <-); [rewrite F; now left|]. apply good_ex, (inv_finish p q); auto.
    + destruct (inv_pop AfterError i I) as (J & D & A); [now rewrite F|]. destruct (D eq_refl) as [D1 D2]. rewrite A. apply good_ex, inv_receive; auto.
    + destruct (inv_pop AfterBytes i I) as (J & D & A); [now rewrite F|]. destruct (D eq_refl) as [D1 D2]. rewrite A. apply good_ex, inv_receive; auto.
    + destruct (inv_pop AfterSend i I) as (J & _ & A); [now rewrite F|]. rewrite A. exact J.
Qed.

(** * C122: no undefined behaviour *)
Lemma inv_run es : forall i, inv i -> always calm_event es i -> good (run es i).
Proof.
  induction es as [|e es IH]; intros i I C; [exact I|]. cbn [run]. destruct C as [C R]. pose proof (inv_step e i I C) as G.
  destruct (step e i); cbn in *; auto.
Qed.
Theorem sm_safe_partial es : always calm_event es created -> run es created <> Undefined.
Proof. intros C X. pose proof (inv_run es created inv_created C) as G. now rewrite X in G. Qed.

(** * C123: the stream *)
Definition todo (i : io) : list pending := if existsb isdone (frames i) then tl (queue i) else queue i.
Definition bytes_of (q : list pending) : list N := flat_map p_bytes q.
Definition cbs_of (q : list pending) : list N := flat_map (fun p => match p_cb p with Some c => [c] | None => [] end) q.
Definition streams (i : io) : Prop :=
  wire (outs i) ++ bytes_of (todo i) = accepted_bytes (outs i) /\
  completed (outs i) ++ cbs_of (todo i) = accepted_callbacks (outs i).
Definition full (i : io) : Prop := Forall (fun p => p_bytes p <> []) (queue i).

Lemma fold_snoc {A} (f : out -> list A) o l : flat_map f (rev (o :: l)) = flat_map f (rev l) ++ f o.
Proof. cbn [rev]. rewrite flat_map_app. cbn. now rewrite app_nil_r. Qed.
Lemma wire_cons o l : wire (o :: l) = wire l ++ match o with Wire _ b => b | _ => [] end.
Proof. apply fold_snoc. Qed.
Lemma given_cons o l : given (o :: l) = given l ++ match o with Bytes _ b => b | _ => [] end.
Proof. apply fold_snoc. Qed.
Lemma completed_cons o l : completed (o :: l) = completed l ++ match o with SendComplete c => [c] | _ => [] end.
Proof. apply fold_snoc. Qed.
Lemma accepted_bytes_cons o l : accepted_bytes (o :: l) = accepted_bytes l ++ match o with SendReturns b _ true => b | _ => [] end.
Proof.
  unfold accepted_bytes, accepted. rewrite fold_snoc, flat_map_app. f_equal. destruct o; try reflexivity. destruct ok; [|reflexivity].
  cbn. apply app_nil_r.
Qed.
Lemma accepted_callbacks_cons o l : accepted_callbacks (o :: l) = accepted_callbacks l ++ match o with SendReturns _ (Some c) true => [c] | _ => [] end.
Proof.
  unfold accepted_callbacks, accepted. rewrite fold_snoc, flat_map_app. f_equal. destruct o; try reflexivity. destruct ok, cb; reflexivity.
Qed.
Ltac outs_cons := rewrite ?wire_cons, ?completed_cons, ?accepted_bytes_cons, ?accepted_callbacks_cons, ?given_cons, ?app_nil_r.
(* An output that says nothing of the streams *)
Definition quiet (o : out) : bool :=
  match o with Wire _ _ | SendComplete _ => false | SendReturns _ _ true => false | _ => true end.
Lemma streams_emit o i : quiet o = true -> streams (emit o i) <-> streams i.
Proof. intros Q. unfold streams, todo. cbn. outs_cons. destruct o; try discriminate; outs_cons; try tauto. destruct ok; [discriminate|]. destruct cb; outs_cons; tauto. Qed.

(* drain, receive do not touch them *)
Lemma streams_receive i j : receive i = Next j -> streams i -> full i -> streams j /\ full j.
Proof. unfold receive. destruct (conn i); [|discriminate]. intros X; injection X as <-. auto. Qed.
Lemma streams_drain i j : drain i = Next j -> streams i -> full i -> streams j /\ full j.
Proof.
  unfold drain. destruct (queue i); [apply streams_receive|]. destruct (conn i); [|discriminate]. intros X; injection X as <-. auto.
Qed.
Lemma dw_done fs : filter dw fs = [] -> existsb isdone fs = false.
Proof. induction fs as [|[] fs IH]; cbn; auto; discriminate. Qed.
Lemma streams_finish p q i j : finish (p_id p) i = Next j -> queue i = p :: q -> NoDup (map p_id (queue i)) -> filter dw (frames i) = [] ->
  wire (outs i) ++ bytes_of q = accepted_bytes (outs i) -> completed (outs i) ++ cbs_of q = accepted_callbacks (outs i) -> full i -> streams j /\ full j.
Proof.
  intros X Q N D W C F. unfold finish in X. destruct (existsb _ _); [|discriminate]. rewrite Q in X, N. rewrite filter_head in X by exact N.
  apply streams_drain in X; auto.
  - unfold streams, todo. cbn. rewrite (dw_done _ D). auto.
  - unfold full in *. rewrite Q in F. cbn. now inversion F.
Qed.
Lemma streams_sent r i j : inv i -> filter dw (frames i) = [] -> sent r i = Next j -> (r <= 0 \/ exists p q, queue i = p :: q /\ r = Z.of_nat (length (p_bytes p))) ->
  streams i -> full i -> streams j /\ full j.
Proof.
  intros I D X W S F. unfold sent in X. destruct (queue i) as [|p q] eqn:Q; [discriminate|]. destruct (conn i) as [c|]; [|discriminate].
  assert (P : p_bytes p <> []) by (unfold full in F; rewrite Q in F; now inversion F).
  assert (L : (length (p_bytes p) <> 0)%nat) by (destruct (p_bytes p); [congruence|discriminate]).
  destruct (_ <? r) eqn:E1; [discriminate|]. destruct (r =? _) eqn:E2.
  - destruct (Nat.eqb_spec (length (p_bytes p)) 0); [lia|].
    destruct S as [S1 S2]. unfold todo in S1, S2. rewrite (dw_done _ D), Q in S1, S2. cbn in S1, S2.
    destruct (p_cb p) as [x|] eqn:K.
    + injection X as <-. split; [|exact F].
      unfold streams, todo. cbn. rewrite Q. cbn. outs_cons. rewrite <- !app_assoc. auto.
    + eapply (streams_finish p q); [exact X| | | | | |]; cbn; auto; outs_cons; rewrite <- ?app_assoc; auto. apply I.
  - destruct (r <? 0) eqn:E3.
    + destruct (r <? -2).
      * cbn in X. destruct (on_error i); [injection X as <-|apply streams_receive in X; auto].
        split; [|exact F]. unfold streams, todo in *. cbn. outs_cons. auto.
      * apply streams_receive in X; auto.
    + apply Z.eqb_neq in E2. apply Z.ltb_ge in E3. destruct W as [W|(p' & q' & Y & W)]; [|injection Y as <- <-; congruence].
      replace r with 0 in X by lia. cbn -[drain] in X. rewrite Nat.sub_0_r, skipn_all, app_nil_r in X.
      assert (Y : set_queue (mkp (p_id p) (p_bytes p) (p_cb p) :: q) (next_id i) i = i)
        by (destruct i, p; cbn in *; subst; reflexivity). rewrite Y in X. now apply streams_drain in X.
Qed.
Lemma skipn_lt k (l : list N) : (k < length l)%nat -> skipn k l <> [].
Proof. intros H Y. assert (E : length (skipn k l) = 0%nat) by now rewrite Y. rewrite skipn_length in E. lia. Qed.
Lemma todo_add bs cb i : inv i -> 
  todo (set_queue (queue i ++ [mkp (next_id i) bs cb]) (S (next_id i)) i) = todo i ++ [mkp (next_id i) bs cb].
Proof.
  intros I. unfold todo. cbn. destruct (existsb isdone (frames i)) eqn:E; [|reflexivity].
  apply existsb_exists in E. destruct E as (f & Y & Z). destruct f; try discriminate. apply (v_done _ I) in Y.
  destruct Y as (p & q & Y & _). now rewrite Y.
Qed.
Lemma bytes_of_app a b : bytes_of (a ++ b) = bytes_of a ++ bytes_of b. Proof. apply flat_map_app. Qed.
Lemma cbs_of_app a b : cbs_of (a ++ b) = cbs_of a ++ cbs_of b. Proof. apply flat_map_app. Qed.
Lemma streams_send bs cb r m i j : inv i -> (m = false -> r <= 0) -> socketio_send bs cb r m i = Next j ->
  streams i -> full i -> streams j /\ full j.
Proof.
  intros I M X S F. unfold socketio_send in X. destruct bs as [|b bs]; [injection X as <-; split; [now apply streams_emit|exact F]|].
  set (msg := b :: bs) in *.
  destruct (io_state i); try (injection X as <-; split; [now apply streams_emit|exact F]).
  destruct (queue i) as [|p q] eqn:Q.
  - destruct (conn i) as [c|]; [|discriminate]. destruct (_ <? r) eqn:E1; [discriminate|]. destruct (r =? _) eqn:E2.
    + assert (T : todo i = []) by (unfold todo; rewrite Q; now destruct (existsb _ _)).
      destruct S as [S1 S2]. rewrite T in S1, S2. cbn in S1, S2. rewrite app_nil_r in S1, S2.
      destruct cb as [x|]; injection X as <-; (split; [|unfold full; cbn; now rewrite Q]); unfold streams, todo; cbn; rewrite Q;
        (replace (if existsb isdone (frames i) then tl [] else []) with (@nil pending) by now destruct (existsb _ _)); cbn; outs_cons; split; congruence.
    + set (k := Z.to_nat _) in X.
      assert (K : (k < length msg)%nat).
      { subst k. apply Z.ltb_ge in E1. apply Z.eqb_neq in E2. destruct (r <? 0) eqn:E3; [subst msg; cbn; lia|]. apply Z.ltb_ge in E3. lia. }
      destruct m.
      * destruct S as [S1 S2]. destruct (Nat.eqb_spec k 0) as [Z|Z]; cbn -[skipn firstn] in X; injection X as <-; (split; [|unfold full in *; cbn -[skipn]; rewrite Q; cbn -[skipn];
            constructor; auto; cbn -[skipn]; intros Y; apply (skipn_lt _ _ K Y)]);
        unfold streams.
        -- change (todo _) with (todo (set_queue (queue i ++ [mkp (next_id i) (skipn k msg) cb]) (Datatypes.S (next_id i)) i)).
           rewrite todo_add by exact I. rewrite bytes_of_app, cbs_of_app, !app_assoc. cbn -[skipn]. outs_cons. rewrite S1, S2, Z. cbn. rewrite ?app_nil_r.
           split; [reflexivity|]. destruct cb; reflexivity.
        -- change (todo _) with (todo (set_queue (queue i ++ [mkp (next_id i) (skipn k msg) cb]) (Datatypes.S (next_id i)) i)).
           assert (T : todo i = []) by (unfold todo; rewrite Q; now destruct (existsb _ _)). rewrite T in S1, S2. cbn in S1, S2. rewrite app_nil_r in S1, S2.
           rewrite todo_add by exact I. rewrite T. cbn -[skipn firstn]. outs_cons. rewrite S1, S2. cbn -[skipn firstn]. rewrite <- app_assoc, firstn_skipn.
           split; [reflexivity|]. destruct cb; reflexivity.
      * specialize (M eq_refl). assert (Z : k = 0%nat) by (subst k; destruct (r <? 0) eqn:E3; [reflexivity|lia]). rewrite Z in X. cbn in X. injection X as <-.
        split; [now apply streams_emit|exact F].
  - destruct m; cbn in X; injection X as <-; [|split; [now apply streams_emit|exact F] ].
    destruct S as [S1 S2]. split.
    + unfold streams. change (todo _) with (todo (set_queue (queue i ++ [mkp (next_id i) msg cb]) (Datatypes.S (next_id i)) i)).
      rewrite todo_add by exact I. rewrite bytes_of_app, cbs_of_app, !app_assoc. cbn. outs_cons. rewrite S1, S2.
      split; [reflexivity|]. destruct cb; reflexivity.
    + unfold full in *. cbn. apply Forall_app. split; [exact F|]. constructor; [discriminate|constructor].
Qed.


Lemma streams_step e i j : inv i -> calm_event e i -> whole_event e i -> (alive i = true -> streams i /\ full i) -> step e i = Next j ->
  alive j = true -> streams j /\ full j.
Proof.
  intros I C W H X A. destruct e; cbn in C, W.
  - destruct C as (A0 & F & S). apply call_some in X. destruct X as (_ & _ & X). injection X as <-. destruct (H A0) as [H1 H2].
    split; [|destruct connected; [destruct o|]; exact H2].
    unfold socketio_open. destruct connected; [destruct o|]; repeat (apply streams_emit; [reflexivity|]); exact H1.
  - destruct C as (A0 & F). apply call_some in X. destruct X as (_ & _ & X). destruct (H A0) as [H1 H2]. unfold socketio_close in X.
    destruct (io_state i); [injection X as <-; split; [now apply streams_emit|exact H2]| |];
      (destruct (conn i); [|discriminate]; injection X as <-; split; [|destruct cb; exact H2];
       destruct cb; repeat (apply streams_emit; [reflexivity|]); exact H1).
  - destruct C as (A0 & M). apply call_some in X. destruct X as (_ & _ & X). destruct (H A0) as [H1 H2]. eapply streams_send; eauto.
  - destruct C as (A0 & F). apply call_some in X. destruct X as (_ & _ & X). destruct (H A0) as [H1 H2]. unfold socketio_dowork in X.
    destruct (io_state i); [injection X as <-; auto| |injection X as <-; auto]. eapply streams_drain; eauto.
  - apply call_some in X. destruct X as (_ & _ & X). injection X as <-. discriminate.
  - cbn in X. destruct (frames i) as [|f fs] eqn:F; [discriminate|]. destruct f; try discriminate.
    destruct (inv_pop Sending i I) as (J & D & A0); [now rewrite F|]. destruct (D eq_refl) as [D1 D2]. destruct (H A0) as [H1 H2].
    apply (streams_sent r (pop i) j); auto. unfold streams, todo in *. cbn. rewrite F in *. exact H1.
  - cbn in X. destruct (frames i) as [|f fs] eqn:F; [discriminate|]. destruct f; try discriminate.
    destruct (inv_pop Receiving i I) as (J & D & A0); [now rewrite F|]. destruct (H A0) as [H1 H2].
    assert (S : streams (pop i)) by (unfold streams, todo in *; cbn; rewrite F in *; exact H1).
    unfold received in X. destruct r as [bs|]; [|injection X as <-; auto]. destruct (_ || _); [discriminate|].
    destruct (on_bytes (pop i)); [injection X as <-|apply streams_receive in X; auto].
    split; [|exact H2]. eapply streams_emit in S; [exact S|reflexivity].
  - cbn in X. destruct (frames i) as [|f fs] eqn:F; [discriminate|]. destruct f; try discriminate; (destruct (alive i) eqn:A0; [|discriminate]).
    + destruct (inv_pop (AfterDone id) i I) as (J & D & _); [now rewrite F|]. destruct (D eq_refl) as [D1 D2]. destruct (H eq_refl) as [ [H1 H3] H2].
      destruct (v_done _ I id) as (p & q & Q & <-); [rewrite F; now left|].
      unfold todo in H1, H3. rewrite F, Q in H1, H3. cbn in H1, H3.
      apply (streams_finish p q (pop i) j); auto. apply I.
    + destruct (H eq_refl) as [H1 H2]. apply streams_receive in X; auto. unfold streams, todo in *; cbn; rewrite F in *; exact H1.
    + destruct (H eq_refl) as [H1 H2]. apply streams_receive in X; auto. unfold streams, todo in *; cbn; rewrite F in *; exact H1.
    + destruct (H eq_refl) as [H1 H2]. injection X as <-. split; [|exact H2]. unfold streams, todo in *; cbn; rewrite F in *; exact H1.
Qed.
Lemma streams_run es : forall i j, inv i -> always calm_event es i -> always whole_event es i -> (alive i = true -> streams i /\ full i) ->
  run es i = Next j -> inv j /\ (alive j = true -> streams j /\ full j).
Proof.
  induction es as [|e es IH]; intros i j I C W H X; [injection X as <-; auto|]. cbn [run] in X. destruct C as [C C'], W as [W W'].
  pose proof (inv_step e i I C) as G. destruct (step e i) as [k| |] eqn:E; try discriminate. apply (IH k j G C' W'); [|exact X].
  intros A. exact (streams_step e i k I C W H E A).
Qed.
(* What the connections took, and the callbacks made, are what was accepted, in order, but for a rest; the rest waits in the
   io and is empty when nothing is pending. *)
Theorem sm_stream_partial es j : always calm_event es created -> always whole_event es created -> run es created = Next j -> alive j = true ->
  (exists rest, wire (outs j) ++ rest = accepted_bytes (outs j)) /\ (exists rest, completed (outs j) ++ rest = accepted_callbacks (outs j)) /\
  (queue j = [] -> wire (outs j) = accepted_bytes (outs j) /\ completed (outs j) = accepted_callbacks (outs j)) /\
  (frames j = [] -> wire (outs j) ++ flat_map p_bytes (queue j) = accepted_bytes (outs j)).
Proof.
  intros C W X A. destruct (streams_run es created j inv_created C W) as [I H]; auto.
  { intros _. repeat split; constructor. }
  destruct (H A) as [ [H1 H2] _]. split; [eauto|split; [eauto|] ]. split; intros Q.
  - unfold todo in H1, H2. rewrite Q in H1, H2. destruct (existsb _ _); cbn in H1, H2; rewrite app_nil_r in H1, H2; auto.
  - unfold todo in H1. rewrite Q in H1. exact H1.
Qed.

(** * C124: what comes in *)
Record hears (i : io) : Prop := {
  h_conn : conn i <> None -> on_bytes i <> None;
  h_wait : In Receiving (frames i) -> on_bytes i <> None }.
Lemma hears_receive i j : receive i = Next j -> hears i -> hears j /\ outs j = outs i.
Proof.
  unfold receive. destruct (conn i) eqn:C; [|discriminate]. intros X []; injection X as <-. split; [|reflexivity].
  constructor; cbn; auto. intros _. apply h_conn0. congruence.
Qed.
Lemma hears_drain i j : drain i = Next j -> hears i -> hears j /\ outs j = outs i.
Proof.
  unfold drain. destruct (queue i); [apply hears_receive|]. destruct (conn i) eqn:C; [|discriminate]. intros X []; injection X as <-. split; [|reflexivity].
  constructor; cbn; auto. intros [Y|Y]; [discriminate|auto].
Qed.
Lemma hears_finish id i j : finish id i = Next j -> hears i -> hears j /\ outs j = outs i.
Proof.
  unfold finish. destruct (existsb _ _); [|discriminate]. intros X H. apply hears_drain in X; auto. destruct H. constructor; auto.
Qed.
Lemma hears_pop i : hears i -> hears (pop i).
Proof. intros []. constructor; cbn; auto. intros X. apply h_wait0. destruct (frames i); [destruct X|now right]. Qed.
Lemma hears_emit o i : hears i -> hears (emit o i). Proof. intros []. constructor; auto. Qed.
Lemma hears_push f i : f <> Receiving -> hears i -> hears (push f i).
Proof. intros N []. constructor; cbn; auto. intros [X|X]; [congruence|auto]. Qed.
Lemma hears_step e i j : (forall o b c ok, e = Open o b c ok -> b <> None) -> hears i -> step e i = Next j ->
  hears j /\ given (outs j) = given (outs i) ++ came [e].
Proof.
  intros O H X. destruct e; cbn [step] in X.
  - apply call_some in X. destruct X as (_ & _ & X). injection X as <-. specialize (O _ _ _ _ eq_refl).
    assert (Y : hears (set_state IO_STATE_OPEN (set_cbs b e (set_conn (Some (next_conn i)) (S (next_conn i)) (next_conn i :: live i) i)))) by (constructor; auto).
    unfold socketio_open. destruct connected; [destruct o|]; (split; [|cbn; outs_cons; reflexivity]); repeat apply hears_emit; auto.
    destruct H. constructor; cbn; auto; congruence.
  - apply call_some in X. destruct X as (_ & _ & X). unfold socketio_close in X.
    destruct (io_state i); [injection X as <-; split; [now apply hears_emit|cbn; outs_cons; reflexivity]| |];
      (destruct (conn i); [|discriminate]; injection X as <-; split; [|destruct cb; cbn; outs_cons; reflexivity];
       destruct cb; repeat apply hears_emit; destruct H; constructor; cbn; auto; congruence).
  - apply call_some in X. destruct X as (_ & _ & X). unfold socketio_send in X. destruct bs as [|b bs]; [injection X as <-; split; [now apply hears_emit|cbn; outs_cons; reflexivity]|].
    assert (AD : forall q n o k, hears k -> hears (emit o (set_queue q n k))) by (intros q n o k []; constructor; auto).
    destruct (io_state i); try (injection X as <-; split; [now apply hears_emit|cbn; outs_cons; reflexivity]).
    destruct (queue i) eqn:Q.
    + destruct (conn i); [|discriminate]. destruct (_ <? r); [discriminate|]. destruct (r =? _).
      * destruct cb; injection X as <-; (split; [|cbn; outs_cons; reflexivity]); [apply hears_push; [discriminate|] |]; repeat apply hears_emit; auto.
      * set (k := Z.to_nat _) in X. unfold add_pending_io in X.
        destruct memory, (k =? 0)%nat; injection X as <-; (split; [|cbn; outs_cons; reflexivity]); auto using hears_emit.
    + unfold add_pending_io in X. destruct memory; injection X as <-; (split; [|cbn; outs_cons; reflexivity]); auto using hears_emit.
  - apply call_some in X. destruct X as (_ & _ & X). unfold socketio_dowork in X. cbn. rewrite app_nil_r.
    destruct (io_state i); [injection X as <-; auto| |injection X as <-; auto]. apply hears_drain in X; auto. destruct X as [X ->]. auto.
  - apply call_some in X. destruct X as (_ & _ & X). injection X as <-. cbn. rewrite app_nil_r. split; [|reflexivity].
    destruct H. constructor; cbn; auto; congruence.
  - destruct (frames i) as [|f fs] eqn:F; [discriminate|]. destruct f; try discriminate. apply hears_pop in H.
    cbn. rewrite app_nil_r. change (outs i) with (outs (pop i)). set (i' := pop i) in *. clearbody i'. clear i F O. rename i' into i.
    unfold sent in X. destruct (queue i) as [|p q]; [discriminate|]. destruct (conn i) as [c|]; [|discriminate].
    destruct (_ <? r); [discriminate|]. destruct (r =? _).
    + set (i' := if (_ =? 0)%nat then i else _) in X. assert (G : hears i' /\ given (outs i') = given (outs i))
        by (unfold i'; destruct (_ =? _)%nat; cbn; outs_cons; auto using hears_emit). clearbody i'. destruct G as [G <-].
      destruct (p_cb p); [injection X as <-; split; [apply hears_push; [discriminate|now apply hears_emit] |cbn; outs_cons; reflexivity] |].
      apply hears_finish in X; auto. destruct X as [X ->]. auto.
    + destruct (r <? 0).
      * assert (G : hears (set_state IO_STATE_ERROR i)) by (destruct H; constructor; auto).
        destruct (r <? -2); [|apply hears_receive in X; auto; destruct X as [X ->]; auto].
        destruct (on_error _); [injection X as <-; split; [apply hears_push; [discriminate|now apply hears_emit] |cbn; outs_cons; reflexivity] |].
        apply hears_receive in X; auto. destruct X as [X ->]; auto.
      * set (i' := if (_ =? 0)%nat then i else _) in X. assert (G : hears i' /\ given (outs i') = given (outs i))
          by (unfold i'; destruct (_ =? _)%nat; cbn; outs_cons; auto using hears_emit). clearbody i'. destruct G as [G <-].
        apply hears_drain in X; [|destruct G; constructor; auto]. destruct X as [X ->]. auto.
  - destruct (frames i) as [|f fs] eqn:F; [discriminate|]. destruct f; try discriminate.
    assert (B : on_bytes i <> None) by (apply (h_wait _ H); rewrite F; now left). apply hears_pop in H.
    unfold received in X. destruct r as [bs|]; [|injection X as <-; split; [exact H|cbn; now rewrite app_nil_r] ].
    destruct (_ || _); [discriminate|]. change (on_bytes (pop i)) with (on_bytes i) in X. destruct (on_bytes i) as [x|]; [|congruence]. injection X as <-.
    split; [apply hears_push; [discriminate|now apply hears_emit] |]. cbn. outs_cons. reflexivity.
  - cbn. rewrite app_nil_r. apply hears_pop in H. change (outs i) with (outs (pop i)).
    destruct (frames i) as [|f fs] eqn:F; [discriminate|]. destruct f; try discriminate; (destruct (alive i); [|discriminate]).
    + apply hears_finish in X; auto. destruct X as [X ->]. auto.
    + apply hears_receive in X; auto. destruct X as [X ->]. auto.
    + apply hears_receive in X; auto. destruct X as [X ->]. auto.
    + injection X as <-. auto.
Qed.
(* Whatever the user does: the bytes he is given are the bytes that came, once and in order *)
Theorem sm_received es j : (forall o b c ok, In (Open o b c ok) es -> b <> None) -> run es created = Next j -> given (outs j) = came es.
Proof.
  intros O X. assert (G : forall es i, (forall o b c ok, In (Open o b c ok) es -> b <> None) -> hears i -> run es i = Next j ->
    given (outs j) = given (outs i) ++ came es).
  { clear. induction es as [|e es IH]; intros i O H X; [injection X as <-; now rewrite app_nil_r|]. cbn [run] in X.
    destruct (step e i) as [k| |] eqn:E; try discriminate.
    destruct (hears_step e i k) as [H' G]; auto. { intros o b c ok ->. apply (O o b c ok). now left. }
    assert (O' : forall o b c ok, In (Open o b c ok) es -> b <> None) by (intros o b c ok Y; apply (O o b c ok); now right).
    rewrite (IH k O' H' X). rewrite G, <- app_assoc. f_equal. change (e :: es) with ([e] ++ es). unfold came. now rewrite flat_map_app. }
  apply (G es created O); [constructor; cbn; tauto|exact X].
Qed.

(** * C125: sessions, and the connection objects *)
Lemma opens_cons o l : opens (o :: l) = ((match o with OpenReturns true => 1 | _ => 0 end) + opens l)%nat.
Proof. unfold opens. destruct o; try reflexivity. destruct ok; reflexivity. Qed.
Lemma closes_cons o l : closes (o :: l) = ((match o with CloseReturns true => 1 | _ => 0 end) + closes l)%nat.
Proof. unfold closes. destruct o; try reflexivity. destruct ok; reflexivity. Qed.
Arguments opens : simpl never. Arguments closes : simpl never.
Record sessions (i : io) : Prop := {
  s_count : alive i = true -> opens (outs i) = (closes (outs i) + match io_state i with IO_STATE_CLOSED => 0 | _ => 1 end)%nat;
  s_conn : alive i = true -> io_state i = IO_STATE_CLOSED <-> conn i = None;
  s_dead : alive i = false -> conn i = None;
  s_nodup : NoDup (live i);
  s_fresh : Forall (fun c => (c < next_conn i)%nat) (live i);
  s_in : forall c, conn i = Some c -> In c (live i);
  s_live : length (live i) = (closes (outs i) + match conn i with None => 0 | _ => 1 end)%nat }.
(* an event that opens and closes nothing *)
Definition same (i j : io) : Prop :=
  opens (outs j) = opens (outs i) /\ closes (outs j) = closes (outs i) /\ (io_state i = IO_STATE_CLOSED <-> io_state j = IO_STATE_CLOSED) /\
  conn j = conn i /\ next_conn j = next_conn i /\ live j = live i /\ alive j = alive i.
Lemma same_refl i : same i i. Proof. repeat split; auto. Qed.
Lemma same_trans i j k : same i j -> same j k -> same i k.
Proof. unfold same. intros (A & B & C & D & E & F & G) (A' & B' & C' & D' & E' & F' & G'). repeat split; try congruence; tauto. Qed.
Lemma same_sessions i j : same i j -> sessions i -> sessions j.
Proof.
  intros (O & C & S & K & N & L & A) []. constructor; rewrite ?O, ?C, ?K, ?N, ?L, ?A; auto.
  - intros X. rewrite (s_count0 X). destruct (io_state i), (io_state j); try reflexivity; exfalso;
    destruct S as [S1 S2]; (discriminate (S1 eq_refl) || discriminate (S2 eq_refl)).
  - intros X. rewrite <- S. auto.
Qed.
Definition still (o : out) : bool := match o with OpenReturns true | CloseReturns true => false | _ => true end.
Lemma same_emit o i : still o = true -> same i (emit o i).
Proof. intros Q. repeat split; auto; cbn; rewrite ?opens_cons, ?closes_cons; destruct o; try reflexivity; destruct ok; try reflexivity; discriminate. Qed.
Lemma same_receive i j : receive i = Next j -> same i j.
Proof. unfold receive. destruct (conn i); [|discriminate]. intros X; injection X as <-. repeat split; auto. Qed.
Lemma same_drain i j : drain i = Next j -> same i j.
Proof. unfold drain. destruct (queue i); [apply same_receive|]. destruct (conn i); [|discriminate]. intros X; injection X as <-. repeat split; auto. Qed.
Lemma same_finish id i j : finish id i = Next j -> same i j.
Proof. unfold finish. destruct (existsb _ _); [|discriminate]. intros X. apply same_drain in X. exact X. Qed.
Lemma same_sent r i j : io_state i <> IO_STATE_CLOSED -> sent r i = Next j -> same i j.
Proof.
  intros S X. unfold sent in X. destruct (queue i) as [|p q]; [discriminate|]. destruct (conn i) as [c|]; [|discriminate].
  destruct (_ <? r); [discriminate|]. destruct (r =? _).
  - set (i' := if (_ =? 0)%nat then i else _) in X. assert (G : same i i') by (unfold i'; destruct (_ =? _)%nat; [apply same_refl|now apply same_emit]).
    apply (same_trans _ _ _ G). clearbody i'. destruct (p_cb p) as [x|]; [injection X as <-; exact (same_emit (SendComplete x) i' eq_refl)|].
    eapply same_finish; eauto.
  - destruct (r <? 0).
    + assert (G : same i (set_state IO_STATE_ERROR i)) by (repeat split; auto; cbn; congruence).
      destruct (r <? -2); [|now apply same_receive]. apply (same_trans _ _ _ G).
      destruct (on_error _) as [x|]; [injection X as <-; exact (same_emit (Error x) (set_state IO_STATE_ERROR i) eq_refl)|now apply same_receive].
    + set (i' := if (_ =? 0)%nat then i else _) in X. assert (G : same i i') by (unfold i'; destruct (_ =? _)%nat; [apply same_refl|now apply same_emit]).
      apply (same_trans _ _ _ G). clearbody i'. apply same_drain in X. exact X.
Qed.
Lemma same_send bs cb r m i j : socketio_send bs cb r m i = Next j -> same i j.
Proof.
  intros X. unfold socketio_send in X. destruct bs as [|b bs]; [injection X as <-; now apply same_emit|].
  assert (AD : forall q n o k, still o = true -> same k (emit o (set_queue q n k))) by (intros; apply (same_emit o (set_queue q n k)); auto).
  destruct (io_state i); try (injection X as <-; now apply same_emit).
  destruct (queue i) eqn:Q.
  - destruct (conn i) as [c|]; [|discriminate]. destruct (_ <? r); [discriminate|]. destruct (r =? _).
    + pose proof (same_emit (Wire c (b :: bs)) i eq_refl) as S1. pose proof (same_emit (SendReturns (b :: bs) cb true) _ eq_refl : same (emit (Wire c (b :: bs)) i) _) as S2.
      destruct cb as [x|]; injection X as <-; [|exact (same_trans _ _ _ S1 S2)].
      exact (same_trans _ _ _ (same_trans _ _ _ S1 S2) (same_emit (SendComplete x) _ eq_refl)).
    + set (k := Z.to_nat _) in X. unfold add_pending_io in X.
      pose proof (same_emit (Wire c (firstn k (b :: bs))) i eq_refl) as S1.
      destruct m, (k =? 0)%nat; injection X as <-; auto using same_emit; (eapply same_trans; [exact S1|]); auto using same_emit.
  - unfold add_pending_io in X. destruct m; injection X as <-; auto using same_emit.
Qed.
Lemma remove_length c l : NoDup l -> In c l -> S (length (remove Nat.eq_dec c l)) = length l.
Proof.
  induction l as [|x l IH]; intros N I; [destruct I|]. inversion N; subst. cbn. destruct (Nat.eq_dec c x) as [->|D].
  - now rewrite notin_remove.
  - cbn. rewrite IH; auto. destruct I; [congruence|auto].
Qed.
Lemma remove_nodup c l : NoDup l -> NoDup (remove Nat.eq_dec c l).
Proof.
  induction l as [|x l IH]; intros N; [constructor|]. inversion N; subst. cbn. destruct (Nat.eq_dec c x); [auto|]. constructor; auto.
  intros Y. apply in_remove in Y. tauto.
Qed.
Lemma sessions_step e i j : inv i -> calm_event e i -> sessions i -> step e i = Next j -> sessions j.
Proof.
  intros I C S X. destruct e; cbn in C.
  - destruct C as (A & F & T). apply call_some in X. destruct X as (_ & _ & X). injection X as <-. destruct S.
    assert (K : conn i = None) by (now apply s_conn0). specialize (s_count0 A). rewrite T in s_count0. rewrite K in s_live0.
    assert (L : Forall (fun c => (c < S (next_conn i))%nat) (live i)) by (eapply Forall_impl; [|exact s_fresh0]; cbn; lia).
    unfold socketio_open. destruct connected; [destruct o|]; constructor; cbn; repeat rewrite opens_cons; repeat rewrite closes_cons; rewrite ?T; auto; try congruence; try (intros; lia);
      try (intros; split; congruence); try (solve [constructor; auto; intros Y; rewrite Forall_forall in s_fresh0; apply s_fresh0 in Y; lia]);
      try (solve [intros c Y; injection Y as <-; now left]).
  - destruct C as (A & F). apply call_some in X. destruct X as (_ & _ & X). unfold socketio_close in X.
    destruct (io_state i) eqn:T; [injection X as <-; now apply (same_sessions i _ (same_emit (CloseReturns false) i eq_refl))| |];
      (destruct (conn i) as [c|] eqn:K; [|discriminate]; injection X as <-; destruct S; specialize (s_count0 A); rewrite T in s_count0; rewrite K in s_live0;
       destruct cb; constructor; cbn; rewrite ?opens_cons, ?closes_cons; auto; try congruence; try lia; try tauto;
       rewrite ?opens_cons, ?closes_cons; intros; lia).
  - apply call_some in X. destruct X as (_ & _ & X). apply same_send in X. now apply (same_sessions i).
  - apply call_some in X. destruct X as (_ & _ & X). unfold socketio_dowork in X. destruct (io_state i); [injection X as <-; auto| |injection X as <-; auto].
    apply same_drain in X. now apply (same_sessions i).
  - destruct C as (A & F). apply call_some in X. destruct X as (_ & _ & X). injection X as <-. destruct S. constructor; cbn; auto; try congruence.
    + destruct (conn i); auto using remove_nodup.
    + destruct (conn i); auto. rewrite Forall_forall in *. intros y Y. apply in_remove in Y. now apply s_fresh0.
    + destruct (conn i) eqn:K; [|lia]. specialize (s_in0 _ eq_refl). pose proof (remove_length _ _ s_nodup0 s_in0). lia.
  - cbn in X. destruct (frames i) as [|f fs] eqn:F; [discriminate|]. destruct f; try discriminate.
    destruct (inv_pop Sending i I) as (J & D & A); [now rewrite F|]. destruct (D eq_refl) as [D1 D2].
    apply (same_sessions (pop i)); [|destruct S; constructor; auto]. apply same_sent in X; auto. cbn. intros Y. apply (s_conn _ S A) in Y. congruence.
  - cbn in X. destruct (frames i) as [|f fs] eqn:F; [discriminate|]. destruct f; try discriminate.
    apply (same_sessions (pop i)); [|destruct S; constructor; auto].
    unfold received in X. destruct r as [bs|]; [|injection X as <-; apply same_refl]. destruct (_ || _); [discriminate|].
    destruct (on_bytes (pop i)) as [x|]; [injection X as <-; exact (same_emit (Bytes x bs) (pop i) eq_refl)|now apply same_receive].
  - cbn in X. apply (same_sessions (pop i)); [|destruct S; constructor; auto].
    destruct (frames i) as [|f fs] eqn:F; [discriminate|]. destruct f; try discriminate; (destruct (alive i); [|discriminate]);
      [apply same_finish in X|apply same_receive in X|apply same_receive in X|injection X as <-; apply same_refl]; auto.
Qed.
Lemma sessions_run es : forall i j, inv i -> always calm_event es i -> sessions i -> run es i = Next j -> sessions j.
Proof.
  induction es as [|e es IH]; intros i j I C S X; [injection X as <-; auto|]. cbn [run] in X. destruct C as [C C'].
  pose proof (inv_step e i I C) as G. destruct (step e i) as [k| |] eqn:E; try discriminate. apply (IH k j G C'); auto.
  exact (sessions_step e i k I C S E).
Qed.
(* An open that succeeded is closed at most once, and until it is closed no other succeeds. *)
Theorem sm_sessions_partial es j : always calm_event es created -> run es created = Next j -> alive j = true ->
  opens (outs j) = (closes (outs j) + match io_state j with IO_STATE_CLOSED => 0 | _ => 1 end)%nat.
Proof. intros C X A. assert (S : sessions j) by (eapply (sessions_run es created); eauto using inv_created; constructor; cbn; auto; try constructor; congruence). now apply S. Qed.
(* Destroy leaves as many connection objects behind as there were closes. *)
Theorem sm_leak_refuted es j : always calm_event es created -> run es created = Next j -> alive j = false -> leaked j = closes (outs j).
Proof.
  intros C X A. assert (S : sessions j) by (eapply (sessions_run es created); eauto using inv_created; constructor; cbn; auto; try constructor; congruence).
  unfold leaked. rewrite (s_live _ S), (s_dead _ S A). lia.
Qed.
Fixpoint cycles (n : nat) : list event := match n with O => [] | S n => Open None (Some 1%N) None true :: Close None :: cycles n end.
(* every number of them happens *)
Example sm_leak_any n : exists j, run (cycles n ++ [Destroy]) created = Next j /\ alive j = false /\ leaked j = n.
Proof.
  assert (H : forall n i, frames i = [] -> alive i = true -> conn i = None -> io_state i = IO_STATE_CLOSED ->
    exists j, run (cycles n ++ [Destroy]) i = Next j /\ alive j = false /\ leaked j = (n + length (live i))%nat).
  { clear. induction n as [|n IH]; intros i F A K T.
    - cbn. unfold call, may_call. rewrite F, A. eexists. split; [reflexivity|]. cbn. rewrite K. auto.
    - cbn [cycles app run step]. unfold call at 1, may_call at 1. rewrite F, A. cbn [run step]. unfold call, may_call, socketio_open, socketio_close. cbn. rewrite F, A.
      match goal with |- exists j, run _ ?k = _ /\ _ => destruct (IH k) as (j & R & D & L) end; auto. exists j. rewrite L. cbn. repeat split; auto; lia. }
  destruct (H n created) as (j & R & D & L); auto. exists j. rewrite L, Nat.add_0_r. auto.
Qed.
(* An open while the io is open leaks the connection in use. *)
Theorem sm_open_twice_refuted : exists j, run [Open None (Some 1%N) None true; Open None (Some 1%N) None true; Destroy] created = Next j /\ leaked j = 1%nat.
Proof. eexists. split; [vm_compute; reflexivity|reflexivity]. Qed.

(** * What does not hold, and cases *)
Definition opened : io := mk IO_STATE_OPEN (Some 0%nat) (Some 1%N) (Some 2%N) [] 0 1 [0%nat] true [] [OpenReturns true].
Lemma opened_run es : run (Open None (Some 1%N) (Some 2%N) true :: es) created = run es opened.
Proof. reflexivity. Qed.

Lemma run_cons e es i k : step e i = Next k -> run (e :: es) i = run es k.
Proof. intros H. cbn [run]. now rewrite H. Qed.
Lemma step_send_wait (bs : list N) cb i : bs <> [] -> may_call i = true -> alive i = true -> io_state i = IO_STATE_OPEN -> queue i = [] -> conn i <> None ->
  step (Send bs cb 0 true) i = Next (emit (SendReturns bs cb true) (set_queue [mkp (next_id i) bs cb] (S (next_id i)) i)).
Proof.
  intros B M A S Q C. cbn [step]. unfold call, socketio_send. rewrite M, A, S, Q. destruct (conn i); [|congruence].
  destruct bs as [|b bs]; [congruence|]. destruct (Z.ltb_spec (Z.of_nat (length (b :: bs))) 0); [lia|].
  destruct (Z.eqb_spec 0 (Z.of_nat (length (b :: bs)))); [cbn [length] in *; lia|]. cbn. now rewrite Q.
Qed.
Lemma step_sent_all p q c x fs i : frames i = Sending :: fs -> queue i = p :: q -> conn i = Some c -> p_bytes p <> [] -> p_cb p = Some x ->
  step (Sent (Z.of_nat (length (p_bytes p)))) i = Next (push (AfterDone (p_id p)) (emit (SendComplete x) (emit (Wire c (p_bytes p)) (pop i)))).
Proof.
  intros F Q C B X. cbn [step]. rewrite F. unfold sent. change (queue (pop i)) with (queue i). change (conn (pop i)) with (conn i). rewrite Q, C, X.
  rewrite Z.ltb_irrefl, Z.eqb_refl. destruct (Nat.eqb_spec (length (p_bytes p)) 0); [destruct (p_bytes p); [congruence|discriminate]|]. reflexivity.
Qed.
Lemma step_sent_part p q c k fs i : frames i = Sending :: fs -> queue i = p :: q -> conn i = Some c -> (0 < k < length (p_bytes p))%nat ->
  step (Sent (Z.of_nat k)) i = drain (set_queue (mkp (p_id p) (skipn k (p_bytes p) ++ skipn (length (p_bytes p) - k) (p_bytes p)) (p_cb p) :: q) (next_id i)
     (emit (Wire c (firstn k (p_bytes p))) (pop i))).
Proof.
  intros F Q C K. cbn [step]. rewrite F. unfold sent. change (queue (pop i)) with (queue i). change (conn (pop i)) with (conn i). rewrite Q, C.
  destruct (Z.ltb_spec (Z.of_nat (length (p_bytes p))) (Z.of_nat k)); [lia|]. destruct (Z.eqb_spec (Z.of_nat k) (Z.of_nat (length (p_bytes p)))); [lia|].
  destruct (Z.ltb_spec (Z.of_nat k) 0); [lia|]. rewrite Nat2Z.id. destruct (Nat.eqb_spec k 0); [lia|]. reflexivity.
Qed.
Lemma step_received bs x fs i : bs <> [] -> (length bs <= 128)%nat -> frames i = Receiving :: fs -> on_bytes i = Some x ->
  step (Received (Some bs)) i = Next (push AfterBytes (emit (Bytes x bs) (pop i))).
Proof.
  intros B L F O. cbn [step]. rewrite F. unfold received. change (on_bytes (pop i)) with (on_bytes i). rewrite O.
  destruct (Nat.eqb_spec (length bs) 0); [destruct bs; [congruence|discriminate]|]. destruct (Nat.ltb_spec 128 (length bs)); [lia|]. reflexivity.
Qed.

Lemma run_return p i : frames i = [AfterDone (p_id p)] -> queue i = [p] -> alive i = true -> conn i <> None ->
  exists j, run [Return] i = Next j /\ queue j = [] /\ outs j = outs i.
Proof.
  intros F Q A C. cbn [run step]. rewrite F, A. unfold finish. change (queue (pop i)) with (queue i). rewrite Q. cbn [existsb filter]. rewrite Nat.eqb_refl. cbn.
  unfold receive. cbn. destruct (conn i); [|congruence]. eexists. split; [reflexivity|]. split; reflexivity.
Qed.

(* C122: closing in on_bytes_received, socketio_dowork in on_send_complete, and an open that fails while the io is open *)
Theorem sm_close_in_callback_refuted bs : bs <> [] -> (length bs <= 128)%nat ->
  run [Open None (Some 1%N) (Some 2%N) true; Dowork; Received (Some bs); Close None; Return] created = Undefined.
Proof.
  intros B L. rewrite opened_run. erewrite run_cons by reflexivity. erewrite run_cons by (eapply step_received; eauto; reflexivity). reflexivity.
Qed.
Theorem sm_dowork_in_callback_refuted (bs : list N) x : bs <> [] -> let n := Z.of_nat (length bs) in
  run [Open None (Some 1%N) (Some 2%N) true; Send bs (Some x) 0 true; Dowork; Sent n; Dowork; Sent n; Return; Received None; Return] created = Undefined.
Proof.
  intros B n. subst n. rewrite opened_run. erewrite run_cons by (apply step_send_wait; auto; discriminate). erewrite run_cons by reflexivity.
  erewrite run_cons by (eapply (step_sent_all (mkp 0 bs (Some x))); auto; reflexivity). erewrite run_cons by reflexivity.
  erewrite run_cons by (eapply (step_sent_all (mkp 0 bs (Some x))); auto; reflexivity). reflexivity.
Qed.
Theorem sm_reopen_undefined_refuted bs r m : bs <> [] -> run [Open None (Some 1%N) (Some 2%N) true; Open None (Some 1%N) (Some 2%N) false; Send bs None r m] created = Undefined.
Proof. intros B. destruct bs; [congruence|]. reflexivity. Qed.

(* C123: when the connection takes k bytes of a message that waited, its last k bytes go out twice *)
Theorem sm_partial_write_refuted (bs : list N) x k : (0 < k < length bs)%nat -> exists j,
  run [Open None (Some 1%N) (Some 2%N) true; Send bs (Some x) 0 true; Dowork; Sent (Z.of_nat k); Sent (Z.of_nat (length bs)); Return] created = Next j /\
  accepted_bytes (outs j) = bs /\ queue j = [] /\ wire (outs j) = bs ++ skipn (length bs - k) bs.
Proof.
  intros K. assert (B : bs <> []) by (intros ->; cbn in K; lia).
  rewrite opened_run. erewrite run_cons by (apply step_send_wait; auto; discriminate). erewrite run_cons by reflexivity.
  erewrite run_cons by (erewrite (step_sent_part (mkp 0 bs (Some x))); [reflexivity|reflexivity|reflexivity|reflexivity|exact K]).
  set (rest := skipn k bs ++ skipn (length bs - k) bs).
  assert (L : length bs = length rest) by (unfold rest; rewrite app_length, !skipn_length; lia).
  assert (R : rest <> []) by (intros Y; rewrite Y in L; cbn in L; lia).
  replace (Sent (Z.of_nat (length bs))) with (Sent (Z.of_nat (length (p_bytes (mkp 0 rest (Some x)))))) by (cbn [p_bytes]; now rewrite L).
  erewrite run_cons by (eapply (step_sent_all (mkp 0 rest (Some x))); [reflexivity|reflexivity|reflexivity|exact R|reflexivity]).
  match goal with |- exists j, run _ ?i = _ /\ _ => destruct (run_return (mkp 0 rest (Some x)) i) as (j & X & Q & O) end; try reflexivity; [discriminate|].
  exists j. split; [exact X|]. rewrite O, Q. cbn [outs push set_frames emit set_queue pop opened].
  rewrite !wire_cons, !accepted_bytes_cons. cbn [p_bytes]. rewrite ?app_nil_r. split; [reflexivity|split; [reflexivity|] ].
  change (wire []) with (@nil N). cbn [app]. unfold rest. rewrite ?app_assoc, firstn_skipn. reflexivity.
Qed.

(* C124: a connection that failed or was closed by the peer is never reported: socketio_dowork leaves the io open and says nothing *)
Theorem sm_peer_close_silent_refuted i n : frames i = [] -> alive i = true -> io_state i = IO_STATE_OPEN -> queue i = [] -> conn i <> None ->
  run (concat (repeat [Dowork; Received None] n)) i = Next i.
Proof.
  intros F A S Q C. destruct i as [st cn ob oe q nid nc lv al fr ou]. cbn in F, A, S, Q, C. subst. destruct cn; [|congruence].
  induction n as [|n IH]; [reflexivity|]. cbn [repeat concat app]. exact IH.
Qed.

(* C126: what waits when the io is closed is kept, and goes to the next peer *)
Theorem sm_stale_refuted (bs : list N) x : bs <> [] -> exists j,
  run [Open None (Some 1%N) (Some 2%N) true; Send bs (Some x) 0 true; Close None; Open None (Some 1%N) (Some 2%N) true; Dowork; Sent (Z.of_nat (length bs))] created = Next j /\
  In (Wire 1 bs) (outs j) /\ conn j = Some 1%nat.
Proof.
  intros B. rewrite opened_run. erewrite run_cons by (apply step_send_wait; auto; discriminate). do 3 erewrite run_cons by reflexivity.
  erewrite run_cons by (eapply (step_sent_all (mkp 0 bs (Some x))); auto; reflexivity).
  eexists. split; [reflexivity|]. split; [cbn; auto|reflexivity].
Qed.
(* a connection that takes nothing keeps socketio_dowork in its loop *)
Theorem sm_spin_refuted i p q n : frames i = Sending :: nil -> queue i = p :: q -> conn i <> None -> p_bytes p <> [] ->
  run (repeat (Sent 0) n) i = Next i.
Proof.
  intros F Q C P. destruct i as [st cn ob oe q' nid nc lv al fr ou]. cbn in F, Q, C. subst. destruct cn as [c|]; [|congruence].
  induction n as [|n IH]; [reflexivity|]. cbn [repeat run step frames]. unfold pop, sent. cbn [queue conn set_frames frames tl].
  destruct (Z.ltb_spec (Z.of_nat (length (p_bytes p))) 0); [lia|]. destruct (Z.eqb_spec 0 (Z.of_nat (length (p_bytes p)))); [destruct (p_bytes p); [congruence|cbn [length] in *; lia]|].
  cbn -[run repeat]. rewrite Nat.sub_0_r, skipn_all, app_nil_r. destruct p. exact IH.
Qed.

Lemma always_cons (P : event -> io -> Prop) e es i k : step e i = Next k -> P e i -> always P es k -> always P (e :: es) i.
Proof. intros S H R. split; [exact H|]. now rewrite S. Qed.
(* a calm and whole execution: a direct send, one that waits, one sent from a callback, bytes received, close, open, destroy *)
Definition story : list event :=
  [ Open (Some 9%N) (Some 1%N) (Some 2%N) true; Send [1;2]%N (Some 3%N) 2 true; Return; Send [3;4;5]%N (Some 4%N) 1 true; Send [6]%N (Some 5%N) 0 true;
    Dowork; Sent 2; Send [7]%N None 0 true; Return; Sent 1; Return; Sent 1; Received (Some [8]%N); Return; Received None; Close (Some 6%N);
    Open None (Some 1%N) None true ].
Example sm_story : always calm_event story created /\ always whole_event story created /\
  exists j, run story created = Next j /\ alive j = true /\ wire (outs j) = [1;2;3;4;5;6;7]%N /\ completed (outs j) = [3;4;5]%N /\
    given (outs j) = [8]%N /\ opens (outs j) = 2%nat /\ closes (outs j) = 1%nat /\
    exists k, run [Destroy] j = Next k /\ leaked k = 1%nat.
Proof.
  split; [|split].
  - unfold story. repeat (eapply always_cons; [vm_compute; reflexivity|solve [repeat split; intros; discriminate || reflexivity]|]). exact Logic.I.
  - unfold story. repeat (eapply always_cons; [vm_compute; reflexivity|solve [exact Logic.I | right; eexists; eexists; split; reflexivity]|]). exact Logic.I.
  - eexists. split; [vm_compute; reflexivity|]. repeat split. eexists. split; [vm_compute; reflexivity|reflexivity].
Qed.
