(* Properties of the Windows socket io (C127-C131). *)
From Verif Require Import Base SocketWin_Model SocketWin_Spec.
Local Open Scope Z_scope.
Arguments wire : simpl never. Arguments given : simpl never. Arguments completed : simpl never.
Arguments accepted : simpl never. Arguments accepted_bytes : simpl never. Arguments accepted_callbacks : simpl never.
Arguments made : simpl never. Arguments closed : simpl never. Arguments opens : simpl never. Arguments closes : simpl never.
Arguments possible : simpl never.

Definition isdone (f : frame) : bool := match f with AfterDone _ => true | _ => false end.
Definition waits (f : frame) : bool := match f with Sending | Receiving | AfterDone _ => true | _ => false end.
Record inv (i : io) : Prop := {
  v_alive : alive i = false -> frames i = [];
  v_ids : NoDup (map p_id (queue i));
  v_fresh : Forall (fun p => (p_id p < next_id i)%nat) (queue i);
  v_done : forall id fs, frames i = AfterDone id :: fs -> exists p q, queue i = p :: q /\ p_id p = id;
  v_top : hd_error (frames i) = Some Sending -> queue i <> [];
  v_below : filter waits (tl (frames i)) = [] }.
(* no frame of a wait *)
Definition idle (i : io) : Prop := filter waits (frames i) = [].

Lemma inv_created h : inv (created h). Proof. constructor; cbn; auto; try constructor; congruence. Qed.
Lemma inv_accepted : inv created_accepted. Proof. constructor; cbn; auto; try constructor; congruence. Qed.
(* what matters to it *)
Lemma inv_same i j : inv i -> frames j = frames i -> queue j = queue i -> next_id j = next_id i -> alive j = alive i -> inv j.
Proof. intros [] F Q N A. constructor; rewrite ?F, ?Q, ?N, ?A; auto. Qed.
Lemma inv_emit o i : inv i -> inv (emit o i). Proof. intros I. now apply (inv_same i). Qed.
Lemma inv_push f i : inv i -> idle i -> alive i = true -> (f = Sending -> queue i <> []) ->
  (forall id, f = AfterDone id -> exists p q, queue i = p :: q /\ p_id p = id) -> inv (push f i).
Proof.
  intros [] D A W Q. constructor; cbn; auto; try congruence.
  - intros id fs X. injection X as X _. auto.
  - intros X. injection X as X. auto.
Qed.
Lemma inv_drain i : inv i -> idle i -> alive i = true -> inv (drain i).
Proof. intros I D A. unfold drain. destruct (queue i) eqn:Q; apply inv_push; auto; congruence. Qed.
Lemma filter_head (p : pending) q : NoDup (map p_id (p :: q)) ->
  filter (fun x => negb (p_id x =? p_id p)%nat) (p :: q) = q.
Proof.
  intros H. cbn. rewrite Nat.eqb_refl. cbn. inversion H as [|? ? N _]; subst. clear H.
  induction q as [|x q IH]; [reflexivity|]. cbn in *. destruct (Nat.eqb_spec (p_id x) (p_id p)); [tauto|]. cbn. f_equal. apply IH. tauto.
Qed.
Lemma inv_tail p q i : inv i -> queue i = p :: q -> idle i -> inv (set_queue q (next_id i) i).
Proof.
  intros [] Q D. rewrite Q in *. constructor; cbn; auto.
  - now inversion v_ids0.
  - now inversion v_fresh0.
  - intros id fs X. unfold idle in D. now rewrite X in D.
  - intros X. unfold idle in D. destruct (frames i) as [|[] ]; cbn in *; congruence.
Qed.
Definition good (r : result) : Prop := match r with Next j => inv j | Undefined => False | Idle => True end.
Lemma finish_head p q i : inv i -> queue i = p :: q -> finish (p_id p) i = Next (drain (set_queue q (next_id i) i)).
Proof.
  intros I Q. unfold finish. rewrite Q. cbn [existsb]. rewrite Nat.eqb_refl. cbn [orb]. rewrite filter_head by (rewrite <- Q; apply I). reflexivity.
Qed.
Lemma inv_finish p q i : inv i -> queue i = p :: q -> idle i -> alive i = true -> good (finish (p_id p) i).
Proof. intros I Q D A. rewrite (finish_head p q) by assumption. apply inv_drain; auto. now apply (inv_tail p). Qed.
Lemma pop_facts f i : inv i -> hd_error (frames i) = Some f -> inv (pop i) /\ idle (pop i) /\ alive i = true.
Proof.
  intros [] H. unfold idle, pop. destruct (frames i) as [|g fs] eqn:F; [discriminate|]. cbn in *. split; [|split; [exact v_below0|] ].
  - constructor; cbn; auto.
    + intros X. apply v_alive0 in X. discriminate.
    + intros id gs ->. discriminate.
    + intros X. destruct fs as [|[] ]; cbn in *; congruence.
    + destruct fs as [|h hs]; [reflexivity|]. cbn in *. destruct (waits h); [discriminate|exact v_below0].
  - destruct (alive i); [reflexivity|]. specialize (v_alive0 eq_refl). discriminate.
Qed.
Lemma NoDup_snoc {A} (l : list A) x : NoDup l -> ~ In x l -> NoDup (l ++ [x]).
Proof.
  intros N X. apply NoDup_rev in N. rewrite <- (rev_involutive (l ++ [x])). apply NoDup_rev. rewrite rev_app_distr. cbn.
  constructor; [|exact N]. now rewrite <- in_rev.
Qed.
Lemma inv_add bs cb m i ok j : inv i -> add_pending_io bs cb m i = (ok, j) -> inv j.
Proof.
  intros I H. unfold add_pending_io in H. destruct m; inversion H; subst; [|exact I].
  destruct I. constructor; cbn; auto.
  - rewrite map_app. cbn. apply NoDup_snoc; auto. intros X. apply in_map_iff in X. destruct X as (p & E & P).
    rewrite Forall_forall in v_fresh0. apply v_fresh0 in P. lia.
  - apply Forall_app. split; [|repeat constructor]. eapply Forall_impl; [|exact v_fresh0]. cbn. lia.
  - intros id fs X. apply v_done0 in X. destruct X as (p & q & E & P). exists p, (q ++ [mkp (next_id i) bs cb]). now rewrite E.
  - intros X. destruct (queue i); discriminate.
Qed.
Lemma took_frames r bs i : frames (took r bs i) = frames i /\ queue (took r bs i) = queue i /\ next_id (took r bs i) = next_id i /\ alive (took r bs i) = alive i
  /\ socket (took r bs i) = socket i.
Proof. unfold took. destruct (socket i) eqn:S; [destruct (0 <? r)|]; cbn; rewrite ?S; auto. Qed.
Lemma inv_took r bs i : inv i -> inv (took r bs i).
Proof. intros I. destruct (took_frames r bs i) as (A & B & C & D & _). now apply (inv_same i). Qed.
Lemma error_frames i : frames (indicate_error i) = frames i /\ queue (indicate_error i) = queue i /\ next_id (indicate_error i) = next_id i /\ alive (indicate_error i) = alive i.
Proof. unfold indicate_error. destruct (on_error i); auto. Qed.
Lemma inv_error i : inv i -> inv (indicate_error i).
Proof. intros I. destruct (error_frames i) as (A & B & C & D). now apply (inv_same i). Qed.
Lemma done_queue i : inv i -> queue i = [] -> may_call i = true -> idle i.
Proof.
  intros I Q M. unfold idle. pose proof (v_below _ I) as B. pose proof (v_done _ I) as D. unfold may_call in M.
  destruct (frames i) as [|f fs]; [reflexivity|]. cbn in *. destruct f; try discriminate; auto.
  destruct (D _ _ eq_refl) as (p & q & X & _). congruence.
Qed.
Lemma inv_send bs cb r e m i : inv i -> may_call i = true -> alive i = true -> good (socketio_send bs cb r e m i).
Proof.
  intros I M A. unfold socketio_send. destruct bs as [|b bs]; [now apply inv_emit|]. set (msg := b :: bs).
  destruct (io_state i); [now apply inv_emit|]. destruct (queue i) as [|p q] eqn:Q.
  - destruct (possible _ _ _ _); [|exact Logic.I]. pose proof (inv_took r msg i I) as T. destruct (took_frames r msg i) as (F1 & F2 & F3 & F4 & _).
    set (j := took r msg i) in *. clearbody j. destruct (r =? _).
    + assert (J : inv (emit (SendReturns msg cb true) j)) by now apply inv_emit.
      destruct cb; [|exact J]. apply inv_push; auto using inv_emit; cbn; try congruence.
      unfold idle. cbn. rewrite F1. now apply done_queue.
    + destruct (e =? _); [|cbn; auto using inv_emit, inv_error]. destruct (add_pending_io msg cb m j) as [ok k] eqn:X. apply inv_emit. eapply inv_add; eauto.
  - destruct (add_pending_io msg cb m i) as [ok j] eqn:X. apply inv_emit. eapply inv_add; eauto.
Qed.
Lemma inv_sent r e i : inv i -> idle i -> alive i = true -> queue i <> [] -> good (sent r e i).
Proof.
  intros I D A Q. unfold sent. destruct (queue i) as [|p q] eqn:E; [congruence|]. destruct (possible _ _ _ _); [|exact Logic.I].
  pose proof (inv_took r (p_bytes p) i I) as T. destruct (took_frames r (p_bytes p) i) as (F1 & F2 & F3 & F4 & _).
  set (j := took r (p_bytes p) i) in *. clearbody j. assert (D' : idle j) by (unfold idle; now rewrite F1). rewrite E in F2.
  destruct (r =? _).
  - destruct (p_cb p); [|apply (inv_finish p q); congruence]. apply inv_push; auto using inv_emit; cbn; try congruence.
    intros id X. injection X as <-. eauto.
  - destruct (e =? _); [apply inv_drain; congruence|apply (inv_finish p q); congruence].
Qed.
Lemma inv_step e i : inv i -> calm_event e i -> good (step e i).
Proof.
  intros I C. destruct e; cbn in C |- *.
  - unfold call. rewrite C. destruct (may_call i); [|exact Logic.I]. cbn. unfold socketio_open, now_open, closesocket.
    destruct (io_state i); [destruct (socket i); [|destruct r]|]; try destruct o; cbn; now apply (inv_same i).
  - unfold call. rewrite C. destruct (may_call i); [|exact Logic.I]. cbn. unfold socketio_close, closesocket.
    destruct (io_state i); [|destruct (socket i)]; try destruct cb; cbn; now apply (inv_same i).
  - unfold call. rewrite C. destruct (may_call i) eqn:M; [|exact Logic.I]. now apply inv_send.
  - destruct C as (A & F). unfold call. rewrite A. destruct (may_call i) eqn:M; [|exact Logic.I]. cbn. unfold socketio_dowork.
    destruct (io_state i); [exact I|]. apply inv_drain; auto. unfold idle. pose proof (v_below _ I) as B. unfold may_call in M.
    destruct (frames i) as [|f fs]; [reflexivity|]. cbn in *. destruct f; try discriminate; auto; destruct F.
  - destruct C as (A & F). unfold call. rewrite A. destruct (may_call i) eqn:M; [|exact Logic.I]. cbn. unfold socketio_destroy, closesocket.
    destruct (socket i); constructor; cbn; rewrite ?F; cbn; auto; try constructor; congruence.
  - destruct (frames i) as [|f fs] eqn:F; [exact Logic.I|]. destruct f; try exact Logic.I.
    destruct (pop_facts Sending i I) as (J & D & A); [now rewrite F|].
    apply inv_sent; auto. apply (v_top _ I). now rewrite F.
  - destruct (frames i) as [|f fs] eqn:F; [exact Logic.I|]. destruct f; try exact Logic.I.
    destruct (pop_facts Receiving i I) as (J & D & A); [now rewrite F|]. unfold received. destruct a.
    + destruct (socket (pop i)); [|exact Logic.I]. destruct (on_bytes (pop i)); apply inv_push; auto using inv_emit; discriminate.
    + destruct (match socket (pop i) with Some _ => _ | None => _ end); [exact Logic.I|]. destruct (_ && _); [now apply inv_error|exact J].
  - destruct (frames i) as [|f fs] eqn:F; [exact Logic.I|]. destruct f; try exact Logic.I.
    + destruct (pop_facts (AfterDone id) i I) as (J & D & A); [now rewrite F|]. rewrite A.
      destruct (v_done _ I id fs) as (p & q & Q & <-); [exact F|]. now apply (inv_finish p q).
    + destruct (pop_facts AfterBytes i I) as (J & D & A); [now rewrite F|]. rewrite A. apply inv_push; auto; discriminate.
    + destruct (pop_facts AfterSend i I) as (J & D & A); [now rewrite F|]. rewrite A. exact J.
Qed.
(** * C127: no undefined behaviour *)
Lemma inv_run es : forall i, inv i -> always calm_event es i -> good (run es i).
Proof.
  induction es as [|e es IH]; intros i I C; [exact I|]. cbn [run]. destruct C as [C R]. pose proof (inv_step e i I C) as G.
  destruct (step e i); cbn in *; auto.
Qed.
Lemma inv_new i : fresh i -> inv i. Proof. intros [->|(h & ->)]; auto using inv_created, inv_accepted. Qed.
Theorem sw_safe_partial es i : fresh i -> always calm_event es i -> run es i <> Undefined.
Proof. intros N C X. pose proof (inv_run es i (inv_new i N) C) as G. now rewrite X in G. Qed.

(** * C128: the stream *)
Definition todo (i : io) : list pending := match frames i with AfterDone _ :: _ => tl (queue i) | _ => queue i end.
Definition bytes_of (q : list pending) : list N := flat_map p_bytes q.
Definition cbs_of (q : list pending) : list N := flat_map (fun p => match p_cb p with Some c => [c] | None => [] end) q.
Definition streams (i : io) : Prop :=
  wire (outs i) ++ bytes_of (todo i) = accepted_bytes (outs i) /\
  completed (outs i) ++ cbs_of (todo i) = accepted_callbacks (outs i).
Definition full (i : io) : Prop := Forall (fun p => p_bytes p <> []) (queue i).

Lemma fold_snoc {A} (f : out -> list A) o l : flat_map f (rev (o :: l)) = flat_map f (rev l) ++ f o.
Proof. cbn [rev]. rewrite flat_map_app. cbn. now rewrite app_nil_r. Qed.
Lemma wire_cons o l : wire (o :: l) = wire l ++ match o with Wire _ b => b | _ => [] end.
Proof. apply fold_snoc. Qed.
Lemma given_cons o l : given (o :: l) = given l ++ match o with Bytes _ b => b | _ => [] end.
Proof. apply fold_snoc. Qed.
Lemma made_cons o l : made (o :: l) = made l ++ match o with Socket s => [s] | _ => [] end.
Proof. apply fold_snoc. Qed.
Lemma closed_cons o l : closed (o :: l) = closed l ++ match o with Closed s => [s] | _ => [] end.
Proof. apply fold_snoc. Qed.
Lemma completed_cons o l : completed (o :: l) = completed l ++ match o with SendComplete c => [c] | _ => [] end.
Proof. apply fold_snoc. Qed.
Lemma accepted_bytes_cons o l : accepted_bytes (o :: l) = accepted_bytes l ++ match o with SendReturns b _ true => b | _ => [] end.
Proof.
  unfold accepted_bytes, accepted. rewrite fold_snoc, flat_map_app. f_equal. destruct o; try reflexivity. destruct ok; [|reflexivity].
  cbn. apply app_nil_r.
Qed.
Lemma accepted_callbacks_cons o l : accepted_callbacks (o :: l) = accepted_callbacks l ++ match o with SendReturns _ (Some c) true => [c] | _ => [] end.
Proof.
  unfold accepted_callbacks, accepted. rewrite fold_snoc, flat_map_app. f_equal. destruct o; try reflexivity. destruct ok, cb; reflexivity.
Qed.
Lemma opens_cons o l : opens (o :: l) = ((match o with OpenReturns true => 1 | _ => 0 end) + opens l)%nat.
Proof. unfold opens. destruct o; try reflexivity. destruct ok; reflexivity. Qed.
Lemma closes_cons o l : closes (o :: l) = ((match o with CloseReturns true => 1 | _ => 0 end) + closes l)%nat.
Proof. unfold closes. destruct o; try reflexivity. destruct ok; reflexivity. Qed.
Ltac outs_cons := repeat rewrite ?wire_cons, ?completed_cons, ?accepted_bytes_cons, ?accepted_callbacks_cons, ?given_cons, ?made_cons, ?closed_cons, ?app_nil_r.
(* the outputs after an event say no more about the streams *)
Definition quiet_outs (i j : io) : Prop :=
  wire (outs j) = wire (outs i) /\ completed (outs j) = completed (outs i) /\ accepted_bytes (outs j) = accepted_bytes (outs i) /\
  accepted_callbacks (outs j) = accepted_callbacks (outs i).
Lemma quiet_streams i j : quiet_outs i j -> todo j = todo i -> streams i -> streams j.
Proof. intros (A & B & C & D) T [S1 S2]. unfold streams. now rewrite A, B, C, D, T. Qed.
Lemma streams_drain i : idle i -> streams i -> streams (drain i).
Proof.
  intros D S. apply (quiet_streams i); auto; unfold drain; destruct (queue i) eqn:Q; try (repeat split); unfold todo; cbn; rewrite Q;
  unfold idle in D; destruct (frames i) as [|[] ]; auto; discriminate.
Qed.
Lemma full_drain i : full i -> full (drain i).
Proof. unfold full, drain. destruct (queue i) eqn:Q; cbn; now rewrite Q. Qed.
Lemma todo_idle i : idle i -> todo i = queue i.
Proof. unfold idle, todo. destruct (frames i) as [|[] ]; auto; discriminate. Qed.
Lemma streams_finish p q i j : inv i -> idle i -> finish (p_id p) i = Next j -> queue i = p :: q ->
  wire (outs i) ++ bytes_of q = accepted_bytes (outs i) -> completed (outs i) ++ cbs_of q = accepted_callbacks (outs i) -> full i -> streams j /\ full j.
Proof.
  intros I D X Q W C F. rewrite (finish_head p q) in X by assumption. injection X as <-. split.
  - apply streams_drain; [exact D|]. unfold streams. rewrite todo_idle by exact D. cbn. auto.
  - apply full_drain. unfold full in *. rewrite Q in F. cbn. now inversion F.
Qed.
Lemma took_all s bs i : socket i = Some s -> bs <> [] -> took (Z.of_nat (length bs)) bs i = emit (Wire s bs) i.
Proof.
  intros S B. unfold took. rewrite S. destruct (Z.ltb_spec 0 (Z.of_nat (length bs))); [|destruct bs; [congruence|cbn [length] in *; lia] ].
  now rewrite Nat2Z.id, firstn_all.
Qed.
Lemma took_none bs i : took (-1) bs i = i.
Proof. unfold took. now destruct (socket i). Qed.
Lemma possible_all n s e : possible n s (Z.of_nat n) e = true -> exists k, s = Some k.
Proof.
  unfold possible. destruct s; [eauto|]. destruct (Z.eqb_spec (Z.of_nat n) (-1)); [lia|discriminate].
Qed.
Lemma todo_add bs cb i : inv i ->
  todo (set_queue (queue i ++ [mkp (next_id i) bs cb]) (S (next_id i)) i) = todo i ++ [mkp (next_id i) bs cb].
Proof.
  intros I. unfold todo. cbn. pose proof (v_done _ I) as D. destruct (frames i) as [|[] fs]; try reflexivity.
  destruct (D _ _ eq_refl) as (p & q & Y & _). now rewrite Y.
Qed.
Lemma bytes_of_app a b : bytes_of (a ++ b) = bytes_of a ++ bytes_of b. Proof. apply flat_map_app. Qed.
Lemma cbs_of_app a b : cbs_of (a ++ b) = cbs_of a ++ cbs_of b. Proof. apply flat_map_app. Qed.
Lemma streams_add bs cb m i ok j : bs <> [] -> inv i -> streams i -> full i -> add_pending_io bs cb m i = (ok, j) -> streams (emit (SendReturns bs cb ok) j) /\ full (emit (SendReturns bs cb ok) j).
Proof.
  intros B I [S1 S2] F X. unfold add_pending_io in X. destruct m; injection X as <- <-.
  - split; [|unfold full in *; cbn; apply Forall_app; split; [exact F|repeat constructor; exact B] ]. unfold streams.
    change (todo _) with (todo (set_queue (queue i ++ [mkp (next_id i) bs cb]) (S (next_id i)) i)).
    rewrite todo_add, bytes_of_app, cbs_of_app, !app_assoc by exact I. cbn. outs_cons. rewrite S1, S2. split; [reflexivity|]. destruct cb; reflexivity.
  - split; [|exact F]. apply (quiet_streams i); [|reflexivity|split; auto]. repeat split; cbn; outs_cons; auto. destruct cb; now rewrite app_nil_r.
Qed.
Lemma streams_send bs cb r e m i j : inv i -> may_call i = true -> (r = -1 \/ r = Z.of_nat (length bs)) -> socketio_send bs cb r e m i = Next j ->
  streams i -> full i -> streams j /\ full j.
Proof.
  intros I M W X S F. assert (N : streams (emit (SendReturns bs cb false) i) /\ full (emit (SendReturns bs cb false) i)).
  { split; [|exact F]. apply (quiet_streams i); auto. repeat split; cbn; outs_cons; auto. destruct cb; now rewrite app_nil_r. }
  unfold socketio_send in X. destruct bs as [|b bs]; [injection X as <-; exact N|]. set (msg := b :: bs) in *. assert (B : msg <> []) by discriminate.
  destruct (io_state i); [injection X as <-; exact N|]. destruct (queue i) as [|p q] eqn:Q.
  - destruct (possible _ _ _ _) eqn:P; [|discriminate]. destruct W as [->|W].
    + rewrite took_none in X. destruct (Z.eqb_spec (-1) (Z.of_nat (length msg))); [lia|]. destruct (e =? _).
      * destruct (add_pending_io msg cb m i) as [ok k] eqn:Y. injection X as <-. now apply (streams_add msg cb m i).
      * injection X as <-. split; [|unfold full, indicate_error in *; destruct (on_error i); exact F].
        apply (quiet_streams i); auto; unfold indicate_error; destruct (on_error i); auto; repeat split; cbn; outs_cons; auto; destruct cb; now rewrite ?app_nil_r.
    + subst r. destruct (possible_all _ _ _ P) as (s & K). rewrite (took_all s) in X by assumption. rewrite Z.eqb_refl in X.
      assert (D : idle i) by now apply done_queue. destruct S as [S1 S2]. rewrite todo_idle in S1, S2 by exact D. rewrite Q in S1, S2. cbn in S1, S2. rewrite app_nil_r in S1, S2.
      destruct cb as [x|]; injection X as <-; (split; [|exact F]).
      * unfold streams, todo. cbn. rewrite Q. cbn. outs_cons. split; congruence.
      * unfold streams. change (todo _) with (todo i). rewrite todo_idle, Q by exact D. cbn. outs_cons. split; congruence.
  - destruct (add_pending_io msg cb m i) as [ok k] eqn:Y. injection X as <-. now apply (streams_add msg cb m i).
Qed.
Lemma streams_sent r e i j : inv i -> idle i -> sent r e i = Next j -> whole_event (Sent r e) i -> streams i -> full i -> streams j /\ full j.
Proof.
  intros I D X W S F. unfold sent in X. cbn in W. destruct (queue i) as [|p q] eqn:Q; [discriminate|].
  assert (P : p_bytes p <> []) by (unfold full in F; rewrite Q in F; now inversion F).
  destruct (possible _ _ _ _) eqn:O; [|discriminate].
  destruct W as [ [-> ->]|(p' & q' & Y & ->)].
  - rewrite took_none in X. destruct (Z.eqb_spec (-1) (Z.of_nat (length (p_bytes p)))); [lia|]. rewrite Z.eqb_refl in X. injection X as <-.
    split; [now apply streams_drain|now apply full_drain].
  - injection Y as <- <-. destruct (possible_all _ _ _ O) as (s & K). rewrite (took_all s) in X by assumption. rewrite Z.eqb_refl in X.
    destruct S as [S1 S2]. rewrite todo_idle, Q in S1, S2 by exact D. cbn in S1, S2.
    destruct (p_cb p) as [x|] eqn:C.
    + injection X as <-. split; [|exact F]. unfold streams, todo. cbn. rewrite Q. cbn. outs_cons. rewrite <- !app_assoc. auto.
    + apply (streams_finish p q (emit (Wire s (p_bytes p)) i) j); auto using inv_emit; cbn; outs_cons; rewrite <- ?app_assoc; auto.
Qed.
Lemma streams_step e i j : inv i -> calm_event e i -> whole_event e i -> (alive i = true -> streams i /\ full i) -> step e i = Next j ->
  alive j = true -> streams j /\ full j.
Proof.
  intros I C W H X A. destruct e; cbn [calm_event whole_event] in C, W; cbn [step] in X.
  - unfold call in X. rewrite C in X. destruct (may_call i); [|discriminate]. injection X as <-. destruct (H C) as [H1 H2].
    split; [apply (quiet_streams i)|]; auto; unfold socketio_open, now_open, closesocket; destruct (io_state i); try (destruct (socket i); [|destruct r]); try destruct o; cbn;
      try (repeat split; cbn; outs_cons; reflexivity); auto.
  - unfold call in X. rewrite C in X. destruct (may_call i); [|discriminate]. injection X as <-. destruct (H C) as [H1 H2].
    split; [apply (quiet_streams i)|]; auto; unfold socketio_close, closesocket; destruct (io_state i); try destruct (socket i); try destruct cb; cbn;
      try (repeat split; cbn; outs_cons; reflexivity); auto.
  - unfold call in X. rewrite C in X. destruct (may_call i) eqn:M; [|discriminate]. destruct (H C) as [H1 H2]. eapply streams_send; eauto.
  - destruct C as (A0 & F). unfold call in X. rewrite A0 in X. destruct (may_call i) eqn:M; [|discriminate]. injection X as <-. destruct (H A0) as [H1 H2].
    unfold socketio_dowork. destruct (io_state i); [auto|].
    assert (D : idle i). { unfold idle. pose proof (v_below _ I) as B. unfold may_call in M. destruct (frames i) as [|f fs]; [reflexivity|]. cbn in *. destruct f; try discriminate; auto; destruct F. }
    split; [now apply streams_drain|now apply full_drain].
  - destruct C as (A0 & F). unfold call in X. rewrite A0 in X. destruct (may_call i) eqn:M; [|discriminate]. injection X as <-. discriminate.
  - destruct (frames i) as [|f fs] eqn:F; [discriminate|]. destruct f; try discriminate.
    destruct (pop_facts Sending i I) as (J & D & A0); [now rewrite F|]. destruct (H A0) as [H1 H2].
    apply (streams_sent r e (pop i) j); auto. apply (quiet_streams i); auto; [repeat split|]. rewrite todo_idle by exact D. unfold todo. now rewrite F.
  - destruct (frames i) as [|f fs] eqn:F; [discriminate|]. destruct f; try discriminate.
    destruct (pop_facts Receiving i I) as (J & D & A0); [now rewrite F|]. destruct (H A0) as [H1 H2].
    assert (S : streams (pop i)) by (apply (quiet_streams i); auto; [repeat split|]; rewrite todo_idle by exact D; unfold todo; now rewrite F).
    assert (T : forall f k, (forall id, f <> AfterDone id) -> todo (push f k) = queue k) by (intros f k N; unfold todo; cbn; destruct f; auto; destruct (N id); auto).
    unfold received in X. destruct a.
    + destruct (socket (pop i)); [|discriminate]. destruct (on_bytes (pop i)); injection X as <-; (split; [|exact H2]);
        apply (quiet_streams (pop i)); auto; try (repeat split; cbn; outs_cons; reflexivity); rewrite T by discriminate; now rewrite todo_idle.
    + destruct (match socket (pop i) with Some _ => _ | None => _ end); [discriminate|]. injection X as <-. destruct (_ && _); [|auto].
      unfold indicate_error. destruct (on_error _); [|auto]. split; [|exact H2]. apply (quiet_streams (pop i)); auto. repeat split; cbn; outs_cons; reflexivity.
  - destruct (frames i) as [|f fs] eqn:F; [discriminate|]. destruct f; try discriminate; (destruct (alive i) eqn:A0; [|discriminate]); destruct (H eq_refl) as [H1 H2].
    + destruct (pop_facts (AfterDone id) i I) as (J & D & _); [now rewrite F|].
      destruct (v_done _ I id fs) as (p & q & Q & <-); [exact F|]. destruct H1 as [S1 S2].
      unfold todo in S1, S2. rewrite F, Q in S1, S2. cbn in S1, S2.
      apply (streams_finish p q (pop i) j); auto.
    + destruct (pop_facts AfterBytes i I) as (J & D & _); [now rewrite F|]. injection X as <-. split; [|exact H2].
      apply (quiet_streams i); auto; [repeat split|]. unfold todo. cbn. now rewrite F.
    + destruct (pop_facts AfterSend i I) as (J & D & _); [now rewrite F|]. injection X as <-. split; [|exact H2].
      apply (quiet_streams i); auto; [repeat split|]. rewrite todo_idle by exact D. unfold todo. now rewrite F.
Qed.
Lemma streams_run es : forall i j, inv i -> always calm_event es i -> always whole_event es i -> (alive i = true -> streams i /\ full i) ->
  run es i = Next j -> inv j /\ (alive j = true -> streams j /\ full j).
Proof.
  induction es as [|e es IH]; intros i j I C W H X; [injection X as <-; auto|]. cbn [run] in X. destruct C as [C C'], W as [W W'].
  pose proof (inv_step e i I C) as G. destruct (step e i) as [k| |] eqn:E; try discriminate. apply (IH k j G C' W'); [|exact X].
  intros A. exact (streams_step e i k I C W H E A).
Qed.
(* What the sockets took, and the callbacks made, are what was accepted, in order, but for a rest; the rest waits in the
   io and is empty when nothing is pending. *)
Theorem sw_stream_partial es i j : fresh i -> always calm_event es i -> always whole_event es i -> run es i = Next j -> alive j = true ->
  (exists rest, wire (outs j) ++ rest = accepted_bytes (outs j)) /\ (exists rest, completed (outs j) ++ rest = accepted_callbacks (outs j)) /\
  (queue j = [] -> wire (outs j) = accepted_bytes (outs j) /\ completed (outs j) = accepted_callbacks (outs j)) /\
  (frames j = [] -> wire (outs j) ++ flat_map p_bytes (queue j) = accepted_bytes (outs j)).
Proof.
  intros N C W X A. destruct (streams_run es i j (inv_new i N) C W) as [I H]; auto.
  { intros _. destruct N as [->|(h & ->)]; repeat split; constructor. }
  destruct (H A) as [ [H1 H2] _]. split; [eauto|split; [eauto|] ]. unfold todo in H1, H2. split; intros Q.
  - rewrite Q in H1, H2. destruct (frames j) as [|[] ]; cbn in H1, H2; rewrite app_nil_r in H1, H2; auto.
  - rewrite Q in H1. exact H1.
Qed.

(** * All executions, whatever the user does (C129, C130) *)
(* what an event does besides *)
Record effect (i j : io) (g : list N) : Prop := {
  e_given : given (outs j) = given (outs i) ++ g;
  e_made : made (outs j) = made (outs i); e_closed : closed (outs j) = closed (outs i);
  e_opens : opens (outs j) = opens (outs i); e_closes : closes (outs j) = closes (outs i);
  e_state : io_state j = io_state i; e_socket : socket j = socket i; e_next : next_socket j = next_socket i; e_alive : alive j = alive i;
  e_cb : on_bytes j = on_bytes i }.
Lemma effect_refl i : effect i i []. Proof. constructor; auto. now rewrite app_nil_r. Qed.
Lemma effect_trans i j k a b : effect i j a -> effect j k b -> effect i k (a ++ b).
Proof. intros [] []. constructor; try congruence. rewrite e_given1, e_given0. now rewrite app_assoc. Qed.
Definition plain (o : out) : bool :=
  match o with Socket _ | Closed _ | OpenReturns true | CloseReturns true | Bytes _ _ => false | _ => true end.
Lemma effect_emit o i : plain o = true -> effect i (emit o i) [].
Proof.
  intros P. constructor; auto; cbn; outs_cons; rewrite ?opens_cons, ?closes_cons, ?app_nil_r; destruct o; try discriminate; rewrite ?app_nil_r; auto; destruct ok; auto; discriminate.
Qed.
Lemma effect_frames f i : effect i (set_frames f i) []. Proof. constructor; auto. cbn. now rewrite app_nil_r. Qed.
Lemma effect_queue q n i : effect i (set_queue q n i) []. Proof. constructor; auto. cbn. now rewrite app_nil_r. Qed.
Ltac then_ := eapply (effect_trans _ _ _ [] []); [|].
Lemma effect_drain i : effect i (drain i) [].
Proof. unfold drain, push. destruct (queue i); apply effect_frames. Qed.
Lemma effect_finish id i j : finish id i = Next j -> effect i j [].
Proof. unfold finish. destruct (existsb _ _); [|discriminate]. intros X. injection X as <-. then_; [apply effect_queue|apply effect_drain]. Qed.
Lemma effect_took r bs i : effect i (took r bs i) [].
Proof. unfold took. destruct (socket i); [destruct (0 <? r)|]; auto using effect_refl; now apply effect_emit. Qed.
Lemma effect_error i : effect i (indicate_error i) [].
Proof. unfold indicate_error. destruct (on_error i); auto using effect_refl. now apply effect_emit. Qed.
Lemma effect_sent r e i j : sent r e i = Next j -> effect i j [].
Proof.
  unfold sent. destruct (queue i) as [|p q]; [discriminate|]. destruct (possible _ _ _ _); [|discriminate]. intros X.
  then_; [apply effect_took|]. destruct (r =? _).
  - destruct (p_cb p); [|eapply effect_finish; exact X]. injection X as <-. then_; [|apply effect_frames]. now apply effect_emit.
  - destruct (e =? _); [injection X as <-; apply effect_drain|eapply effect_finish; exact X].
Qed.
Lemma effect_add bs cb m i ok j : add_pending_io bs cb m i = (ok, j) -> effect i (emit (SendReturns bs cb ok) j) [].
Proof. unfold add_pending_io. destruct m; intros X; injection X as <- <-; [then_; [apply effect_queue|] |]; now apply effect_emit. Qed.
Lemma effect_send bs cb r e m i j : socketio_send bs cb r e m i = Next j -> effect i j [].
Proof.
  intros X. unfold socketio_send in X. destruct bs as [|b bs]; [injection X as <-; now apply effect_emit|].
  destruct (io_state i); [injection X as <-; now apply effect_emit|]. destruct (queue i).
  - destruct (possible _ _ _ _); [|discriminate]. then_; [apply effect_took|]. destruct (r =? _).
    + destruct cb; injection X as <-; [then_; [|apply effect_frames]; then_|]; now apply effect_emit.
    + destruct (e =? _).
      * destruct (add_pending_io _ _ _ _) as [ok k] eqn:A. injection X as <-. eapply effect_add; eauto.
      * injection X as <-. then_; [apply effect_error|now apply effect_emit].
  - destruct (add_pending_io _ _ _ _) as [ok k] eqn:A. injection X as <-. eapply effect_add; eauto.
Qed.
Definition current (i : io) : list nat := match socket i with Some s => [s] | None => [] end.
Record whole (i : io) : Prop := {
  w_sockets : made (outs i) = closed (outs i) ++ current i;
  w_fresh : Forall (fun s => (s < next_socket i)%nat) (made (outs i));
  w_nodup : NoDup (made (outs i));
  w_open : alive i = true -> io_state i = IO_STATE_OPEN -> socket i <> None;
  w_dead : alive i = false -> socket i = None;
  w_count : opens (outs i) = (closes (outs i) + match io_state i with IO_STATE_OPEN => 1 | _ => 0 end)%nat }.
Lemma whole_effect i j g : effect i j g -> whole i -> whole j.
Proof. intros [] []. constructor; unfold current in *; rewrite ?e_made0, ?e_closed0, ?e_opens0, ?e_closes0, ?e_state0, ?e_socket0, ?e_next0, ?e_alive0; auto. Qed.
Lemma whole_open o b e r i : alive i = true -> whole i -> whole (socketio_open o b e r i).
Proof.
  intros A []. unfold socketio_open, now_open, closesocket, current in *.
  assert (L : forall s, Forall (fun s => (s < next_socket i)%nat) s -> Forall (fun s => (s < S (next_socket i))%nat) s)
    by (intros s F; eapply Forall_impl; [|exact F]; cbn; lia).
  assert (N : ~ In (next_socket i) (made (outs i))) by (intros Y; rewrite Forall_forall in w_fresh0; apply w_fresh0 in Y; lia).
  destruct (io_state i) eqn:S; [destruct (socket i) eqn:K; [|destruct r]|]; try destruct o; constructor; unfold current; cbn; rewrite ?S, ?K in *; outs_cons;
    repeat rewrite opens_cons; repeat rewrite closes_cons; rewrite ?app_nil_r; cbn; auto; try congruence; try lia;
    try (rewrite ?app_nil_r in w_sockets0; congruence);
    try (apply Forall_app; split; [apply L; auto|constructor; [lia|constructor] ]); try (now apply NoDup_snoc); try (intros; split; congruence).
Qed.
Lemma whole_step e i j : whole i -> step e i = Next j -> whole j.
Proof.
  intros W X. destruct e; cbn [step] in X.
  - unfold call in X. destruct (may_call i); [|discriminate]. destruct (alive i) eqn:A; [|discriminate]. injection X as <-. now apply whole_open.
  - unfold call in X. destruct (may_call i); [|discriminate]. destruct (alive i) eqn:A; [|discriminate]. injection X as <-.
    destruct W. unfold socketio_close, closesocket, current in *.
    destruct (io_state i) eqn:S; [|destruct (socket i) eqn:K]; try destruct cb; constructor; unfold current; cbn; rewrite ?S, ?K in *; outs_cons;
    repeat rewrite opens_cons; repeat rewrite closes_cons; rewrite ?app_nil_r; cbn; auto; try congruence; try lia;
    try (rewrite ?app_nil_r in w_sockets0; congruence).
  - unfold call in X. destruct (may_call i); [|discriminate]. destruct (alive i); [|discriminate]. apply effect_send in X. eapply whole_effect; eauto.
  - unfold call in X. destruct (may_call i); [|discriminate]. destruct (alive i); [|discriminate]. injection X as <-. unfold socketio_dowork.
    destruct (io_state i); [auto|]. eapply whole_effect; [apply effect_drain|exact W].
  - unfold call in X. destruct (may_call i); [|discriminate]. destruct (alive i) eqn:A; [|discriminate]. injection X as <-.
    destruct W. unfold socketio_destroy, closesocket, current in *.
    destruct (socket i) eqn:K; constructor; unfold current; cbn; rewrite ?K in *; outs_cons;
    repeat rewrite opens_cons; repeat rewrite closes_cons; rewrite ?app_nil_r; cbn; auto; try congruence; try lia.
    rewrite ?app_nil_r in w_sockets0; congruence.
  - destruct (frames i) as [|f fs] eqn:F; [discriminate|]. destruct f; try discriminate. apply effect_sent in X.
    eapply whole_effect; [exact X|]. eapply whole_effect; [apply effect_frames|exact W].
  - destruct (frames i) as [|f fs] eqn:F; [discriminate|]. destruct f; try discriminate.
    assert (W' : whole (pop i)) by (eapply whole_effect; [apply effect_frames|exact W]). unfold received in X. destruct a.
    + destruct (socket (pop i)) eqn:K; [|discriminate]. destruct (on_bytes (pop i)); injection X as <-; destruct W';
        constructor; unfold current in *; cbn in *; outs_cons; repeat rewrite opens_cons; repeat rewrite closes_cons; rewrite ?app_nil_r; auto.
    + destruct (match socket (pop i) with Some _ => _ | None => _ end); [discriminate|]. injection X as <-. destruct (_ && _); [|auto].
      eapply whole_effect; [apply effect_error|exact W'].
  - assert (W' : whole (pop i)) by (eapply whole_effect; [apply effect_frames|exact W]).
    destruct (frames i) as [|f fs] eqn:F; [discriminate|]. destruct f; try discriminate; (destruct (alive i) eqn:A0; [|discriminate]).
    + apply effect_finish in X. eapply whole_effect; eauto.
    + injection X as <-. eapply whole_effect; [apply effect_frames|exact W'].
    + injection X as <-. exact W'.
Qed.
Lemma whole_run es : forall i j, whole i -> run es i = Next j -> whole j.
Proof.
  induction es as [|e es IH]; intros i j W X; [injection X as <-; auto|]. cbn [run] in X.
  destruct (step e i) as [k| |] eqn:E; try discriminate. apply (IH k j); auto. eapply whole_step; eauto.
Qed.
Lemma whole_fresh i : fresh i -> whole i.
Proof. intros [->|(h & ->)]; constructor; cbn; auto; try congruence; try constructor; auto; try constructor; auto. Qed.
(* Sockets: none is made twice, at most one is open, each is closed once; none is left after destroy. *)
Theorem sw_sockets es i j : fresh i -> run es i = Next j ->
  NoDup (made (outs j)) /\ (exists rest, made (outs j) = closed (outs j) ++ rest /\ (length rest <= 1)%nat) /\
  (alive j = false -> closed (outs j) = made (outs j)).
Proof.
  intros N X. destruct (whole_run es i j (whole_fresh i N) X). split; [auto|split].
  - exists (current j). split; [auto|]. unfold current. destruct (socket j); cbn; lia.
  - intros A. rewrite w_sockets0. unfold current. rewrite (w_dead0 A). now rewrite app_nil_r.
Qed.
(* Sessions: an open that succeeded is closed at most once, and no other succeeds before that. *)
Theorem sw_sessions es i j : fresh i -> run es i = Next j ->
  opens (outs j) = (closes (outs j) + match io_state j with IO_STATE_OPEN => 1 | _ => 0 end)%nat.
Proof. intros N X. now destruct (whole_run es i j (whole_fresh i N) X). Qed.

(* While the io lives, a socket it made is open exactly while a session is: an open that failed leaves none. *)
Definition linked (i : io) : Prop := io_state i = IO_STATE_CLOSED -> socket i = None.
Lemma linked_effect i j g : effect i j g -> linked i -> linked j.
Proof. intros [] H. unfold linked in *. now rewrite e_state0, e_socket0. Qed.
Lemma linked_step e i j : linked i -> step e i = Next j -> linked j.
Proof.
  intros W X. destruct e; cbn [step] in X.
  - unfold call in X. destruct (may_call i); [|discriminate]. destruct (alive i); [|discriminate]. injection X as <-. unfold linked, socketio_open, now_open in *.
    destruct (io_state i) eqn:S; [|cbn; rewrite S; auto]. rewrite (W eq_refl). destruct r; try destruct o; cbn; auto; discriminate.
  - unfold call in X. destruct (may_call i); [|discriminate]. destruct (alive i); [|discriminate]. injection X as <-. unfold linked, socketio_close in *.
    destruct (io_state i) eqn:S; [cbn; rewrite S; auto|]. destruct cb; cbn; auto.
  - unfold call in X. destruct (may_call i); [|discriminate]. destruct (alive i); [|discriminate]. apply effect_send in X. eapply linked_effect; eauto.
  - unfold call in X. destruct (may_call i); [|discriminate]. destruct (alive i); [|discriminate]. injection X as <-. unfold socketio_dowork.
    destruct (io_state i); [auto|]. eapply linked_effect; [apply effect_drain|exact W].
  - unfold call in X. destruct (may_call i); [|discriminate]. destruct (alive i) eqn:A; [|discriminate]. injection X as <-.
    unfold linked, socketio_destroy in *. cbn. auto.
  - destruct (frames i) as [|f fs] eqn:F; [discriminate|]. destruct f; try discriminate. apply effect_sent in X.
    eapply linked_effect; [exact X|]. eapply linked_effect; [apply effect_frames|exact W].
  - destruct (frames i) as [|f fs] eqn:F; [discriminate|]. destruct f; try discriminate.
    assert (W' : linked (pop i)) by (eapply linked_effect; [apply effect_frames|exact W]). unfold received in X. destruct a.
    + destruct (socket (pop i)) eqn:K; [|discriminate]. destruct (on_bytes (pop i)); injection X as <-; exact W'.
    + destruct (match socket (pop i) with Some _ => _ | None => _ end); [discriminate|]. injection X as <-. destruct (_ && _); [|auto].
      eapply linked_effect; [apply effect_error|exact W'].
  - assert (W' : linked (pop i)) by (eapply linked_effect; [apply effect_frames|exact W]).
    destruct (frames i) as [|f fs] eqn:F; [discriminate|]. destruct f; try discriminate; (destruct (alive i) eqn:A0; [|discriminate]).
    + apply effect_finish in X. eapply linked_effect; eauto.
    + injection X as <-. eapply linked_effect; [apply effect_frames|exact W'].
    + injection X as <-. exact W'.
Qed.
Lemma linked_run es : forall i j, linked i -> run es i = Next j -> linked j.
Proof.
  induction es as [|e es IH]; intros i j W X; [injection X as <-; auto|]. cbn [run] in X.
  destruct (step e i) as [k| |] eqn:E; try discriminate. apply (IH k j); auto. eapply linked_step; eauto.
Qed.
Theorem sw_open_sockets es h j : run es (created h) = Next j -> alive j = true ->
  (length (made (outs j)) + closes (outs j) = length (closed (outs j)) + opens (outs j))%nat.
Proof.
  intros X A. destruct (whole_run es _ j (whole_fresh _ (or_intror (ex_intro _ h eq_refl))) X).
  assert (L : linked j) by (eapply linked_run; [|exact X]; intros _; reflexivity).
  rewrite w_sockets0, w_count0, app_length. unfold current, linked in *. destruct (io_state j); [rewrite (L eq_refl); cbn; lia|].
  destruct (socket j) eqn:K; [cbn; lia|]. exfalso. now apply w_open0.
Qed.

(** What comes in *)
Definition hears (i : io) : Prop := (io_state i = IO_STATE_OPEN \/ frames i <> []) -> on_bytes i <> None.
Lemma hears_effect i j g : effect i j g -> hears i -> (frames j <> [] -> io_state i = IO_STATE_OPEN \/ frames i <> []) -> hears j.
Proof. intros [] H F [X|X]; rewrite e_cb0; apply H; auto. rewrite e_state0 in X. auto. Qed.
Lemma hears_pop i : hears i -> hears (pop i).
Proof. intros H. eapply hears_effect; [apply effect_frames|exact H|]. cbn. destruct (frames i); [auto|]. intros _. right. discriminate. Qed.
Lemma send_frames bs cb r e m i j : socketio_send bs cb r e m i = Next j -> frames j <> [] -> io_state i = IO_STATE_OPEN \/ frames i <> [].
Proof. intros X F. unfold socketio_send in X. destruct bs; [injection X as <-; auto|]. destruct (io_state i); [injection X as <-; auto|auto]. Qed.
Lemma hears_step e i j : (forall o b c r, e = Open o b c r -> b <> None) -> hears i -> step e i = Next j ->
  hears j /\ given (outs j) = given (outs i) ++ came [e].
Proof.
  intros O H X. destruct e; cbn [step] in X.
  - unfold call in X. destruct (may_call i); [|discriminate]. destruct (alive i); [|discriminate]. injection X as <-. specialize (O _ _ _ _ eq_refl).
    unfold socketio_open, now_open, closesocket, hears in *.
    destruct (io_state i) eqn:S; [destruct (socket i) eqn:K; [|destruct r]|]; try destruct o; cbn; outs_cons; (split; [|reflexivity]); rewrite ?S; auto.
  - unfold call in X. destruct (may_call i); [|discriminate]. destruct (alive i); [|discriminate]. injection X as <-.
    unfold socketio_close, closesocket, hears in *.
    destruct (io_state i) eqn:S; [|destruct (socket i) eqn:K]; try destruct cb; cbn; outs_cons; (split; [|reflexivity]); rewrite ?S; auto.
  - unfold call in X. destruct (may_call i); [|discriminate]. destruct (alive i); [|discriminate]. pose proof (send_frames _ _ _ _ _ _ _ X) as F. apply effect_send in X.
    split; [eapply hears_effect; eauto|apply X].
  - unfold call in X. destruct (may_call i); [|discriminate]. destruct (alive i); [|discriminate]. injection X as <-. unfold socketio_dowork.
    destruct (io_state i) eqn:S; [split; [auto|cbn; now rewrite app_nil_r] |]. split; [eapply hears_effect; [apply effect_drain|auto|auto] |apply effect_drain].
  - unfold call in X. destruct (may_call i); [|discriminate]. destruct (alive i); [|discriminate]. injection X as <-.
    unfold socketio_destroy, closesocket, hears in *. destruct (socket i); cbn; outs_cons; auto.
  - destruct (frames i) as [|f fs] eqn:F; [discriminate|]. destruct f; try discriminate. apply effect_sent in X.
    assert (B : on_bytes i <> None) by (apply H; right; rewrite F; discriminate).
    split; [|exact (e_given _ _ _ X)]. intros _. rewrite (e_cb _ _ _ X). exact B.
  - destruct (frames i) as [|f fs] eqn:F; [discriminate|]. destruct f; try discriminate.
    assert (B : on_bytes i <> None) by (apply H; right; rewrite F; discriminate).
    unfold received in X. destruct a.
    + destruct (socket (pop i)); [|discriminate]. change (on_bytes (pop i)) with (on_bytes i) in X. destruct (on_bytes i) as [x|] eqn:E; [|congruence].
      injection X as <-. split; [intros _; cbn; now rewrite E|]. cbn. outs_cons. reflexivity.
    + destruct (match socket (pop i) with Some _ => _ | None => _ end); [discriminate|]. injection X as <-. cbn [came flat_map app]. rewrite app_nil_r.
      unfold indicate_error. destruct (_ && _); [destruct (on_error _)|]; (split; [intros _; exact B|]); cbn; outs_cons; reflexivity.
  - destruct (frames i) as [|f fs] eqn:F; [discriminate|]. assert (B : on_bytes i <> None) by (apply H; right; rewrite F; discriminate).
    destruct f; try discriminate; (destruct (alive i) eqn:A0; [|discriminate]).
    + apply effect_finish in X. split; [intros _; rewrite (e_cb _ _ _ X); exact B|exact (e_given _ _ _ X)].
    + injection X as <-. split; [intros _; exact B|]. cbn. now rewrite app_nil_r.
    + injection X as <-. split; [intros _; exact B|]. cbn. now rewrite app_nil_r.
Qed.
(* Whatever the user does: the bytes he is given are the bytes that came, once and in order *)
Theorem sw_received es i j : fresh i -> (forall o b c r, In (Open o b c r) es -> b <> None) -> run es i = Next j -> given (outs j) = came es.
Proof.
  intros N O X. assert (G : forall es i, (forall o b c r, In (Open o b c r) es -> b <> None) -> hears i -> run es i = Next j ->
    given (outs j) = given (outs i) ++ came es).
  { clear. induction es as [|e es IH]; intros i O H X; [injection X as <-; now rewrite app_nil_r|]. cbn [run] in X.
    destruct (step e i) as [k| |] eqn:E; try discriminate.
    destruct (hears_step e i k) as [H' G]; auto. { intros o b c r ->. apply (O o b c r). now left. }
    assert (O' : forall o b c r, In (Open o b c r) es -> b <> None) by (intros o b c r Y; apply (O o b c r); now right).
    rewrite (IH k O' H' X). rewrite G, <- app_assoc. f_equal. change (e :: es) with ([e] ++ es). unfold came. now rewrite flat_map_app. }
  destruct N as [->|(h & ->)]; (rewrite (G es _ O) with (2 := X) by (intros [Y|Y]; [discriminate|destruct Y; reflexivity]); reflexivity).
Qed.
(* An error of recv is reported at once. *)
Theorem sw_receive_error i j e x fs : frames i = Receiving :: fs -> on_error i = Some x -> e <> WSAEWOULDBLOCK -> e <> ERROR_SUCCESS ->
  step (Received (Nothing e)) i = Next j -> outs j = Error x :: outs i /\ frames j = fs.
Proof.
  intros F E N1 N2 X. cbn [step] in X. rewrite F in X. unfold received in X. destruct (match socket (pop i) with Some _ => _ | None => _ end); [discriminate|].
  apply Z.eqb_neq in N1, N2. rewrite N1, N2 in X. cbn in X. unfold indicate_error in X. change (on_error (pop i)) with (on_error i) in X. rewrite E in X.
  injection X as <-. cbn. now rewrite F.
Qed.

(** * What does not hold, and cases *)
Lemma run_cons e es i k : step e i = Next k -> run (e :: es) i = run es k.
Proof. intros H. cbn [run]. now rewrite H. Qed.
Definition opened (h : list N) : io :=
  mk (Some h) IO_STATE_OPEN (Some 0%nat) (Some 1%N) (Some 2%N) [] 0 1 true [] [OpenReturns true; Connect (Some h); Socket 0].
Definition open : event := Open None (Some 1%N) (Some 2%N) Connected.
Ltac norm := cbv beta iota zeta delta [push set_frames emit set_queue set_socket set_state set_cbs pop opened drain socketio_dowork socketio_open socketio_close closesocket now_open open
  hostname io_state socket on_bytes on_error queue next_id next_socket alive frames outs tl p_id p_bytes p_cb].
Lemma opened_run h es : run (open :: es) (created h) = run es (opened h).
Proof. reflexivity. Qed.
Lemma step_send_part (bs : list N) cb k e i s : (0 <= k < Z.of_nat (length bs)) -> may_call i = true -> alive i = true -> io_state i = IO_STATE_OPEN -> queue i = [] -> socket i = Some s ->
  step (Send bs cb k e true) i = Next (if e =? WSAEWOULDBLOCK
    then emit (SendReturns bs cb true) (set_queue [mkp (next_id i) bs cb] (S (next_id i)) (took k bs i))
    else emit (SendReturns bs cb false) (indicate_error (took k bs i))).
Proof.
  intros K M A S Q C. cbn [step]. unfold call, socketio_send. rewrite M, A, S, Q, C.
  destruct bs as [|b bs]; [cbn in K; lia|]. unfold possible.
  destruct (Z.leb_spec 0 k); [|lia]. destruct (Z.leb_spec k (Z.of_nat (length (b :: bs)))); [|lia]. cbn [andb]. rewrite orb_true_r.
  destruct (Z.eqb_spec k (Z.of_nat (length (b :: bs)))); [lia|]. unfold add_pending_io. destruct (took_frames k (b :: bs) i) as (_ & E & E' & _). rewrite E, E', Q. now destruct (e =? _).
Qed.
Lemma step_sent_all p q s x fs e i : frames i = Sending :: fs -> queue i = p :: q -> socket i = Some s -> p_bytes p <> [] -> p_cb p = Some x ->
  step (Sent (Z.of_nat (length (p_bytes p))) e) i = Next (push (AfterDone (p_id p)) (emit (SendComplete x) (emit (Wire s (p_bytes p)) (pop i)))).
Proof.
  intros F Q C B X. cbn [step]. rewrite F. unfold sent. change (queue (pop i)) with (queue i). change (socket (pop i)) with (socket i). rewrite Q, C, X.
  unfold possible. destruct (Z.leb_spec 0 (Z.of_nat (length (p_bytes p)))); [|lia]. rewrite Z.leb_refl. cbn [andb]. rewrite orb_true_r.
  rewrite (took_all s) by auto. rewrite Z.eqb_refl. reflexivity.
Qed.
Lemma step_sent_part p q s k fs e i : frames i = Sending :: fs -> queue i = p :: q -> socket i = Some s -> 0 <= k < Z.of_nat (length (p_bytes p)) ->
  step (Sent k e) i = if e =? WSAEWOULDBLOCK then Next (drain (took k (p_bytes p) (pop i))) else finish (p_id p) (took k (p_bytes p) (pop i)).
Proof.
  intros F Q C K. cbn [step]. rewrite F. unfold sent. change (queue (pop i)) with (queue i). change (socket (pop i)) with (socket i). rewrite Q, C.
  unfold possible. destruct (Z.leb_spec 0 k); [|lia]. destruct (Z.leb_spec k (Z.of_nat (length (p_bytes p)))); [|lia]. cbn [andb]. rewrite orb_true_r.
  destruct (Z.eqb_spec k (Z.of_nat (length (p_bytes p)))); [lia|]. reflexivity.
Qed.
(* C127 *)
Theorem sw_dowork_in_callback_refuted h (bs : list N) x : bs <> [] -> let n := Z.of_nat (length bs) in
  run [open; Send bs (Some x) 0 WSAEWOULDBLOCK true; Dowork; Sent n 0; Dowork; Sent n 0; Return; Received (Nothing WSAEWOULDBLOCK); Return] (created h) = Undefined.
Proof.
  intros B n. subst n. rewrite opened_run.
  erewrite run_cons by (eapply step_send_part; try reflexivity; destruct bs; [congruence|cbn [length]; lia]). change (WSAEWOULDBLOCK =? WSAEWOULDBLOCK) with true. cbv iota.
  change (took 0 bs (opened h)) with (opened h). norm. erewrite run_cons by reflexivity. norm.
  erewrite run_cons by (eapply (step_sent_all (mkp 0 bs (Some x))); auto; reflexivity). norm. erewrite run_cons by reflexivity. norm.
  erewrite run_cons by (eapply (step_sent_all (mkp 0 bs (Some x))); auto; reflexivity). norm. reflexivity.
Qed.
Theorem sw_destroy_in_callback_refuted h b : run [open; Dowork; Received (Byte b); Destroy; Return] (created h) = Undefined.
Proof. reflexivity. Qed.

(* C128: a socket takes k bytes of a message; the last error says WSAEWOULDBLOCK from an earlier call: the whole message is sent again *)
Theorem sw_partial_send_refuted h (bs : list N) x k : (0 < k < length bs)%nat -> exists j,
  run [open; Send bs (Some x) (Z.of_nat k) WSAEWOULDBLOCK true; Dowork; Sent (Z.of_nat (length bs)) 0] (created h) = Next j /\
  accepted_bytes (outs j) = bs /\ wire (outs j) = firstn k bs ++ bs.
Proof.
  intros K. assert (B : bs <> []) by (intros ->; cbn in K; lia). rewrite opened_run.
  erewrite run_cons by (eapply step_send_part; try reflexivity; lia). change (WSAEWOULDBLOCK =? WSAEWOULDBLOCK) with true. cbv iota.
  assert (T : took (Z.of_nat k) bs (opened h) = emit (Wire 0 (firstn k bs)) (opened h)) by (unfold took; cbn [socket opened]; destruct (Z.ltb_spec 0 (Z.of_nat k)); [now rewrite Nat2Z.id|lia]).
  rewrite T. erewrite run_cons by reflexivity. norm.
  erewrite run_cons by (eapply (step_sent_all (mkp 0 bs (Some x))); auto; reflexivity). norm.
  eexists. split; [reflexivity|]. cbn [outs push set_frames emit set_queue pop opened p_bytes drain queue next_id socketio_dowork io_state frames tl p_id negb Nat.eqb filter].
  rewrite !wire_cons, !accepted_bytes_cons, ?app_nil_r. split; reflexivity.
Qed.
(* the last error says nothing of the kind: the send fails and the io is in error, but the bytes are gone *)
Theorem sw_failed_send_refuted h (bs : list N) cb k e : (0 < k < length bs)%nat -> e <> WSAEWOULDBLOCK -> exists j,
  run [open; Send bs cb (Z.of_nat k) e true] (created h) = Next j /\ accepted (outs j) = [] /\ wire (outs j) = firstn k bs.
Proof.
  intros K E. assert (B : bs <> []) by (intros ->; cbn in K; lia). rewrite opened_run.
  erewrite run_cons by (eapply step_send_part; try reflexivity; lia). apply Z.eqb_neq in E. rewrite E.
  assert (T : took (Z.of_nat k) bs (opened h) = emit (Wire 0 (firstn k bs)) (opened h)) by (unfold took; cbn [socket opened]; destruct (Z.ltb_spec 0 (Z.of_nat k)); [now rewrite Nat2Z.id|lia]).
  rewrite T. eexists. split; [reflexivity|]. unfold indicate_error. cbn [on_error opened emit outs].
  rewrite !wire_cons, ?app_nil_r. split; reflexivity.
Qed.
(* an error, or a partial send, drops a message that waits: no callback, no error *)
Theorem sw_dropped_refuted h (bs : list N) x k e : (k < length bs)%nat -> e <> WSAEWOULDBLOCK -> exists j,
  run [open; Send bs (Some x) 0 WSAEWOULDBLOCK true; Dowork; Sent (Z.of_nat k) e] (created h) = Next j /\
  accepted_bytes (outs j) = bs /\ wire (outs j) = firstn k bs /\ queue j = [] /\ completed (outs j) = [] /\ errors (outs j) = 0%nat.
Proof.
  intros K E. assert (B : bs <> []) by (intros ->; cbn in K; lia). rewrite opened_run.
  erewrite run_cons by (eapply step_send_part; try reflexivity; lia). change (WSAEWOULDBLOCK =? WSAEWOULDBLOCK) with true. cbv iota.
  change (took 0 bs (opened h)) with (opened h). norm. erewrite run_cons by reflexivity. norm. cbn [run].
  erewrite (step_sent_part (mkp 0 bs (Some x))) by (reflexivity || (cbn [p_bytes]; lia)). apply Z.eqb_neq in E. rewrite E. cbn [p_bytes p_id].
  unfold took. cbn [socket pop drain push set_frames queue set_queue emit opened frames tl]. destruct (Z.ltb_spec 0 (Z.of_nat k)).
  - rewrite Nat2Z.id. eexists. split; [reflexivity|]. cbn [outs push set_frames emit set_queue pop opened p_bytes drain queue next_id socketio_dowork io_state frames tl p_id negb Nat.eqb filter].
    rewrite !wire_cons, !accepted_bytes_cons, !completed_cons, ?app_nil_r. repeat split; reflexivity.
  - assert (k = 0%nat) by lia. subst k. eexists. split; [reflexivity|]. cbn [outs push set_frames emit set_queue pop opened p_bytes drain queue next_id socketio_dowork io_state frames tl p_id negb Nat.eqb filter].
    rewrite !wire_cons, !accepted_bytes_cons, !completed_cons, ?app_nil_r. repeat split; reflexivity.
Qed.
(* C129: the peer closes the connection: socketio_dowork never says so *)
Theorem sw_peer_close_silent_refuted i n s : frames i = [] -> alive i = true -> io_state i = IO_STATE_OPEN -> queue i = [] -> socket i = Some s ->
  run (concat (repeat [Dowork; Received (Nothing ERROR_SUCCESS)] n)) i = Next i.
Proof.
  intros F A S Q C. destruct i as [ho st so ob oe q nid nc al fr ou]. cbn in F, A, S, Q, C. subst.
  induction n as [|n IH]; [reflexivity|]. cbn [repeat concat app]. exact IH.
Qed.
(* an error is reported after the user closed the io *)
Theorem sw_error_after_close_refuted h b x : exists j,
  run [open; Dowork; Received (Byte b); Close (Some x); Return; Received (Nothing WSAENOTSOCK)] (created h) = Next j /\
  io_state j = IO_STATE_CLOSED /\ exists l, outs j = Error 2 :: l /\ In (CloseComplete x) l.
Proof. eexists. split; [vm_compute; reflexivity|]. split; [reflexivity|]. eexists. split; [reflexivity|]. cbn. auto. Qed.
(* C131: what waits when the io is closed is kept, and goes to the next peer *)
Theorem sw_stale_refuted h (bs : list N) x : bs <> [] -> exists j,
  run [open; Send bs (Some x) 0 WSAEWOULDBLOCK true; Close None; open; Dowork; Sent (Z.of_nat (length bs)) 0] (created h) = Next j /\
  In (Wire 1 bs) (outs j) /\ socket j = Some 1%nat.
Proof.
  intros B. rewrite opened_run.
  erewrite run_cons by (eapply step_send_part; try reflexivity; destruct bs; [congruence|cbn [length]; lia]). change (WSAEWOULDBLOCK =? WSAEWOULDBLOCK) with true. cbv iota.
  change (took 0 bs (opened h)) with (opened h). norm. do 3 (erewrite run_cons by reflexivity; norm).
  erewrite run_cons by (eapply (step_sent_all (mkp 0 bs (Some x))); auto; reflexivity). norm.
  eexists. split; [reflexivity|]. split; [cbn; auto|reflexivity].
Qed.
(* a socket that cannot take more keeps socketio_dowork in its loop *)
Theorem sw_spin_refuted i p q s n : frames i = Sending :: nil -> queue i = p :: q -> socket i = Some s -> p_bytes p <> [] ->
  run (repeat (Sent (-1) WSAEWOULDBLOCK) n) i = Next i.
Proof.
  intros F Q C P. destruct i as [ho st so ob oe q' nid nc al fr ou]. cbn in F, Q, C. subst.
  induction n as [|n IH]; [reflexivity|]. cbn [repeat]. erewrite run_cons; [exact IH|]. cbn [step frames]. unfold sent, pop, possible.
  cbn [queue socket set_frames frames tl]. change (-1 =? -1) with true. change (WSAEWOULDBLOCK =? ERROR_SUCCESS) with false. change (WSAEWOULDBLOCK =? WSAEWOULDBLOCK) with true. cbn [negb andb orb].
  rewrite took_none. destruct (Z.eqb_spec (-1) (Z.of_nat (length (p_bytes p)))); [lia|]. reflexivity.
Qed.
(* C131: an io made from an accepted socket, closed and opened again, connects to the machine itself *)
Theorem sw_accepted_reopen_refuted : exists j, run [open; Close None; open] created_accepted = Next j /\ In (Connect None) (outs j) /\ io_state j = IO_STATE_OPEN.
Proof. eexists. split; [vm_compute; reflexivity|]. split; [cbn; auto|reflexivity]. Qed.

(* a calm and whole execution: a direct send, two that wait, one sent from a callback, bytes received with socketio_dowork called from
   inside on_bytes_received, close in a callback, open again *)
Definition story : list event :=
  [ open; Send [1;2]%N (Some 3%N) 2 0 true; Return; Send [3;4;5]%N (Some 4%N) (-1) WSAEWOULDBLOCK true; Send [6]%N (Some 5%N) 0 0 true;
    Dowork; Sent 3 0; Send [7]%N None 1 0 true; Return; Sent (-1) WSAEWOULDBLOCK; Sent 1 0; Return; Sent 1 0; Received (Byte 8); Dowork; Received (Byte 9); Return;
    Received (Nothing WSAEWOULDBLOCK); Close (Some 6%N); Return; Received (Nothing WSAENOTSOCK); open ].
Lemma always_cons (P : event -> io -> Prop) e es i k : step e i = Next k -> P e i -> always P es k -> always P (e :: es) i.
Proof. intros S H R. split; [exact H|]. now rewrite S. Qed.
Example sw_story : let es := story in always calm_event es (created []) /\
  exists j, run es (created []) = Next j /\ alive j = true /\ wire (outs j) = [1;2;3;4;5;6;7]%N /\ completed (outs j) = [3;4;5]%N /\
    given (outs j) = [8;9]%N /\ opens (outs j) = 2%nat /\ closes (outs j) = 1%nat /\ made (outs j) = [0;1]%nat /\ closed (outs j) = [0]%nat /\
    exists k, run [Destroy] j = Next k /\ closed (outs k) = [0;1]%nat.
Proof.
  split.
  - unfold story. repeat (eapply always_cons; [vm_compute; reflexivity|solve [repeat split; intros; discriminate || reflexivity]|]). exact Logic.I.
  - eexists. split; [vm_compute; reflexivity|]. repeat split. eexists. split; [vm_compute; reflexivity|reflexivity].
Qed.
Example sw_story_whole : exists es, es = firstn 4 story ++ Send [6]%N (Some 5%N) (-1) 5 true :: firstn 8 (skipn 5 story) /\ always whole_event es (created []) /\ always calm_event es (created []) /\
  exists j, run es (created []) = Next j /\ wire (outs j) = [1;2;3;4;5;6;7]%N.
Proof.
  eexists. split; [reflexivity|]. cbn [story firstn skipn app]. split; [|split].
  - repeat (eapply always_cons; [vm_compute; reflexivity|solve [exact Logic.I | left; split; reflexivity | left; reflexivity| right; reflexivity | right; eexists; eexists; split; reflexivity]|]). exact Logic.I.
  - repeat (eapply always_cons; [vm_compute; reflexivity|solve [repeat split; intros; discriminate || reflexivity]|]). exact Logic.I.
  - eexists. split; [vm_compute; reflexivity|reflexivity].
Qed.
(* C129: and having nothing to read is not an error *)
Theorem sw_nothing_quiet i j fs : frames i = Receiving :: fs -> step (Received (Nothing WSAEWOULDBLOCK)) i = Next j -> outs j = outs i /\ frames j = fs.
Proof.
  intros F X. cbn [step] in X. rewrite F in X. unfold received in X. destruct (match socket (pop i) with Some _ => _ | None => _ end); [discriminate|].
  rewrite Z.eqb_refl in X. injection X as <-. cbn. now rewrite F.
Qed.
