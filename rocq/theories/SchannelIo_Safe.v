(* Memory safety of the Schannel io, in any order of events, as long as no bytes come in the
   middle of a delivery. *)
From Verif Require Import Base SchannelIo_Model SchannelIo_Spec.
Local Open Scope Z_scope.

Definition busy (f : frame) : bool := match f with AfterBytes _ | AfterToken _ => true | _ => false end.
Definition frame_ok (n : Z) (f : frame) : Prop :=
  match f with AfterBytes e | AfterToken e => count_ok n e | _ => True end.
Record inv (i : io) : Prop := {
  iv_size : count i <= buffer_size i;
  iv_needed : match tlsio_state i with
              | TLSIO_STATE_HANDSHAKE_CLIENT_HELLO_SENT | TLSIO_STATE_OPEN => needed_bytes i <> None
              | _ => True end;
  iv_frames : Forall (frame_ok (count i)) (frames i);
  iv_one : (length (filter busy (frames i)) <= 1)%nat }.

Lemma not_busy_filter fs : (~ exists f, In f fs /\ match f with AfterBytes _ | AfterToken _ => True | _ => False end) ->
  filter busy fs = [].
Proof.
  induction fs as [|f fs IH]; intros H; [reflexivity|]. cbn.
  destruct (busy f) eqn:B.
  - exfalso. apply H. exists f. split; [now left|]. destruct f; cbn in B; try discriminate; exact I.
  - apply IH. intros (g & G & GG). apply H. exists g. split; [now right|exact GG].
Qed.
Lemma frames_any n m fs : filter busy fs = [] -> Forall (frame_ok n) fs -> Forall (frame_ok m) fs.
Proof.
  induction fs as [|f fs IH]; intros B H; constructor; inversion H; subst; cbn in B;
    destruct f; cbn in *; try discriminate; auto.
Qed.
Lemma filter_frames_nil n fs : filter busy fs = [] -> Forall (frame_ok n) fs.
Proof. induction fs as [|f fs IH]; intros B; constructor; cbn in B; destruct f; cbn in *; try discriminate; auto. Qed.

Ltac iv := constructor; cbn -[Z.add Z.le] in *; unfold count in *; cbn -[Z.add Z.le] in *; auto; try lia; try discriminate.

Lemma consume_spec e i : count_ok (count i) e -> exists b, consume e i = Some (set_buf b (buffer_size i) i)
  /\ (length b <= length (received_bytes i))%nat.
Proof.
  intros H. unfold consume. destruct e as [e|]; cbn in H.
  - replace ((0 <=? e) && (e <=? count i)) with true by (symmetry; apply andb_true_intro; split; apply Z.leb_le; lia).
    eexists; split; [reflexivity|]. rewrite skipn_length. lia.
  - eexists; split; [reflexivity|]. cbn. lia.
Qed.

Lemma inv_created : inv created.
Proof. iv. Qed.
Lemma inv_emit o i : inv i -> inv (emit o i).
Proof. intros []; iv. Qed.
Lemma inv_failed i : inv i -> inv (failed i).
Proof. intros []; unfold failed, indicate_error; cbn; destruct (on_io_error i); iv. Qed.
Lemma inv_failed_open i : inv i -> inv (failed_open i).
Proof. intros []; unfold failed_open, open_complete; cbn; destruct (on_io_open_complete i); iv. Qed.
Lemma inv_resize m n i j : 0 <= n -> inv i -> resize_receive_buffer m n i = Some j -> inv j /\ n <= buffer_size j
  /\ tlsio_state j = tlsio_state i /\ received_bytes j = received_bytes i /\ needed_bytes j = needed_bytes i /\ frames j = frames i.
Proof.
  unfold resize_receive_buffer. intros N I. destruct (buffer_size i <? n) eqn:E.
  - destruct m; intros H; inversion H; subst. apply Z.ltb_lt in E. destruct I; split; [iv|cbn; repeat split; lia].
  - intros H; inversion H; subst. apply Z.ltb_ge in E. auto 10.
Qed.


Lemma inv_state s j : inv j -> needed_bytes j <> None -> inv (set_state s j).
Proof. intros [] N; iv. destruct s; auto. Qed.

Lemma inv_goes_on m e i : inv i -> count_ok (count i) e -> filter busy (frames i) = [] ->
  exists j, handshake_goes_on m e i = Some j /\ inv j /\ filter busy (frames j) = [].
Proof.
  intros I C B. destruct (consume_spec _ _ C) as (b & E & L).
  unfold handshake_goes_on. rewrite E. eexists; split; [reflexivity|].
  destruct I as [S N F O]. unfold set_receive_buffer. destruct m; cbn -[Z.add].
  - split; [|exact B]. iv. eapply frames_any; eauto.
  - unfold failed_open, open_complete. cbn -[Z.add]. destruct (on_io_open_complete i); cbn -[Z.add]; (split; [|exact B]); iv; eapply frames_any; eauto.
Qed.
Lemma inv_handshake_done m e i : inv i -> count_ok (count i) e -> filter busy (frames i) = [] ->
  exists j, handshake_done m e i = Some j /\ inv j /\ filter busy (frames j) = [].
Proof.
  intros I C B. destruct (consume_spec _ _ C) as (b & E & L).
  unfold handshake_done. rewrite E. eexists; split; [reflexivity|].
  destruct I as [S N F O]. unfold set_receive_buffer. destruct m; cbn -[Z.add];
    unfold failed_open, open_complete; cbn -[Z.add]; destruct (on_io_open_complete i); cbn -[Z.add]; (split; [|exact B]); iv; eapply frames_any; eauto.
Qed.
Lemma inv_data_done m e i : inv i -> count_ok (count i) e -> filter busy (frames i) = [] ->
  exists j, data_done m e i = Some j /\ inv j /\ filter busy (frames j) = [].
Proof.
  intros I C B. destruct (consume_spec _ _ C) as (b & E & L).
  unfold data_done. rewrite E. eexists; split; [reflexivity|].
  destruct I as [S N F O]. unfold set_receive_buffer. destruct m; cbn -[Z.add].
  - split; [|exact B]. iv. { destruct (tlsio_state i); auto; discriminate. } eapply frames_any; eauto.
  - unfold failed, indicate_error. cbn -[Z.add]. destruct (on_io_error i); cbn -[Z.add]; (split; [|exact B]); iv; eapply frames_any; eauto.
Qed.

Lemma inv_step_bytes b a i : inv i -> ~ in_delivery i -> possible (count i + Z.of_nat (length b)) a ->
  exists j, on_underlying_io_bytes_received b a i = Some j /\ inv j.
Proof.
  intros I Q P. unfold on_underlying_io_bytes_received.
  assert (B : filter busy (frames i) = []) by (apply not_busy_filter; exact Q).
  assert (CI : count i = Z.of_nat (length (received_bytes i))) by reflexivity.
  destruct (resize_receive_buffer (memory1 a) (count i + Z.of_nat (length b)) i) as [j|] eqn:R; [|eauto].
  apply inv_resize in R; [|lia|exact I]. destruct R as (J & Z1 & S1 & B1 & N1 & F1).
  cbn zeta. set (k := set_buf (received_bytes j ++ b) (buffer_size j) j).
  assert (CK : count k = count i + Z.of_nat (length b)) by (unfold count, k; cbn; rewrite B1, app_length; lia).
  assert (BF : buffer_size k = buffer_size j) by reflexivity.
  rewrite BF, CK. destruct (buffer_size j <? count i + Z.of_nat (length b)) eqn:E; [apply Z.ltb_lt in E; lia|].
  set (k' := set_needed _ k).
  assert (IK : forall n s, n <> None -> inv (set_state s (set_needed n k))).
  { intros n s NN. destruct J as [JS JN JF JO]. constructor; cbn.
    - unfold count in *. cbn. rewrite app_length, B1. lia.
    - destruct s; auto.
    - eapply frames_any with (n := count j); [rewrite F1; exact B|exact JF].
    - exact JO. }
  assert (K' : inv k').
  { destruct J as [JS JN JF JO]. unfold k'. constructor; cbn.
    - unfold count; cbn. rewrite app_length, B1. lia.
    - destruct (tlsio_state j); auto; destruct (needed_bytes j); congruence.
    - eapply frames_any with (n := count j); [rewrite F1; exact B|exact JF].
    - exact JO. }
  assert (B' : filter busy (frames k') = []) by (unfold k', k; cbn; rewrite F1; exact B).
  assert (CK' : count k' = count i + Z.of_nat (length b)) by exact CK.
  clearbody k'. destruct P as [P1 P2].
  assert (INC : forall n (f : io -> io), 0 <= n -> (forall x, inv x -> inv (f x)) ->
     inv (match resize_receive_buffer (memory2 a) (count (set_needed (Some n) k') + n) (set_needed (Some n) k') with None => f (set_needed (Some n) k') | Some i => i end)).
  { intros n f Hn Hf. assert (KN : inv (set_needed (Some n) k')).
    { destruct K'; iv. destruct (tlsio_state k'); auto; discriminate. }
    destruct (resize_receive_buffer _ _ _) eqn:R; [|auto]. eapply inv_resize in R; [|unfold count; lia|exact KN]. tauto. }
  destruct (tlsio_state k') eqn:ST; eauto.
  - pose proof (iv_needed _ K') as NN. rewrite ST in NN. destruct (needed_bytes k') as [n|]; [|congruence].
    destruct (n =? 0); [|eauto]. unfold handshake. destruct (a_isc a) as [m|x e|tok x e| |].
    + eexists; split; [reflexivity|]. apply INC; [destruct m; cbn in P1; lia|apply inv_failed_open].
    + destruct (inv_handshake_done (memory2 a) e k' K') as (q & Q1 & Q2 & _); [rewrite CK'; exact P1|exact B'|eauto].
    + destruct tok as [|t tok].
      * destruct (inv_goes_on (memory2 a) e k' K') as (q & Q1 & Q2 & _); [rewrite CK'; exact P1|exact B'|eauto].
      * eexists; split; [reflexivity|]. destruct K' as [KS KN KF KO].
        constructor; cbn; auto. { constructor; [|exact KF]. cbn. unfold count in *; cbn in *. rewrite CK'. exact P1. }
        rewrite B'. cbn. lia.
    + eauto using inv_failed_open.
    + eauto.
  - pose proof (iv_needed _ K') as NN. rewrite ST in NN. destruct (needed_bytes k') as [n|]; [|congruence].
    destruct (n =? 0); [|eauto]. unfold decrypt. destruct (a_dec a) as [m|[d|] e|].
    + eexists; split; [reflexivity|]. apply INC; [destruct m; cbn in P2; lia|apply inv_failed].
    + destruct (on_bytes_received k').
      * eexists; split; [reflexivity|]. destruct K' as [KS KN KF KO].
        constructor; cbn; auto. { constructor; [|exact KF]. cbn. unfold count in *; cbn in *. rewrite CK'. exact P2. }
        rewrite B'. cbn. lia.
      * destruct (inv_data_done (memory2 a) e k' K') as (q & Q1 & Q2 & _); [rewrite CK'; exact P2|exact B'|eauto].
    + eauto using inv_failed.
    + eauto.
Qed.

Lemma inv_send_loop bs cb ci i : inv i -> inv (send_loop bs cb ci i).
Proof.
  intros I. unfold send_loop. destruct bs; [now apply inv_emit|]. destruct (tlsio_state i) eqn:S; try (now apply inv_emit).
  destruct (ci _); [|now apply inv_emit]. destruct I as [I1 I2 I3 I4]. constructor; auto. constructor; auto. exact I.
Qed.

Lemma inv_step e i j : inv i ->
  match e with UBytes b a => ~ in_delivery i /\ possible (Z.of_nat (length (received_bytes i)) + Z.of_nat (length b)) a | _ => True end ->
  step e i = Next j -> inv j.
Proof.
  intros I P H. destruct e; cbn in H.
  - inversion H; subst. unfold tlsio_schannel_open. destruct (tlsio_state i); try now apply inv_emit.
    destruct I; iv.
  - inversion H; subst. unfold tlsio_schannel_close. destruct (tlsio_state i); try (now apply inv_emit); destruct I; iv.
  - inversion H; subst. now apply inv_send_loop.
  - inversion H; subst. unfold on_underlying_io_open_complete. destruct (tlsio_state i) eqn:S; try now apply inv_failed.
    destruct cred; [|now apply inv_failed]. destruct I as [I1 I2 I3 I4].
    destruct hello; cbn; constructor; auto; cbn; try (rewrite S; exact I). constructor; auto.
  - destruct P as [Q P]. destruct (inv_step_bytes _ _ _ I Q P) as (q & Q1 & Q2). rewrite Q1 in H. congruence.
  - inversion H; subst. unfold on_underlying_io_error. destruct (tlsio_state i) eqn:S; auto using inv_failed, inv_failed_open.
    unfold close_complete; cbn. destruct (on_io_close_complete i); destruct I; iv.
  - inversion H; subst. unfold on_underlying_io_close_complete. destruct (tlsio_state i) eqn:S; auto.
    unfold close_complete; cbn. destruct (on_io_close_complete i); destruct I; iv.
  - destruct (frames i) as [|f fs] eqn:F; [discriminate|].
    assert (I' : inv (set_frames fs i)).
    { destruct I as [? ? IF IO]. rewrite F in *. inversion IF; subst. iv. destruct (busy f); cbn in *; lia. }
    assert (FO : frame_ok (count i) f) by (destruct I as [? ? IF ?]; rewrite F in IF; now inversion IF).
    assert (BB : busy f = true -> filter busy fs = []).
    { intros BF. destruct I as [? ? IF IO]. rewrite F in IO. cbn in IO. rewrite BF in IO. destruct (filter busy fs); [easy|cbn in IO; lia]. }
    destruct f as [|e|e|rest cb]; cbn in H.
    + inversion H; subst. unfold after_hello. destruct ok; [|now apply inv_failed].
      assert (KN : inv (set_needed (Some 1) (set_frames fs i))).
      { destruct I'; iv. destruct (tlsio_state i); auto; discriminate. }
      destruct (resize_receive_buffer _ _ _) eqn:R; [|now apply inv_failed].
      apply inv_resize in R; [|unfold count; lia|exact KN]. destruct R as (J & _ & _ & _ & N & _).
      apply inv_state; [exact J|]. rewrite N. cbn. discriminate.
    + unfold after_token in H. destruct ok.
      * destruct (inv_goes_on memory e _ I' FO (BB eq_refl)) as (q & Q1 & Q2 & _). rewrite Q1 in H. congruence.
      * inversion H; subst. now apply inv_failed_open.
    + destruct (inv_data_done memory e _ I' FO (BB eq_refl)) as (q & Q1 & Q2 & _). rewrite Q1 in H. congruence.
    + inversion H; subst. destruct ok; [now apply inv_send_loop|now apply inv_emit].
Qed.
Lemma step_defined e i : inv i ->
  match e with UBytes b a => ~ in_delivery i /\ possible (Z.of_nat (length (received_bytes i)) + Z.of_nat (length b)) a | _ => True end ->
  step e i <> Undefined.
Proof.
  intros I P. destruct e; cbn; try discriminate.
  - destruct P as [Q P]. destruct (inv_step_bytes _ _ _ I Q P) as (q & Q1 & Q2). rewrite Q1. discriminate.
  - destruct (frames i) as [|f fs] eqn:F; [discriminate|].
    assert (I' : inv (set_frames fs i)).
    { destruct I as [? ? IF IO]. rewrite F in *. inversion IF; subst. iv. destruct (busy f); cbn in *; lia. }
    assert (FO : frame_ok (count i) f) by (destruct I as [? ? IF ?]; rewrite F in IF; now inversion IF).
    assert (BB : busy f = true -> filter busy fs = []).
    { intros BF. destruct I as [? ? IF IO]. rewrite F in IO. cbn in IO. rewrite BF in IO. destruct (filter busy fs); [easy|cbn in IO; lia]. }
    destruct f as [|e|e|rest cb]; cbn; try discriminate.
    + unfold after_token. destruct ok; [|discriminate].
      destruct (inv_goes_on memory e _ I' FO (BB eq_refl)) as (q & Q1 & Q2 & _). rewrite Q1. discriminate.
    + destruct (inv_data_done memory e _ I' FO (BB eq_refl)) as (q & Q1 & Q2 & _). rewrite Q1. discriminate.
Qed.

Lemma run_inv es : forall i, inv i -> orderly es i -> match run es i with Next j => inv j | Undefined => False | Idle => True end.
Proof.
  induction es as [|e es IH]; intros i I O; [exact I|]. destruct O as [P O]. cbn.
  pose proof (step_defined e i I P) as D. destruct (step e i) as [j| |] eqn:E; [|congruence|trivial].
  apply IH; [|exact O]. eapply inv_step; eauto.
Qed.

(* C121: no access out of bounds; the block always holds what was received. *)
Theorem sch_safe_partial : forall es, orderly es created ->
  run es created <> Undefined /\
  forall i, run es created = Next i -> Z.of_nat (length (received_bytes i)) <= buffer_size i.
Proof.
  intros es O. pose proof (run_inv es _ inv_created O) as R. split.
  - intros E. now rewrite E in R.
  - intros i E. rewrite E in R. apply (iv_size _ R).
Qed.

Definition enc0 : list N -> option (list N) := fun b => Some b.
Definition ans i d := {| memory1 := true; memory2 := true; a_isc := i; a_dec := d |}.
(* a session: open, hello, two steps of the handshake, and then three bytes that hold a record of two *)
Definition opened_events : list event :=
  [Open (Some 1%N) (Some 2%N) (Some 3%N) true; UOpened true true true (Some [22%N]); Return true true enc0;
   UBytes [1%N; 2%N] (ans (IscContinue [7%N] None None) DecOther); Return true true enc0;
   UBytes [3%N] (ans (IscOk None None) DecOther)].
Lemma orderly_cons e es i j :
  match e with UBytes b a => frames i = [] /\ possible (Z.of_nat (length (received_bytes i)) + Z.of_nat (length b)) a | _ => True end ->
  step e i = Next j -> orderly es j -> orderly (e :: es) i.
Proof.
  intros P E O. cbn. rewrite E. split; [|exact O]. destruct e; auto. destruct P as [F P]. split; [|exact P].
  intros (f & G & _). rewrite F in G. exact G.
Qed.
Example sch_safe_partial_case : orderly (opened_events ++ [UBytes [5%N; 6%N; 7%N] (ans IscOther (DecOk (Some [5%N]) (Some 1))); Return true true enc0]) created.
Proof.
  unfold opened_events, app.
  repeat (eapply orderly_cons; [| vm_compute; reflexivity |]; [cbv -[Z.le]; intuition lia |]).
  exact I.
Qed.

(* The user calls dowork in on_bytes_received, and bytes come: the record already handed over is
   still in the buffer, Schannel is asked to decrypt it again, and the outer delivery then
   takes away more than is left. *)
Theorem sch_nested_undefined_refuted : exists es,
  run (opened_events ++ es) created = Undefined /\
  es = [UBytes [5%N; 6%N; 7%N] (ans IscOther (DecOk (Some [5%N]) (Some 1)));
        UBytes [8%N] (ans IscOther (DecOk (Some [9%N]) None)); Return true true enc0; Return true true enc0].
Proof. eexists; split; [|reflexivity]. vm_compute. reflexivity. Qed.
(* And when Schannel refuses it, the new bytes are lost. *)
Theorem sch_nested_lost_refuted : exists es i,
  run (opened_events ++ es) created = Next i /\ received_bytes i = [] /\ delivered (outs i) = [[5%N]] /\ frames i = [] /\
  es = [UBytes [5%N; 6%N] (ans IscOther (DecOk (Some [5%N]) None)); UBytes [8%N; 9%N] (ans IscOther DecOther); Return true true enc0].
Proof. do 2 eexists. repeat split; vm_compute; reflexivity. Qed.
