(* Opening, closing, sending and the resources of the Schannel io (C117-C120). *)
From Coq Require Import Permutation.
From Verif Require Import Base SchannelIo_Model SchannelIo_Spec SchannelIo_Safe SchannelIo_Stream.
Local Open Scope Z_scope.
Arguments delivered : simpl never.
Arguments count_outs : simpl never.

Lemma count_outs_cons p o l : count_outs p (o :: l) = ((if p o then 1 else 0) + count_outs p l)%nat.
Proof. unfold count_outs. cbn. destruct (p o); reflexivity. Qed.

(** * The completion of open *)

Definition opening (s : TLSIO_STATE) : nat :=
  match s with TLSIO_STATE_OPENING_UNDERLYING_IO | TLSIO_STATE_HANDSHAKE_CLIENT_HELLO_SENT => 1 | _ => 0 end%nat.
Definition shaking (f : frame) : bool := match f with AfterHello | AfterToken _ => true | _ => false end.
Definition top_ok (s : TLSIO_STATE) (fs : list frame) : Prop :=
  match fs with
  | AfterHello :: fs => s = TLSIO_STATE_OPENING_UNDERLYING_IO /\ filter shaking fs = []
  | AfterToken _ :: fs => s = TLSIO_STATE_HANDSHAKE_CLIENT_HELLO_SENT /\ filter shaking fs = []
  | fs => filter shaking fs = []
  end.
Definition tot (i : io) : nat := (count_outs is_open_complete (outs i) + opening (tlsio_state i))%nat.
Definition asked (i : io) : nat := count_outs is_xio_open (outs i).
Record once (i : io) : Prop := { on_count : (tot i <= asked i)%nat; on_top : top_ok (tlsio_state i) (frames i) }.

Lemma calm fs : filter shaking fs = [] -> forall s, top_ok s fs.
Proof. destruct fs as [|[] ?]; cbn; intros; auto; try discriminate. Qed.
Lemma shaking_in i : filter shaking (frames i) <> [] -> in_handshake i.
Proof.
  unfold in_handshake. induction (frames i) as [|f fs IH]; [easy|]. cbn. destruct (shaking f) eqn:S; intros H.
  - exists f. split; [now left|]. destruct f; try discriminate; exact I.
  - destruct (IH H) as (g & G & GG). exists g. split; [now right|exact GG].
Qed.
Ltac oc := unfold tot, asked in *; cbn in *; repeat rewrite count_outs_cons in *; cbn in *; try lia.

(* what the functions do to the counts: a failed open uses up the credit *)
Lemma once_failed_open i : once i -> opening (tlsio_state i) = 1%nat -> filter shaking (frames i) = [] -> once (failed_open i).
Proof.
  intros [C T] O F. unfold failed_open, open_complete. cbn. destruct (on_io_open_complete i); constructor; cbn; try (now apply calm); oc.
Qed.
Lemma once_failed i : (tot i <= asked i)%nat -> filter shaking (frames i) = [] -> once (failed i).
Proof. intros C F. unfold failed, indicate_error. cbn. destruct (on_io_error i); constructor; cbn; try (now apply calm); oc. Qed.
Lemma once_resize m n i j : once i -> resize_receive_buffer m n i = Some j -> once j /\ frames j = frames i /\ tlsio_state j = tlsio_state i.
Proof. unfold resize_receive_buffer. intros [C T]. destruct (_ <? _); [destruct m|]; intros H; inversion H; subst; repeat split; auto. Qed.
Lemma once_goes_on m e i j : (tot i <= asked i)%nat -> opening (tlsio_state i) = 1%nat -> filter shaking (frames i) = [] ->
  handshake_goes_on m e i = Some j -> once j.
Proof.
  intros C O F H. unfold handshake_goes_on in H. destruct (consume e i) as [k|] eqn:K; [|discriminate].
  assert (E : exists b, k = set_buf b (buffer_size i) i).
  { unfold consume in K. destruct e; [destruct (_ && _); [|discriminate]|]; inversion K; subst; eauto. }
  destruct E as [b ->]. injection H as <-. unfold set_receive_buffer. destruct m.
  - constructor; [oc|]. cbn. now apply calm.
  - unfold failed_open, open_complete. cbn. destruct (on_io_open_complete i); constructor; cbn; try (now apply calm); oc.
Qed.
Lemma once_handshake_done m e i j : once i -> opening (tlsio_state i) = 1%nat -> filter shaking (frames i) = [] ->
  handshake_done m e i = Some j -> once j.
Proof.
  intros [C T] O F H. unfold handshake_done in H. destruct (consume e i) as [k|] eqn:K; [|discriminate].
  assert (E : exists b, k = set_buf b (buffer_size i) i).
  { unfold consume in K. destruct e; [destruct (_ && _); [|discriminate]|]; inversion K; subst; eauto. }
  destruct E as [b ->]. injection H as <-. unfold set_receive_buffer. destruct m; unfold failed_open, open_complete; cbn;
    destruct (on_io_open_complete i); constructor; cbn; try (now apply calm); oc.
Qed.
Lemma once_data_done m e i j : (tot i <= asked i)%nat -> filter shaking (frames i) = [] -> data_done m e i = Some j -> once j.
Proof.
  intros C F H. unfold data_done in H. destruct (consume e i) as [k|] eqn:K; [|discriminate].
  assert (E : exists b, k = set_buf b (buffer_size i) i).
  { unfold consume in K. destruct e; [destruct (_ && _); [|discriminate]|]; inversion K; subst; eauto. }
  destruct E as [b ->]. injection H as <-. unfold set_receive_buffer. destruct m.
  - constructor; [oc|]. cbn. now apply calm.
  - unfold failed, indicate_error. cbn. destruct (on_io_error i); constructor; cbn; try (now apply calm); oc.
Qed.
Lemma once_calm i : (tot i <= asked i)%nat -> filter shaking (frames i) = [] -> once i.
Proof. intros. constructor; auto using calm. Qed.
Lemma once_send bs cb ci i : (tot i <= asked i)%nat -> filter shaking (frames i) = [] -> once (send_loop bs cb ci i).
Proof.
  intros C F. unfold send_loop. destruct bs; [apply once_calm; auto; oc|].
  destruct (tlsio_state i) eqn:S; try (solve [apply once_calm; auto; oc]).
  destruct (ci _); apply once_calm; auto; unfold tot, asked in *; cbn [tlsio_state outs emit push set_frames]; rewrite !count_outs_cons; cbn [is_open_complete is_xio_open]; lia.
Qed.
Lemma once_bytes b a i j : once i -> filter shaking (frames i) = [] -> on_underlying_io_bytes_received b a i = Some j -> once j.
Proof.
  intros O F H. unfold on_underlying_io_bytes_received in H.
  destruct (resize_receive_buffer (memory1 a) (count i + Z.of_nat (length b)) i) as [k|] eqn:R; [|congruence].
  destruct (once_resize _ _ _ _ O R) as (OK & FK & SK). cbn zeta in H.
  destruct (_ <? _); [discriminate|].
  set (q := set_needed _ _) in H. assert (Q : once q /\ filter shaking (frames q) = []).
  { unfold q. split; [destruct OK; constructor; auto|]. cbn. now rewrite FK. }
  clearbody q. destruct Q as [Q FQ].
  assert (RS : forall n (f : io -> io), once (f (set_needed (Some n) q)) ->
    once (match resize_receive_buffer (memory2 a) (count (set_needed (Some n) q) + n) (set_needed (Some n) q) with None => f (set_needed (Some n) q) | Some i => i end)).
  { clear R. intros n f Hf. destruct (resize_receive_buffer (memory2 a) _ _) eqn:X; [|exact Hf].
    eapply once_resize in X; [tauto|]. destruct Q; constructor; auto. }
  assert (C := on_count _ Q).
  destruct (tlsio_state q) eqn:S; try (inversion H; subst; exact Q).
  - destruct (needed_bytes q) as [n|]; [|discriminate]. destruct (n =? 0); [|inversion H; subst; exact Q].
    assert (OP : opening (tlsio_state q) = 1%nat) by now rewrite S.
    unfold handshake in H. destruct (a_isc a) as [m|x e|tok x e| |].
    + injection H as <-. apply RS. apply once_failed_open; auto. destruct Q; constructor; auto.
    + eapply once_handshake_done; eauto.
    + destruct tok; [eapply once_goes_on; eauto|]. injection H as <-. constructor; [oc|]. cbn. auto.
    + injection H as <-. now apply once_failed_open.
    + injection H as <-. exact Q.
  - destruct (needed_bytes q) as [n|]; [|discriminate]. destruct (n =? 0); [|inversion H; subst; exact Q].
    unfold decrypt in H. destruct (a_dec a) as [m|[d|] e|].
    + injection H as <-. apply RS. apply once_failed; auto.
    + destruct (on_bytes_received q).
      * injection H as <-. constructor; [oc|]. cbn. exact FQ.
      * eapply once_data_done; eauto.
    + injection H as <-. now apply once_failed.
    + injection H as <-. exact Q.
Qed.

Lemma once_step e i j : once i -> (in_handshake i -> exists ok memory cipher, e = Return ok memory cipher) -> step e i = Next j -> once j.
Proof.
  intros O Q H. assert (C := on_count _ O).
  assert (F : match e with Return _ _ _ => True | _ => filter shaking (frames i) = [] end).
  { destruct (filter shaking (frames i)) eqn:F; [destruct e; auto|]. destruct Q as (? & ? & ? & ->); [|exact I].
    apply shaking_in. rewrite F. discriminate. }
  destruct e; cbn in H.
  - injection H as <-. unfold tlsio_schannel_open. destruct (tlsio_state i) eqn:S; apply once_calm; auto; unfold tot, asked in *; rewrite S in C; cbn in *; rewrite ?count_outs_cons; cbn; try (rewrite S; cbn); lia.
  - injection H as <-. unfold tlsio_schannel_close. destruct (tlsio_state i) eqn:S; apply once_calm; auto; unfold tot, asked in *; rewrite S in C; cbn in *; rewrite ?count_outs_cons; cbn; try (rewrite S; cbn); lia.
  - injection H as <-. now apply once_send.
  - injection H as <-. unfold on_underlying_io_open_complete. destruct (tlsio_state i) eqn:S; try (now apply once_failed).
      destruct cred; [|now apply once_failed]. destruct hello.
    + constructor; [oc|]. cbn. rewrite S. auto.
    + apply once_calm; auto.
  - destruct (on_underlying_io_bytes_received bytes a i) eqn:X; [|discriminate]. injection H as <-. eapply once_bytes; eauto.
  - injection H as <-. unfold on_underlying_io_error. destruct (tlsio_state i) eqn:S; auto.
    + apply once_failed_open; auto. now rewrite S.
    + apply once_failed_open; auto. now rewrite S.
    + now apply once_failed.
    + unfold close_complete. cbn. destruct (on_io_close_complete i); apply once_calm; auto; oc.
  - injection H as <-. unfold on_underlying_io_close_complete. destruct (tlsio_state i) eqn:S; auto.
      unfold close_complete. cbn. destruct (on_io_close_complete i); apply once_calm; auto; oc.
  - clear F. destruct (frames i) as [|f fs] eqn:F; [discriminate|].
    destruct O as [_ T]. rewrite F in T.
    destruct f as [|e|e|rest cb]; cbn in T, H.
    + destruct T as [TS TF]. injection H as <-. unfold after_hello. destruct ok.
      * unfold resize_receive_buffer. destruct (_ <? _); [destruct memory|].
        -- constructor; [|now apply calm]. unfold tot, asked in *. cbn in *. rewrite TS in C. exact C.
        -- apply once_failed; auto.
        -- constructor; [|now apply calm]. unfold tot, asked in *. cbn in *. rewrite TS in C. exact C.
      * apply once_failed; auto.
    + destruct T as [TS TF]. unfold after_token in H. destruct ok.
      * destruct (handshake_goes_on memory e (set_frames fs i)) eqn:X; [|discriminate]. injection H as <-.
        eapply once_goes_on; [| | |exact X]; auto. cbn. now rewrite TS.
      * injection H as <-. unfold failed_open, open_complete. cbn. destruct (on_io_open_complete i); constructor; cbn; try (now apply calm);
          unfold tot, asked in *; cbn in *; rewrite ?count_outs_cons; cbn; rewrite TS in C; cbn in C; lia.
    + destruct (data_done memory e (set_frames fs i)) eqn:X; [|discriminate]. injection H as <-.
      eapply once_data_done; [| |exact X]; auto.
    + injection H as <-. destruct ok; [apply once_send; auto|]. apply once_calm; auto; oc.
Qed.
Lemma once_run es : forall i j, once i -> quiet es i -> run es i = Next j -> once j.
Proof.
  induction es as [|e es IH]; intros i j O Q H; cbn in H; [now inversion H; subst|].
  destruct Q as [Q1 Q2]. destruct (step e i) as [k| |] eqn:E; try discriminate.
  eapply IH; [|exact Q2|exact H]. eapply once_step; eauto.
Qed.
(* C117: the end of an open is reported at most once for each open that went to the underlying io. *)
Theorem sch_open_once_partial : forall es i, quiet es created -> run es created = Next i ->
  (count_outs is_open_complete (outs i) <= count_outs is_xio_open (outs i))%nat.
Proof.
  intros es i Q H. assert (O : once created) by (constructor; vm_compute; auto).
  destruct (once_run _ _ _ O Q H) as [C _]. unfold tot, asked in C. lia.
Qed.
Lemma quiet_cons e es i j : (frames i = [] \/ exists ok memory cipher, e = Return ok memory cipher) ->
  step e i = Next j -> quiet es j -> quiet (e :: es) i.
Proof.
  intros P E O. cbn. rewrite E. split; [|exact O]. intros (f & G & _). destruct P as [F|P]; [|exact P]. rewrite F in G. destruct G.
Qed.
Example sch_open_once_partial_case : quiet opened_events created /\ count_outs is_open_complete (outs opened_io) = 1%nat
  /\ In (OpenComplete 1 true) (outs opened_io).
Proof.
  split; [|vm_compute; auto]. unfold opened_events.
  repeat (eapply quiet_cons; [|vm_compute; reflexivity|]; [solve [left; reflexivity | right; eauto]|]). exact I.
Qed.

(* The underlying io fails inside xio_send of a token: it says so, and xio_send fails.  The user is told twice. *)
Theorem sch_open_twice_refuted : exists i,
  run (firstn 4 opened_events ++ [UError; Return false true enc0]) created = Next i /\
  filter is_open_complete (outs i) = [OpenComplete 1 false; OpenComplete 1 false] /\ count_outs is_xio_open (outs i) = 1%nat.
Proof. eexists. split; [vm_compute; reflexivity|]. split; reflexivity. Qed.

(* InitializeSecurityContext makes no token: the user is never told, whatever comes from the server and is sent. *)
Theorem sch_open_silent_refuted : exists i0,
  run [Open (Some 1%N) (Some 2%N) (Some 3%N) true; UOpened true true false None] created = Next i0 /\
  forall es i, Forall (fun e => match e with UBytes _ _ | Send _ _ _ | Return _ _ _ => True | _ => False end) es ->
    run es i0 = Next i -> filter (fun o => is_open_complete o || is_error o) (outs i) = [].
Proof.
  eexists. split; [vm_compute; reflexivity|].
  assert (G : forall es i j, tlsio_state i = TLSIO_STATE_OPENING_UNDERLYING_IO -> frames i = [] ->
    filter (fun o => is_open_complete o || is_error o) (outs i) = [] ->
    Forall (fun e => match e with UBytes _ _ | Send _ _ _ | Return _ _ _ => True | _ => False end) es ->
    run es i = Next j -> filter (fun o => is_open_complete o || is_error o) (outs j) = []).
  { induction es as [|e es IH]; intros i j S F O H E; cbn in E; [now inversion E; subst|].
    inversion H as [|? ? H1 H2]; subst. destruct e; try (solve [destruct H1]).
    - cbn in E. unfold send_loop in E. rewrite S in E. destruct bytes; apply IH in E; auto.
    - cbn in E. unfold on_underlying_io_bytes_received, resize_receive_buffer in E.
      destruct (_ <? _) in E; [destruct (memory1 a)|]; cbn zeta in E.
      + destruct (_ <? _) in E; [discriminate|]. cbn in E. rewrite S in E. apply IH in E; auto.
      + apply IH in E; auto.
      + destruct (_ <? _) in E; [discriminate|]. cbn in E. rewrite S in E. apply IH in E; auto.
    - cbn in E. rewrite F in E. discriminate. }
  intros es i H E. eapply G; [..|exact H|exact E]; reflexivity.
Qed.
(* The server's answer is not a token: Schannel refuses it, and nothing is reported. *)
Theorem sch_handshake_failure_silent_refuted : exists i,
  run (firstn 3 opened_events ++ [UBytes [1%N; 2%N] (ans IscOther DecOther)]) created = Next i /\
  filter (fun o => is_open_complete o || is_error o) (outs i) = [] /\ tlsio_state i = TLSIO_STATE_HANDSHAKE_CLIENT_HELLO_SENT.
Proof. eexists. split; [vm_compute; reflexivity|]. split; reflexivity. Qed.
(* The underlying io says that it could not be opened, or that the open was cancelled: the handshake is begun all the same. *)
Theorem sch_failed_open_ignored_refuted : forall i cred ctx hello,
  step (UOpened false cred ctx hello) i = step (UOpened true cred ctx hello) i.
Proof. reflexivity. Qed.
(* A failure to make the first token or to send it is reported as an error of an open io, not as the end of the open. *)
Theorem sch_open_error_refuted : exists i,
  run [Open (Some 1%N) (Some 2%N) (Some 3%N) true; UOpened true true true (Some [22%N]); Return false true enc0] created = Next i /\
  outs i = [Error 3; XioSend [22%N] None; OpenReturns true; XioOpen].
Proof. eexists. split; vm_compute; reflexivity. Qed.

(** * The completion of close *)

Definition closing (s : TLSIO_STATE) : nat := match s with TLSIO_STATE_CLOSING => 1 | _ => 0 end%nat.
Definition closes (i : io) : Prop :=
  (count_outs is_close_complete (outs i) + closing (tlsio_state i) <= count_outs is_xio_close (outs i))%nat.
Ltac cl := unfold closes in *; cbn -[Z.add] in *; repeat rewrite count_outs_cons in *; cbn -[Z.add] in *; try lia.
Lemma closes_failed i : closes i -> closes (failed i).
Proof. unfold failed, indicate_error. cbn. destruct (on_io_error i); cl. Qed.
Lemma closes_failed_open i : closes i -> closes (failed_open i).
Proof. unfold failed_open, open_complete. cbn. destruct (on_io_open_complete i); cl. Qed.
Lemma closes_same i j : closes i -> outs j = outs i -> tlsio_state j = tlsio_state i -> closes j.
Proof. intros C O S. unfold closes in *. now rewrite O, S. Qed.
Lemma closes_to i s : closes i -> s <> TLSIO_STATE_CLOSING -> closes (set_state s i).
Proof. intros C S. unfold closes in *. cbn. destruct s; cbn; try lia. congruence. Qed.
Lemma closes_resize m n i : closes i -> match resize_receive_buffer m n i with Some j => closes j | None => True end.
Proof. intros C. unfold resize_receive_buffer. destruct (_ <? _); [destruct m|]; auto. Qed.
Lemma consume_some e i k : consume e i = Some k -> exists b, k = set_buf b (buffer_size i) i.
Proof. unfold consume. destruct e; [destruct (_ && _); [|discriminate]|]; intros H; inversion H; subst; eauto. Qed.
Lemma closes_goes_on m e i j : closes i -> handshake_goes_on m e i = Some j -> closes j.
Proof.
  intros C H. unfold handshake_goes_on in H. destruct (consume e i) as [k|] eqn:K; [|discriminate].
  apply consume_some in K. destruct K as [b ->]. injection H as <-. unfold set_receive_buffer. destruct m.
  - apply closes_to; [exact C|discriminate].
  - apply closes_failed_open. exact C.
Qed.
Lemma closes_handshake_done m e i j : closes i -> handshake_done m e i = Some j -> closes j.
Proof.
  intros C H. unfold handshake_done in H. destruct (consume e i) as [k|] eqn:K; [|discriminate].
  apply consume_some in K. destruct K as [b ->]. injection H as <-. unfold set_receive_buffer. destruct m.
  - unfold open_complete. cbn. destruct (on_io_open_complete i); cl.
  - apply closes_failed_open. exact C.
Qed.
Lemma closes_data_done m e i j : closes i -> data_done m e i = Some j -> closes j.
Proof.
  intros C H. unfold data_done in H. destruct (consume e i) as [k|] eqn:K; [|discriminate].
  apply consume_some in K. destruct K as [b ->]. injection H as <-. unfold set_receive_buffer. destruct m.
  - exact C.
  - apply closes_failed. exact C.
Qed.
Lemma closes_send bs cb ci i : closes i -> closes (send_loop bs cb ci i).
Proof.
  intros C. unfold send_loop. destruct bs; [cl|]. destruct (tlsio_state i) eqn:S; try (solve [cl]).
  destruct (ci _); [|cl]. unfold closes in *; cbn [tlsio_state outs emit push set_frames]; rewrite !count_outs_cons; cbn [is_close_complete is_xio_close]; lia.
Qed.
Lemma closes_bytes b a i j : closes i -> on_underlying_io_bytes_received b a i = Some j -> closes j.
Proof.
  intros O H. unfold on_underlying_io_bytes_received in H.
  pose proof (closes_resize (memory1 a) (count i + Z.of_nat (length b)) i O) as R.
  destruct (resize_receive_buffer (memory1 a) (count i + Z.of_nat (length b)) i) as [k|]; [|congruence].
  cbn zeta in H. destruct (_ <? _); [discriminate|].
  set (q := set_needed _ _) in H. assert (Q : closes q) by exact R. clearbody q. clear R.
  assert (RS : forall n (f : io -> io), closes (f (set_needed (Some n) q)) ->
    closes (match resize_receive_buffer (memory2 a) (count (set_needed (Some n) q) + n) (set_needed (Some n) q) with None => f (set_needed (Some n) q) | Some i => i end)).
  { intros n f Hf. pose proof (closes_resize (memory2 a) (count (set_needed (Some n) q) + n) (set_needed (Some n) q) Q) as X.
    destruct (resize_receive_buffer _ _ _); auto. }
  destruct (tlsio_state q) eqn:S; try (inversion H; subst; exact Q).
  - destruct (needed_bytes q) as [n|]; [|discriminate]. destruct (n =? 0); [|inversion H; subst; exact Q].
    unfold handshake in H. destruct (a_isc a) as [m|x e|tok x e| |].
    + injection H as <-. apply RS. now apply closes_failed_open.
    + eapply closes_handshake_done; eauto.
    + destruct tok; [eapply closes_goes_on; eauto|]. injection H as <-. cl.
    + injection H as <-. now apply closes_failed_open.
    + injection H as <-. exact Q.
  - destruct (needed_bytes q) as [n|]; [|discriminate]. destruct (n =? 0); [|inversion H; subst; exact Q].
    unfold decrypt in H. destruct (a_dec a) as [m|[d|] e|].
    + injection H as <-. apply RS. now apply closes_failed.
    + destruct (on_bytes_received q).
      * injection H as <-. cl.
      * eapply closes_data_done; eauto.
    + injection H as <-. now apply closes_failed.
    + injection H as <-. exact Q.
Qed.
Lemma closes_step e i j : closes i -> step e i = Next j -> closes j.
Proof.
  intros C H. destruct e; cbn in H.
  - injection H as <-. unfold tlsio_schannel_open. destruct (tlsio_state i) eqn:S; unfold closes in *; cbn; rewrite !count_outs_cons, ?S in *; cbn in *; lia.
  - injection H as <-. unfold tlsio_schannel_close. destruct (tlsio_state i) eqn:S; unfold closes in *; cbn; rewrite !count_outs_cons, ?S in *; cbn in *; lia.
  - injection H as <-. now apply closes_send.
  - injection H as <-. unfold on_underlying_io_open_complete. destruct (tlsio_state i) eqn:S; try (now apply closes_failed).
    destruct cred; [|now apply closes_failed]. destruct hello; cl.
  - destruct (on_underlying_io_bytes_received bytes a i) eqn:X; [|discriminate]. injection H as <-. eapply closes_bytes; eauto.
  - injection H as <-. unfold on_underlying_io_error. destruct (tlsio_state i) eqn:S; auto using closes_failed, closes_failed_open.
    unfold close_complete. cbn. destruct (on_io_close_complete i); unfold closes in *; rewrite S in C; cl.
  - injection H as <-. unfold on_underlying_io_close_complete. destruct (tlsio_state i) eqn:S; auto.
    unfold close_complete. cbn. destruct (on_io_close_complete i); unfold closes in *; rewrite S in C; cl.
  - destruct (frames i) as [|f fs]; [discriminate|]. assert (C' : closes (set_frames fs i)) by exact C.
    destruct f as [|e|e|rest cb]; cbn in H.
    + injection H as <-. unfold after_hello. destruct ok; [|now apply closes_failed].
      unfold resize_receive_buffer. destruct (_ <? _); [destruct memory|]; try (now apply closes_failed); apply closes_to; auto; discriminate.
    + unfold after_token in H. destruct ok.
      * destruct (handshake_goes_on memory e (set_frames fs i)) eqn:X; [|discriminate]. injection H as <-. eapply closes_goes_on; eauto.
      * injection H as <-. now apply closes_failed_open.
    + destruct (data_done memory e (set_frames fs i)) eqn:X; [|discriminate]. injection H as <-. eapply closes_data_done; eauto.
    + injection H as <-. destruct ok; [now apply closes_send|]. cl.
Qed.
(* C118: in every execution whatever the end of a close is reported at most once for each close that went to the underlying io. *)
Theorem sch_close_at_most_once : forall es i, run es created = Next i ->
  (count_outs is_close_complete (outs i) <= count_outs is_xio_close (outs i))%nat.
Proof.
  assert (G : forall es i j, closes i -> run es i = Next j -> closes j).
  { induction es as [|e es IH]; intros i j C H; cbn in H; [now inversion H; subst|].
    destruct (step e i) as [k| |] eqn:E; try discriminate. eapply IH; [|exact H]. eapply closes_step; eauto. }
  intros es i H. assert (C : closes created) by (vm_compute; auto). pose proof (G _ _ _ C H) as X. unfold closes in X. lia.
Qed.

(* A close that nothing disturbs ends when the underlying io is closed, and only then; the io can be opened again. *)
Theorem sch_close_reported_partial : forall i c es j,
  tlsio_state i <> TLSIO_STATE_NOT_OPEN -> tlsio_state i <> TLSIO_STATE_CLOSING -> ~ in_handshake i ->
  undisturbed es -> run (Close (Some c) true :: es) i = Next j ->
  count_outs is_close_complete (outs j) = count_outs is_close_complete (outs i) /\
  exists k, step UClosed j = Next k /\ outs k = CloseComplete c :: outs j /\ tlsio_state k = TLSIO_STATE_NOT_OPEN.
Proof.
  assert (G : forall c es i j, tlsio_state i = TLSIO_STATE_CLOSING -> on_io_close_complete i = Some c -> filter shaking (frames i) = [] ->
    undisturbed es -> run es i = Next j ->
    tlsio_state j = TLSIO_STATE_CLOSING /\ on_io_close_complete j = Some c /\
    count_outs is_close_complete (outs j) = count_outs is_close_complete (outs i)).
  { intros c. induction es as [|e es IH]; intros i j S C F U H; cbn in H; [inversion H; subst; auto|].
    destruct e; try (solve [destruct U]); cbn in U.
    - cbn in H. unfold tlsio_schannel_open in H. rewrite S in H. apply IH in H; auto.
    - cbn in H. unfold tlsio_schannel_close in H. rewrite S in H. apply IH in H; auto.
    - cbn in H. unfold send_loop in H. rewrite S in H. destruct bytes; apply IH in H; auto.
    - cbn in H. unfold on_underlying_io_bytes_received, resize_receive_buffer in H.
      destruct (_ <? _) in H; [destruct (memory1 a)|]; cbn zeta in H.
      + destruct (_ <? _) in H; [discriminate|]. cbn in H. rewrite S in H. apply IH in H; auto.
      + apply IH in H; auto.
      + destruct (_ <? _) in H; [discriminate|]. cbn in H. rewrite S in H. apply IH in H; auto.
    - destruct U as [-> U]. cbn in H. destruct (frames i) as [|f fs] eqn:FI; [discriminate|].
      destruct f as [|e|e|rest cb]; cbn in F; try discriminate; cbn in H.
      + destruct (data_done true e (set_frames fs i)) as [k|] eqn:X; [|discriminate].
        unfold data_done in X. destruct (consume e (set_frames fs i)) as [q|] eqn:K; [|discriminate].
        apply consume_some in K. destruct K as [b ->]. injection X as <-. apply IH in H; auto.
      + destruct ok; [|apply IH in H; auto]. unfold send_loop in H. cbn in H. rewrite S in H. destruct rest; apply IH in H; auto. }
  intros i c es j N1 N2 NH U H. cbn in H. unfold tlsio_schannel_close in H.
  assert (F : filter shaking (frames i) = []).
  { destruct (filter shaking (frames i)) eqn:F; [reflexivity|]. exfalso. apply NH. apply shaking_in. rewrite F. discriminate. }
  destruct (tlsio_state i) eqn:S; try congruence;
    (apply (G c) in H; [|reflexivity|reflexivity|exact F|exact U]; destruct H as (H1 & H2 & H3); split; [exact H3|];
     cbn; unfold on_underlying_io_close_complete; rewrite H1; eexists; split; [reflexivity|];
     unfold close_complete; cbn; rewrite H2; split; reflexivity).
Qed.
Example sch_close_reported_partial_case :
  tlsio_state opened_io = TLSIO_STATE_OPEN /\ frames opened_io = [] /\
  exists j, run [Close (Some 9%N) true; UBytes [1%N] (ans IscOther DecOther); Send [5%N] None enc0] opened_io = Next j.
Proof. repeat split; try reflexivity. eexists. vm_compute. reflexivity. Qed.

(* xio_close fails: the io says so, and is closing for ever after. *)
Theorem sch_close_stuck_refuted : exists i,
  run [Close (Some 9%N) false] opened_io = Next i /\ hd_error (outs i) = Some (CloseReturns false) /\
  forall es j, undisturbed es -> run es i = Next j ->
    tlsio_state j = TLSIO_STATE_CLOSING /\ count_outs is_close_complete (outs j) = 0%nat.
Proof.
  eexists. split; [vm_compute; reflexivity|]. split; [reflexivity|].
  assert (G : forall es i j, tlsio_state i = TLSIO_STATE_CLOSING -> filter shaking (frames i) = [] ->
    undisturbed es -> run es i = Next j ->
    tlsio_state j = TLSIO_STATE_CLOSING /\ count_outs is_close_complete (outs j) = count_outs is_close_complete (outs i)).
  { induction es as [|e es IH]; intros i j S F U H; cbn in H; [inversion H; subst; auto|].
    destruct e; try (solve [destruct U]); cbn in U.
    - cbn in H. unfold tlsio_schannel_open in H. rewrite S in H. apply IH in H; auto.
    - cbn in H. unfold tlsio_schannel_close in H. rewrite S in H. apply IH in H; auto.
    - cbn in H. unfold send_loop in H. rewrite S in H. destruct bytes; apply IH in H; auto.
    - cbn in H. unfold on_underlying_io_bytes_received, resize_receive_buffer in H.
      destruct (_ <? _) in H; [destruct (memory1 a)|]; cbn zeta in H.
      + destruct (_ <? _) in H; [discriminate|]. cbn in H. rewrite S in H. apply IH in H; auto.
      + apply IH in H; auto.
      + destruct (_ <? _) in H; [discriminate|]. cbn in H. rewrite S in H. apply IH in H; auto.
    - destruct U as [-> U]. cbn in H. destruct (frames i) as [|f fs] eqn:FI; [discriminate|].
      destruct f as [|e|e|rest cb]; cbn in F; try discriminate; cbn in H.
      + destruct (data_done true e (set_frames fs i)) as [k|] eqn:X; [|discriminate].
        unfold data_done in X. destruct (consume e (set_frames fs i)) as [q|] eqn:K; [|discriminate].
        apply consume_some in K. destruct K as [b ->]. injection X as <-. apply IH in H; auto.
      + destruct ok; [|apply IH in H; auto]. unfold send_loop in H. cbn in H. rewrite S in H. destruct rest; apply IH in H; auto. }
  intros es j U H. apply G in H; auto.
Qed.
(* The user closes inside xio_send of a token: the handshake goes on, and the end of the close is never reported, not even
   when the underlying io is closed. *)
Theorem sch_close_in_send_refuted : exists i,
  run (firstn 4 opened_events ++ [Close (Some 9%N) true; Return true true enc0; UClosed]) created = Next i /\
  count_outs is_close_complete (outs i) = 0%nat /\ tlsio_state i = TLSIO_STATE_HANDSHAKE_CLIENT_HELLO_SENT.
Proof. eexists. split; [vm_compute; reflexivity|]. split; reflexivity. Qed.
(* The underlying io ends its open after the close was asked for: the close is forgotten. *)
Theorem sch_close_opened_refuted : exists i,
  run [Open (Some 1%N) (Some 2%N) (Some 3%N) true; Close (Some 9%N) true; UOpened false true true None; UClosed] created = Next i /\
  count_outs is_close_complete (outs i) = 0%nat /\ tlsio_state i = TLSIO_STATE_ERROR.
Proof. eexists. split; [vm_compute; reflexivity|]. split; reflexivity. Qed.
(* What was left in the buffer by one session is taken for the beginning of the next. *)
Theorem sch_reopen_stale_refuted : exists i,
  run (opened_events ++ [UBytes [2%N; 65%N] (ans IscOther (DecIncomplete (Some 1))); Close (Some 9%N) true; UClosed;
        Open (Some 1%N) (Some 2%N) (Some 3%N) true; UOpened true true true (Some [22%N]); Return true true enc0]) created = Next i /\
  tlsio_state i = TLSIO_STATE_HANDSHAKE_CLIENT_HELLO_SENT /\ received_bytes i = [2%N; 65%N].
Proof. eexists. split; [vm_compute; reflexivity|]. split; reflexivity. Qed.

(** * Send *)

Lemma chunk_pos : (0 < CHUNK)%nat.
Proof. unfold CHUNK. lia. Qed.
Lemma chunk_two : (2 <= CHUNK)%nat.
Proof. unfold CHUNK. lia. Qed.
Lemma firstn_chunk (bs : list N) : bs <> [] -> firstn CHUNK bs <> [] /\ (length (firstn CHUNK bs) <= CHUNK)%nat /\ (length (skipn CHUNK bs) < length bs)%nat.
Proof.
  pose proof chunk_pos as P. intros H. rewrite firstn_length, skipn_length.
  destruct bs as [|x bs]; [congruence|]. destruct CHUNK as [|m]; [lia|]. cbn [length firstn]. repeat split; try discriminate; lia.
Qed.
Opaque CHUNK.
Lemma pieces_spec : forall n bs, (length bs <= n)%nat ->
  concat (pieces n bs) = bs /\ Forall (fun p : list N => p <> [] /\ (length p <= CHUNK)%nat) (pieces n bs).
Proof.
  induction n as [|n IH]; intros bs L; cbn [pieces].
  - destruct bs; [auto|cbn in L; lia].
  - destruct bs as [|x bs]; [auto|]. destruct (firstn_chunk (x :: bs)) as (A & B & C); [discriminate|].
    destruct (IH (skipn CHUNK (x :: bs))) as [E F]; [lia|]. cbn [concat]. rewrite E, firstn_skipn. split; [reflexivity|].
    constructor; auto.
Qed.
Lemma pieces_nil n bs : (length bs <= n)%nat -> pieces n bs = [] -> bs = [].
Proof. intros L E. pose proof (proj1 (pieces_spec n bs L)) as X. rewrite E in X. now symmetry. Qed.

(* C119: the bytes go to the underlying io in order, in pieces of at most 16384, each encrypted; the user's callback goes with
   the last one and with no other. *)
Theorem sch_send_chunks : forall (enc : list N -> list N) i bs cb n (ps : list (list N)),
  tlsio_state i = TLSIO_STATE_OPEN -> (length bs <= n)%nat -> ps = pieces n bs ->
  concat ps = bs /\ Forall (fun p : list N => p <> [] /\ (length p <= CHUNK)%nat) ps /\
  exists j, run (Send bs cb (fun p => Some (enc p)) :: repeat (Return true true (fun p => Some (enc p))) (length ps)) i = Next j /\
    outs j = SendReturns true :: rev (sends enc cb ps) ++ outs i /\
    tlsio_state j = TLSIO_STATE_OPEN /\ frames j = frames i /\ received_bytes j = received_bytes i.
Proof.
  intros enc i bs cb n ps S L ->. destruct (pieces_spec n bs L) as [E F]. split; [exact E|]. split; [exact F|]. clear E F.
  assert (G : forall n bs i, tlsio_state i = TLSIO_STATE_OPEN -> (length bs <= n)%nat ->
    exists j, run (repeat (Return true true (fun p => Some (enc p))) (length (pieces n bs))) (send_loop bs cb (fun p => Some (enc p)) i) = Next j /\
    outs j = SendReturns true :: rev (sends enc cb (pieces n bs)) ++ outs i /\
    tlsio_state j = TLSIO_STATE_OPEN /\ frames j = frames i /\ received_bytes j = received_bytes i).
  { clear. induction n as [|n IH]; intros bs i S L.
    - destruct bs; [|cbn in L; lia]. cbn. eauto 10.
    - destruct bs as [|x bs]; [cbn; eauto 10|].
      destruct (firstn_chunk (x :: bs)) as (A & B & C); [discriminate|].
      cbn [pieces]. set (p := firstn CHUNK (x :: bs)) in *. set (r := skipn CHUNK (x :: bs)) in *.
      assert (SE : send_loop (x :: bs) cb (fun p => Some (enc p)) i =
        push (AfterChunk r cb) (emit (XioSend (enc p) (if (length (x :: bs) <=? CHUNK)%nat then cb else None)) i))
        by (unfold send_loop; rewrite S; reflexivity).
      rewrite SE. cbn [length repeat run step frames push set_frames after].
      set (k := set_frames _ _). 
      destruct (IH r k) as (j & J1 & J2 & J3 & J4 & J5); [exact S|lia|].
      exists j. split; [exact J1|]. split; [|split; [exact J3|split; [exact J4|exact J5] ] ].
      rewrite J2. unfold k. cbn [outs emit set_frames push]. f_equal.
      destruct (Nat.leb_spec (Datatypes.S (length bs)) CHUNK) as [LE|GT].
      + assert (R0 : r = []) by (unfold r; apply skipn_all2; exact LE). rewrite R0. destruct n; reflexivity.
      + assert (P0 : pieces n r <> []).
        { intros Z. apply pieces_nil in Z; [|lia]. unfold r in Z. apply (f_equal (@length N)) in Z. rewrite skipn_length in Z. cbn [length] in *. lia. }
        destruct (pieces n r) as [|q qs] eqn:PQ; [congruence|]. cbn [sends rev]. rewrite <- app_assoc. reflexivity. }
  cbn [run step]. apply G; auto.
Qed.
Example sch_send_chunks_case : exists j,
  run [Send [1%N; 2%N] (Some 7%N) enc0; Return true true enc0] opened_io = Next j /\
  outs j = SendReturns true :: XioSend [1%N; 2%N] (Some 7%N) :: outs opened_io.
Proof.
  destruct (sch_send_chunks (fun p => p) opened_io [1%N; 2%N] (Some 7%N) 2 _ eq_refl (le_n _) eq_refl) as (_ & _ & j & J & O & _).
  assert (P : pieces 2 [1%N; 2%N] = [[1%N; 2%N]]).
  { cbn [pieces]. rewrite firstn_all2, skipn_all2; [reflexivity| |]; (pose proof chunk_two; cbn [length]; lia). }
  rewrite P in *. exists j. split; [exact J|exact O].
Qed.
(* A send that is refused has perhaps already sent the beginning. *)
Theorem sch_send_part_refuted : forall enc i bs cb, tlsio_state i = TLSIO_STATE_OPEN -> (CHUNK < length bs)%nat ->
  exists j, run [Send bs cb (fun p => Some (enc p)); Return true true (fun _ => None)] i = Next j /\
    outs j = SendReturns false :: XioSend (enc (firstn CHUNK bs)) None :: outs i.
Proof.
  intros enc i bs cb S L. assert (NE : bs <> []) by (destruct bs; [cbn in L; lia|discriminate]).
  assert (SK : skipn CHUNK bs <> []) by (intros Z; apply (f_equal (@length N)) in Z; rewrite skipn_length in Z; cbn in Z; lia).
  cbn [run step]. unfold send_loop at 1. destruct bs as [|x bs]; [congruence|]. rewrite S.
  cbn [frames push set_frames after]. unfold send_loop. destruct (skipn CHUNK (x :: bs)) eqn:K; [congruence|].
  cbn [tlsio_state set_frames emit push outs]. rewrite S. eexists. split; [reflexivity|]. cbn [outs set_frames emit push].
  destruct (Nat.leb_spec (length (x :: bs)) CHUNK); [lia|].
  cbn [tlsio_state push set_frames emit]. rewrite S. reflexivity.
Qed.
(* A send of nothing succeeds in every state, and its callback is never called. *)
Theorem sch_send_empty_refuted : forall i cb cipher, exists j,
  step (Send [] cb cipher) i = Next j /\ outs j = SendReturns true :: outs i.
Proof. intros. eexists. split; reflexivity. Qed.

(** * Resources *)

(* C120: a create that fails leaves nothing behind; destroy frees every block of an io exactly once. *)
Theorem sch_create_clean : forall config m1 m2 iface sock,
  (fst (tlsio_schannel_create config m1 m2 iface sock) = true <-> config && m1 && m2 && iface && sock = true) /\
  (fst (tlsio_schannel_create config m1 m2 iface sock) = false -> snd (tlsio_schannel_create config m1 m2 iface sock) = []) /\
  (fst (tlsio_schannel_create config m1 m2 iface sock) = true -> snd (tlsio_schannel_create config m1 m2 iface sock) = blocks created).
Proof. intros [] [] [] [] []; cbn; repeat split; congruence. Qed.
Theorem sch_blocks_freed : forall i, Permutation (freed i) (blocks i) /\ NoDup (freed i).
Proof.
  intros i. unfold freed, blocks. destruct (0 <? buffer_size i); cbn; split.
  - apply Permutation_sym. apply (perm_trans (l' := [HostName; Instance; SocketIo; Received])); [constructor|].
    apply (perm_trans (l' := rev [HostName; Instance; SocketIo; Received])); [apply Permutation_rev|]. cbn. repeat constructor.
  - repeat constructor; cbn; intuition discriminate.
  - apply Permutation_sym. change [SocketIo; HostName; Instance] with (rev [Instance; HostName; SocketIo]). apply Permutation_rev.
  - repeat constructor; cbn; intuition discriminate.
Qed.

Definition is_uopened (e : event) : bool := match e with UOpened _ _ _ _ => true | _ => false end.
Definition owned_ok (n : nat) (i : io) : Prop :=
  (credentials i <= n)%nat /\ (credential_handle_allocated i = true <-> (1 <= credentials i)%nat).
Lemma owned_same n i j : owned_ok n i -> credentials j = credentials i -> credential_handle_allocated j = credential_handle_allocated i -> owned_ok n j.
Proof. intros [A B] C D. unfold owned_ok. now rewrite C, D. Qed.
Definition same_cred (i j : io) := credentials j = credentials i /\ credential_handle_allocated j = credential_handle_allocated i.
Lemma sc_failed i : same_cred i (failed i).
Proof. unfold failed, indicate_error. cbn. destruct (on_io_error i); split; reflexivity. Qed.
Lemma sc_failed_open i : same_cred i (failed_open i).
Proof. unfold failed_open, open_complete. cbn. destruct (on_io_open_complete i); split; reflexivity. Qed.
Lemma sc_trans i j k : same_cred i j -> same_cred j k -> same_cred i k.
Proof. unfold same_cred. intros [] []. split; congruence. Qed.
Lemma sc_resize m n i j : resize_receive_buffer m n i = Some j -> same_cred i j.
Proof. unfold resize_receive_buffer. destruct (_ <? _); [destruct m|]; intros H; inversion H; subst; split; reflexivity. Qed.
Lemma sc_goes_on m e i j : handshake_goes_on m e i = Some j -> same_cred i j.
Proof.
  intros H. unfold handshake_goes_on in H. destruct (consume e i) as [k|] eqn:K; [|discriminate].
  apply consume_some in K. destruct K as [b ->]. injection H as <-. unfold set_receive_buffer. destruct m; [split; reflexivity|].
  eapply sc_trans; [|apply sc_failed_open]. split; reflexivity.
Qed.
Lemma sc_handshake_done m e i j : handshake_done m e i = Some j -> same_cred i j.
Proof.
  intros H. unfold handshake_done in H. destruct (consume e i) as [k|] eqn:K; [|discriminate].
  apply consume_some in K. destruct K as [b ->]. injection H as <-. unfold set_receive_buffer. destruct m.
  - unfold open_complete. cbn. destruct (on_io_open_complete i); split; reflexivity.
  - eapply sc_trans; [|apply sc_failed_open]. split; reflexivity.
Qed.
Lemma sc_data_done m e i j : data_done m e i = Some j -> same_cred i j.
Proof.
  intros H. unfold data_done in H. destruct (consume e i) as [k|] eqn:K; [|discriminate].
  apply consume_some in K. destruct K as [b ->]. injection H as <-. unfold set_receive_buffer. destruct m; [split; reflexivity|].
  eapply sc_trans; [|apply sc_failed]. split; reflexivity.
Qed.
Lemma sc_send bs cb ci i : same_cred i (send_loop bs cb ci i).
Proof. unfold send_loop. destruct bs; [split; reflexivity|]. destruct (tlsio_state i); try (split; reflexivity). destruct (ci _); split; reflexivity. Qed.
Lemma sc_bytes b a i j : on_underlying_io_bytes_received b a i = Some j -> same_cred i j.
Proof.
  intros H. unfold on_underlying_io_bytes_received in H.
  destruct (resize_receive_buffer (memory1 a) (count i + Z.of_nat (length b)) i) as [k|] eqn:R; [|inversion H; subst; split; reflexivity].
  apply sc_resize in R. cbn zeta in H. destruct (_ <? _); [discriminate|].
  set (q := set_needed _ _) in H. assert (Q : same_cred i q) by exact R. clearbody q. clear R. eapply sc_trans; [exact Q|]. clear Q.
  assert (RS : forall n (f : io -> io), (forall x, same_cred x (f x)) ->
    same_cred q (match resize_receive_buffer (memory2 a) (count (set_needed (Some n) q) + n) (set_needed (Some n) q) with None => f (set_needed (Some n) q) | Some i => i end)).
  { intros n f Hf. destruct (resize_receive_buffer _ _ _) eqn:X.
    - apply sc_resize in X. exact X.
    - apply (Hf (set_needed (Some n) q)). }
  assert (QQ : same_cred q q) by (split; reflexivity).
  destruct (tlsio_state q) eqn:S; try (inversion H; subst; exact QQ).
  - destruct (needed_bytes q) as [n|]; [|discriminate]. destruct (n =? 0); [|inversion H; subst; exact QQ].
    unfold handshake in H. destruct (a_isc a) as [m|x e|tok x e| |].
    + injection H as <-. apply RS. apply sc_failed_open.
    + eapply sc_handshake_done; eauto.
    + destruct tok; [eapply sc_goes_on; eauto|]. injection H as <-. exact QQ.
    + injection H as <-. apply sc_failed_open.
    + injection H as <-. exact QQ.
  - destruct (needed_bytes q) as [n|]; [|discriminate]. destruct (n =? 0); [|inversion H; subst; exact QQ].
    unfold decrypt in H. destruct (a_dec a) as [m|[d|] e|].
    + injection H as <-. apply RS. apply sc_failed.
    + destruct (on_bytes_received q).
      * injection H as <-. exact QQ.
      * eapply sc_data_done; eauto.
    + injection H as <-. apply sc_failed.
    + injection H as <-. exact QQ.
Qed.
Lemma owned_step e i j n : owned_ok n i -> step e i = Next j -> owned_ok (if is_uopened e then S n else n) j.
Proof.
  intros O H. assert (SC : is_uopened e = true \/ same_cred i j).
  { destruct e; cbn in H; auto; right.
    - injection H as <-. unfold tlsio_schannel_open. destruct (tlsio_state i); split; reflexivity.
    - injection H as <-. unfold tlsio_schannel_close. destruct (tlsio_state i); split; reflexivity.
    - injection H as <-. apply sc_send.
    - destruct (on_underlying_io_bytes_received bytes a i) eqn:X; [|discriminate]. injection H as <-. eapply sc_bytes; eauto.
    - injection H as <-. unfold on_underlying_io_error. destruct (tlsio_state i); auto using sc_failed, sc_failed_open; try (split; reflexivity).
      unfold close_complete. cbn. destruct (on_io_close_complete i); split; reflexivity.
    - injection H as <-. unfold on_underlying_io_close_complete. destruct (tlsio_state i); try (split; reflexivity).
      unfold close_complete. cbn. destruct (on_io_close_complete i); split; reflexivity.
    - destruct (frames i) as [|f fs]; [discriminate|]. apply (sc_trans i (set_frames fs i)); [split; reflexivity|].
      destruct f as [|e|e|rest cb]; cbn in H.
      + injection H as <-. unfold after_hello. destruct ok; [|apply sc_failed].
        unfold resize_receive_buffer. destruct (_ <? _); [destruct memory|]; try (split; reflexivity).
        eapply sc_trans; [|apply sc_failed]. split; reflexivity.
      + unfold after_token in H. destruct ok.
        * destruct (handshake_goes_on memory e (set_frames fs i)) eqn:X; [|discriminate]. injection H as <-. eapply sc_goes_on; eauto.
        * injection H as <-. apply sc_failed_open.
      + destruct (data_done memory e (set_frames fs i)) eqn:X; [|discriminate]. injection H as <-. eapply sc_data_done; eauto.
      + injection H as <-. destruct ok; [apply sc_send|]. split; reflexivity. }
  destruct (is_uopened e) eqn:U; [|destruct SC as [SC|[S1 S2] ]; [discriminate|]; eapply owned_same; eauto].
  destruct e; try discriminate. clear SC. cbn in H. injection H as <-. unfold on_underlying_io_open_complete.
  assert (OF : owned_ok (S n) (failed i)).
  { destruct (sc_failed i) as [S1 S2]. destruct O as [O1 O2]. split; rewrite ?S1, ?S2; [lia|exact O2]. }
  destruct (tlsio_state i); auto. destruct cred; auto. destruct O as [O1 O2]. destruct hello; split; cbn; try lia; split; auto; lia.
Qed.
(* The underlying io said at most once that it is open: no credential handle is left after destroy. *)
Theorem sch_credentials_partial : forall es i, run es created = Next i -> (length (filter is_uopened es) <= 1)%nat ->
  l_credentials (tlsio_schannel_destroy i) = 0%nat.
Proof.
  assert (G : forall es n i j, owned_ok n i -> run es i = Next j -> owned_ok (length (filter is_uopened es) + n) j).
  { induction es as [|e es IH]; intros n i j O H; cbn in H; [inversion H; subst; exact O|].
    destruct (step e i) as [k| |] eqn:E; try discriminate. apply (owned_step _ _ _ n) in E; [|exact O].
    apply (IH _ _ _ E) in H. cbn. destruct (is_uopened e); [|exact H]. cbn. now rewrite <- Nat.add_succ_r. }
  intros es i H L. assert (O : owned_ok 0 created) by (split; [auto|split; intros X; [discriminate|inversion X] ]).
  pose proof (G _ _ _ _ O H) as [O1 O2]. unfold tlsio_schannel_destroy. cbn.
  destruct (credential_handle_allocated i); [lia|]. destruct (credentials i); [reflexivity|].
  assert (X : (1 <= S n)%nat) by lia. apply O2 in X. discriminate.
Qed.
Example sch_credentials_partial_case : run opened_events created = Next opened_io /\ credentials opened_io = 1%nat /\
  length (filter is_uopened opened_events) = 1%nat.
Proof. vm_compute. auto. Qed.
(* After one session the security context and two tokens are never given back. *)
Theorem sch_context_leak_refuted :
  tlsio_schannel_destroy opened_io = {| l_credentials := 0; l_contexts := 1; l_tokens := 2 |}.
Proof. vm_compute. reflexivity. Qed.
(* After n sessions n - 1 credential handles, too. *)
Definition again : list event := [Close (Some 9%N) true; UClosed] ++ opened_events.
Theorem sch_credentials_leak_refuted : forall n, exists i,
  run (concat (repeat again n)) opened_io = Next i /\
  tlsio_schannel_destroy i = {| l_credentials := n; l_contexts := S n; l_tokens := 2 * S n |}.
Proof.
  intros n.
  assert (RA : forall es fs i j, run es i = Next j -> run (es ++ fs) i = run fs j).
  { induction es as [|e es IH]; intros fs i j H; cbn in *; [now inversion H; subst|]. destruct (step e i); try discriminate. eauto. }
  assert (G : forall n i, tlsio_state i = TLSIO_STATE_OPEN -> received_bytes i = [] -> buffer_size i = 1 -> frames i = [] ->
     credential_handle_allocated i = true ->
     exists j, run (concat (repeat again n)) i = Next j /\ credentials j = (n + credentials i)%nat /\ contexts j = (n + contexts i)%nat
       /\ tokens j = (2 * n + tokens i)%nat /\ credential_handle_allocated j = true).
  { clear n. induction n as [|n IH]; intros i S R B F A.
    - exists i. cbn. auto.
    - assert (E : exists k, run again i = Next k /\ tlsio_state k = TLSIO_STATE_OPEN /\ received_bytes k = [] /\ buffer_size k = 1 /\
        frames k = [] /\ credential_handle_allocated k = true /\ credentials k = Datatypes.S (credentials i) /\
        contexts k = Datatypes.S (contexts i) /\ tokens k = Datatypes.S (Datatypes.S (tokens i))).
      { destruct i as [st rb bsz nb o1 o2 o3 o4 al cr cx tk fr os]. cbn in S, R, B, F, A. subst.
        eexists. split; [cbv; reflexivity|]. repeat split. }
      destruct E as (k & K & K1 & K2 & K3 & K4 & K5 & K6 & K7 & K8).
      destruct (IH k K1 K2 K3 K4 K5) as (j & J1 & J2 & J3 & J4 & J5). exists j.
      cbn [repeat concat]. rewrite (RA _ _ _ _ K). split; [exact J1|]. rewrite J2, J3, J4, K6, K7, K8. repeat split; auto; lia. }
  destruct (G n opened_io) as (j & J1 & J2 & J3 & J4 & J5); try (vm_compute; reflexivity).
  exists j. split; [exact J1|]. unfold tlsio_schannel_destroy. rewrite J5, J2, J3, J4.
  replace (credentials opened_io) with 1%nat by (vm_compute; reflexivity).
  replace (contexts opened_io) with 1%nat by (vm_compute; reflexivity).
  replace (tokens opened_io) with 2%nat by (vm_compute; reflexivity).
  f_equal; lia.
Qed.
