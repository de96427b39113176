(* adapters/socketio_berkeley.c, under the TLS io, is a polite underlying io: the assumption of
   the theorems of TlsIo_Open, _Once and _Exact holds of the io that tlsio_openssl_create uses
   (src/tlsio_openssl.c:413-425).  The socket io is the model of SocketIo_Model, in which the
   callbacks do not re-enter; what is proved here is about each of its calls. *)
From Verif Require SocketIo_Model.
From Verif Require Import Base TlsIo_Model TlsIo_Spec.
Open Scope Z_scope.

(* the callbacks made by a call of the socket io, as the TLS io sees them *)
Definition as_action (e : SocketIo_Model.event) : list action :=
  match e with
  | SocketIo_Model.EOpenComplete _ _ ok => [AEvent (UOpened ok)]
  | SocketIo_Model.ECloseComplete _ _ => [AEvent UClosed]
  | SocketIo_Model.EBytesReceived _ _ b => [AEvent (UBytes b)]
  | SocketIo_Model.EIoError _ _ => [AEvent UError]
  | _ => []
  end.
Definition as_actions (l : list SocketIo_Model.event) : list action := flat_map as_action l.
Definition result (r : option Z) : Z := match r with Some r => r | None => 0 end.

Definition fine (k : list SocketIo_Model.event) : Prop := Forall (fun e => match e with SocketIo_Model.EOpenComplete _ _ false => False | _ => True end) k.

Lemma send_pending_fine answers : forall w x w' x', SocketIo_Model.send_pending answers w x = (w', x') ->
  exists k, SocketIo_Model.log w' = SocketIo_Model.log w ++ k /\ fine k.
Proof.
  induction answers as [|a answers IH]; intros w x w' x' H; cbn [SocketIo_Model.send_pending] in H;
  destruct (SocketIo_Model.queue x) as [|p rest] eqn:Hq; try (inversion H; subst; exists []; cbn; rewrite app_nil_r; split; [reflexivity|constructor]; fail).
  remember (SocketIo_Model.kernel_takes a (SocketIo_Model.p_size p)) as r.
  destruct (negb (r =? Z.of_nat (SocketIo_Model.p_size p))); [destruct (r =? -1)|].
  - apply IH in H. destruct H as (k & Hk & Hf). rewrite Hk. cbn. rewrite <- !app_assoc. eexists. split; [reflexivity|].
    cbn. constructor; [exact Logic.I|]. apply Forall_app. split; [|exact Hf].
    unfold SocketIo_Model.indicate_error, SocketIo_Model.call. destruct (SocketIo_Model.on_error _); repeat constructor.
  - apply IH in H. destruct H as (k & Hk & Hf). rewrite Hk. cbn. rewrite <- !app_assoc. eexists. split; [reflexivity|].
    constructor; [exact Logic.I|exact Hf].
  - apply IH in H. destruct H as (k & Hk & Hf). rewrite Hk. cbn. rewrite <- !app_assoc. eexists. split; [reflexivity|].
    cbn. constructor; [exact Logic.I|]. apply Forall_app. split; [|exact Hf].
    unfold SocketIo_Model.call. destruct (SocketIo_Model.p_callback _); repeat constructor.
Qed.

Lemma receive_fine answers : forall w x, exists k, SocketIo_Model.log (SocketIo_Model.receive answers w x) = SocketIo_Model.log w ++ k /\ fine k.
Proof.
  induction answers as [|[b|] answers IH]; intros w x; cbn [SocketIo_Model.receive].
  - eexists. split; [reflexivity|]. repeat constructor.
  - destruct (IH (SocketIo_Model.emit w (SocketIo_Model.ERecv (SocketIo_Model.sock x) (Some b) :: SocketIo_Model.call (SocketIo_Model.on_bytes x) (fun c => SocketIo_Model.EBytesReceived c (SocketIo_Model.on_bytes_ctx x) [b]))) x) as (k & -> & Hf).
    cbn. rewrite <- app_assoc. eexists. split; [reflexivity|].
    cbn. constructor; [exact Logic.I|]. apply Forall_app. split; [|exact Hf].
    unfold SocketIo_Model.call. destruct (SocketIo_Model.on_bytes x); repeat constructor.
  - eexists. split; [reflexivity|]. repeat constructor.
Qed.

Lemma fine_actions k : fine k -> ~ In (AEvent (UOpened false)) (as_actions k).
Proof.
  induction 1 as [|e k He _ IH]; cbn; [tauto|]. rewrite in_app_iff. intros [H|H]; [|contradiction].
  destruct e; cbn in H; try contradiction; destruct H as [H|[]]; try discriminate. inversion H; subst. contradiction.
Qed.

Lemma next_log w r v : SocketIo_Model.next_sys w = (r, v) -> SocketIo_Model.log v = SocketIo_Model.log w.
Proof. intro H. inversion H. reflexivity. Qed.

Lemma fine_snoc k e : fine k -> match e with SocketIo_Model.EOpenComplete _ _ false => False | _ => True end -> fine (k ++ [e]).
Proof. intros H H1. apply Forall_app. split; [exact H|]. constructor; [exact H1|constructor]. Qed.

Lemma open_fine w x a b c d e f r v :
  SocketIo_Model.socketio_open w x a b c d e f = (r, v) ->
  exists k, SocketIo_Model.log v = SocketIo_Model.log w ++ k /\ fine k.
Proof.
  intro Ho. unfold SocketIo_Model.socketio_open in Ho.
  assert (H0 : exists k, SocketIo_Model.log w = SocketIo_Model.log w ++ k /\ fine k)
    by (exists []; rewrite app_nil_r; split; [reflexivity|constructor]).
  assert (Hc : forall u r0 y, (r0, SocketIo_Model.emit (SocketIo_Model.set_io u y) (SocketIo_Model.call a (fun c => SocketIo_Model.EOpenComplete c b true))) = (r, v) ->
     (exists k, SocketIo_Model.log u = SocketIo_Model.log w ++ k /\ fine k) ->
     exists k, SocketIo_Model.log v = SocketIo_Model.log w ++ k /\ fine k).
  { intros u r0 y Hu (k & Hk & Hf). inversion Hu; subst. cbn. rewrite Hk, <- app_assoc. eexists. split; [reflexivity|].
    unfold SocketIo_Model.call. destruct a; [now apply fine_snoc|now rewrite app_nil_r]. }
  assert (He : forall u ev, (exists k, SocketIo_Model.log u = SocketIo_Model.log w ++ k /\ fine k) ->
     match ev with SocketIo_Model.EOpenComplete _ _ false => False | _ => True end ->
     exists k, SocketIo_Model.log (SocketIo_Model.emit u [ev]) = SocketIo_Model.log w ++ k /\ fine k).
  { intros u ev (k & Hk & Hf) Hev. cbn. rewrite Hk, <- app_assoc. eexists. split; [reflexivity|]. now apply fine_snoc. }
  assert (Hs : forall u u' z, SocketIo_Model.next_sys u = (z, u') ->
     (exists k, SocketIo_Model.log u = SocketIo_Model.log w ++ k /\ fine k) ->
     exists k, SocketIo_Model.log u' = SocketIo_Model.log w ++ k /\ fine k).
  { intros u u' z Hn Hk. now rewrite (next_log _ _ _ Hn). }
  destruct (SocketIo_Model.state x); try (inversion Ho; subst; exact H0).
  destruct (negb (SocketIo_Model.sock x =? -1)); [eapply Hc; eauto|].
  Ltac nxt Ho Hs He H0 :=
    match type of Ho with (let '(_, _) := SocketIo_Model.next_sys ?u in _) = _ =>
      let z := fresh "z" in let u' := fresh "u" in let Hn := fresh "Hn" in
      destruct (SocketIo_Model.next_sys u) as [z u'] eqn:Hn; cbv zeta in Ho;
      apply Hs in Hn; [|first [exact H0 | apply He; [assumption|exact Logic.I] ] ]
    end.
  nxt Ho Hs He H0. destruct (Z.max (-1) z <? 0); [inversion Ho; subst; apply He; [assumption|exact Logic.I]|].
  nxt Ho Hs He H0. destruct (negb (z0 =? 0)); [inversion Ho; subst; apply He; [apply He; [assumption|exact Logic.I]|exact Logic.I]|].
  nxt Ho Hs He H0. destruct (negb (z1 =? 0)); [inversion Ho; subst; apply He; [apply He; [assumption|exact Logic.I]|exact Logic.I]|].
  nxt Ho Hs He H0. destruct (z2 =? -1); [inversion Ho; subst; apply He; [apply He; [assumption|exact Logic.I]|exact Logic.I]|].
  nxt Ho Hs He H0. destruct (z3 =? -1); [inversion Ho; subst; apply He; [apply He; [assumption|exact Logic.I]|exact Logic.I]|].
  eapply Hc; [exact Ho|]. apply He; [assumption|exact Logic.I].
Qed.

Theorem socketio_is_polite w o orc ro w' orc' :
  SocketIo_Model.step w o orc = Some ((ro, w'), orc') ->
  exists k, SocketIo_Model.log w' = SocketIo_Model.log w ++ k /\
    ~ In (AEvent (UOpened false)) (as_actions k) /\
    match o with
    | SocketIo_Model.OClose true _ _ => polite_event (LAnswer QClose {| a_actions := as_actions k; a_ret := result ro |})
    | SocketIo_Model.OSend true (Some b) n None ctx =>
        polite_event (LAnswer (QSend (firstn n b) None ctx) {| a_actions := as_actions k; a_ret := result ro |})
    | _ => True
    end.
Proof.
  intro H.
  assert (Hsend : forall v x b cb ctx orc1 r v' orc2, SocketIo_Model.socketio_send v x b cb ctx orc1 = Some ((r, v'), orc2) ->
    exists k, SocketIo_Model.log v' = SocketIo_Model.log v ++ k /\ fine k /\ (cb = None -> as_actions k = [] \/ r <> 0)).
  { intros v x b cb ctx orc1 r v' orc2 Hs. unfold SocketIo_Model.socketio_send, SocketIo_Model.add_pending_io, Base.bind, Base.ret, Base.alloc in Hs.
    destruct (SocketIo_Model.state x); try (inversion Hs; subst; exists []; rewrite app_nil_r; split; [reflexivity|split; [constructor|auto] ]; fail).
    destruct (SocketIo_Model.queue x) as [|q qs].
    - remember (SocketIo_Model.kernel_takes (hd (Z.of_nat (length b)) (SocketIo_Model.k_send v)) (length b)) as z.
      cbv zeta in Hs. rewrite <- ?Heqz in Hs.
      destruct (negb (z =? Z.of_nat (length b))).
      + destruct (z =? -1).
        * inversion Hs; subst. cbn. eexists. rewrite <- app_assoc. split; [reflexivity|]. split; [|right; discriminate].
          cbn. constructor; [exact Logic.I|]. unfold SocketIo_Model.indicate_error, SocketIo_Model.call. destruct (SocketIo_Model.on_error x); repeat constructor.
        * destruct orc1 as [|[] [|[] [|[] o1] ] ]; cbn in Hs; inversion Hs; subst; cbn;
          (eexists; split; [reflexivity|]; split; [repeat constructor|left; reflexivity]).
      + inversion Hs; subst. cbn. eexists. rewrite <- app_assoc. split; [reflexivity|]. split.
        * cbn. constructor; [exact Logic.I|]. unfold SocketIo_Model.call. destruct cb; repeat constructor.
        * intros ->. left. reflexivity.
    - destruct orc1 as [|[] [|[] [|[] o1] ] ]; cbn in Hs; inversion Hs; subst; cbn;
      (exists []; rewrite app_nil_r; split; [reflexivity|]; split; [constructor|left; reflexivity]). }
  unfold SocketIo_Model.step in H. destruct (SocketIo_Model.cut w); [discriminate|].
  assert (Hnone : forall P : Prop, P -> exists k, SocketIo_Model.log w = SocketIo_Model.log w ++ k /\ ~ In (AEvent (UOpened false)) (as_actions k) /\ P).
  { intros P HP. exists []. rewrite app_nil_r. cbn. auto. }
  destruct o as [h a b c d e f|h a b|h buf n cb ctx|h|h|h].
  - destruct h; [|inversion H; subst; apply Hnone; exact Logic.I].
    unfold Base.bind, Base.lift, Base.ret in H. destruct (SocketIo_Model.io w) as [x|]; [|discriminate].
    destruct (SocketIo_Model.socketio_open w x a b c d e f) as [r v] eqn:Ho. inversion H; subst; clear H.
    destruct (open_fine _ _ _ _ _ _ _ _ _ _ Ho) as (k & Hk & Hf).
    exists k. split; [exact Hk|]. split; [apply fine_actions, Hf|exact Logic.I].
  - destruct h; [|inversion H; subst; apply Hnone; exact Logic.I].
    unfold Base.bind, Base.lift, Base.ret in H. destruct (SocketIo_Model.io w) as [x|]; [|discriminate].
    unfold SocketIo_Model.socketio_close in H. destruct (SocketIo_Model.state x); inversion H; subst; cbn;
    try (exists []; rewrite app_nil_r; cbn; auto; fail);
    (rewrite <- app_assoc; eexists; split; [reflexivity|]; split; [|reflexivity]; apply fine_actions;
     cbn; repeat (constructor; [exact Logic.I|]); unfold SocketIo_Model.call; destruct a; repeat constructor).
  - destruct h; [|inversion H; subst; apply Hnone; exact Logic.I].
    destruct buf as [buf|]; [|inversion H; subst; apply Hnone; exact Logic.I].
    destruct (n =? 0)%nat.
    { inversion H; subst. exists []. rewrite app_nil_r. split; [reflexivity|]. split; [cbn; tauto|]. destruct cb; cbn; auto. }
    unfold Base.bind, Base.lift, Base.ret in H. destruct (SocketIo_Model.io w) as [x|]; [|discriminate].
    destruct (n <=? length buf)%nat; [|discriminate].
    destruct (SocketIo_Model.socketio_send w x (firstn n buf) cb ctx orc) as [ [ [r v] o2]|] eqn:Hs; [|discriminate].
    inversion H; subst; clear H. cbn.
    destruct (Hsend _ _ _ _ _ _ _ _ _ Hs) as (k & Hk & Hf & Hn).
    exists k. split; [exact Hk|]. split; [apply fine_actions, Hf|]. destruct cb; [exact Logic.I|]. cbn. auto.
  - destruct h; [|inversion H; subst; apply Hnone; exact Logic.I].
    unfold Base.bind, Base.lift, Base.ret in H. destruct (SocketIo_Model.io w) as [x|]; [|discriminate].
    inversion H; subst; clear H. unfold SocketIo_Model.socketio_dowork.
    destruct (SocketIo_Model.state x); try (apply Hnone; exact Logic.I).
    destruct (SocketIo_Model.send_pending (SocketIo_Model.k_send w) w x) as [v y] eqn:Hp.
    destruct (send_pending_fine _ _ _ _ _ Hp) as (k & Hk & Hf).
    destruct (SocketIo_Model.cut (SocketIo_Model.set_io v (Some y))).
    + exists k. cbn. split; [exact Hk|]. split; [apply fine_actions, Hf|exact Logic.I].
    + destruct (receive_fine (SocketIo_Model.k_recv (SocketIo_Model.set_io v (Some y))) (SocketIo_Model.set_io v (Some y)) y) as (k2 & Hk2 & Hf2).
      exists (k ++ k2). rewrite Hk2. cbn. rewrite Hk, <- app_assoc. split; [reflexivity|]. split; [|exact Logic.I].
      apply fine_actions. apply Forall_app. auto.
  - inversion H; subst. apply Hnone. exact Logic.I.
  - destruct h; [|inversion H; subst; apply Hnone; exact Logic.I].
    unfold Base.bind, Base.lift, Base.ret in H. destruct (SocketIo_Model.io w) as [x|]; [|discriminate].
    inversion H; subst; clear H. unfold SocketIo_Model.socketio_destroy. cbn.
    eexists. split; [reflexivity|]. split; [|exact Logic.I]. destruct (SocketIo_Model.sock x =? -1); cbn; tauto.
Qed.
