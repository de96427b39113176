(* What the socket io does not do: counterexamples to C57-C60 and C76, and examples. *)
From Verif Require Import Base SocketIo_Model SocketIo_Spec SocketIo_Paths SocketIo_Fates SocketIo_Props.
Open Scope Z_scope.

Definition cfg : config := {| c_hostname := Some (str "host"); c_port := 443; c_accepted := None |}.
Definition demo (c : config) (o : oracle) (sys sends : list Z) (recvs : list (option N)) (ops : list op) : option (list scall * world) :=
  match socketio_create (Some c) o with
  | Some (Some x, o1) => match history (newborn x sys sends recvs) ops o1 with Some (r, _) => Some r | None => None end
  | _ => None
  end.
Lemma demo_runs c o sys sends recvs ops h w : demo c o sys sends recvs ops = Some (h, w) -> runs c h w.
Proof.
  unfold demo. destruct (socketio_create (Some c) o) as [[[x|] o1]|] eqn:E1; try discriminate. destruct (history _ ops o1) as [[r o2]|] eqn:E2; [|discriminate]. intros E. injection E as ->. exists o, x, o1, sys, sends, recvs, ops, o2. auto.
Qed.
Definition open1 : op := OOpen true (Some 1%nat) None (Some 2%nat) None (Some 3%nat) (Some 30%nat).
Definition send1 (b : list N) (ctx : nat) : op := OSend true (Some b) (length b) (Some 4%nat) (Some ctx).
Definition ok5 : list Z := [7; 0; 0; 0; 0].

(* C57: a partial send in dowork makes it send bytes twice, though the kernel never refuses, and
   there is memory. *)
Theorem stream_preserved_refuted : exists c h w, runs c h w /\ (forall fd b, ~ In (ESend fd b (-1)) (observed h)) /\ (forall m a, In (m, a) (attempts h) -> a = true) /\ ~ stream_preserved h.
Proof.
  eexists cfg, _, _. split; [apply (demo_runs cfg [] ok5 [1; 1; 3] [] [open1; send1 [1; 2; 3; 4]%N 10; ODowork true]); vm_compute; reflexivity|]. split; [|split].
  - intros fd b H. repeat (destruct H as [H|H]; [discriminate|]). exact H.
  - intros m a H. vm_compute in H. destruct H as [H|[]]. congruence.
  - intros [l H]. vm_compute in H. discriminate.
Qed.
(* A failed send in dowork loses the message, and the next one is still sent. *)
Theorem stream_skips_message_refuted : exists c h w, runs c h w /\ ~ stream_preserved h /\
  forall k, In k h -> match s_op k with ODowork _ => forall fd b r, In (ESend fd b r) (s_events k) -> r = Z.of_nat (length b) \/ r = -1 | _ => True end.
Proof.
  eexists cfg, _, _. split; [apply (demo_runs cfg [] ok5 [1; -1; 5] [] [open1; send1 [1; 2]%N 10; send1 [3]%N 11; ODowork true]); vm_compute; reflexivity|]. split.
  - intros [l H]. vm_compute in H. discriminate.
  - intros k [<-|[<-|[<-|[<-|[]]]]]; try exact I. cbn. intros fd b r H. repeat (destruct H as [H|H]; [try discriminate; injection H as <- <- <-; auto|]). destruct H.
Qed.
(* A send can be refused after the kernel got a part of the message. *)
Theorem stream_refused_part_refuted : exists c h w, runs c h w /\ ~ stream_preserved h /\ forall k, In k h -> s_op k <> ODowork true.
Proof.
  eexists cfg, _, _. split; [apply (demo_runs cfg [true; true; true; false] ok5 [1; 1] [] [open1; send1 [1; 2]%N 10; send1 [3]%N 11]); vm_compute; reflexivity|]. split.
  - intros [l H]. vm_compute in H. discriminate.
  - intros k [<-|[<-|[<-|[]]]]; discriminate.
Qed.

(* C58: an accepted message whose send fails in dowork, or that waits when the io is closed, gets no completion. *)
Theorem completion_on_failure_refuted : exists c h w, runs c h w /\ mode_of h = MFailed /\ ~ completed_at_the_end h.
Proof.
  eexists cfg, _, _. split; [apply (demo_runs cfg [] ok5 [1; -1] [] [open1; send1 [1; 2]%N 10; ODowork true]); vm_compute; reflexivity|]. split; [reflexivity|].
  intros H. destruct (H ltac:(discriminate) {| m_bytes := [1; 2]%N; m_callback := Some 4%nat; m_context := Some 10%nat |} 4%nat ltac:(left; reflexivity) eq_refl) as [r Hr]. exact Hr.
Qed.
Theorem completion_on_close_refuted : exists c h w, runs c h w /\ mode_of h = MDestroyed /\ ~ completed_at_the_end h.
Proof.
  eexists cfg, _, _. split; [apply (demo_runs cfg [] ok5 [1] [] [open1; send1 [1; 2]%N 10; OClose true None None; ODestroy true]); vm_compute; reflexivity|]. split; [reflexivity|].
  intros H. destruct (H ltac:(discriminate) {| m_bytes := [1; 2]%N; m_callback := Some 4%nat; m_context := Some 10%nat |} 4%nat ltac:(left; reflexivity) eq_refl) as [r Hr]. exact Hr.
Qed.

(* C59: what waits at close is sent on the next connection. *)
Theorem close_discards_refuted : exists c h w, runs c h w /\ ~ close_discards h.
Proof.
  eexists cfg, _, _. split; [apply (demo_runs cfg [] [7; 0; 0; 0; 0; 8; 0; 0; 0; 0] [1; 1] [] [open1; send1 [1; 2]%N 10; OClose true None None; open1; ODowork true]); vm_compute; reflexivity|].
  intros H. match type of H with close_discards (?a :: ?b :: ?k :: ?r) => destruct (H [a; b] k r None None eq_refl eq_refl) as [js Hj] end.
  destruct Hj as [E1 E2 _ _ _ _ _]. change (attempts _) with (@nil (message * bool)) in E1. destruct js; [|discriminate]. vm_compute in E2. discriminate.
Qed.

(* C60: closing a closed io reports success. *)
Theorem close_when_closed_refuted : exists c h w a k b, runs c h w /\ h = a ++ k :: b /\ ~ close_when_closed_fails (mode_of a) k.
Proof.
  eexists cfg, _, _, [], _, []. split; [apply (demo_runs cfg [] [] [] [] [OClose true None None]); vm_compute; reflexivity|]. split; [reflexivity|].
  intros H. exact (H None None eq_refl eq_refl eq_refl).
Qed.

(* ---------------- C76 ---------------- *)
Lemma sends_app a b : sends (a ++ b) = (sends a + sends b)%nat.
Proof. unfold sends. rewrite filter_app, app_length. reflexivity. Qed.
Lemma sends_call cb f : (forall c, match f c with ESend _ _ _ => False | _ => True end) -> sends (call cb f) = 0%nat.
Proof. intros H. destruct cb as [c|]; [|reflexivity]. specialize (H c). cbn. unfold sends. cbn. destruct (f c); reflexivity || destruct H. Qed.
Lemma loops_sends d x x' l : loops d x x' l -> Forall (fun p => p_size p = length (p_bytes p)) (queue x) ->
  (forall fd b r, In (ESend fd b r) l -> r = Z.of_nat (length b) \/ r = -1) -> (sends l + length (queue x') = length (queue x))%nat.
Proof.
  induction 1 as [x E|x|d x x' l p rest E Hm HL IH|d x x' l p rest E HL IH|d x x' l p rest k E Hr HL IH]; intros Sz H; try reflexivity; rewrite E in Sz; inversion Sz as [|? ? S1 S2]; subst.
  - change (ESend ?a ?b ?c :: ?t) with ([ESend a b c] ++ t). rewrite !sends_app, (sends_call _ (fun c => ESendComplete c (p_context p) 0)) by (intros; exact I). change (sends [ESend _ _ _]) with 1%nat. rewrite E. cbn [length queue set_queue] in *. rewrite <- (IH S2); [lia|].
    intros fd b r Hin. apply (H fd b r). right. apply in_or_app. right. exact Hin.
  - change (ESend ?a ?b ?c :: ?t) with ([ESend a b c] ++ t). rewrite !sends_app. replace (sends (indicate_error x)) with 0%nat by (symmetry; apply sends_call; intros; exact I). change (sends [ESend _ _ _]) with 1%nat. rewrite E. cbn [length queue set_queue set_state] in *. rewrite <- (IH S2); [lia|].
    intros fd b r Hin. apply (H fd b r). right. apply in_or_app. right. exact Hin.
  - specialize (H _ _ _ (or_introl eq_refl)). rewrite firstn_length, S1 in H. lia.
Qed.
Lemma behind_length w q : behind w q -> (length q <= length w)%nat /\ Forall (fun p => p_size p = length (p_bytes p)) q.
Proof. induction 1; cbn; [split; [lia|constructor]| |]; destruct IHbehind; (split; [lia|]); auto. constructor; [apply H|assumption]. Qed.
(* While the kernel takes all of what dowork offers or refuses it, dowork makes no more sends than
   there were messages. *)
Theorem dowork_returns_partial : forall c h k w, runs c (h ++ [k]) w -> s_op k = ODowork true ->
  (forall fd b r, In (ESend fd b r) (s_events k) -> r = Z.of_nat (length b) \/ r = -1) -> (sends (s_events k) <= length (attempts h))%nat.
Proof.
  intros c h k w (o & x & o1 & sys & sds & recvs & ops & o2 & Ec & Eh) Hk Hf. apply create_facts in Ec. destruct Ec as (Es & Eq & _).
  destruct (history_split _ _ _ _ _ _ _ _ Eh eq_refl) as (p1 & p2 & w1 & z1 & H1 & H2).
  destruct (history_inv accounted accounted_step p1 [] _ _ _ _ _ (accounted_fresh (newborn x sys sds recvs) (fun y H => ltac:(injection H as <-; exact Eq))) H1) as (q & fin & wait & Hq & I). cbn [app] in I.
  destruct (history_one _ _ _ _ _ _ _ H2) as (p3 & w2 & z2 & H3 & H4 & H5).
  apply step_path in H3. rewrite Hk in H3. destruct H3 as [_ [(Hi & _)|[_ (y & l & Hy & Hl & D & _)]]]; [discriminate|]. rewrite Hl, skipn_after in H4. rewrite H4 in *. specialize (Hq _ Hy). subst q.
  assert (Hlen : (length (queue y) <= length (attempts h))%nat /\ Forall (fun p => p_size p = length (p_bytes p)) (queue y)).
  { destruct I as [I1 I2 _ _]. rewrite <- I1, map_length, app_length. destruct I2 as [|j v p q F B]; [split; [cbn; lia|constructor]|]. destruct (behind_length _ _ B). cbn. split; [lia|]. constructor; [apply F|assumption]. }
  destruct Hlen as [Hlen Sz]. inversion D; subst.
  - cbn. lia.
  - pose proof (loops_sends _ _ _ _ ltac:(eassumption) Sz Hf). lia.
  - assert (Hr : sends (concat (map (received x') bs) ++ [ERecv (sock x') None]) = 0%nat).
    { rewrite sends_app. change (sends [ERecv (sock x') None]) with 0%nat. rewrite Nat.add_0_r. clear. induction bs as [|b bs IH]; [reflexivity|]. cbn [map concat]. rewrite sends_app, IH. unfold received. destruct (on_bytes x'); reflexivity. }
    match goal with H : _ = s_events k |- _ => rewrite <- H in Hf; rewrite <- ?H end. rewrite sends_app, Hr. assert (Hf' : forall fd b r, In (ESend fd b r) l0 -> r = Z.of_nat (length b) \/ r = -1) by (intros fd b r Hin; apply (Hf fd b r), in_or_app; auto).
    pose proof (loops_sends _ _ _ _ ltac:(eassumption) Sz Hf'). lia.
Qed.
(* But if the kernel takes one byte at a time, dowork need not return: it has made more sends than
   any number, for three accepted bytes. *)
Lemma spin n : forall w x p, queue x = [p] -> p_size p = 2%nat -> length (p_bytes p) = 2%nat ->
  exists w' x' l, send_pending (repeat 1 n) w x = (w', x') /\ log w' = log w ++ l /\ cut w' = true /\ sends l = n /\ progress l.
Proof.
  induction n as [|n IH]; intros w x p Hq Hs Hl.
  - cbn [repeat send_pending]. rewrite Hq. do 3 eexists. split; [reflexivity|]. split; [cbn; symmetry; apply app_nil_r|]. split; [reflexivity|]. split; [reflexivity|]. intros fd b r [].
  - cbn [repeat send_pending]. rewrite Hq, Hs. change (kernel_takes 1 2) with 1. change (negb (1 =? Z.of_nat 2)) with true. change (1 =? -1) with false. cbn iota. cbv zeta.
    match goal with |- context [send_pending (repeat 1 n) ?w1 ?x1] => destruct (IH w1 x1 _ eq_refl eq_refl) as (w' & x' & l & E & H1 & H2 & H3 & H4) end.
    { cbn [p_bytes]. unfold memmove_front. rewrite app_length, firstn_length, !skipn_length, Hl. reflexivity. }
    rewrite E. exists w', x', (ESend (sock x) (firstn 2 (p_bytes p)) 1 :: l). split; [reflexivity|]. rewrite H1. cbn [log emit]. split; [rewrite <- app_assoc; reflexivity|]. split; [exact H2|]. split; [unfold sends in *; cbn; rewrite H3; reflexivity|].
    intros fd b r [Hin|Hin]; [injection Hin as <- <- <-; lia|eapply H4; exact Hin].
Qed.
Lemma history_app a : forall b w z h w1 z1, history w a z = Some ((h, w1), z1) -> forall h2 w2 z2, history w1 b z1 = Some ((h2, w2), z2) -> history w (a ++ b) z = Some ((h ++ h2, w2), z2).
Proof.
  induction a as [|o a IH]; intros b w z h w1 z1 E h2 w2 z2 E2; cbn [history app] in *.
  - injection E as <- <- <-. exact E2.
  - unfold bind in *. destruct (step w o z) as [[[r w3] z3]|]; [|discriminate]. cbn [fst snd] in *. destruct (history w3 a z3) as [[[h3 w4] z4]|] eqn:E3; [|discriminate]. cbn in E. injection E as <- <- <-. rewrite (IH b _ _ _ _ _ E3 _ _ _ E2). reflexivity.
Qed.
Definition spin_io : sio := {| sock := -1; on_bytes := None; on_bytes_ctx := None; on_error := None; on_error_ctx := None; hostname := Some (str "host"); port := 443; state := CLOSED; queue := [] |}.
Definition spin_world (n : nat) : world := newborn spin_io ok5 (1 :: repeat 1 n) [].
Lemma spin_start n : exists h w2 y p, history (spin_world n) [open1; send1 [1; 2; 3]%N 10] [] = Some ((h, w2), []) /\ k_send w2 = repeat 1 n /\ io w2 = Some y /\ state y = OPEN /\ cut w2 = false /\ queue y = [p] /\ p_size p = 2%nat /\ length (p_bytes p) = 2%nat /\ length (accepted_bytes h) = 3%nat.
Proof.
  unfold spin_world. generalize (repeat 1 n) as l. intros l. do 4 eexists. split; [vm_compute; reflexivity|]. repeat split.
Qed.
Theorem dowork_returns_refuted : forall n, exists c h k w, runs c (h ++ [k]) w /\ s_op k = ODowork true /\ length (accepted_bytes h) = 3%nat /\ progress (s_events k) /\ sends (s_events k) = n.
Proof.
  intros n. pose proof (spin_start n) as H2.
  destruct H2 as (h & w2 & y & p & E & Ek & Ey & Hst & Hc & Hq & Hs & Hl & Ha). destruct (spin n w2 y p Hq Hs Hl) as (w3 & x3 & l & E3 & L3 & C3 & S3 & P3).
  assert (Es : step w2 (ODowork true) [] = Some ((None, set_io w3 (Some x3)), [])).
  { unfold step. rewrite Hc. unfold bind, lift. rewrite Ey. unfold socketio_dowork. rewrite Hst, Ek, E3. cbn [cut set_io]. rewrite C3. reflexivity. }
  exists cfg, h, {| s_op := ODowork true; s_ret := None; s_events := l |}, (set_io w3 (Some x3)). split; [|split; [reflexivity|split; [exact Ha|split; [exact P3|exact S3]]]].
  exists [], spin_io, [], ok5, (1 :: repeat 1 n), [], ([open1; send1 [1; 2; 3]%N 10] ++ [ODowork true]), []. split; [reflexivity|].
  refine (history_app _ _ _ _ _ _ _ E _ _ _ _). cbn [history]. unfold bind. rewrite Es. cbn [fst snd ret log set_io]. rewrite L3, skipn_after. reflexivity.
Qed.

(* Histories that meet the hypotheses: with a partial send, received bytes, a close and a second connection. *)
Definition example_ops : list op :=
  [OSend true (Some [9]%N) 1 None None; open1; send1 [1; 2; 3]%N 10; send1 [4]%N 11; ODowork true; send1 [5; 6]%N 12; OClose true (Some 5%nat) None; OClose true None None; open1; ODestroy true].
Example socket_example :
  option_map (fun x => map (fun k => (s_ret k, s_events k)) (fst x)) (demo cfg [] [7; 0; 0; 0; 0; 8; 1] [2; 1; 1; 2] [Some 65%N; Some 66%N; None] example_ops)
  = Some [(Some 381, []);
          (Some 0, [ESocket 7; EGetaddrinfo (Some (str "host")) 443 0; EConnect 7 0; EFcntl 7 0; EFcntl 7 0; EOpenComplete 1 None true]);
          (Some 0, [ESend 7 [1; 2; 3]%N 2]); (Some 0, []);
          (None, [ESend 7 [3]%N 1; ESendComplete 4 (Some 10%nat) 0; ESend 7 [4]%N 1; ESendComplete 4 (Some 11%nat) 0; ERecv 7 (Some 65%N); EBytesReceived 2 None [65%N]; ERecv 7 (Some 66%N); EBytesReceived 2 None [66%N]; ERecv 7 None]);
          (Some 0, [ESend 7 [5; 6]%N 2; ESendComplete 4 (Some 12%nat) 0]);
          (Some 0, [EShutdown 7; ECloseFd 7; ECloseComplete 5 None]); (Some 0, []);
          (Some 277, [ESocket 8; EGetaddrinfo (Some (str "host")) 443 1; ECloseFd 8]); (None, [])].
Proof. reflexivity. Qed.
Example smooth_example : exists h w, runs cfg h w /\ Forall smooth h /\ handed (observed h) = [1; 2; 3; 4; 5; 6]%N.
Proof.
  do 2 eexists. split; [apply (demo_runs cfg [] [7; 0; 0; 0; 0; 8; 1] [2; 1; 1; 2] [Some 65%N; Some 66%N; None] example_ops); vm_compute; reflexivity|]. split; [|reflexivity].
  repeat (apply Forall_cons; [first [exact I|left; reflexivity|right; reflexivity|intros fd b r H; repeat (destruct H as [H|H]; [try discriminate; injection H as <- <- <-; reflexivity|]); destruct H]|]). apply Forall_nil.
Qed.
