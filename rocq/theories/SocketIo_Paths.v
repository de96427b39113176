(* The paths through each function of the socket io, as a relation. *)
From Verif Require Import Base SocketIo_Model SocketIo_Spec.
Open Scope Z_scope.

Definition push (x : sio) (b : list N) (cb ctx : pointer) : sio :=
  set_queue x (queue x ++ [{| p_bytes := b; p_size := length b; p_callback := cb; p_context := ctx |}]).

(* the sending loop of dowork; the flag: it came to its end *)
Inductive loops : bool -> sio -> sio -> list event -> Prop :=
| L_end x : queue x = [] -> loops true x x []
| L_cut x : loops false x x []
| L_full d x x' l p rest : queue x = p :: rest -> Z.of_nat (p_size p) <= max_rw -> loops d (set_queue x rest) x' l ->
    loops d x x' (ESend (sock x) (firstn (p_size p) (p_bytes p)) (Z.of_nat (p_size p)) :: call (p_callback p) (fun c => ESendComplete c (p_context p) 0) ++ l)
| L_fail d x x' l p rest : queue x = p :: rest -> loops d (set_state (set_queue x rest) ERROR) x' l ->
    loops d x x' (ESend (sock x) (firstn (p_size p) (p_bytes p)) (-1) :: indicate_error x ++ l)
| L_part d x x' l p rest r : queue x = p :: rest -> (r < p_size p)%nat ->
    loops d (set_queue x ({| p_bytes := memmove_front (p_bytes p) r (p_size p); p_size := p_size p; p_callback := p_callback p; p_context := p_context p |} :: rest)) x' l ->
    loops d x x' (ESend (sock x) (firstn (p_size p) (p_bytes p)) (Z.of_nat r) :: l).

Definition received (x : sio) (b : N) : list event := ERecv (sock x) (Some b) :: call (on_bytes x) (fun c => EBytesReceived c (on_bytes_ctx x) [b]).

(* one call on the io x: its result, the io after it, the events *)
Inductive did (x : sio) : op -> option Z -> option sio -> list event -> Prop :=
| D_open_no a b c d e f r : state x <> CLOSED -> r <> 0 -> did x (OOpen true a b c d e f) (Some r) (Some x) []
| D_open_accepted a b c d e f : state x = CLOSED -> sock x <> -1 ->
    did x (OOpen true a b c d e f) (Some 0) (Some (set_state (set_callbacks x c d e f) OPEN)) (call a (fun q => EOpenComplete q b true))
| D_open_nosocket a b c d e f r : state x = CLOSED -> sock x = -1 -> r <> 0 -> did x (OOpen true a b c d e f) (Some r) (Some (set_sock x (-1))) [ESocket (-1)]
| D_open_failed a b c d e f r fd e1 : state x = CLOSED -> sock x = -1 -> r <> 0 -> 0 <= fd ->
    (exists v, e1 = [EGetaddrinfo (hostname x) (port x) v] /\ v <> 0) \/
    (exists v, e1 = [EGetaddrinfo (hostname x) (port x) 0; EConnect fd v] /\ v <> 0) \/
    e1 = [EGetaddrinfo (hostname x) (port x) 0; EConnect fd 0; EFcntl fd (-1)] \/
    (exists v, e1 = [EGetaddrinfo (hostname x) (port x) 0; EConnect fd 0; EFcntl fd v; EFcntl fd (-1)]) ->
    did x (OOpen true a b c d e f) (Some r) (Some (set_sock x (-1))) (ESocket fd :: e1 ++ [ECloseFd fd])
| D_open_ok a b c d e f fd v1 v2 : state x = CLOSED -> sock x = -1 -> 0 <= fd ->
    did x (OOpen true a b c d e f) (Some 0) (Some (set_state (set_callbacks (set_sock x fd) c d e f) OPEN))
      ([ESocket fd; EGetaddrinfo (hostname x) (port x) 0; EConnect fd 0; EFcntl fd v1; EFcntl fd v2] ++ call a (fun q => EOpenComplete q b true))
| D_close_no a b : state x = CLOSED \/ state x = CLOSING -> did x (OClose true a b) (Some 0) (Some x) []
| D_close a b : state x <> CLOSED -> did x (OClose true a b) (Some 0) (Some (set_state (set_sock x (-1)) CLOSED))
      ([EShutdown (sock x); ECloseFd (sock x)] ++ call a (fun c => ECloseComplete c b))
| D_send_no buf n cb ctx r : state x <> OPEN -> r <> 0 -> did x (OSend true (Some buf) (S n) cb ctx) (Some r) (Some x) []
| D_send_queued buf n cb ctx : state x = OPEN -> queue x <> [] -> (S n <= length buf)%nat ->
    did x (OSend true (Some buf) (S n) cb ctx) (Some 0) (Some (push x (firstn (S n) buf) cb ctx)) []
| D_send_noroom buf n cb ctx r : state x = OPEN -> queue x <> [] -> r <> 0 -> did x (OSend true (Some buf) (S n) cb ctx) (Some r) (Some x) []
| D_send_full buf n cb ctx : state x = OPEN -> queue x = [] -> (S n <= length buf)%nat ->
    did x (OSend true (Some buf) (S n) cb ctx) (Some 0) (Some x) (ESend (sock x) (firstn (S n) buf) (Z.of_nat (S n)) :: call cb (fun c => ESendComplete c ctx 0))
| D_send_fail buf n cb ctx r : state x = OPEN -> queue x = [] -> r <> 0 ->
    did x (OSend true (Some buf) (S n) cb ctx) (Some r) (Some x) (ESend (sock x) (firstn (S n) buf) (-1) :: indicate_error x)
| D_send_part buf n cb ctx k : state x = OPEN -> queue x = [] -> (S n <= length buf)%nat -> (k < S n)%nat ->
    did x (OSend true (Some buf) (S n) cb ctx) (Some 0) (Some (push x (skipn k (firstn (S n) buf)) cb ctx)) [ESend (sock x) (firstn (S n) buf) (Z.of_nat k)]
| D_send_partfail buf n cb ctx r k : state x = OPEN -> queue x = [] -> (S n <= length buf)%nat -> (k < S n)%nat -> r <> 0 ->
    did x (OSend true (Some buf) (S n) cb ctx) (Some r) (Some x) [ESend (sock x) (firstn (S n) buf) (Z.of_nat k)]
| D_dowork_no : state x <> OPEN -> did x (ODowork true) None (Some x) []
| D_dowork_cut x' l : state x = OPEN -> loops false x x' l -> did x (ODowork true) None (Some x') l
| D_dowork x' l bs : state x = OPEN -> loops true x x' l -> did x (ODowork true) None (Some x') (l ++ concat (map (received x') bs) ++ [ERecv (sock x') None])
| D_destroy : did x (ODestroy true) None None (if sock x =? -1 then [] else [ECloseFd (sock x)]).

(* a call that gets no further than its arguments *)
Definition idle (o : op) : bool :=
  match o with
  | OOpen h _ _ _ _ _ _ | OClose h _ _ | ODowork h | ODestroy h => negb h
  | OSetOption _ => true
  | OSend h buf size _ _ => negb h || (match buf with None => true | Some _ => false end) || (size =? 0)%nat
  end.

Lemma kernel_cases a n : kernel_takes a n = -1 \/ exists k, kernel_takes a n = Z.of_nat k /\ (k <= n)%nat /\ Z.of_nat k <= max_rw.
Proof.
  unfold kernel_takes. destruct (a <? 0) eqn:E; [left; reflexivity|right].
  exists (Z.to_nat (Z.min a (Z.min (Z.of_nat n) max_rw))). assert (0 <= max_rw) by discriminate. lia.
Qed.

Lemma send_pending_path answers : forall w x w' x', cut w = false -> send_pending answers w x = (w', x') ->
  exists l, log w' = log w ++ l /\ loops (negb (cut w')) x x' l /\ k_recv w' = k_recv w /\ io w' = io w.
Proof.
  induction answers as [|a answers IH]; intros w x w' x' Hc E; cbn [send_pending] in E; destruct (queue x) as [|p rest] eqn:Eq.
  - injection E as <- <-. exists []. cbn. rewrite Hc, app_nil_r. cbn. repeat split. apply L_end, Eq.
  - injection E as <- <-. exists []. cbn. rewrite app_nil_r. repeat split. apply L_cut.
  - injection E as <- <-. exists []. cbn. rewrite Hc, app_nil_r. cbn. repeat split. apply L_end, Eq.
  - destruct (kernel_cases a (p_size p)) as [Ek|(k & Ek & Hk & Hm)]; rewrite Ek in E.
    + assert (Hn : negb (-1 =? Z.of_nat (p_size p)) = true) by lia. rewrite Hn in E. cbn [Z.eqb Pos.eqb] in E. change (-1 =? -1) with true in E. cbn iota in E.
      apply IH in E; [|exact Hc]. destruct E as (l & El & Hl & H1 & H2). eexists. split; [|split; [eapply L_fail; eassumption|split; assumption]].
      rewrite El. cbn. rewrite <- !app_assoc. reflexivity.
    + destruct (Z.eqb_spec (Z.of_nat k) (Z.of_nat (p_size p))) as [Hf|Hp]; cbn [negb] in E.
      * apply IH in E; [|exact Hc]. destruct E as (l & El & Hl & H1 & H2). rewrite Hf in El. eexists. split; [|split; [eapply L_full; try eassumption; lia|split; assumption]].
        rewrite El. cbn. rewrite <- !app_assoc. reflexivity.
      * replace (Z.of_nat k =? -1) with false in E by lia. rewrite Nat2Z.id in E. apply IH in E; [|exact Hc]. destruct E as (l & El & Hl & H1 & H2). eexists. split; [|split; [eapply (L_part _ _ _ l p rest k); try eassumption; lia|split; assumption]].
        rewrite El. cbn. rewrite <- !app_assoc. reflexivity.
Qed.
Lemma receive_path answers : forall w x, exists bs, log (receive answers w x) = log w ++ concat (map (received x) bs) ++ [ERecv (sock x) None] /\ cut (receive answers w x) = cut w /\ io (receive answers w x) = io w.
Proof.
  induction answers as [|[b|] answers IH]; intros w x; cbn [receive].
  - exists []. cbn. auto.
  - destruct (IH (emit w (ERecv (sock x) (Some b) :: call (on_bytes x) (fun c => EBytesReceived c (on_bytes_ctx x) [b]))) x) as (bs & El & H). exists (b :: bs). split; [|exact H].
    rewrite El. cbn [emit log map concat]. unfold received at 2. rewrite <- !app_assoc. reflexivity.
  - exists []. cbn. auto.
Qed.

Lemma add_pending_path x b cb ctx o r o' : add_pending_io x b cb ctx o = Some (r, o') -> (fst r = true /\ snd r = push x b cb ctx) \/ (fst r = false).
Proof.
  unfold add_pending_io, bind. destruct (alloc_spec o) as (k1 & o1 & u1 & E1 & _). rewrite E1. destruct k1; cbn [negb]; [|intros E; injection E as <- <-; auto].
  destruct (alloc_spec o1) as (k2 & o2 & u2 & E2 & _). rewrite E2. destruct k2; cbn [negb]; [|intros E; injection E as <- <-; auto].
  destruct (alloc_spec o2) as (k3 & o3 & u3 & E3 & _). rewrite E3. destruct k3; cbn [negb]; intros E; injection E as <- <-; auto.
Qed.

Lemma step_path w o z r w' z' : step w o z = Some ((r, w'), z') ->
  cut w = false /\ ((idle o = true /\ w' = w /\ r <> Some 0) \/
  (cut w' = true -> exists b, o = ODowork b) /\ exists x l, io w = Some x /\ log w' = log w ++ l /\ did x o r (io w') l /\
     match o with ODowork _ => forall y, state x = OPEN -> io w' = Some y -> cut w' = false -> queue y = [] | _ => True end).
Proof.
  unfold step. destruct (cut w) eqn:Ec; [discriminate|]. intros E. split; [reflexivity|].
  destruct o as [h a b c d e f|h a b|h buf size cb ctx|h|h|h].
  - destruct h; [right|injection E as <- <- <-; left; repeat split; discriminate]. unfold bind, lift in E. destruct (io w) as [x|] eqn:Ei; [|discriminate]. destruct (socketio_open w x a b c d e f) as [q w1] eqn:Eo. cbn in E. injection E as <- <- <-.
    unfold socketio_open in Eo. destruct (state x) eqn:Es; try (injection Eo as <- <-; split; [congruence|]; exists x, []; rewrite app_nil_r, Ei; repeat split; apply D_open_no; [congruence|lia]).
    destruct (Z.eqb_spec (sock x) (-1)) as [Hs|Hs]; cbn [negb] in Eo.
    + cbn [next_sys] in Eo. cbv zeta in Eo. set (fd := Z.max (-1) (hd 0 (k_sys w))) in *. destruct (Z.ltb_spec fd 0) as [Hf|Hf].
      { injection Eo as <- <-. split; [cbn; congruence|]. assert (fd = -1) by lia. exists x, [ESocket fd]. cbn. repeat split. rewrite H. apply D_open_nosocket; auto; lia. }
      cbn [emit set_io next_sys k_sys log io cut] in Eo. match type of Eo with context [negb (?e =? 0)] => destruct (Z.eqb_spec e 0) as [H1|H1]; cbn [negb] in Eo end.
      2:{ injection Eo as <- <-. split; [cbn; congruence|]. exists x. eexists. cbn. split; [reflexivity|]. split; [rewrite <- !app_assoc; reflexivity|]. split; [|exact I]. eapply (D_open_failed x a b c d e f _ fd [_]); auto; [lia|]. left. eexists. split; [reflexivity|exact H1]. }
      cbn [emit set_io next_sys k_sys log io cut] in Eo. match type of Eo with context [negb (?e =? 0)] => destruct (Z.eqb_spec e 0) as [H2|H2]; cbn [negb] in Eo end.
      2:{ injection Eo as <- <-. split; [cbn; congruence|]. exists x. eexists. cbn. split; [reflexivity|]. split; [rewrite <- !app_assoc; reflexivity|]. split; [|exact I]. eapply (D_open_failed x a b c d e f _ fd [_; _]); auto; [lia|]. right. left. rewrite H1. eexists. split; [reflexivity|exact H2]. }
      cbn [emit set_io next_sys k_sys log io cut] in Eo. match type of Eo with context [if ?e =? -1 then _ else _] => destruct (Z.eqb_spec e (-1)) as [H3|H3]; cbn [negb] in Eo end.
      { injection Eo as <- <-. split; [cbn; congruence|]. exists x. eexists. cbn. split; [reflexivity|]. split; [rewrite <- !app_assoc; reflexivity|]. split; [|exact I]. eapply (D_open_failed x a b c d e f _ fd [_; _; _]); auto; [lia|]. do 2 right. left. rewrite H1, H2, H3. reflexivity. }
      cbn [emit set_io next_sys k_sys log io cut] in Eo. match type of Eo with context [if ?e =? -1 then _ else _] => destruct (Z.eqb_spec e (-1)) as [H4|H4]; cbn [negb] in Eo end.
      { injection Eo as <- <-. split; [cbn; congruence|]. exists x. eexists. cbn. split; [reflexivity|]. split; [rewrite <- !app_assoc; reflexivity|]. split; [|exact I]. eapply (D_open_failed x a b c d e f _ fd [_; _; _; _]); auto; [lia|]. do 3 right. eexists. rewrite H1, H2, H4. reflexivity. }
      injection Eo as <- <-. split; [cbn; congruence|]. exists x. eexists. cbn. split; [reflexivity|]. split; [rewrite <- !app_assoc; reflexivity|]. split; [|exact I]. rewrite H1, H2. apply D_open_ok; auto.
    + injection Eo as <- <-. split; [cbn; congruence|]. exists x. eexists. cbn. split; [reflexivity|]. split; [reflexivity|]. split; [|exact I]. apply D_open_accepted; auto.
  - destruct h; [right|injection E as <- <- <-; left; repeat split; discriminate]. unfold bind, lift in E. destruct (io w) as [x|] eqn:Ei; [|discriminate]. destruct (socketio_close w x a b) as [q w1] eqn:Eo. cbn in E. injection E as <- <- <-.
    unfold socketio_close in Eo. destruct (state x) eqn:Es; injection Eo as <- <-; (split; [cbn; congruence|]); exists x.
    all: try (exists []; rewrite app_nil_r, Ei; repeat split; apply D_close_no; auto; fail).
    all: eexists; cbn; (split; [reflexivity|]); (split; [rewrite <- !app_assoc; reflexivity|]); (split; [|exact I]); apply D_close; congruence.
  - destruct h, buf as [buf|]; try (injection E as <- <- <-; left; repeat split; discriminate). destruct size as [|n]; [injection E as <- <- <-; left; repeat split; discriminate|]. right.
    change (S n =? 0)%nat with false in E. cbn iota in E. unfold bind, lift in E. destruct (io w) as [x|] eqn:Ei; [|discriminate]. destruct (Nat.leb_spec (S n) (length buf)) as [Hn|Hn]; [|discriminate].
    assert (Hlen : length (firstn (S n) buf) = S n) by (rewrite firstn_length; lia).
    set (b := firstn (S n) buf) in *.
    destruct (socketio_send w x b cb ctx z) as [[[q w1] z1]|] eqn:Eo; [|discriminate]. cbn in E. injection E as <- <- <-.
    unfold socketio_send in Eo. destruct (state x) eqn:Es; try (injection Eo as <- <- <-; split; [congruence|]; exists x, []; rewrite app_nil_r, Ei; repeat split; apply D_send_no; [congruence|lia]).
    destruct (queue x) as [|p rest] eqn:Eq.
    + cbv zeta in Eo. rewrite Hlen in Eo. match type of Eo with context [kernel_takes ?e ?n] => destruct (kernel_cases e n) as [Ek|(k & Ek & Hk & _)]; rewrite Ek in Eo end.
      * replace (negb (-1 =? Z.of_nat (S n))) with true in Eo by lia. change (-1 =? -1) with true in Eo. cbn iota in Eo. cbn in Eo. injection Eo as <- <- <-. split; [cbn; congruence|].
        exists x. eexists. cbn [io log emit set_sends]. split; [reflexivity|]. split; [rewrite <- app_assoc; reflexivity|]. split; [|exact I]. rewrite Ei. apply D_send_fail; auto; lia.
      * destruct (Z.eqb_spec (Z.of_nat k) (Z.of_nat (S n))) as [Hf|Hp]; cbn [negb] in Eo.
        -- injection Eo as <- <- <-. split; [cbn; congruence|]. exists x. eexists. cbn [io log emit set_sends]. split; [reflexivity|]. split; [rewrite <- app_assoc; reflexivity|]. split; [|exact I]. rewrite Hf, Ei. apply D_send_full; auto.
        -- replace (Z.of_nat k =? -1) with false in Eo by lia. rewrite Nat2Z.id in Eo. unfold bind in Eo. destruct (add_pending_io _ _ _ _ z) as [[rq z2]|] eqn:Ea; [|discriminate]. apply add_pending_path in Ea.
           destruct Ea as [[E1 E2]|E1]; rewrite E1 in Eo; cbn [negb ret] in Eo; injection Eo as <- <- <-; (split; [cbn [cut set_io emit set_sends]; congruence|]); exists x; eexists; cbn [io log emit set_sends set_io]; (split; [reflexivity|]); (split; [reflexivity|]); (split; [|exact I]).
           ++ rewrite E2. apply D_send_part; auto; lia.
           ++ rewrite Ei. apply D_send_partfail; auto; lia.
    + unfold bind in Eo. destruct (add_pending_io _ _ _ _ z) as [[rq z2]|] eqn:Ea; [|discriminate]. apply add_pending_path in Ea.
      destruct Ea as [[E1 E2]|E1]; rewrite E1 in Eo; cbn [negb ret] in Eo; injection Eo as <- <- <-; (split; [cbn [cut set_io emit set_sends]; congruence|]); exists x, []; cbn [io log emit set_sends set_io]; rewrite app_nil_r; (split; [reflexivity|]); (split; [reflexivity|]); (split; [|exact I]).
      * rewrite E2. apply D_send_queued; auto. congruence.
      * rewrite Ei. apply D_send_noroom; auto; [congruence|lia].
  - destruct h; [right|injection E as <- <- <-; left; repeat split; discriminate]. unfold bind, lift in E. destruct (io w) as [x|] eqn:Ei; [|discriminate]. cbn in E. injection E as <- <- <-. split; [eauto|].
    exists x. unfold socketio_dowork. destruct (state x) eqn:Es; try (exists []; rewrite app_nil_r, Ei; repeat split; [apply D_dowork_no; congruence|intros; congruence]).
    destruct (send_pending (k_send w) w x) as [w1 x1] eqn:Ep. pose proof (send_pending_path _ _ _ _ _ Ec Ep) as (l & El & Hl & Hr & Hi). cbn [cut set_io].
    destruct (cut w1) eqn:Ec1.
    + exists l. cbn. split; [reflexivity|]. split; [exact El|]. split; [apply D_dowork_cut; auto|]. intros y _ _ H. congruence.
    + destruct (receive_path (k_recv (set_io w1 (Some x1))) (set_io w1 (Some x1)) x1) as (bs & Eb & Hc & Hio). exists (l ++ concat (map (received x1) bs) ++ [ERecv (sock x1) None]). split; [reflexivity|]. split; [|split].
      * rewrite Eb. cbn. rewrite El, <- !app_assoc. reflexivity.
      * rewrite Hio. cbn. apply D_dowork; auto.
      * intros y _ Hy _. rewrite Hio in Hy. cbn in Hy. injection Hy as <-. clear - Hl. cbn in Hl. remember true as d eqn:Ed in Hl. induction Hl; try discriminate; auto.
  - injection E as <- <- <-. left. repeat split. discriminate.
  - destruct h; [right|injection E as <- <- <-; left; repeat split; discriminate]. unfold bind, lift in E. destruct (io w) as [x|] eqn:Ei; [|discriminate]. cbn in E. injection E as <- <- <-. split; [cbn; congruence|].
    exists x. eexists. cbn. split; [reflexivity|]. split; [reflexivity|]. split; [|exact I]. apply D_destroy.
Qed.
