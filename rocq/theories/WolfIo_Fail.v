(* What goes wrong in a wolfSSL io, for every engine that behaves as wolfSSL does: C100, C101, C103. *)
From Verif Require Import Base WolfIo_Model WolfIo_Spec WolfIo_Logic WolfIo_Frame WolfIo_Flow WolfIo_Open.
Open Scope Z_scope.

(* ---------------- C100 ---------------- *)
(* wolfSSL_connect reports the end of the handshake and succeeds, without any input or output *)
Definition connects (E : engine) (s s' : est E) : Prop :=
  exists s1, e_step E s (IBegin WConnect) = (s1, WHandshakeDone) /\ e_step E s1 IDone = (s', WReturn 1 []).
(* wolfSSL_write puts b into two records *)
Definition writes_two (E : engine) (s : est E) (b r1 r2 : list N) : Prop :=
  exists s1 s2 s3, e_step E s (IBegin (WWrite b)) = (s1, WSend r1) /\ e_step E s1 (ISent (Z.of_nat (length r1))) = (s2, WSend r2) /\
    e_step E s2 (ISent (Z.of_nat (length r2))) = (s3, WReturn (Z.of_nat (length b)) []).
Definition yes : answer := {| a_actions := []; a_ret := 0 |}.


(* symbolic execution: m completes in a world satisfying Q *)
Section Exec.
Context (E : engine).
Definition ends {A} (m : C E A) (Q : A -> world E -> Prop) (w : world E) : Prop := wp E (fun _ => False) m Q w.
Lemma ends_some {A} (m : C E A) (Q : A -> world E -> Prop) w : ends m Q w -> exists a, fst (m w) = Some a /\ Q a (snd (m w)).
Proof. unfold ends, wp. destruct (m w) as [ [a|] w']; [intros H; exists a; split; [reflexivity|exact H]|intros []]. Qed.
Lemma ends_yes f q (I : world E -> Prop) (Q : Z -> world E -> Prop) w l : answers E w = yes :: l -> Q 0 (add_log E (set_answers E (add_log E w (LAsk q)) l) (LAnswer q yes)) -> wp E I (environment E (S f) q) Q w.
Proof. intros H1 H2. cbn [environment]. wps. cbn [answers add_log]. rewrite H1. wps. cbn [acts a_actions yes]. wps. exact H2. Qed.
Lemma ends_running env loops n i (I : world E -> Prop) Q w : wp E I (bind E (ssl_step E i) (fun v => match v with
      | WReturn r b => done E (r, b)
      | WRecv size => bind E (on_io_recv E env loops size) (fun x => bind E (emit E (LTold (IGot (fst x) (snd x)))) (fun _ => running E env loops n (IGot (fst x) (snd x))))
      | WSend b => bind E (on_io_send E env b) (fun r => bind E (emit E (LTold (ISent r))) (fun _ => running E env loops n (ISent r)))
      | WHandshakeDone => bind E (on_handshake_done E env) (fun _ => bind E (emit E (LTold IDone)) (fun _ => running E env loops n IDone))
      end)) Q w -> wp E I (running E env loops (S n) i) Q w.
Proof. exact (fun H => H). Qed.
Lemma ends_acts_op env loops o l (I : world E -> Prop) Q w : wp E I (bind E (api E env loops o) (fun _ => acts E env loops l)) Q w -> wp E I (acts E env loops (AOp o :: l)) Q w.
Proof. exact (fun H => H). Qed.
Lemma ends_acts_event env loops e l (I : world E -> Prop) Q w : wp E I (bind E (handle E env loops e) (fun _ => acts E env loops l)) Q w -> wp E I (acts E env loops (AEvent e :: l)) Q w.
Proof. exact (fun H => H). Qed.
Lemma ends_acts_nil env loops (I : world E -> Prop) (Q : unit -> world E -> Prop) w : Q tt w -> wp E I (acts E env loops []) Q w.
Proof. exact (fun H => H). Qed.
Lemma ends_decode env loops n (I : world E -> Prop) Q w : wp E I (bind E (wolfSSL_read E env loops 64) (fun b => match b with
      | [] => done E tt
      | _ => bind E (get E) (fun w => bind E (match on_bytes E w with
          | None => done E tt
          | Some cb => bind E (env (QBytes cb (on_bytes_ctx E w) b)) (fun _ => done E tt)
          end) (fun _ => decode_ssl_received_bytes E env loops n))
      end)) Q w -> wp E I (decode_ssl_received_bytes E env loops (S n)) Q w.
Proof. exact (fun H => H). Qed.
End Exec.
Definition at_once : answer := {| a_actions := [AEvent (UOpened true)]; a_ret := 0 |}.
Lemma ends_at_once E f (I : world E -> Prop) (Q : Z -> world E -> Prop) w l : answers E w = at_once :: l ->
  wp E I (handle E (environment E f) f (UOpened true)) (fun _ w => Q 0 w) (add_log E (set_answers E (add_log E w (LAsk QOpen)) l) (LAnswer QOpen at_once)) -> wp E I (environment E (S f) QOpen) Q w.
Proof. intros H1 H2. cbn [environment]. wps. cbn [answers add_log]. rewrite H1. wps. cbn [acts a_actions at_once]. wps. eapply wp_imp; [exact H2|]. intros [] w' H3. wps. exact H3. Qed.
Ltac x1 := wp1 || (lazymatch goal with
  | |- wp _ _ (environment _ (S ?f) ?q) _ _ => first [eapply ends_yes; [reflexivity|]|eapply ends_at_once; [reflexivity|] ]
  | |- wp _ _ (if negb (?a =? ?a) then _ else _) _ _ => rewrite (Z.eqb_refl a); cbn [negb]
  | |- wp _ _ (match Some _ with _ => _ end) _ _ => idtac
  | |- wp _ _ (match None with _ => _ end) _ _ => idtac
  | |- wp _ _ (api _ _ _ _) _ _ => unfold api
  | |- wp _ _ (call _ _ _ _) _ _ => cbn [call]
  | |- wp _ _ (tlsio_wolfssl_open _ _ _ _ _ _ _ _ _) _ _ => unfold tlsio_wolfssl_open
  | |- wp _ _ (tlsio_wolfssl_close _ _ _ _) _ _ => unfold tlsio_wolfssl_close
  | |- wp _ _ (tlsio_wolfssl_send _ _ _ _ _ _) _ _ => unfold tlsio_wolfssl_send
  | |- wp _ _ (tlsio_wolfssl_dowork _ _ _) _ _ => unfold tlsio_wolfssl_dowork
  | |- wp _ _ (wolfSSL_connect _ _ _) _ _ => unfold wolfSSL_connect
  | |- wp _ _ (wolfSSL_write _ _ _ _) _ _ => unfold wolfSSL_write
  | |- wp _ _ (wolfSSL_read _ _ _ _) _ _ => unfold wolfSSL_read
  | |- wp _ _ (wolf _ _ _ _) _ _ => unfold wolf
  | |- wp _ _ (handle _ _ _ _) _ _ => unfold handle
  | |- wp _ _ (on_underlying_io_open_complete _ _ _ _) _ _ => unfold on_underlying_io_open_complete; cbn [negb]
  | |- wp _ _ (on_handshake_done _ _) _ _ => unfold on_handshake_done
  | |- wp _ _ (on_io_send _ _ _) _ _ => unfold on_io_send
  | |- wp _ _ (indicate_open_complete _ _ _) _ _ => unfold indicate_open_complete
  | |- wp _ _ (ssl_step _ _) _ _ => unfold ssl_step
  | |- wp _ _ (running _ _ _ (S _) _) _ _ => apply ends_running
  | |- wp _ _ (acts _ _ _ []) _ _ => apply ends_acts_nil
  | |- wp _ _ (acts _ _ _ (AOp _ :: _)) _ _ => apply ends_acts_op
  | |- wp _ _ (acts _ _ _ (AEvent _ :: _)) _ _ => apply ends_acts_event
  | |- wp _ _ (decode_ssl_received_bytes _ _ _ (S _)) _ _ => apply ends_decode
  end).
Ltac x0 := unfold ends; cbn [Nat.add].
Ltac lit := cbv beta iota delta [log state on_open on_open_ctx on_bytes on_bytes_ctx on_error on_error_ctx on_close on_close_ctx on_sent on_sent_ctx ssl rbytes answers allocs
       add_log set_state set_ssl set_rbytes set_allocs set_answers set_open_callbacks set_close_callback set_send_callback fst snd].
Ltac xs := repeat (x1; lit).
Lemma small_mod (b : list N) : Z.of_nat (length b) < 2147483648 -> Z.of_nat (length b) mod 18446744073709551616 = Z.of_nat (length b).
Proof. intros H. apply Z.mod_small. lia. Qed.
Lemma run_ends E f s al an l (Q : world E -> Prop) : ends E (acts E (environment E f) f l) (fun _ w => Q w) (initial E s al an) -> fst (run E f s al an l) = Some tt /\ Q (snd (run E f s al an l)).
Proof. intros H. apply ends_some in H. destruct H as ([] & H1 & H2). auto. Qed.

Lemma tail_snoc {A} (l t : list A) a : t <> [] -> last t a = a -> (exists k, l = k ++ removelast t) -> exists k, l ++ [a] = k ++ t.
Proof. intros H1 H2 [k ->]. exists k. rewrite <- app_assoc. f_equal. rewrite <- H2 at 1. symmetry. apply app_removelast_last. exact H1. Qed.
Ltac tails := repeat (apply tail_snoc; [discriminate|reflexivity|cbn [removelast] ]); eexists; symmetry; apply app_nil_r.

Ltac runs := cbv zeta; lazymatch goal with |- fst (run ?E ?f ?s ?al ?an ?l) = _ /\ ?P => let P' := eval pattern (snd (run E f s al an l)) in P in lazymatch P' with ?Q _ => apply (run_ends E f s al an l Q); cbv beta end end.

(* One send whose data wolfSSL puts in two records: the user's completion callback is handed to the
   underlying io twice, so it is called twice. *)
Theorem wolf_send_callback_twice_refuted : forall E s s' b r1 r2 cb ctx oo ooc ob obc oe oec n,
  connects E s s' -> writes_two E s' b r1 r2 -> Z.of_nat (length b) < 2147483648 ->
  let x := run E (4 + n) s [] [yes; yes; yes; yes] [AOp (OOpen true (Some oo) ooc ob obc oe oec); AOp (OSend true b cb ctx)] in
  fst x = Some tt /\ exists k, log E (snd x) = k ++ [LCall (OSend true b cb ctx); LBegin (WWrite b); LWant (WSend r1); LAsk (QSend r1 cb ctx); LAnswer (QSend r1 cb ctx) yes; LTold (ISent (Z.of_nat (length r1)));
                    LWant (WSend r2); LAsk (QSend r2 cb ctx); LAnswer (QSend r2 cb ctx) yes; LTold (ISent (Z.of_nat (length r2)));
                    LWant (WReturn (Z.of_nat (length b)) []); LReturn (OSend true b cb ctx) 0].
Proof.
  intros E s s' b r1 r2 cb ctx oo ooc ob obc oe oec n (s1 & C1 & C2) (t1 & t2 & t3 & W1 & W2 & W3) Hb. runs.
  unfold initial. x0. xs. rewrite C1. lit. xs. rewrite C2. lit. xs. rewrite W1. lit. xs. rewrite W2. lit. xs. rewrite W3. lit. xs.
  rewrite (small_mod b Hb), Z.eqb_refl. cbn [negb]. xs. tails.
Qed.
(* wolfSSL_read answers the peer (an alert, a renegotiation) *)
Definition reads_and_sends (E : engine) (s : est E) (r : list N) : Prop :=
  exists s1 s2, e_step E s (IBegin (WRead 64)) = (s1, WSend r) /\ e_step E s1 (ISent (Z.of_nat (length r))) = (s2, WReturn 0 []).
(* A send that was completed long ago: its callback is handed over again with a record that
   wolfSSL writes while it reads. *)
Theorem wolf_send_callback_stale_refuted : forall E s s' b r1 r2 cb ctx oo ooc ob obc oe oec n, connects E s s' ->
  (exists t1 t2, e_step E s' (IBegin (WWrite b)) = (t1, WSend r1) /\ e_step E t1 (ISent (Z.of_nat (length r1))) = (t2, WReturn (Z.of_nat (length b)) []) /\ reads_and_sends E t2 r2) ->
  Z.of_nat (length b) < 2147483648 ->
  let x := run E (4 + n) s [] [yes; yes; yes; yes; yes] [AOp (OOpen true (Some oo) ooc ob obc oe oec); AOp (OSend true b cb ctx); AOp (ODowork true)] in
  fst x = Some tt /\ exists k, log E (snd x) = k ++ [LBegin (WWrite b); LWant (WSend r1); LAsk (QSend r1 cb ctx); LAnswer (QSend r1 cb ctx) yes; LTold (ISent (Z.of_nat (length r1)));
                    LWant (WReturn (Z.of_nat (length b)) []); LReturn (OSend true b cb ctx) 0;
                    LCall (ODowork true); LBegin (WRead 64); LWant (WSend r2); LAsk (QSend r2 cb ctx); LAnswer (QSend r2 cb ctx) yes; LTold (ISent (Z.of_nat (length r2)));
                    LWant (WReturn 0 []); LRead []; LAsk QDowork; LAnswer QDowork yes; LReturn (ODowork true) 0].
Proof.
  intros E s s' b r1 r2 cb ctx oo ooc ob obc oe oec n (s1 & C1 & C2) (t1 & t2 & W1 & W2 & (t3 & t4 & W3 & W4)) Hb. runs.
  unfold initial. x0. xs. rewrite C1. lit. xs. rewrite C2. lit. xs. rewrite W1. lit. xs. rewrite W2. lit. xs.
  rewrite (small_mod b Hb), Z.eqb_refl. cbn [negb]. xs. rewrite W3. lit. xs. rewrite W4. lit. xs. rewrite firstn_nil. xs. tails.
Qed.

(* ---------------- C101 ---------------- *)
Definition opened_ok (e : event) : bool := match e with LAsk (QOpenComplete _ _ true) => true | _ => false end.
Definition underlying_opened (e : event) : bool := match e with LEvent (UOpened true) => true | _ => false end.
(* The underlying io reports that it is open before its open returns, as the socket io does.  The
   handshake is made twice; if wolfSSL reports its end each time, so does the io: *)
Theorem wolf_open_reported_twice_refuted : forall E s s' s'' oo ooc ob obc oe oec n, connects E s s' -> connects E s' s'' ->
  let x := run E (4 + n) s [] [at_once; yes; yes] [AOp (OOpen true (Some oo) ooc ob obc oe oec)] in
  fst x = Some tt /\ opens 0 (log E (snd x)) = 1%nat /\ count opened_ok (log E (snd x)) = 2%nat.
Proof.
  intros E s s' s'' oo ooc ob obc oe oec n (s1 & C1 & C2) (s2 & C3 & C4). runs.
  unfold initial. x0. xs. rewrite C1. lit. xs. rewrite C2. lit. xs. rewrite C3. lit. xs. rewrite C4. lit. xs. split; reflexivity.
Qed.
(* if it does not, the io is for ever in the handshake: the open was reported a success and returned
   0, and every send is refused. *)
Theorem wolf_open_stuck_refuted : forall E s s' s'' oo ooc ob obc oe oec b cb ctx n, connects E s s' -> e_step E s' (IBegin WConnect) = (s'', WReturn 1 []) ->
  let x := run E (4 + n) s [] [at_once; yes] [AOp (OOpen true (Some oo) ooc ob obc oe oec); AOp (OSend true b cb ctx)] in
  fst x = Some tt /\ opens 0 (log E (snd x)) = 1%nat /\ count opened_ok (log E (snd x)) = 1%nat /\ exists k, log E (snd x) = k ++ [LReturn (OSend true b cb ctx) 482].
Proof.
  intros E s s' s'' oo ooc ob obc oe oec b cb ctx n (s1 & C1 & C2) C3. runs.
  unfold initial. x0. xs. rewrite C1. lit. xs. rewrite C2. lit. xs. rewrite C3. lit. xs. split; [reflexivity|]. split; [reflexivity|]. tails.
Qed.

(* What holds: no more successes are reported than the underlying io was asked to open and
   reported to be open. *)
Section Reported.
Context (E : engine).
Definition in_handshake (w : world E) : nat := match state E w with IN_HANDSHAKE => 1 | _ => 0 end.
Definition IH (w : world E) : Prop := (count opened_ok (log E w) + in_handshake w <= count underlying_opened (log E w) + asked (log E w))%nat.
Definition RH (w w' : world E) : Prop :=
  (count opened_ok (log E w') + in_handshake w' + count underlying_opened (log E w) + asked (log E w) <= count opened_ok (log E w) + in_handshake w + count underlying_opened (log E w') + asked (log E w'))%nat.
#[local] Arguments count : simpl never.
Ltac hs := unfold IH, RH, asked, in_handshake in *; sim; rewrite ?count_snoc in *; cbn [is_underlying_open opened_ok underlying_opened] in *.
Ltac hs0 := intros; intros Hi; hs; repeat match goal with H : state _ _ = _ |- _ => rewrite H in * end; repeat match goal with |- context[match state _ ?w with _ => _ end] => destruct (state E w) end; lia.
Lemma hs_pieces : pieces_ok E IH RH (always E).
Proof.
  constructor; try (solve [unfold always; auto]); try solve [hs0].
  - intros w. unfold RH. lia.
  - unfold RH. intros. lia.
Qed.
Lemma hs_open : forall env loops, env_ok E IH RH env -> open_ok E IH RH env loops.
Proof.
  intros env loops He oo ooc ob obc oe oec w Hw Es. unfold api, call, tlsio_wolfssl_open. wps. cbn [state add_log]. rewrite Es. wps.
  eapply wp_env; [exact He| |].
  - hs. rewrite Es in *. lia.
  - intros r w1 H1 H2. destruct (negb (r =? 0)).
    + wps. hs. rewrite Es in *. destruct (state E w1); lia.
    + wps. assert (H3 : IH (set_state E w1 IN_HANDSHAKE)) by (hs; rewrite Es in *; destruct (state E w1); lia).
      eapply wp_imp; [apply (k_connect E IH RH (always E) hs_pieces env He); [exact H3|exact I]|]. intros z w2 [H5 H6].
      destruct (negb (z =? 1)); wps; hs; rewrite Es in *; destruct (state E w1), (state E w2); lia.
Qed.
Lemma hs_run f s al an l : IH (snd (run E f s al an l)).
Proof. apply (frame E IH RH (always E) hs_pieces); [exact hs_open|]. cbv. lia. Qed.
End Reported.
Theorem wolf_open_reported_partial : forall E f s al an l, let h := log E (snd (run E f s al an l)) in
  (count opened_ok h <= count underlying_opened h + count is_underlying_open h)%nat.
Proof. intros E f s al an l h. pose proof (hs_run E f s al an l) as H. unfold IH, asked in H. unfold h. lia. Qed.

(* ---------------- C103 ---------------- *)
Definition is_dowork (e : event) : bool := match e with LAsk QDowork => true | _ => false end.
(* m does not come back; it is cut only because no more answers are given: it used all of them,
   and called the dowork of the underlying io [asks] times *)
Definition spins {A} (E : engine) (m : C E A) (w : world E) (asks : nat) : Prop :=
  fst (m w) = None /\ answers E (snd (m w)) = [] /\ exists t, log E (snd (m w)) = log E w ++ t /\ count is_dowork t = asks.
Lemma wp_weaken E {A} (I I' : world E -> Prop) (m : C E A) (Q : A -> world E -> Prop) w : (forall w', I w' -> I' w') -> wp E I m Q w -> wp E I' m Q w.
Proof. unfold wp. destruct (m w) as [ [a|] w']; auto. Qed.
Section Spin.
Context (E : engine).
Definition used (l0 : list event) (k : nat) (w : world E) : Prop := answers E w = [] /\ exists t, log E w = l0 ++ t /\ count is_dowork t = k.
Lemma used_step l0 e k w : used (l0 ++ [e]) k w -> used l0 ((if is_dowork e then 1 else 0) + k) w.
Proof. intros (H1 & t & H2 & H3). split; [exact H1|]. exists (e :: t). rewrite H2, <- app_assoc. split; [reflexivity|]. unfold count in *. cbn [filter]. destruct (is_dowork e); cbn; lia. Qed.
Lemma wp_spins {A} (m : C E A) w k : wp E (used (log E w) k) m (fun _ _ => False) w -> spins E m w k.
Proof. unfold wp, spins. destruct (m w) as [ [a|] w']; [intros []|]. intros [H1 H2]. auto. Qed.
Lemma await_spins f : forall n w (Q : unit -> world E -> Prop), state E w <> OPEN -> rbytes E w = [] -> Forall inert (answers E w) -> (length (answers E w) < n)%nat ->
  wp E (used (log E w) (S (length (answers E w)))) (await_bytes E (environment E (S f)) n) Q w.
Proof.
  induction n as [|n IH]; intros w Q Hs Hr Hi Hn; [lia|]. cbn [await_bytes]. wps. rewrite Hr. wps. cbn [environment]. wps. cbn [answers add_log]. destruct (answers E w) as [|a l] eqn:Ea.
  - wps. split; [exact Ea|]. eexists. split; [reflexivity|]. reflexivity.
  - inversion Hi as [|? ? Ha Hl]; subst. wps. unfold inert in Ha. rewrite Ha. cbn [acts]. wps. set (w1 := add_log E _ _). cbn in Hn.
    assert (H1 : wp E (used (log E w1) (S (length (answers E w1)))) (await_bytes E (environment E (S f)) n) Q w1) by (apply IH; cbn; [exact Hs|exact Hr|exact Hl|lia]).
    apply (wp_weaken E _ (used (log E w) (S (length (a :: l))))) in H1; [|intros w' Hu; apply used_step, used_step in Hu; exact Hu].
    change (state E w1) with (state E w). destruct (state E w); try exact H1. contradiction.
Qed.
(* whatever wolfSSL is doing, when it wants bytes *)
Lemma running_spins f i s1 size : forall n loops w (Q : Z * list N -> world E -> Prop), e_step E (ssl E w) i = (s1, WRecv size) -> state E w <> OPEN -> rbytes E w = [] -> Forall inert (answers E w) -> (length (answers E w) < loops)%nat ->
  wp E (used (log E w) (S (length (answers E w)))) (running E (environment E (S f)) loops (S n) i) Q w.
Proof.
  intros n loops w Q He Hs Hr Hi Hn. apply ends_running. unfold ssl_step. wps. rewrite He. cbn [fst snd]. wps. unfold on_io_recv. wps.
  set (w1 := add_log E _ _). eapply wp_weaken; [|apply (await_spins f loops w1); assumption]. intros w' Hu. apply used_step in Hu. exact Hu.
Qed.
End Spin.
(* dowork never returns on an io that was closed, as long as no bytes come (and the underlying io
   is closed, so none will): it calls the dowork of the underlying io for ever.  The same holds
   while the io is being opened. *)
Theorem wolf_dowork_never_returns_refuted : forall E w s1 size f n, state E w <> NOT_OPEN -> state E w <> ERROR -> state E w <> OPEN -> rbytes E w = [] ->
  e_step E (ssl E w) (IBegin (WRead 64)) = (s1, WRecv size) -> Forall inert (answers E w) -> (length (answers E w) < n)%nat ->
  spins E (api E (environment E (S f)) n (ODowork true)) w (S (length (answers E w))).
Proof.
  intros E w s1 size f n H1 H2 H3 Hr He Hi Hn. apply wp_spins. unfold api. wps. cbn [call]. unfold tlsio_wolfssl_dowork. wps. cbn [state add_log].
  assert (K : forall Q, wp E (used E (log E w) (S (length (answers E w)))) (decode_ssl_received_bytes E (environment E (S f)) n n) Q (add_log E w (LCall (ODowork true)))).
  { intros Q. destruct n as [|n]; [lia|]. apply ends_decode. unfold wolfSSL_read, wolf. wps. set (w1 := add_log E _ _).
    eapply wp_weaken; [|eapply (running_spins E f _ s1 size n (S n) w1); eassumption]. intros w' Hu. apply used_step, used_step in Hu. exact Hu. }
  destruct (state E w); try contradiction; wps; apply K.
Qed.
(* Such an io is met: it was opened and closed. *)
Theorem wolf_closed_dowork_refuted : forall E s s' s1 size oo ooc ob obc oe oec oc occ n an, connects E s s' ->
  e_step E s' (IBegin (WRead 64)) = (s1, WRecv size) -> Forall inert an -> (length an < n)%nat ->
  let x := run E (4 + n) s [] (yes :: yes :: yes :: an) [AOp (OOpen true (Some oo) ooc ob obc oe oec); AOp (OClose true oc occ); AOp (ODowork true)] in
  fst x = None /\ answers E (snd x) = [] /\ exists l1 l2, log E (snd x) = l1 ++ LReturn (OClose true oc occ) 0 :: l2 /\ count is_dowork l2 = S (length an).
Proof.
  intros E s s' s1 size oo ooc ob obc oe oec oc occ n an (t1 & C1 & C2) He Hi Hn. cbv zeta.
  unfold run, initial. set (w0 := {| state := _ |}). set (m := acts E _ _ _). set (P := fun w => answers E w = [] /\ exists l1 l2, log E w = l1 ++ LReturn (OClose true oc occ) 0 :: l2 /\ count is_dowork l2 = S (length an)).
  assert (H : wp E P m (fun _ _ => False) w0).
  { unfold m, w0. x0. do 3 (x1; lit). xs. rewrite C1. lit. xs. rewrite C2. lit. do 40 (lazymatch goal with |- wp _ _ (api _ _ _ (ODowork _)) _ _ => idtac | _ => try (x1; lit) end).
    match goal with |- wp _ _ (api _ (environment _ (S ?f)) ?n _) _ ?w => pose proof (wolf_dowork_never_returns_refuted E w s1 size f n) as K end.
    destruct K as (K1 & K2 & t & K3 & K4); try discriminate; [reflexivity|exact He|exact Hi|cbn [answers]; lia|].
    unfold wp. destruct (api _ _ _ _ _) as [r w1]. cbn [fst snd] in *. subst r. split; [exact K2|]. rewrite K3. cbn [log]. eexists. exists t. rewrite <- app_assoc. split; [reflexivity|exact K4]. }
  unfold wp in H. destruct (m w0) as [ [r|] w1]; [destruct H|]. destruct H as [H1 H2]. auto.
Qed.
Lemma ends_answer E f q a (I : world E -> Prop) (Q : Z -> world E -> Prop) w l : answers E w = a :: l ->
  wp E I (acts E (environment E f) f (a_actions a)) (fun _ w => Q (a_ret a) w) (add_log E (set_answers E (add_log E w (LAsk q)) l) (LAnswer q a)) -> wp E I (environment E (S f) q) Q w.
Proof. intros H1 H2. cbn [environment]. wps. cbn [answers add_log]. rewrite H1. wps. eapply wp_imp; [exact H2|]. intros [] w' H3. wps. exact H3. Qed.
Lemma ends_await E env n (I : world E -> Prop) (Q : unit -> world E -> Prop) w : rbytes E w = [] ->
  wp E I (bind E (env QDowork) (fun _ => bind E (get E) (fun w => match state E w with OPEN => done E tt | _ => await_bytes E env n end))) Q w -> wp E I (await_bytes E env (S n)) Q w.
Proof. intros H1 H2. cbn [await_bytes]. wps. rewrite H1. exact H2. Qed.
(* Open never returns when the underlying io fails during the handshake: the failure is reported to
   the user, and then the io waits for bytes for ever. *)
Definition fails_now : answer := {| a_actions := [AEvent UError]; a_ret := 0 |}.
Theorem wolf_open_never_returns_refuted : forall E s s1 size oo ooc ob obc oe oec n an,
  e_step E s (IBegin WConnect) = (s1, WRecv size) -> Forall inert an -> (length an < n)%nat ->
  let x := run E (4 + n) s [] (yes :: fails_now :: yes :: an) [AOp (OOpen true (Some oo) ooc ob obc oe oec)] in
  fst x = None /\ answers E (snd x) = [] /\ exists l1 l2, log E (snd x) = l1 ++ LAsk (QOpenComplete oo ooc false) :: l2 /\ count is_dowork l2 = S (length an).
Proof.
  intros E s s1 size oo ooc ob obc oe oec n an He Hi Hn. cbv zeta.
  unfold run, initial. set (w0 := {| state := _ |}). set (m := acts E _ _ _). set (P := fun w => answers E w = [] /\ exists l1 l2, log E w = l1 ++ LAsk (QOpenComplete oo ooc false) :: l2 /\ count is_dowork l2 = S (length an)).
  assert (H : wp E P m (fun _ _ => False) w0).
  { unfold m, w0. x0. xs. rewrite He. lit. unfold on_io_recv. wps. apply ends_await; [reflexivity|]. wps. eapply ends_answer; [reflexivity|]. lit. cbn [a_actions fails_now]. x1. x1. x1. lit. x1. lit. unfold on_underlying_io_error. xs.
    match goal with |- wp _ _ (await_bytes _ (environment _ (S ?f)) ?n) ?Q ?w => pose proof (await_spins E f n w Q) as K end.
    eapply wp_weaken; [|apply K; [discriminate|reflexivity|exact Hi|cbn [answers]; lia] ]. intros w' (K1 & t & K2 & K3). split; [exact K1|]. rewrite K2. cbn [log answers] in *.
    exists [LCall (OOpen true (Some oo) ooc ob obc oe oec); LAsk QOpen; LAnswer QOpen yes; LBegin WConnect; LWant (WRecv size); LAsk QDowork; LAnswer QDowork fails_now; LEvent UError].
    exists (LAnswer (QOpenComplete oo ooc false) yes :: t). rewrite <- !app_assoc. split; [reflexivity|exact K3]. }
  unfold wp in H. destruct (m w0) as [ [r|] w1]; [destruct H|]. destruct H as [H1 H2]. auto.
Qed.
(* What holds: while the io is open, wolfSSL asking for bytes when there are none costs one dowork
   of the underlying io, and wolfSSL is told that there is nothing yet: dowork returns. *)
Theorem wolf_dowork_returns_partial : forall E w s1 s2 size f n l, state E w = OPEN -> rbytes E w = [] ->
  e_step E (ssl E w) (IBegin (WRead 64)) = (s1, WRecv size) -> e_step E s1 (IGot (-2) []) = (s2, WReturn (-1) []) -> answers E w = yes :: yes :: l ->
  let x := api E (environment E (S f)) (2 + n) (ODowork true) w in
  fst x = Some tt /\ exists t, log E (snd x) = log E w ++ t /\ count is_dowork t = 2%nat /\ In (LReturn (ODowork true) 0) t.
Proof.
  intros E w s1 s2 size f n l Hs Hr He1 He2 Ha. cbv zeta. set (m := api _ _ _ _).
  assert (H : wp E (fun _ => False) m (fun _ w' => exists t, log E w' = log E w ++ t /\ count is_dowork t = 2%nat /\ In (LReturn (ODowork true) 0) t) w).
  { unfold m. destruct w. cbn in Hs, Hr, He1, Ha. subst. cbn [Nat.add]. xs. rewrite He1. lit. unfold on_io_recv. wps. apply ends_await; [reflexivity|]. xs. rewrite firstn_nil. xs. rewrite He2. lit. xs. rewrite firstn_nil. xs.
    eexists. split; [rewrite <- !app_assoc; reflexivity|]. split; [reflexivity|]. cbn. auto 20. }
  apply ends_some in H. destruct H as ([] & H1 & H2). auto.
Qed.
