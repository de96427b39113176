(* What a wolfSSL io does with bytes and callbacks: C98 to C100. *)
From Verif Require Import Base WolfIo_Model WolfIo_Spec WolfIo_Logic WolfIo_Frame.
Open Scope Z_scope.

Lemma given_app a b : given (a ++ b) = given a ++ given b.
Proof. induction a as [|e a IH]; [reflexivity|]. destruct e as [| | | | | | | |[| | |]|]; cbn [app given]; rewrite IH, ?app_assoc; reflexivity. Qed.
Lemma delivered_app a b : delivered (a ++ b) = delivered a ++ delivered b.
Proof. induction a as [|e a IH]; [reflexivity|]. destruct e as [| |[| | |]| | | | | | |]; cbn [app delivered]; rewrite IH, ?app_assoc; reflexivity. Qed.
Lemma records_app a b : records (a ++ b) = records a ++ records b.
Proof. induction a as [|e a IH]; [reflexivity|]. destruct e as [| | | | | | |[| | |]| |]; cbn [app records]; rewrite IH; reflexivity. Qed.
Lemma handed_app a b : handed (a ++ b) = handed a ++ handed b.
Proof. induction a as [|e a IH]; [reflexivity|]. destruct e as [| | | |q| | | | |]; try destruct q; cbn [app handed]; rewrite IH; reflexivity. Qed.
Lemma pieces_app a b : pieces (a ++ b) = pieces a ++ pieces b.
Proof. induction a as [|e a IH]; [reflexivity|]. destruct e as [| | | | | | | | |[|x y] ]; cbn [app pieces]; rewrite IH; reflexivity. Qed.
Lemma passed_app a b : passed_on (a ++ b) = passed_on a ++ passed_on b.
Proof. induction a as [|e a IH]; [reflexivity|]. destruct e as [| | | |q| | | | |]; try destruct q; cbn [app passed_on]; rewrite IH; reflexivity. Qed.

Section Flow.
Context (E : engine).
Definition always (_ : world E) : Prop := True.

(* ---- received bytes ---- *)
Definition IB (w : world E) : Prop := memory_sufficed (log E w) -> given (log E w) ++ rbytes E w = delivered (log E w).
Lemma sufficed_snoc l e : memory_sufficed (l ++ [e]) -> memory_sufficed l.
Proof. unfold memory_sufficed. rewrite existsb_app. intros H. apply orb_false_iff in H. apply H. Qed.
Ltac bytes0 := intros; intros Hi; split; [|exact I]; unfold IB in *; sim; intros Hm; repeat match goal with H : memory_sufficed (?l ++ [?e]) |- _ => pose proof (sufficed_snoc _ _ H); revert H end; intros; rewrite ?given_app, ?delivered_app; cbn [given delivered]; rewrite ?app_nil_r; auto.
Lemma bytes_pieces : pieces_ok E IB (anyR E) always.
Proof.
  constructor; try (solve [unfold anyR, always; auto]); try solve [bytes0].
  - bytes0. rewrite <- app_assoc, firstn_skipn. apply Hi. assumption.
  - bytes0. rewrite app_assoc. f_equal. apply Hi. assumption.
  - bytes0. exfalso. unfold memory_sufficed in Hm. rewrite existsb_app in Hm. cbn in Hm. rewrite orb_true_r in Hm. discriminate.
Qed.
Lemma bytes_run f s al an l : IB (snd (run E f s al an l)).
Proof.
  apply (frame E IB (anyR E) always bytes_pieces).
  - apply open_frame with (Zk := always); [exact bytes_pieces|]. constructor; try solve [bytes0]; unfold always; auto.
  - intros _. reflexivity.
Qed.

(* ---- records ---- *)
Definition IS (w : world E) : Prop := records (log E w) = handed (log E w).
Ltac rec0 := intros; intros Hi; split; [|exact I]; unfold IS in *; sim; rewrite ?records_app, ?handed_app; cbn [records handed]; rewrite ?app_nil_r; try exact Hi; try (f_equal; exact Hi).
Lemma records_pieces : pieces_ok E IS (anyR E) always.
Proof. constructor; try (solve [unfold anyR, always; auto]); solve [rec0]. Qed.
Lemma records_run f s al an l : IS (snd (run E f s al an l)).
Proof.
  apply (frame E IS (anyR E) always records_pieces).
  - apply open_frame with (Zk := always); [exact records_pieces|]. constructor; try solve [rec0]; unfold always; auto.
  - reflexivity.
Qed.

(* ---- plain text ---- *)
Definition fair (l : list event) : Prop := Forall has_bytes_callback l /\ events_after_open l.
Lemma fair_snoc l e : fair (l ++ [e]) -> fair l /\ has_bytes_callback e /\ (match e with LEvent _ => existsb is_underlying_open l = true | _ => True end).
Proof.
  intros [H1 H2]. apply Forall_app in H1. destruct H1 as [H1 H3]. split; [split; [exact H1|]|].
  - intros l1 x l2 ->. apply (H2 l1 x (l2 ++ [e])). rewrite <- app_assoc. reflexivity.
  - split; [inversion H3; assumption|]. destruct e; auto. eapply (H2 l); reflexivity.
Qed.
Definition IP (w : world E) : Prop := fair (log E w) ->
  pieces (log E w) = passed_on (log E w) /\ (existsb is_underlying_open (log E w) = true -> on_bytes E w <> None) /\ (state E w <> NOT_OPEN -> on_bytes E w <> None).
Definition RP (w w' : world E) : Prop := (exists k, log E w' = log E w ++ k) /\ (on_bytes E w <> None -> fair (log E w') -> on_bytes E w' <> None).
Lemma fair_prefix l k : fair (l ++ k) -> fair l.
Proof. revert l. induction k as [|e k IH] using rev_ind; intros l H; [rewrite app_nil_r in H; exact H|]. rewrite app_assoc in H. apply fair_snoc in H. apply IH. apply H. Qed.
Lemma RP_trans a b c : RP a b -> RP b c -> RP a c.
Proof.
  intros [ [k1 E1] H1] [ [k2 E2] H2]. split; [exists (k1 ++ k2); rewrite E2, E1, app_assoc; reflexivity|].
  intros Ha Hf. apply H2; [|exact Hf]. apply H1; [exact Ha|]. rewrite E2 in Hf. apply fair_prefix in Hf. exact Hf.
Qed.
Ltac plain0 := intros; intros Hi; unfold IP, RP in *; sim; (split; [|split; [first [now (eexists; rewrite <- ?app_assoc; reflexivity)|now (exists []; rewrite app_nil_r; reflexivity)]|auto] ]);
  intros Hf; repeat match goal with H : fair (?l ++ [?e]) |- _ => apply fair_snoc in H; destruct H as (? & ? & ?) end;
  (destruct Hi as (Hp & Hq & Hst); [assumption|]); rewrite ?pieces_app, ?passed_app, ?existsb_app; cbn [pieces passed_on existsb is_underlying_open]; rewrite ?app_nil_r, ?orb_false_r.
Ltac plain1 := plain0; (split; [assumption|split; [assumption|] ]);
  solve [ assumption | intros _; match goal with H : existsb _ _ = true -> _ |- _ => apply H end; assumption | intros Hc; contradiction Hc; reflexivity
        | intros _; match goal with H : state _ _ <> NOT_OPEN -> _ |- _ => apply H; congruence end ].
Lemma plain_state w : IP w -> forall s, state E w <> NOT_OPEN -> IP (set_state E w s).
Proof. intros Hi s Hs Hf. destruct (Hi Hf) as (H1 & H2 & H3). split; [exact H1|split; [exact H2|]]. intros _. apply H3. exact Hs. Qed.
Definition ZP (w : world E) : Prop := fair (log E w) -> on_bytes E w <> None.
Lemma plain_pieces : pieces_ok E IP RP ZP.
Proof.
  constructor; try solve [plain1].
  - intros w. split; [exists []; rewrite app_nil_r; reflexivity|auto].
  - exact RP_trans.
  - intros w Hz Hi. split; [|split; [exists []; rewrite app_nil_r; reflexivity|auto]]. intros Hf. destruct (Hi Hf) as (H1 & H2 & H3). split; [exact H1|split; [exact H2|]]. intros _. destruct Hz as [Hz|Hz]; [apply Hz; exact Hf|apply H3; exact Hz].
  - intros w b Hz Ho _ Hi. split; [|split; [eexists; reflexivity|auto]]. intros Hf. exfalso. cbn in Hf. apply fair_snoc in Hf. apply (Hz (proj1 Hf)). exact Ho.
  - intros w w' Hz _ [ [k Ek] Hr] Hf. apply Hr; [|exact Hf]. apply Hz. rewrite Ek in Hf. eapply fair_prefix. exact Hf.
  - intros w Hi Hs Hf. cbn in *. apply fair_snoc in Hf. apply (Hi (proj1 Hf)). exact Hs.
  - intros w _ Hi Hf. cbn in *. apply (Hi Hf). discriminate.
  - intros w b os osc Hi Hs Hf. cbn in *. apply fair_snoc in Hf. destruct Hf as [Hf _]. apply fair_snoc in Hf. apply (Hi (proj1 Hf)). congruence.
  - intros w cb b Ho Hb. plain0. split; [|split; [assumption|assumption]]. destruct b; [contradiction|]. cbn. rewrite Hp. reflexivity.
Qed.
Lemma plain_run f s al an l : IP (snd (run E f s al an l)).
Proof.
  apply (frame E IP RP ZP plain_pieces).
  - apply open_frame with (Zk := ZP); [exact plain_pieces|]. constructor; try solve [plain1].
    + intros w oo ooc ob obc oe oec Hs Hi. split.
      * intros Hf. cbn in Hf. apply fair_snoc in Hf. destruct Hf as [Hf _]. apply fair_snoc in Hf. destruct Hf as (Hf & Hb & _). destruct (Hi Hf) as (H1 & H2 & H3). cbn. rewrite !pieces_app, !passed_app. cbn. rewrite !app_nil_r.
        split; [exact H1|]. assert (ob <> None) by (intros ->; exact Hb). split; intros _; assumption.
      * split; [eexists; cbn; rewrite <- app_assoc; reflexivity|]. cbn. intros _ Hf. apply fair_snoc in Hf. destruct Hf as [Hf _]. apply fair_snoc in Hf. destruct Hf as (_ & Hb & _). intros ->. exact Hb.
    + intros w oo ooc ob obc oe oec _ _ Hf. cbn in *. apply fair_snoc in Hf. destruct Hf as [Hf _]. apply fair_snoc in Hf. destruct Hf as (_ & Hb & _). intros ->. exact Hb.
    + intros w Hz Hi. split; [|split; [exists []; rewrite app_nil_r; reflexivity|auto]]. intros Hf. destruct (Hi Hf) as (H1 & H2 & H3). split; [exact H1|split; [exact H2|]]. intros _. apply Hz. exact Hf.
  - intros _. split; [reflexivity|]. split; [discriminate|]. intros C. contradiction C. reflexivity.
Qed.

(* ---- the handshake comes first ---- *)
Lemma ready_app r a b : ready_from r (a ++ b) = ready_from (ready_from r a) b.
Proof. revert r. induction a as [|e a IH]; intros r; [reflexivity|]. destruct e as [| | | |q| | |v| |]; cbn [app ready_from]; try apply IH; [destruct q; apply IH|destruct v; apply IH]. Qed.
Definition all_ready (l : list event) : Prop := forall l1 e l2, l = l1 ++ e :: l2 -> needs_ready e = true -> ready l1 = true.
Lemma all_ready_snoc l e : all_ready l -> (needs_ready e = true -> ready l = true) -> all_ready (l ++ [e]).
Proof.
  intros H1 H2 l1 x l2 Hl Hx. destruct l2 as [|y l2] using rev_ind.
  - apply app_inj_tail in Hl. destruct Hl as [<- <-]. apply H2. exact Hx.
  - rewrite app_comm_cons, app_assoc in Hl. apply app_inj_tail in Hl. destruct Hl as [Hl _]. eapply H1; eassumption.
Qed.
Definition IR (w : world E) : Prop := (state E w = OPEN -> ready (log E w) = true) /\ all_ready (log E w).
Ltac ready0 := intros; intros [Hs Ha]; (split; [|exact I]); unfold IR in *; sim; unfold ready in *; rewrite ?ready_app; cbn [ready_from];
  (split; [first [assumption|discriminate|congruence|intros _; reflexivity]|repeat (apply all_ready_snoc; [|try discriminate]); try assumption]).
Lemma ready_pieces : pieces_ok E IR (anyR E) always.
Proof.
  constructor; try (solve [unfold anyR, always; auto]); try solve [ready0].
  - ready0. intros _. unfold ready. rewrite ready_app. reflexivity.
  - ready0. intros _. unfold ready. rewrite ready_app. cbn. apply Hs. assumption.
Qed.
Lemma ready_run f s al an l : IR (snd (run E f s al an l)).
Proof.
  apply (frame E IR (anyR E) always ready_pieces).
  - apply open_frame with (Zk := always); [exact ready_pieces|]. constructor; try solve [ready0]; unfold always; auto.
  - split; [discriminate|]. intros l1 e l2 C; destruct l1; discriminate C.
Qed.

(* ---- whose completion callback is passed on ---- *)
Definition all_owned (l : list event) : Prop := forall l1 b cb ctx l2, l = l1 ++ LAsk (QSend b cb ctx) :: l2 -> (cb, ctx) = send_owner l1.
Lemma all_owned_snoc l e : all_owned l -> (forall b cb ctx, e = LAsk (QSend b cb ctx) -> (cb, ctx) = send_owner l) -> all_owned (l ++ [e]).
Proof.
  intros H1 H2 l1 b cb ctx l2 Hl. destruct l2 as [|y l2] using rev_ind.
  - apply app_inj_tail in Hl. destruct Hl as [<- Hl]. eapply H2. exact Hl.
  - rewrite app_comm_cons, app_assoc in Hl. apply app_inj_tail in Hl. destruct Hl as [Hl _]. eapply H1; eassumption.
Qed.
Definition IO (w : world E) : Prop := (on_sent E w, on_sent_ctx E w) = send_owner (log E w) /\ all_owned (log E w).
Lemma owner_snoc l e : send_owner (l ++ [e]) = snd (note_send (fold_left note_send l ((None, None), (None, None))) e).
Proof. unfold send_owner. rewrite fold_left_app. reflexivity. Qed.
Ltac own0 := intros; intros [Hs Ha]; (split; [|exact I]); unfold IO in *; sim;
  (split; [rewrite ?owner_snoc; cbn [note_send snd fst]; try (unfold send_owner in *; rewrite ?fold_left_app; cbn [note_send snd fst fold_left]; assumption)
          |repeat (apply all_owned_snoc; [|try discriminate]); try assumption]).
Lemma own_pieces : pieces_ok E IO (anyR E) always.
Proof.
  constructor; try (solve [unfold anyR, always; auto]); try solve [own0].
  - own0. intros b' cb ctx C. injection C as <- <- <-. rewrite owner_snoc. exact Hs.
  - own0. destruct o as [h ? ? ? ? ? ?| | h ? ? ?|]; try exact Hs. destruct h; exact Hs.
  - intros. intros [Hs Ha]. split; [|exact I]. split.
    + cbn. rewrite owner_snoc. cbn. rewrite fold_left_app. reflexivity.
    + cbn. repeat (apply all_owned_snoc; [|discriminate]). exact Ha.
Qed.
Lemma own_run f s al an l : IO (snd (run E f s al an l)).
Proof.
  apply (frame E IO (anyR E) always own_pieces).
  - apply open_frame with (Zk := always); [exact own_pieces|]. constructor; try solve [own0]; unfold always; auto.
  - split; [reflexivity|]. intros l1 b cb ctx l2 C; destruct l1; discriminate C.
Qed.
End Flow.

(* C98: the bytes the underlying io delivers reach wolfSSL, in order, none twice, none skipped. *)
Theorem wolf_bytes_reach_wolfssl : forall E f s al an l, let w := snd (run E f s al an l) in memory_sufficed (log E w) -> exists waiting, given (log E w) ++ waiting = delivered (log E w).
Proof. intros E f s al an l w Hm. exists (rbytes E w). apply (bytes_run E f s al an l). exact Hm. Qed.
(* the records wolfSSL writes are handed to the underlying io, in order and whole; *)
Theorem wolf_records_handed_over : forall E f s al an l, let w := snd (run E f s al an l) in handed (log E w) = records (log E w).
Proof. intros E f s al an l w. symmetry. apply (records_run E f s al an l). Qed.
(* and the plain text wolfSSL reads goes to the user's callback, in order and whole. *)
Theorem wolf_plain_text_passed_on : forall E f s al an l, let w := snd (run E f s al an l) in
  Forall has_bytes_callback (log E w) -> events_after_open (log E w) -> passed_on (log E w) = pieces (log E w).
Proof. intros E f s al an l w H1 H2. symmetry. apply (plain_run E f s al an l). split; assumption. Qed.
(* C99: no plain text is given to wolfSSL, and no open reported successful, before wolfSSL said the handshake was done. *)
Theorem wolf_handshake_first : forall E f s al an l l1 e l2, log E (snd (run E f s al an l)) = l1 ++ e :: l2 -> needs_ready e = true -> ready l1 = true.
Proof. intros E f s al an l l1 e l2. apply (ready_run E f s al an l). Qed.
(* C100: what is handed to the underlying io carries the completion callback of the last send given to wolfSSL *)
Theorem wolf_send_callback_partial : forall E f s al an l l1 b cb ctx l2, log E (snd (run E f s al an l)) = l1 ++ LAsk (QSend b cb ctx) :: l2 -> (cb, ctx) = send_owner l1.
Proof. intros E f s al an l l1 b cb ctx l2. apply (own_run E f s al an l). Qed.
