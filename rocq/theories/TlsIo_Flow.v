(* The data: for every OpenSSL, every underlying io (polite or not) and every behaviour of the user. *)
From Verif Require Import Base TlsIo_Model TlsIo_Spec TlsIo_Logic.
Open Scope Z_scope.

Lemma produced_app l k : produced (l ++ k) = produced l ++ produced k.
Proof. induction l as [|[] l IH]; cbn; rewrite ?IH, ?app_assoc; auto. Qed.
Lemma handed_app l k : handed (l ++ k) = handed l ++ handed k.
Proof. induction l as [|[ | | |[]| | | | | | ] l IH]; cbn; rewrite ?IH, ?app_assoc; auto. Qed.
Lemma pieces_app l k : pieces (l ++ k) = pieces l ++ pieces k.
Proof. induction l as [|[ | | | | | | | | |[|]] l IH]; cbn; rewrite ?IH; auto. Qed.
Lemma passed_on_app l k : passed_on (l ++ k) = passed_on l ++ passed_on k.
Proof. induction l as [|[ | | |[]| | | | | | ] l IH]; cbn; rewrite ?IH; auto. Qed.
Lemma ready_app b l k : ready_from b (l ++ k) = ready_from (ready_from b l) k.
Proof. revert b; induction l as [|[ | | |[]| |[]| | | | ] l IH]; intro b0; cbn; auto. Qed.

Lemma to_int_le n : 0 <= n -> to_int n <= n.
Proof.
  intro H. unfold to_int. pose proof (Z.mod_le n 4294967296 H ltac:(lia)).
  destruct (n mod 4294967296 <? 2147483648); lia.
Qed.

Section Flow.
Context (E : engine).
Notation world := (world E).

(* what OpenSSL wrote is what was handed over, then what waits *)
Definition Iflow (w : world) : Prop := produced (log E w) = handed (log E w) ++ out_bio E w.

Ltac sol :=
  unfold Iflow in *; sim; rewrite ?produced_app, ?handed_app; cbn [produced handed]; rewrite ?app_nil_r;
  repeat match goal with H : _ = _ ++ out_bio E _ |- _ => rewrite H end;
  rewrite <- ?app_assoc, ?firstn_skipn; reflexivity.

Section Code.
Context (env : ask -> C E Z) (Henv : env_ok E Iflow env).

Lemma flow_write p c w : Iflow w -> wp E Iflow (write_outgoing_bytes E env p c) (fun _ => Iflow) w.
Proof.
  intro H. unf. vc Henv; try solve [assumption | sol].
  exfalso. sim. apply Bool.negb_true_iff, Z.eqb_neq in Ed1. apply Ed1. apply Z.leb_gt in Ed.
  rewrite firstn_length.
  pose proof (to_int_le (Z.of_nat (length (out_bio E w))) ltac:(lia)). lia.
Qed.
Lemma flow_handshake w : Iflow w -> wp E Iflow (send_handshake_bytes E env) (fun _ => Iflow) w.
Proof.
  intro H. unfold send_handshake_bytes, SSL_is_init_finished, SSL_do_handshake, indicate_open_complete.
  vc Henv; try solve [assumption | sol].
  eapply wp_imp; [apply flow_write; sol|]. cbv beta. intros r w1 H1. vc Henv; try solve [assumption | sol].
Qed.
Lemma flow_decode n w : Iflow w -> wp E Iflow (decode_ssl_received_bytes E env n) (fun _ => Iflow) w.
Proof.
  revert w; induction n; intros w H; cbn [decode_ssl_received_bytes]; unf; vc Henv; try solve [assumption | sol];
  apply IHn; (assumption || sol).
Qed.
Lemma flow_acts n l w : Iflow w -> wp E Iflow (acts E env n l) (fun _ => Iflow) w.
Proof.
  revert w; induction l as [|[e|o] l IH]; intros w H; cbn [acts].
  - apply wp_done, H.
  - apply wp_bind. eapply wp_imp with (Q := fun _ => Iflow); [|intros _ w'; apply IH].
    destruct e; unfe; vc Henv; try solve [assumption | sol];
    try (eapply wp_imp; [apply flow_handshake; sol|]; cbv beta; intros r w1 H1; vc Henv; solve [assumption | sol]).
    apply flow_decode. sol.
  - apply wp_bind. eapply wp_imp with (Q := fun _ => Iflow); [|intros _ w'; apply IH].
    destruct o; unfe; vc Henv; try solve [assumption | sol].
    eapply wp_imp; [apply flow_write; sol|]; cbv beta; intros r w1 H1; vc Henv; solve [assumption | sol].
Qed.
End Code.

Lemma run_flow f s al an l : Iflow (snd (run E f s al an l)).
Proof.
  apply run_ok.
  - intros w l0 q a H. sol.
  - intros; now apply flow_acts.
  - reflexivity.
Qed.

(* Nothing OpenSSL produced is lost, repeated or reordered on its way to the underlying io *)
Theorem tls_bytes_handed_over_in_order f s al an l :
  let w := snd (run E f s al an l) in
  exists waiting, produced (log E w) = handed (log E w) ++ waiting.
Proof. cbv zeta. eexists. apply run_flow. Qed.

Definition Iready (w : world) : Prop :=
  (state E w = OPEN -> ready (log E w) = true) /\
  (forall l1 b r l2, log E w = l1 ++ LWrite b r :: l2 -> ready l1 = true).

Lemma snoc_split {A} (l : list A) x l1 y l2 :
  l ++ [x] = l1 ++ y :: l2 -> (exists l3, l2 = l3 ++ [x] /\ l = l1 ++ y :: l3) \/ (l2 = [] /\ x = y /\ l = l1).
Proof.
  intro H. destruct l2 as [|z l2] using rev_ind.
  - right. apply app_inj_tail in H. tauto.
  - left. exists l2. rewrite app_comm_cons, app_assoc in H. apply app_inj_tail in H. destruct H; subst; auto.
Qed.

Lemma ready_log w e : (match e with LWrite _ _ => ready (log E w) = true | _ => True end) ->
  (state E w = OPEN -> match e with LAsk QOpen => False | _ => True end) ->
  Iready w -> Iready (add_log E w e).
Proof.
  intros He Ho [H1 H2]. split; cbn.
  - unfold ready in *. rewrite ready_app. intro Hs. specialize (H1 Hs). specialize (Ho Hs). rewrite H1.
    destruct e as [ | | |[]| |[]| | | | ]; cbn; auto.
  - intros l1 b r l2 H. apply snoc_split in H. destruct H as [ (l3 & -> & H) | (-> & -> & <-) ]; [eapply H2; eauto|exact He].
Qed.
Lemma ready_state w s : s <> OPEN \/ ready (log E w) = true -> Iready w -> Iready (set_state E w s).
Proof. intros H [H1 H2]. split; cbn; [|exact H2]. intros ->. destruct H; [now exfalso|assumption]. Qed.
Lemma ready_same w w' : state E w' = state E w -> log E w' = log E w -> Iready w -> Iready w'.
Proof. intros H1 H2 H. unfold Iready in *. now rewrite H1, H2. Qed.

Ltac rd :=
  repeat first
   [ assumption
   | apply ready_log; [exact I || idtac|intro; exact I || idtac|]
   | apply ready_state; [left; discriminate|]
   | match goal with |- Iready (set_state _ ?w OPEN) => apply (ready_state w); [right; unfold ready; cbn; rewrite ?ready_app; reflexivity|] end
   | match goal with
     | |- Iready (set_ssl _ ?w _) => apply (ready_same w); [reflexivity|reflexivity|]
     | |- Iready (set_out _ ?w _) => apply (ready_same w); [reflexivity|reflexivity|]
     | |- Iready (set_allocs _ ?w _) => apply (ready_same w); [reflexivity|reflexivity|]
     | |- Iready (set_answers _ ?w _) => apply (ready_same w); [reflexivity|reflexivity|]
     | |- Iready (set_open_callbacks _ ?w _ _ _ _ _ _) => apply (ready_same w); [reflexivity|reflexivity|]
     | |- Iready (set_close_callback _ ?w _ _) => apply (ready_same w); [reflexivity|reflexivity|]
     end ].

Section Code2.
Context (env : ask -> C E Z) (Henv : env_ok E Iready env).

Lemma ready_write p c w : Iready w -> wp E Iready (write_outgoing_bytes E env p c) (fun _ => Iready) w.
Proof. intro H. unf. vc Henv; rd. Qed.
Lemma ready_handshake w : Iready w -> wp E Iready (send_handshake_bytes E env) (fun _ => Iready) w.
Proof.
  intro H. unfold send_handshake_bytes, SSL_is_init_finished, SSL_do_handshake, indicate_open_complete.
  vc Henv; repeat match goal with H : e_finished _ _ = _ |- _ => rewrite H in * end; rd.
  eapply wp_imp; [apply ready_write; rd|]. cbv beta. intros r w1 H1.
  vc Henv; repeat match goal with H : e_finished _ _ = _ |- _ => rewrite H in * end; rd.
Qed.
Lemma ready_decode n w : Iready w -> wp E Iready (decode_ssl_received_bytes E env n) (fun _ => Iready) w.
Proof.
  revert w; induction n; intros w H; cbn [decode_ssl_received_bytes]; unf; vc Henv; rd; apply IHn; rd.
Qed.
Lemma ready_acts n l w : Iready w -> wp E Iready (acts E env n l) (fun _ => Iready) w.
Proof.
  revert w; induction l as [|[e|o] l IH]; intros w H; cbn [acts].
  - apply wp_done, H.
  - apply wp_bind. eapply wp_imp with (Q := fun _ => Iready); [|intros _ w'; apply IH].
    destruct e; unfe; vc Henv; rd;
    try (eapply wp_imp; [apply ready_handshake; rd|]; cbv beta; intros r w1 H1; vc Henv; solve [rd]).
    apply ready_decode. rd.
  - apply wp_bind. eapply wp_imp with (Q := fun _ => Iready); [|intros _ w'; apply IH].
    destruct o; unfe; vc Henv; rd; try discriminate.
    all: try (unfold ready; sim; rewrite !ready_app; cbn; apply H; assumption).
    eapply wp_imp; [apply ready_write; rd|].
    + unfold ready; sim; rewrite !ready_app; cbn; apply H; assumption.
    + cbv beta. intros r w1 H1. vc Henv; rd.
Qed.
End Code2.

(* No application data is given to OpenSSL before the handshake was seen finished, since the
   underlying io was last opened *)
Theorem no_data_before_the_handshake f s al an l l1 b r l2 :
  log E (snd (run E f s al an l)) = l1 ++ LWrite b r :: l2 -> ready l1 = true.
Proof.
  assert (H : Iready (snd (run E f s al an l))).
  { apply run_ok.
    - intros w l0 q a H. apply ready_log; [exact I|auto|]. eapply ready_same; [| |exact H]; reflexivity.
    - intros; now apply ready_acts.
    - split; [discriminate|]. intros [|] ? ? ? H; discriminate H. }
  apply H.
Qed.

(* What SSL_read gives is passed on *)
Definition quiet (s : tlsio_state) : bool :=
  match s with OPENING_UNDERLYING_IO | IN_HANDSHAKE | OPEN => false | _ => true end.
Definition looked (l : list event) : nat :=
  count (fun e => match e with LFinished _ => true | LAsk (QBytes _ _ _) => true | _ => false end) l.
Definition Ipieces (w : world) : Prop := Forall has_bytes_callback (log E w) ->
  pieces (log E w) = passed_on (log E w) /\
  (on_bytes E w = None -> quiet (state E w) = true /\ looked (log E w) = 0%nat).

Lemma hb_snoc l e : Forall has_bytes_callback (l ++ [e]) -> Forall has_bytes_callback l /\ has_bytes_callback e.
Proof. rewrite Forall_app. intros [H H1]. inversion H1; auto. Qed.
Ltac hb := repeat match goal with H : Forall has_bytes_callback (_ ++ [_]) |- _ => apply hb_snoc in H; destruct H as [H ?] end.

Ltac sol3 :=
  try match goal with H : env_ok _ _ _ |- _ => clear H end;
  unfold Ipieces in *; let P := fresh "P" in intro P;
  sim; hb;
  try match goal with H : Forall has_bytes_callback _ -> _ |- _ => specialize (H ltac:(eassumption)); destruct H as [? ?] end;
  unfold looked in *;
  rewrite ?pieces_app, ?passed_on_app, ?count_snoc; cbn [pieces passed_on]; rewrite ?app_nil_r;
  repeat match goal with H : state E _ = _ |- _ => rewrite H in * end;
  try match goal with H : has_bytes_callback (LCall (OOpen _ _ _ ?b _ _ _)) |- _ => destruct b; [|contradiction H] end;
  (split; [try assumption; try congruence|]);
  let Hn := fresh in intro Hn; try discriminate;
  repeat match goal with H : on_bytes E ?w = None -> _, H1 : on_bytes E ?w = None |- _ => specialize (H H1) end;
  repeat match goal with H : _ /\ _ |- _ => destruct H end; try discriminate; try (exfalso; match goal with H : Forall _ _ -> on_bytes _ _ <> None |- _ => apply H; assumption end);
  split; first [assumption | reflexivity | lia].

Section Code3.
Context (env : ask -> C E Z) (Henv : env_ok E Ipieces env).

Lemma looked_grows (w w' : world) k : log E w' = log E w ++ k -> (0 < looked (log E w))%nat -> looked (log E w') <> 0%nat.
Proof. intros H H1. rewrite H. unfold looked, count in *. rewrite filter_app, app_length. lia. Qed.

(* the callback is there *)
Definition heard (w : world) : Prop := Forall has_bytes_callback (log E w) -> on_bytes E w <> None.
Lemma heard_looked w w' : Ipieces w' -> grows w w' -> (0 < looked (log E w))%nat -> heard w'.
Proof.
  intros HI [k Hk] Hl P Hn. destruct (HI P) as [_ H1]. destruct (H1 Hn) as [_ H2].
  exact (looked_grows _ _ _ Hk Hl H2).
Qed.
Lemma heard_loud w : Ipieces w -> quiet (state E w) = false -> heard w.
Proof. intros HI Hq P Hn. destruct (HI P) as [_ H1]. destruct (H1 Hn). congruence. Qed.

Lemma looked_snoc w e : (0 < looked (log E w))%nat -> (0 < looked (log E (add_log E w e)))%nat.
Proof. sim. unfold looked. rewrite count_snoc. lia. Qed.

Lemma pieces_decode n w :
  heard w -> Ipieces w -> wp E Ipieces (decode_ssl_received_bytes E env n) (fun _ => Ipieces) w.
Proof.
  revert w; induction n; intros w Hb H; cbn [decode_ssl_received_bytes]; [apply wp_cut, H|].
  unfold SSL_read. repeat wp1. 
  remember (firstn 64 (snd (fst (e_read E (ssl E w))))) as b eqn:Eb. destruct b as [|b0 bs].
  - apply wp_done. sol3.
  - vc Henv.
    + unfold Ipieces. intro P. sim. hb. specialize (H P). destruct H as [H H9].
      rewrite !pieces_app, !passed_on_app. cbn. rewrite !app_nil_r, H. split; [reflexivity|]. intro H8. congruence.
    + apply IHn; [|assumption]. eapply heard_looked; [eassumption|eassumption|].
      sim. unfold looked. rewrite !count_snoc. lia.
    + apply IHn.
      * intros P Hn. sim. hb. apply Hb; assumption.
      * intro P. sim. hb. exfalso. apply Hb; assumption.
Qed.

Lemma pieces_write p c w : Ipieces w ->
  wp E Ipieces (write_outgoing_bytes E env p c) (fun _ w' => Ipieces w' /\ grows w w') w.
Proof.
  intro H. unf. vc Henv; try (split; [assumption || sol3|]); try solve [sol3]; try (exists []; sim; rewrite app_nil_r; reflexivity).
  all: match goal with H : grows _ _ |- _ => destruct H as [k Hk] end; eexists; rewrite Hk; sim; rewrite <- app_assoc; reflexivity.
Qed.
Lemma pieces_handshake w :
  heard w -> Ipieces w -> wp E Ipieces (send_handshake_bytes E env) (fun _ => Ipieces) w.
Proof.
  intros Hb H. unfold heard in Hb.
  unfold send_handshake_bytes, SSL_is_init_finished, SSL_do_handshake, indicate_open_complete.
  vc Henv; try solve [assumption | sol3].
  match goal with |- wp _ _ _ _ ?v => assert (Hl : (0 < looked (log E v))%nat) end.
  { sim. unfold looked. rewrite !count_snoc. lia. }
  eapply wp_imp; [apply pieces_write; sol3|]. cbv beta. intros r w1 [H1 H2].
  pose proof (heard_looked _ _ H1 H2 Hl) as Hb1. unfold heard in Hb1.
  clear H H2 Hl Ed Ed0 Hb.
  vc Henv; try solve [assumption | sol3].
Qed.
Ltac hear H :=
  let P := fresh in let Hn := fresh in intros P Hn; sim; hb;
  refine (heard_loud _ H _ ltac:(eassumption) Hn);
  match goal with H : state E _ = _ |- _ => rewrite H end; reflexivity.
Lemma pieces_acts n l w : Ipieces w -> wp E Ipieces (acts E env n l) (fun _ => Ipieces) w.
Proof.
  revert w; induction l as [|[e|o] l IH]; intros w H; cbn [acts].
  - apply wp_done, H.
  - apply wp_bind. eapply wp_imp with (Q := fun _ => Ipieces); [|intros _ w'; apply IH].
    destruct e; unfe; vc Henv; try solve [assumption | sol3].
    + eapply wp_imp; [apply pieces_handshake; [hear H|sol3; hear H]|]. cbv beta; intros r w1 H1; vc Henv; solve [assumption | sol3].
    + eapply wp_imp; [apply pieces_handshake; [hear H|sol3]|]. cbv beta; intros r w1 H1; vc Henv; solve [assumption | sol3].
    + apply pieces_decode; [hear H|sol3].
  - apply wp_bind. eapply wp_imp with (Q := fun _ => Ipieces); [|intros _ w'; apply IH].
    destruct o; unfe; vc Henv; try solve [assumption | sol3].
    eapply wp_imp; [apply pieces_write; sol3|]. cbv beta; intros r w1 [H1 _]; vc Henv; solve [assumption | sol3].
Qed.
End Code3.

Definition Ismall (w : world) : Prop := Forall (fun b => (1 <= length b <= 64)%nat) (pieces (log E w)).
Ltac sol4 := unfold Ismall in *; sim; rewrite ?pieces_app; cbn [pieces]; rewrite ?app_nil_r; assumption.
Section Code4.
Context (env : ask -> C E Z) (Henv : env_ok E Ismall env).
Lemma small_decode n w : Ismall w -> wp E Ismall (decode_ssl_received_bytes E env n) (fun _ => Ismall) w.
Proof.
  revert w; induction n; intros w H; cbn [decode_ssl_received_bytes]; [apply wp_cut, H|].
  unfold SSL_read. repeat wp1.
  pose proof (firstn_le_length 64 (snd (fst (e_read E (ssl E w))))) as Hl.
  destruct (firstn 64 (snd (fst (e_read E (ssl E w))))) as [|b0 bs]; vc Henv; try solve [assumption | sol4].
  all: unfold Ismall in *; sim; rewrite ?pieces_app; cbn [pieces]; rewrite ?app_nil_r.
  - apply Forall_app. split; [assumption|]. constructor; [cbn in *; lia|constructor].
  - apply IHn. assumption.
  - apply IHn. sim. rewrite ?pieces_app; cbn [pieces]; rewrite ?app_nil_r. apply Forall_app. split; [assumption|]. constructor; [cbn in *; lia|constructor].
Qed.
Lemma small_acts n l w : Ismall w -> wp E Ismall (acts E env n l) (fun _ => Ismall) w.
Proof.
  revert w; induction l as [|[e|o] l IH]; intros w H; cbn [acts].
  - apply wp_done, H.
  - apply wp_bind. eapply wp_imp with (Q := fun _ => Ismall); [|intros _ w'; apply IH].
    destruct e; unf; vc Henv; try solve [assumption | sol4].
    apply small_decode; sol4.
  - apply wp_bind. eapply wp_imp with (Q := fun _ => Ismall); [|intros _ w'; apply IH].
    destruct o; unf; vc Henv; solve [assumption | sol4].
Qed.
End Code4.

(* Everything SSL_read gave is passed to the user, piece by piece, in that order *)
Theorem plain_text_passed_on_in_order f s al an l :
  let h := log E (snd (run E f s al an l)) in
  Forall has_bytes_callback h ->
  passed_on h = pieces h /\ Forall (fun b => (1 <= length b <= 64)%nat) (passed_on h).
Proof.
  assert (H : Ipieces (snd (run E f s al an l))).
  { apply run_ok.
    - intros w l0 q a H. sol3.
    - intros; now apply pieces_acts.
    - intros _. split; [reflexivity|auto]. }
  assert (H1 : Ismall (snd (run E f s al an l))).
  { apply run_ok.
    - intros w l0 q a H1. sol4.
    - intros; now apply small_acts.
    - constructor. }
  intros h P. destruct (H P) as [H2 _]. fold h in H2. unfold Ismall in H1. fold h in H1. rewrite <- H2. auto.
Qed.
End Flow.
