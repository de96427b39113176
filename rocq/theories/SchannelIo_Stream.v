(* The records of an open session reach the user in order (C116). *)
From Verif Require Import Base SchannelIo_Model SchannelIo_Spec SchannelIo_Safe.
Local Open Scope Z_scope.
Arguments delivered : simpl never.

Section Session.
Context (D : decoder) (DOK : decoder_ok D).

Lemma records_extend k b ds r : records D k b ds r -> forall c, records D k (b ++ c) ds (r ++ c).
Proof.
  induction 1 as [k b|k b d n ds rest E R IH]; intros c; [constructor|].
  destruct (DOK _ _ _ _ E) as [L X]. econstructor; [apply X|].
  rewrite skipn_app. replace (n - length b)%nat with O by lia. apply IH.
Qed.
Lemma records_snoc k b ds r d n : records D k b ds r -> D (k + length ds)%nat r = Some (d, n) ->
  records D k b (ds ++ [d]) (skipn n r).
Proof.
  intros R. induction R as [k b|k b d' n' ds rest E R IH]; intros H; cbn in *.
  - rewrite Nat.add_0_r in H. econstructor; [exact H|constructor].
  - econstructor; [exact E|]. apply IH. rewrite Nat.add_succ_r in H. exact H.
Qed.

Definition extra_of (n : nat) (r : list N) : option Z :=
  if (n <? length r)%nat then Some (Z.of_nat (length r - n)) else None.
Lemma consume_record n r i : received_bytes i = r -> (n <= length r)%nat ->
  consume (extra_of n r) i = Some (set_buf (skipn n r) (buffer_size i) i).
Proof.
  intros E L. unfold consume, extra_of, count. rewrite E. destruct (Nat.ltb_spec n (length r)).
  - replace ((0 <=? Z.of_nat (length r - n)) && (Z.of_nat (length r - n) <=? Z.of_nat (length r))) with true
      by (symmetry; apply andb_true_intro; split; apply Z.leb_le; lia).
    now replace (Z.to_nat (Z.of_nat (length r) - Z.of_nat (length r - n))) with n by lia.
  - rewrite skipn_all2 by lia. reflexivity.
Qed.

Context (c : N) (k0 : nat) (old : list (list N)) (KO : length old = k0).

(* s: what came; ds: what was handed over *)
Record sess (s : list N) (ds : list (list N)) (i : io) : Prop := {
  se_state : tlsio_state i = TLSIO_STATE_OPEN;
  se_cb : on_bytes_received i = Some c;
  se_out : delivered (outs i) = old ++ ds;
  se_size : count i <= buffer_size i;
  se_frames : Forall (fun f => match f with AfterHello | AfterToken _ => False | _ => True end) (frames i);
  se_part : (filter busy (frames i) = [] /\ records D 0 s ds (received_bytes i) /\
             exists n, needed_bytes i = Some n /\ 1 <= n /\
               (n = 1 \/ forall x, Z.of_nat (length x) < n -> D (length ds) (received_bytes i ++ x) = None)) \/
            exists ds' d n, ds = ds' ++ [d] /\ records D 0 s ds' (received_bytes i) /\
               D (length ds') (received_bytes i) = Some (d, n) /\
               filter busy (frames i) = [AfterBytes (extra_of n (received_bytes i))] }.

Lemma delivered_cons o l : delivered (o :: l) = delivered l ++ match o with Bytes _ d => [d] | _ => [] end.
Proof. unfold delivered. cbn. rewrite flat_map_app. cbn. now rewrite app_nil_r. Qed.

Lemma sess_emit_send s ds i o : sess s ds i -> match o with Bytes _ _ => False | _ => True end -> sess s ds (emit o i).
Proof.
  intros [] H. constructor; auto. cbn. rewrite delivered_cons. destruct o; try destruct H; rewrite app_nil_r; auto.
Qed.
Lemma sess_push_chunk s ds i rest cb : sess s ds i -> sess s ds (push (AfterChunk rest cb) i).
Proof. intros []. constructor; auto. cbn. constructor; auto. Qed.
Lemma sess_send s ds bs cb ci i : sess s ds i -> sess s ds (send_loop bs cb ci i).
Proof.
  intros H. unfold send_loop. destruct bs; [now apply sess_emit_send|]. rewrite (se_state _ _ _ H).
  destruct (ci _); [|now apply sess_emit_send]. apply sess_push_chunk. now apply sess_emit_send.
Qed.

Lemma sess_bytes s ds b a i j : sess s ds i -> ~ in_delivery i -> memory1 a = true -> memory2 a = true ->
  faithful D (length (delivered (outs i)) - k0) (received_bytes i ++ b) (a_dec a) ->
  on_underlying_io_bytes_received b a i = Some j ->
  match D (length ds) (received_bytes i ++ b) with
  | Some (d, n) => sess (s ++ b) (ds ++ [d]) j \/ sess (s ++ b) ds j /\ b = []
  | None => sess (s ++ b) ds j
  end.
Proof.
  intros H Q M1 M2 F E. pose proof (not_busy_filter _ Q) as B.
  destruct H as [SS SC SO SZ SF SP]. destruct SP as [(_ & R & n & NE & N1 & NN)|(ds' & d & n & _ & _ & _ & X)];
    [|rewrite B in X; discriminate].
  rewrite SO, app_length, KO in F. replace (k0 + length ds - k0)%nat with (length ds) in F by lia.
  pose proof (records_extend _ _ _ _ R b) as R'.
  unfold on_underlying_io_bytes_received in E. unfold resize_receive_buffer in E. rewrite M1 in E.
  set (j0 := if buffer_size i <? count i + Z.of_nat (length b) then set_buf (received_bytes i) (count i + Z.of_nat (length b)) i else i).
  assert (J0 : (if buffer_size i <? count i + Z.of_nat (length b) then Some (set_buf (received_bytes i) (count i + Z.of_nat (length b)) i) else Some i) = Some j0)
    by (unfold j0; destruct (_ <? _); reflexivity).
  rewrite J0 in E. clear J0.
  assert (P : tlsio_state j0 = TLSIO_STATE_OPEN /\ received_bytes j0 = received_bytes i /\ needed_bytes j0 = Some n
    /\ on_bytes_received j0 = Some c /\ frames j0 = frames i /\ outs j0 = outs i /\ count i + Z.of_nat (length b) <= buffer_size j0).
  { unfold j0. destruct (Z.ltb_spec (buffer_size i) (count i + Z.of_nat (length b))); cbn; repeat split; auto; lia. }
  clearbody j0. destruct P as (P1 & P2 & P3 & P4 & P5 & P6 & P7).
  cbn zeta in E. set (k := set_buf (received_bytes j0 ++ b) (buffer_size j0) j0) in E.
  assert (CK : count k = count i + Z.of_nat (length b)) by (unfold count, k; cbn; rewrite P2, app_length; lia).
  destruct (buffer_size k <? count k) eqn:X; [discriminate|].
  assert (KN : needed_bytes k = Some n) by exact P3. rewrite KN in E.
  assert (KS : forall z, tlsio_state (set_needed z k) = TLSIO_STATE_OPEN) by (intros; exact P1).
  rewrite KS in E. cbn [needed_bytes set_needed] in E.
  assert (SB : forall m, 1 <= m -> (m = 1 \/ forall x, Z.of_nat (length x) < m -> D (length ds) ((received_bytes i ++ b) ++ x) = None) ->
     forall z, buffer_size j0 <= z -> sess (s ++ b) ds (set_buf (received_bytes i ++ b) z (set_needed (Some m) k))).
  { intros m M MM z ZZ. constructor; cbn; auto.
    - now rewrite P6.
    - unfold count in *; cbn. rewrite app_length. lia.
    - now rewrite P5.
    - left. rewrite P5. repeat split; auto. eauto. }
  set (n' := if n <? Z.of_nat (length b) then 0 else n - Z.of_nat (length b)) in *.
  assert (N' : (n' = 0 /\ n <= Z.of_nat (length b)) \/ (n' = n - Z.of_nat (length b) /\ 1 <= n')).
  { unfold n'. destruct (Z.ltb_spec n (Z.of_nat (length b))); lia. }
  clearbody n'. destruct N' as [[N0 NB]|[N0 NB]].
  - rewrite N0 in *. cbn [Z.eqb] in E. unfold decrypt in E. unfold faithful in F.
    destruct (D (length ds) (received_bytes i ++ b)) as [[d m]|] eqn:DE.
    + left. rewrite F in E. cbn [on_bytes_received set_needed] in E.
      assert (KC : on_bytes_received k = Some c) by exact P4. rewrite KC in E. inversion E; subst j. clear E.
      constructor; cbn; auto.
      * rewrite delivered_cons, P6, SO. now rewrite app_assoc.
      * unfold count; cbn. rewrite P2, app_length. unfold count in P7. lia.
      * constructor; [exact I|]. now rewrite P5.
      * right. exists ds, d, m. rewrite P2, P5, B. repeat split; auto.
    + destruct F as (m & FE & FM). rewrite FE in E. rewrite M2 in E. unfold resize_receive_buffer in E.
      set (q := match m with Some m => m | None => 1 end) in E.
      assert (Q1 : 1 <= q /\ (q = 1 \/ forall x, Z.of_nat (length x) < q -> D (length ds) ((received_bytes i ++ b) ++ x) = None)).
      { unfold q. destruct m as [m|]; [|split; [lia|now left] ]. destruct FM as [F1 F2]. split; [lia|now right]. }
      destruct Q1 as [Q1 Q2].
      assert (S1 := SB q Q1 Q2 (buffer_size j0) ltac:(lia)).
      destruct (buffer_size (set_needed (Some q) (set_needed (Some 0) k)) <? count (set_needed (Some q) (set_needed (Some 0) k)) + q) eqn:LT; inversion E; subst j.
      * apply Z.ltb_lt in LT. cbn in LT.
        specialize (SB q Q1 Q2 (count (set_needed (Some q) (set_needed (Some 0) k)) + q) ltac:(lia)).
        rewrite P2.
        exact SB.
      * assert (EQ : set_needed (Some q) (set_needed (Some 0) k) = set_buf (received_bytes i ++ b) (buffer_size j0) (set_needed (Some q) k))
          by (unfold k; cbn; unfold set_needed, set_buf; cbn; now rewrite P2).
        rewrite EQ. exact S1.
  - replace (n' =? 0) with false in E by (symmetry; apply Z.eqb_neq; lia). inversion E; subst j. clear E.
    assert (NN' : n' = 1 \/ forall x, Z.of_nat (length x) < n' -> D (length ds) ((received_bytes i ++ b) ++ x) = None).
    { destruct NN as [NN|NN]; [left; lia|]. right. intros x L. rewrite <- app_assoc. apply NN. rewrite app_length. lia. }
    assert (S1 := SB n' NB NN' (buffer_size j0) ltac:(lia)).
    assert (S2 : sess (s ++ b) ds (set_needed (Some n') k)) by (unfold k; rewrite P2; exact S1).
    destruct (D (length ds) (received_bytes i ++ b)) as [[d m]|] eqn:DE; [|exact S2].
    right. split; [exact S2|]. destruct NN as [NN|NN].
    + destruct b; [reflexivity|cbn in N0; lia].
    + exfalso. assert (D (length ds) (received_bytes i ++ b) = None) by (apply NN; lia). congruence.
Qed.

Lemma sess_return s ds ok ci i j f fs : sess s ds i -> frames i = f :: fs ->
  after f ok true ci (set_frames fs i) = Some j -> sess s ds j.
Proof.
  intros H F E. assert (H' := H). destruct H as [SS SC SO SZ SF SP]. rewrite F in *. inversion SF as [|? ? X SF']; subst.
  destruct f as [|e|e|rest cb]; try destruct X.
  - cbn in E. destruct SP as [(B & _)|(ds' & d & n & DS & R & DE & FE)]; [discriminate|].
    cbn in FE. injection FE as FE FN. subst e ds. unfold data_done in E.
    destruct (DOK _ _ _ _ DE) as [L _].
    rewrite (consume_record n (received_bytes i)) in E by (cbn; auto; lia).
    unfold set_receive_buffer in E. cbn -[Z.add] in E.
    match type of E with context [1 + ?x] => set (z := 1 + x) in E; assert (ZE : x <= z) by (unfold z; lia); clearbody z end.
    injection E as <-. constructor; cbn; auto.
    + left. rewrite FN. split; [reflexivity|]. split; [now apply records_snoc|].
      exists 1. repeat split; auto; lia.
  - cbn in E. assert (SX : sess s ds (set_frames fs i)).
    { destruct SP as [(B & R & N)|(ds' & d & n & DS & R & DE & FE)].
      - constructor; cbn; auto.
      - constructor; cbn; auto. right. exists ds', d, n. auto. }
    destruct ok; inversion E; subst.
    + now apply sess_send.
    + now apply sess_emit_send.
Qed.

Lemma session_step e es s ds i j : sess s ds i -> session D k0 (e :: es) i -> step e i = Next j ->
  (exists ds', sess (s ++ bytes_of e) ds' j) /\ session D k0 es j.
Proof.
  intros S [P Q] E. rewrite E in Q. split; [|exact Q]. clear Q. destruct e; try (solve [destruct P]); cbn in E |- *; try rewrite app_nil_r.
  - injection E as <-. eexists. apply sess_send. exact S.
  - destruct (on_underlying_io_bytes_received bytes a i) as [q|] eqn:X; [|discriminate]. injection E as <-.
    destruct P as (H & M1 & M2 & FF). pose proof (sess_bytes _ _ _ _ _ _ S H M1 M2 FF X) as Y.
    destruct (D (length ds) (received_bytes i ++ bytes)) as [[d n]|]; [destruct Y as [Y|[Y _] ]|]; eauto.
  - destruct (frames i) as [|f fs] eqn:F; [discriminate|]. subst memory.
    destruct (after f ok true cipher (set_frames fs i)) as [q|] eqn:X; [|discriminate]. injection E as <-.
    eexists. eapply sess_return; eauto.
Qed.
Lemma session_run es : forall s ds i j, sess s ds i -> session D k0 es i -> run es i = Next j ->
  exists ds', sess (s ++ stream es) ds' j.
Proof.
  induction es as [|e es IH]; intros s ds i j S H E.
  - cbn in E. injection E as <-. exists ds. cbn. now rewrite app_nil_r.
  - cbn in E. destruct (step e i) as [q| |] eqn:X; try discriminate.
    destruct (session_step _ _ _ _ _ _ S H X) as [[ds1 S1] H1]. destruct (IH _ _ _ _ S1 H1 E) as [ds2 S2].
    exists ds2. change (stream (e :: es)) with (bytes_of e ++ stream es). now rewrite app_assoc.
Qed.
End Session.

Lemma fresh_sess D c i : fresh c i -> sess D c (delivered (outs i)) [] [] i.
Proof.
  intros (S & R & N & C & F & Z). constructor; auto.
  - now rewrite app_nil_r.
  - unfold count. rewrite R. exact Z.
  - rewrite F. constructor.
  - left. rewrite F, R. repeat split; [constructor|]. exists 1. repeat split; auto; lia.
Qed.

(* C116: what the user gets is the records of what came, in order, each once; what is not yet
   handed over is in the buffer.  (In the middle of a delivery the record just handed over is still
   in the buffer.) *)
Theorem sch_stream_partial : forall D c es i j,
  decoder_ok D -> fresh c i -> session D (length (delivered (outs i))) es i -> run es i = Next j ->
  exists ds, delivered (outs j) = delivered (outs i) ++ ds /\
    exists rest, records D 0 (stream es) ds rest /\ (~ in_delivery j -> rest = received_bytes j).
Proof.
  intros D c es i j DOK F H E. pose proof (fresh_sess D c i F) as S.
  destruct (session_run D DOK c _ _ eq_refl es _ _ _ _ S H E) as [ds [SS SC SO SZ SF SP] ]. cbn in SP.
  exists ds. split; [exact SO|]. destruct SP as [(B & R & _)|(ds' & d & n & X & R & DE & FE)].
  - eauto.
  - subst ds. exists (skipn n (received_bytes j)). split; [now apply records_snoc|].
    intros Q. apply not_busy_filter in Q. rewrite Q in FE. discriminate.
Qed.
(* Once a record is complete at the front of the buffer, the next bytes that come bring it to the user. *)
Theorem sch_timely_partial : forall D c es i j b a k d n,
  decoder_ok D -> fresh c i -> session D (length (delivered (outs i))) (es ++ [UBytes b a]) i ->
  run es i = Next j -> run (es ++ [UBytes b a]) i = Next k ->
  b <> [] -> D (length (delivered (outs j)) - length (delivered (outs i)))%nat (received_bytes j ++ b) = Some (d, n) ->
  delivered (outs k) = delivered (outs j) ++ [d].
Proof.
  intros D c es i j b a k d n DOK F H E E' NB DE. pose proof (fresh_sess D c i F) as S.
  assert (G : forall es i, session D (length (delivered (outs i))) (es ++ [UBytes b a]) i -> True) by auto. clear G.
  assert (SP : forall es z m, session D m (es ++ [UBytes b a]) z -> run es z = Next j ->
     session D m es z /\ session D m [UBytes b a] j).
  { clear. induction es as [|e es IH]; intros z m H E; cbn in E.
    - inversion E; subst. split; [exact I|exact H].
    - destruct H as [P Q]. destruct (step e z) as [y| |] eqn:X; try discriminate. destruct (IH _ _ Q E).
      split; [|assumption]. split; [exact P|]. now rewrite X. }
  destruct (SP _ _ _ H E) as [H1 [ [Q (M1 & M2 & FF)] _] ].
  assert (ST : step (UBytes b a) j = Next k).
  { clear - E E'. revert i E E'. induction es as [|e es IH]; intros i E E'; cbn in E, E'.
    - inversion E; subst. destruct (on_underlying_io_bytes_received b a j) eqn:X; inversion E'; subst. cbn. now rewrite X.
    - destruct (step e i); try discriminate. eauto. }
  cbn in ST. destruct (on_underlying_io_bytes_received b a j) eqn:X; inversion ST; subst.
  destruct (session_run D DOK c _ _ eq_refl es _ _ _ _ S H1 E) as [ds SJ].
  pose proof (sess_bytes D DOK c _ _ eq_refl _ _ _ _ _ _ SJ Q M1 M2 FF X) as Y.
  rewrite (se_out _ _ _ _ _ _ SJ), app_length in DE.
  replace (length (delivered (outs i)) + length ds - length (delivered (outs i)))%nat with (length ds) in DE by lia.
  rewrite DE in Y. destruct Y as [Y|[_ Y] ]; [|congruence].
  rewrite (se_out _ _ _ _ _ _ Y), (se_out _ _ _ _ _ _ SJ). now rewrite app_assoc.
Qed.

(* A decoder: the first byte is the length of the content. *)
Definition toy : decoder := fun _ b =>
  match b with
  | [] => None
  | x :: b => if (N.to_nat x <=? length b)%nat then Some (firstn (N.to_nat x) b, S (N.to_nat x)) else None
  end.
Lemma toy_ok : decoder_ok toy.
Proof.
  intros k b d n E. destruct b as [|x b]; cbn in E; [discriminate|].
  destruct (Nat.leb_spec (N.to_nat x) (length b)); inversion E; subst. split; [cbn; lia|].
  intros y. cbn. rewrite app_length. destruct (Nat.leb_spec (N.to_nat x) (length b + length y)); [|lia].
  rewrite firstn_app. replace (N.to_nat x - length b)%nat with O by lia. cbn. now rewrite app_nil_r.
Qed.
Definition opened_io : io := match run opened_events created with Next i => i | _ => created end.
Lemma opened_fresh : fresh 2 opened_io.
Proof. vm_compute. repeat split; discriminate. Qed.

Lemma session_cons D k e es i j :
  match e with
  | UBytes b a => frames i = [] /\ memory1 a = true /\ memory2 a = true /\
                      faithful D (length (delivered (outs i)) - k) (received_bytes i ++ b) (a_dec a)
  | Send _ _ _ => True | Return _ memory _ => memory = true | _ => False end ->
  step e i = Next j -> session D k es j -> session D k (e :: es) i.
Proof.
  intros P E O. cbn. rewrite E. split; [|exact O]. destruct e; auto. destruct P as [F P]. split; [|exact P].
  intros (f & G & _). rewrite F in G. exact G.
Qed.
(* two records in three deliveries, the second complete only with the third *)
Definition split_events : list event :=
  [UBytes [2%N; 65%N] (ans IscOther (DecIncomplete (Some 1)));
   UBytes [66%N; 1%N] (ans IscOther (DecOk (Some [65%N; 66%N]) (Some 1))); Return true true enc0;
   UBytes [67%N] (ans IscOther (DecOk (Some [67%N]) None)); Return true true enc0].
Example sch_stream_partial_case : session toy 0 split_events opened_io /\
  match run split_events opened_io with Next j => delivered (outs j) = [[65%N; 66%N]; [67%N]] /\ received_bytes j = [] | _ => False end.
Proof.
  split; [|vm_compute; auto].
  unfold split_events, app.
  eapply session_cons; [|vm_compute; reflexivity|].
  { repeat (split; [reflexivity|]). hnf. exists (Some 1). split; [reflexivity|]. split; [lia|]. intros x L.
    destruct x; [reflexivity|cbn [length] in L; lia]. }
  repeat (eapply session_cons; [|vm_compute; reflexivity|]; [vm_compute; repeat split; reflexivity|]). exact I.
Qed.

(* Two records that come in one delivery: the second stays in the buffer until more bytes come, however many
   deliveries of nothing, sends and returns there are. *)
Theorem sch_stall_refuted : exists i,
  run (opened_events ++ [UBytes [1%N; 65%N; 1%N; 66%N] (ans IscOther (DecOk (Some [65%N]) (Some 2))); Return true true enc0]) created = Next i /\
  faithful toy 0 [1%N; 65%N; 1%N; 66%N] (DecOk (Some [65%N]) (Some 2)) /\
  received_bytes i = [1%N; 66%N] /\ frames i = [] /\ delivered (outs i) = [[65%N]] /\
  forall es j, Forall (fun e => match e with Send _ _ _ | Return _ _ _ => True | UBytes b _ => b = [] | _ => False end) es ->
    run es i = Next j -> delivered (outs j) = [[65%N]] /\ received_bytes j = [1%N; 66%N].
Proof.
  eexists. split; [vm_compute; reflexivity|]. split; [vm_compute; reflexivity|].
  repeat (split; [reflexivity|]).
  assert (G : forall es i j,
    tlsio_state i = TLSIO_STATE_OPEN -> needed_bytes i = Some 1 -> received_bytes i = [1%N; 66%N] -> 2 <= buffer_size i ->
    delivered (outs i) = [[65%N]] -> Forall (fun f => match f with AfterChunk _ _ => True | _ => False end) (frames i) ->
    Forall (fun e => match e with Send _ _ _ | Return _ _ _ => True | UBytes b _ => b = [] | _ => False end) es ->
    run es i = Next j -> delivered (outs j) = [[65%N]] /\ received_bytes j = [1%N; 66%N]).
  { induction es as [|e es IH]; intros i j S N R B O F H E; cbn in E; [inversion E; subst; auto|].
    inversion H as [|? ? H1 H2]; subst.
    assert (SL : forall bs cb ci z, frames i = frames z \/ (exists f, frames i = f :: frames z) -> tlsio_state z = TLSIO_STATE_OPEN -> needed_bytes z = Some 1 ->
       received_bytes z = [1%N; 66%N] -> 2 <= buffer_size z -> delivered (outs z) = [[65%N]] -> 
       run es (send_loop bs cb ci z) = Next j \/ run es (emit (SendReturns false) z) = Next j -> delivered (outs j) = [[65%N]] /\ received_bytes j = [1%N; 66%N]).
    { intros bs cb ci z FZ SZ NZ RZ BZ OZ EZ.
      assert (FF : Forall (fun f => match f with AfterChunk _ _ => True | _ => False end) (frames z)).
      { destruct FZ as [FZ|[f FZ] ]; rewrite FZ in F; [exact F|now inversion F]. }
      destruct EZ as [EZ|EZ].
      - unfold send_loop in EZ. rewrite SZ in EZ. destruct bs; [|destruct (ci _)]; apply (IH _ _) in EZ; auto; cbn; rewrite ?delivered_cons, ?app_nil_r; auto.
      - apply (IH _ _) in EZ; auto; cbn; rewrite ?delivered_cons, ?app_nil_r; auto. }
    destruct e; try (solve [destruct H1]).
    - cbn in E. eapply SL with (z := i); eauto.
    - subst bytes. cbn in E. unfold on_underlying_io_bytes_received, resize_receive_buffer, count in E. rewrite R in E.
      cbn in E. replace (buffer_size i <? 2) with false in E by (symmetry; apply Z.ltb_ge; lia).
      cbn in E. rewrite R in E. cbn in E. replace (buffer_size i <? 2) with false in E by (symmetry; apply Z.ltb_ge; lia).
      rewrite S, N in E. cbn in E. apply IH in E; auto.
    - cbn in E. destruct (frames i) as [|f fs] eqn:FI; [discriminate|]. inversion F as [|? ? F1 F2]; subst.
      destruct f; try destruct F1. cbn in E. eapply SL with (z := set_frames fs i); eauto.
      destruct ok; [left; exact E|right; exact E]. }
  intros es j H E. eapply G; [..|exact H|exact E]; auto; try reflexivity.
  - cbn. lia.
  - constructor.
Qed.

(* The server's last token of the handshake and its first record in one delivery: Schannel says, by its documentation
   in the second input buffer, that two bytes are left over; they are thrown away. *)
Theorem sch_handshake_extra_lost_refuted : exists es i,
  run es created = Next i /\ tlsio_state i = TLSIO_STATE_OPEN /\ received_bytes i = [] /\
  In (UBytes [3%N; 1%N; 65%N] (ans (IscOk (Some 2) None) DecOther)) es /\ documented (IscOk (Some 2) None).
Proof.
  exists (firstn 5 opened_events ++ [UBytes [3%N; 1%N; 65%N] (ans (IscOk (Some 2) None) DecOther)]).
  eexists. split; [vm_compute; reflexivity|]. repeat split. cbn. tauto.
Qed.
(* No memory for a delivery of bytes: nothing is reported, and the bytes that follow are taken for what comes next. *)
Theorem sch_no_memory_lost_refuted : exists i,
  run [UBytes [2%N; 65%N; 66%N] {| memory1 := false; memory2 := true; a_isc := IscOther; a_dec := DecOther |}] opened_io = Next i /\
  i = opened_io.
Proof. eexists. split; vm_compute; reflexivity. Qed.
(* A record that is not genuine: Schannel refuses it; the user is told nothing, and the session stays open. *)
Theorem sch_bad_record_silent_refuted : exists i,
  run [UBytes [2%N; 65%N; 66%N] (ans IscOther DecOther)] opened_io = Next i /\
  outs i = outs opened_io /\ tlsio_state i = TLSIO_STATE_OPEN /\ received_bytes i = [2%N; 65%N; 66%N].
Proof. eexists. split; [vm_compute; reflexivity|]. repeat split. Qed.
