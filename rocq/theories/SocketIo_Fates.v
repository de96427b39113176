(* C57-C59: what becomes of the bytes and messages given to a socket io. *)
From Verif Require Import Base SocketIo_Model SocketIo_Spec SocketIo_Paths.
Open Scope Z_scope.

(* ---------------- histories ---------------- *)
Definition record (w : world) (o : op) (r : option Z) (w' : world) : scall := {| s_op := o; s_ret := r; s_events := skipn (length (log w)) (log w') |}.
Lemma skipn_after {A} (a b : list A) : skipn (length a) (a ++ b) = b.
Proof. rewrite skipn_app, skipn_all, Nat.sub_diag. reflexivity. Qed.

Lemma history_inv (P : list scall -> world -> Prop) :
  (forall past w o z r w' z', P past w -> step w o z = Some ((r, w'), z') -> P (past ++ [record w o r w']) w') ->
  forall ops past w z h w' z', P past w -> history w ops z = Some ((h, w'), z') -> P (past ++ h) w'.
Proof.
  intros S. induction ops as [|o ops IH]; intros past w z h w' z' HP E; cbn [history] in E.
  - injection E as <- <- <-. rewrite app_nil_r. exact HP.
  - unfold bind in E. destruct (step w o z) as [[[r w1] z1]|] eqn:E1; [|discriminate]. cbn [fst snd] in E. destruct (history w1 ops z1) as [[[h1 w2] z2]|] eqn:E2; [|discriminate]. cbn in E. injection E as <- <- <-.
    specialize (IH _ _ _ _ _ _ (S _ _ _ _ _ _ _ HP E1) E2). rewrite <- app_assoc in IH. exact IH.
Qed.
Lemma history_split ops : forall w z h w' z' a b, history w ops z = Some ((h, w'), z') -> h = a ++ b ->
  exists ops1 ops2 w1 z1, history w ops1 z = Some ((a, w1), z1) /\ history w1 ops2 z1 = Some ((b, w'), z').
Proof.
  induction ops as [|o ops IH]; intros w z h w' z' a b E H; cbn [history] in E.
  - injection E as <- <- <-. destruct a; [|discriminate]. destruct b; [|discriminate]. exists [], [], w, z. split; reflexivity.
  - unfold bind in E. destruct (step w o z) as [[[r w1] z1]|] eqn:E1; [|discriminate]. cbn [fst snd] in E. destruct (history w1 ops z1) as [[[h1 w2] z2]|] eqn:E2; [|discriminate]. cbn in E. injection E as <- <- <-.
    destruct a as [|c a]; cbn in H.
    + exists [], (o :: ops), w, z. split; [reflexivity|]. subst b. cbn [history]. unfold bind. rewrite E1. cbn [fst snd]. rewrite E2. reflexivity.
    + injection H as <- ->. destruct (IH _ _ _ _ _ a b E2 eq_refl) as (o1 & o2 & w3 & z3 & H1 & H2). exists (o :: o1), o2, w3, z3. split; [|exact H2]. cbn [history]. unfold bind. rewrite E1. cbn [fst snd]. rewrite H1. reflexivity.
Qed.
Lemma history_one ops w z c b w' z' : history w ops z = Some ((c :: b, w'), z') ->
  exists ops2 w1 z1, step w (s_op c) z = Some ((s_ret c, w1), z1) /\ s_events c = skipn (length (log w)) (log w1) /\ history w1 ops2 z1 = Some ((b, w'), z').
Proof.
  destruct ops as [|o ops]; cbn [history]; [intros E; injection E; discriminate|]. intros E. unfold bind in E. destruct (step w o z) as [[[r w1] z1]|] eqn:E1; [|discriminate]. cbn [fst snd] in E. destruct (history w1 ops z1) as [[[h1 w2] z2]|] eqn:E2; [|discriminate]. cbn in E. injection E as <- <- <- <-.
  exists ops, w1, z1. cbn. auto.
Qed.

Lemma attempts_snoc h c : attempts (h ++ [c]) = attempts h ++ map (fun m => (m, match s_ret c with Some 0 => true | _ => false end)) (message_of (s_op c)).
Proof. unfold attempts. rewrite map_app, concat_app. cbn. rewrite app_nil_r. reflexivity. Qed.
Lemma observed_snoc h c : observed (h ++ [c]) = observed h ++ s_events c.
Proof. unfold observed. rewrite map_app, concat_app. cbn. rewrite app_nil_r. reflexivity. Qed.
Lemma handed_app a b : handed (a ++ b) = handed a ++ handed b.
Proof. unfold handed. rewrite map_app, concat_app. reflexivity. Qed.
Lemma handed_one e : handed [e] = taken e.
Proof. unfold handed. cbn. apply app_nil_r. Qed.
Lemma completions_app a b : completions (a ++ b) = completions a ++ completions b.
Proof. unfold completions. rewrite map_app, concat_app. reflexivity. Qed.

(* ---------------- prefixes ---------------- *)
Lemma prefix_refl {A} (a : list A) : prefix a a.
Proof. exists []. rewrite app_nil_r. reflexivity. Qed.
Lemma prefix_nil {A} (a : list A) : prefix [] a.
Proof. exists a. reflexivity. Qed.
Lemma prefix_app {A} (a b c : list A) : prefix a b -> prefix a (b ++ c).
Proof. intros [d ->]. exists (d ++ c). rewrite app_assoc. reflexivity. Qed.
Lemma prefix_comparable {A} (a b c : list A) : prefix a c -> prefix b c -> comparable a b.
Proof.
  intros [x ->] [y E]. revert b E. induction a as [|u a IH]; intros b E; [left; apply prefix_nil|]. destruct b as [|v b]; [right; apply prefix_nil|].
  cbn in E. injection E as <- E. destruct (IH _ E) as [[d ->]|[d ->]]; [left|right]; exists d; reflexivity.
Qed.

(* ---------------- the invariant ---------------- *)
Record fits (j : journey) (p : pending) : Prop := {
  f_fate : j_fate j = Waiting;
  f_cb : m_callback (j_msg j) = p_callback p;
  f_ctx : m_context (j_msg j) = p_context p;
  f_size : p_size p = length (p_bytes p);
  f_prefix : prefix (m_bytes (j_msg j)) (j_seg j ++ p_bytes p)
}.
Inductive behind : list journey -> list pending -> Prop :=
| B_nil : behind [] []
| B_refused j w q : j_fate j = Refused -> j_seg j = [] -> behind w q -> behind (j :: w) q
| B_waiting j w p q : fits j p -> j_seg j = [] -> behind w q -> behind (j :: w) (p :: q).
Inductive line : list journey -> list pending -> Prop :=
| Li_nil : line [] []
| Li_cons j w p q : fits j p -> behind w q -> line (j :: w) (p :: q).

(* what is known about the finished journeys *)
Record Fin (l : list event) (fin : list journey) : Prop := {
  i_fin : forall j, In j fin -> j_fate j <> Waiting;
  i_comp : forall j, In j fin -> comparable (m_bytes (j_msg j)) (j_seg j);
  i_done : forall j, In j fin -> j_fate j = Done -> prefix (m_bytes (j_msg j)) (j_seg j);
  i_cb : completions l = concat (map callback_due fin);
  i_time : forall a j b, fin = a ++ j :: b -> forall cb, callback_due j = [cb] ->
     exists l1 e l2, l = l1 ++ e :: l2 /\ completion e = [cb] /\ handed l1 = concat (map j_seg (a ++ [j])) /\ completions l1 = concat (map callback_due a);
  i_drop : (forall fd b, ~ In (ESend fd b (-1)) l) -> forall j, In j fin -> j_fate j <> Dropped
}.
Definition label (j : journey) : message * bool := (j_msg j, accepted (j_fate j)).
Record Inv (sent : list (message * bool)) (l : list event) (q : list pending) (fin wait : list journey) : Prop := {
  i_att : map label (fin ++ wait) = sent;
  i_line : line wait q;
  i_bytes : handed l = concat (map j_seg (fin ++ wait));
  i_done_ones : Fin l fin
}.

Lemma behind_segs w q : behind w q -> concat (map j_seg w) = [].
Proof. induction 1; cbn; rewrite ?H0, ?IHbehind; reflexivity. Qed.
Lemma behind_fate w q j : behind w q -> In j w -> (j_fate j = Refused \/ j_fate j = Waiting) /\ j_seg j = [].
Proof. induction 1; intros Hj; [destruct Hj| |]; (destruct Hj as [<-|Hj]; [|auto]); [auto|]. split; [right; apply H|exact H0]. Qed.
Lemma line_fate w q j : line w q -> In j w -> (j_fate j = Refused \/ j_fate j = Waiting) /\ comparable (m_bytes (j_msg j)) (j_seg j).
Proof.
  destruct 1 as [|j0 w p q F B]; intros Hj; [destruct Hj|]. destruct Hj as [<-|Hj].
  - split; [right; apply F|]. eapply prefix_comparable; [apply F|]. exists (p_bytes p). reflexivity.
  - destruct (behind_fate _ _ _ B Hj) as [? ->]. split; [assumption|]. right. apply prefix_nil.
Qed.
Definition refused_quietly (j : journey) : Prop := j_fate j = Refused /\ j_seg j = [].
Lemma settle w q : behind w q -> exists r w', w = r ++ w' /\ Forall refused_quietly r /\ line w' q.
Proof.
  induction 1 as [|j w q H1 H2 B (r & w' & -> & Hr & Hl)|j w p q F H2 B _].
  - exists [], []. split; [reflexivity|]. split; constructor.
  - exists (j :: r), w'. split; [reflexivity|]. split; [constructor; [split; assumption|exact Hr]|exact Hl].
  - exists [], (j :: w). split; [reflexivity|]. split; [constructor|]. constructor; assumption.
Qed.
Lemma behind_refused w q j : behind w q -> refused_quietly j -> behind (w ++ [j]) q.
Proof.
  intros B [H1 H2]. induction B; cbn [app]; [apply B_refused; [exact H1|exact H2|constructor]|apply B_refused; assumption|apply B_waiting; assumption].
Qed.
Lemma behind_push w q j p : behind w q -> fits j p -> j_seg j = [] -> behind (w ++ [j]) (q ++ [p]).
Proof.
  intros B H1 H2. induction B; cbn [app]; [apply B_waiting; [exact H1|exact H2|constructor]|apply B_refused; assumption|apply B_waiting; assumption].
Qed.

Lemma snoc_split {A} (f : list A) z a j b : f ++ [z] = a ++ j :: b -> (exists b', b = b' ++ [z] /\ f = a ++ j :: b') \/ (b = [] /\ j = z /\ f = a).
Proof.
  intros E. destruct (rev b) as [|y r] eqn:Er; apply (f_equal (@rev _)) in Er; rewrite rev_involutive in Er; cbn in Er; subst b.
  - apply app_inj_tail in E. destruct E as [-> <-]. right. auto.
  - change (a ++ j :: rev r ++ [y]) with (a ++ (j :: rev r) ++ [y]) in E. rewrite app_assoc in E. apply app_inj_tail in E. destruct E as [-> <-]. left. exists (rev r). auto.
Qed.

Lemma fin_snoc l fin j l2 : Fin l fin -> j_fate j <> Waiting -> comparable (m_bytes (j_msg j)) (j_seg j) -> (j_fate j = Done -> prefix (m_bytes (j_msg j)) (j_seg j)) ->
  completions l2 = callback_due j ->
  (forall cb, callback_due j = [cb] -> exists l3 e, l2 = l3 ++ [e] /\ completion e = [cb] /\ handed (l ++ l3) = concat (map j_seg (fin ++ [j])) /\ completions l3 = []) ->
  ((forall fd b, ~ In (ESend fd b (-1)) l2) -> j_fate j <> Dropped) -> Fin (l ++ l2) (fin ++ [j]).
Proof.
  intros [A2 A3 A4 A5 A6 A7] B2 B3 B4 B8 B9 B10. constructor.
  - intros k Hk. apply in_app_or in Hk. destruct Hk as [Hk|[<-|[]]]; auto.
  - intros k Hk. apply in_app_or in Hk. destruct Hk as [Hk|[<-|[]]]; auto.
  - intros k Hk. apply in_app_or in Hk. destruct Hk as [Hk|[<-|[]]]; auto.
  - rewrite completions_app, B8, A5, map_app, concat_app. cbn. rewrite app_nil_r. reflexivity.
  - intros a k b E cb Hc. apply snoc_split in E. destruct E as [(b' & -> & E)|(-> & -> & <-)].
    + destruct (A6 a k b' E cb Hc) as (l1 & e & l3 & -> & R). exists l1, e, (l3 ++ l2). rewrite <- app_assoc. auto.
    + destruct (B9 cb Hc) as (l3 & e & -> & He & Hh & Hcomp). exists (l ++ l3), e, []. rewrite app_assoc. split; [reflexivity|]. split; [exact He|].
      rewrite completions_app, Hcomp, A5, app_nil_r. split; [exact Hh|reflexivity].
  - intros Hn k Hk. apply in_app_or in Hk. destruct Hk as [Hk|[<-|[]]].
    + apply A7; auto. intros fd b Hi. apply (Hn fd b), in_or_app. auto.
    + apply B10. intros fd b Hi. apply (Hn fd b), in_or_app. auto.
Qed.
Lemma fin_quiet l fin l2 : Fin l fin -> completions l2 = [] -> Fin (l ++ l2) fin.
Proof.
  intros [] H2. constructor; auto.
  - rewrite completions_app, H2, app_nil_r. assumption.
  - intros a j b E cb Hc. destruct (i_time0 a j b E cb Hc) as (l1 & e & l3 & -> & R). exists l1, e, (l3 ++ l2). rewrite <- app_assoc. auto.
  - intros Hn. apply i_drop0. intros fd b Hin. apply (Hn fd b), in_or_app. auto.
Qed.
(* a refused message, of which the kernel may have got a part *)
Lemma fin_refused l fin j : Fin l fin -> j_fate j = Refused -> prefix (j_seg j) (m_bytes (j_msg j)) -> Fin l (fin ++ [j]).
Proof.
  intros F H1 H2. rewrite <- (app_nil_r l). apply fin_snoc; auto.
  - congruence.
  - right. exact H2.
  - congruence.
  - unfold callback_due. rewrite H1. reflexivity.
  - unfold callback_due. rewrite H1. discriminate.
  - congruence.
Qed.
Lemma fin_settle l : forall r fin, Fin l fin -> Forall refused_quietly r -> Fin l (fin ++ r).
Proof.
  induction r as [|j r IH]; intros fin F H; [rewrite app_nil_r; exact F|]. inversion H as [|? ? [H1 H2] H3]; subst. change (j :: r) with ([j] ++ r). rewrite app_assoc. apply IH; [|exact H3].
  apply fin_refused; auto. rewrite H2. apply prefix_nil.
Qed.
Lemma settle_inv sent l q fin w : map label (fin ++ w) = sent -> behind w q -> handed l = concat (map j_seg (fin ++ w)) -> Fin l fin -> exists fin' w', Inv sent l q fin' w'.
Proof.
  intros H1 B H2 F. destruct (settle _ _ B) as (r & w' & -> & Hr & Hl). rewrite app_assoc in H1, H2. exists (fin ++ r), w'. constructor; auto. apply fin_settle; assumption.
Qed.

Lemma inv_quiet sent l q fin wait l2 : Inv sent l q fin wait -> handed l2 = [] -> completions l2 = [] -> Inv sent (l ++ l2) q fin wait.
Proof. intros [] H1 H2. constructor; auto; [|apply fin_quiet; assumption]. rewrite handed_app, H1, app_nil_r. assumption. Qed.

Lemma call_completion cb ctx : completions (call cb (fun c => ESendComplete c ctx 0)) = match cb with Some c => [(c, ctx, 0)] | None => [] end.
Proof. destruct cb; reflexivity. Qed.
Lemma call_handed cb f : (forall c, taken (f c) = []) -> handed (call cb f) = [].
Proof. intros H. destruct cb; [cbn; rewrite H|]; reflexivity. Qed.
Lemma error_quiet x : handed (indicate_error x) = [] /\ completions (indicate_error x) = [].
Proof. unfold indicate_error. destruct (on_error x); split; reflexivity. Qed.
Lemma in_call e cb f : In e (call cb f) -> exists c, e = f c.
Proof. destruct cb; cbn; [intros [<-|[]]; eauto|intros []]. Qed.

(* ---------------- the loop of dowork ---------------- *)
Lemma loops_inv d x x' l2 : loops d x x' l2 -> forall sent l fin wait, Inv sent l (queue x) fin wait -> exists fin' wait', Inv sent (l ++ l2) (queue x') fin' wait'.
Proof.
  induction 1 as [x E|x|d x x' l2 p rest E Hm HL IH|d x x' l2 p rest E HL IH|d x x' l2 p rest r E Hr HL IH]; intros sent l fin wait [I1 I2 I3 I4].
  - rewrite app_nil_r. exists fin, wait. constructor; auto.
  - rewrite app_nil_r. exists fin, wait. constructor; auto.
  - rewrite E in I2. inversion I2 as [|j w p' q F B]; subst p' q wait. pose proof (behind_segs _ _ B) as Bs.
    set (j' := {| j_msg := j_msg j; j_seg := j_seg j ++ p_bytes p; j_fate := Done |}).
    set (s := ESend (sock x) (firstn (p_size p) (p_bytes p)) (Z.of_nat (p_size p))). set (cs := call (p_callback p) (fun c => ESendComplete c (p_context p) 0)).
    assert (Ht : taken s = p_bytes p) by (cbn; rewrite Nat2Z.id, (f_size _ _ F), !firstn_all; reflexivity).
    assert (Hb : handed l ++ p_bytes p = concat (map j_seg (fin ++ [j']))).
    { rewrite I3, !map_app, !concat_app. cbn. rewrite Bs, !app_nil_r, <- app_assoc. reflexivity. }
    assert (Hcs : handed cs = []) by (apply call_handed; reflexivity).
    assert (Hc1 : completions (s :: cs) = callback_due j').
    { change (completions (s :: cs)) with (completions cs). unfold cs, callback_due. rewrite call_completion. cbn. rewrite (f_cb _ _ F), (f_ctx _ _ F). reflexivity. }
    destruct (settle_inv sent (l ++ s :: cs) rest (fin ++ [j']) w) as (fin' & w' & I).
    + rewrite <- app_assoc. cbn [app]. assert (Hlab : label j' = label j) by (unfold label; cbn; rewrite (f_fate _ _ F); reflexivity). rewrite <- I1, !map_app. cbn [map]. rewrite Hlab. reflexivity.
    + exact B.
    + rewrite handed_app. change (s :: cs) with ([s] ++ cs). rewrite (handed_app [s]), Hcs, app_nil_r, handed_one, Ht, Hb, (map_app _ _ w), (concat_app _ (map _ w)), Bs, app_nil_r. reflexivity.
    + apply fin_snoc; auto.
      * discriminate.
      * left. apply F.
      * intros _. apply F.
      * intros cb Hcb. unfold callback_due in Hcb. cbn in Hcb. rewrite (f_cb _ _ F), (f_ctx _ _ F) in Hcb. unfold cs. destruct (p_callback p) as [c|]; [|discriminate]. injection Hcb as <-. exists [s]. eexists. split; [reflexivity|]. split; [reflexivity|]. split; [|reflexivity].
        rewrite handed_app, handed_one, Ht. exact Hb.
      * discriminate.
    + apply IH in I. destruct I as (f & v & I). exists f, v. rewrite <- app_assoc in I. exact I.
  - rewrite E in I2. inversion I2 as [|j w p' q F B]; subst p' q wait. pose proof (behind_segs _ _ B) as Bs.
    set (j' := {| j_msg := j_msg j; j_seg := j_seg j; j_fate := Dropped |}). destruct (error_quiet x) as [Q1 Q2].
    set (s := ESend (sock x) (firstn (p_size p) (p_bytes p)) (-1)).
    assert (Ht : handed (s :: indicate_error x) = []) by (exact Q1).
    destruct (settle_inv sent (l ++ s :: indicate_error x) rest (fin ++ [j']) w) as (fin' & w' & I).
    + rewrite <- app_assoc. cbn [app]. assert (Hlab : label j' = label j) by (unfold label; cbn; rewrite (f_fate _ _ F); reflexivity). rewrite <- I1, !map_app. cbn [map]. rewrite Hlab. reflexivity.
    + exact B.
    + rewrite handed_app, Ht, app_nil_r, I3. rewrite !map_app, !concat_app. cbn. rewrite Bs, !app_nil_r. reflexivity.
    + apply fin_snoc; auto.
      * discriminate.
      * eapply prefix_comparable; [apply F|]. exists (p_bytes p). reflexivity.
      * discriminate.
      * intros cb. discriminate.
      * intros Hn. destruct (Hn (sock x) (firstn (p_size p) (p_bytes p))). left. reflexivity.
    + apply IH in I. destruct I as (f & v & I). exists f, v. rewrite <- app_assoc in I. exact I.
  - rewrite E in I2. inversion I2 as [|j w p' q F B]; subst p' q wait. pose proof (behind_segs _ _ B) as Bs. pose proof (f_size _ _ F) as Hsz.
    set (j' := {| j_msg := j_msg j; j_seg := j_seg j ++ firstn r (p_bytes p); j_fate := Waiting |}).
    set (s := ESend (sock x) (firstn (p_size p) (p_bytes p)) (Z.of_nat r)).
    assert (Ht : taken s = firstn r (p_bytes p)) by (cbn; rewrite Nat2Z.id, Hsz, firstn_all; reflexivity).
    edestruct (IH sent (l ++ [s]) fin (j' :: w)) as (f & v & I).
    + constructor.
      * assert (Hlab : label j' = label j) by (unfold label; cbn; rewrite (f_fate _ _ F); reflexivity). rewrite <- I1, !map_app. cbn [map]. rewrite Hlab. reflexivity.
      * cbn [queue set_queue]. constructor; [|exact B]. constructor; cbn.
        -- reflexivity.
        -- apply F.
        -- apply F.
        -- unfold memmove_front. rewrite app_length, firstn_length, !skipn_length. lia.
        -- unfold memmove_front. rewrite (firstn_all2 (n := p_size p - r) (skipn r (p_bytes p))) by (rewrite skipn_length; lia). rewrite <- app_assoc, (app_assoc (firstn r _)), firstn_skipn. rewrite app_assoc. apply prefix_app, F.
      * rewrite handed_app, handed_one, Ht, I3, !map_app, !concat_app. cbn. rewrite Bs, !app_nil_r, <- app_assoc. reflexivity.
      * apply fin_quiet; [exact I4|reflexivity].
    + exists f, v. rewrite <- app_assoc in I. exact I.
Qed.

(* ---------------- one call ---------------- *)
Definition accounted (past : list scall) (w : world) : Prop :=
  exists q fin wait, (forall x, io w = Some x -> queue x = q) /\ Inv (attempts past) (observed past) q fin wait.

Lemma idle_message o : idle o = true -> message_of o = [].
Proof. destruct o as [h a b c d e f|h a b|h buf size cb ctx|h|h|h]; try reflexivity. cbn. destruct h, buf, size; cbn; congruence. Qed.

Lemma received_quiet x bs : handed (concat (map (received x) bs) ++ [ERecv (sock x) None]) = [] /\ completions (concat (map (received x) bs) ++ [ERecv (sock x) None]) = [].
Proof.
  rewrite handed_app, completions_app. cbn. rewrite !app_nil_r. induction bs as [|b bs [IH1 IH2]]; [split; reflexivity|]. cbn [map concat]. rewrite handed_app, completions_app, IH1, IH2, !app_nil_r.
  unfold received. destruct (on_bytes x); split; reflexivity.
Qed.

Lemma inv_new_waiting sent l fin q b cb ctx m k : Inv sent l q fin [] -> m_bytes m = b -> m_callback m = cb -> m_context m = ctx -> (k <= length b)%nat -> forall fd,
  exists fin' wait', Inv (sent ++ [(m, true)]) (l ++ [ESend fd b (Z.of_nat k)]) [{| p_bytes := skipn k b; p_size := length (skipn k b); p_callback := cb; p_context := ctx |}] fin' wait'.
Proof.
  intros [I1 I2 I3 I4] E1 E2 E3 Hk fd. exists fin, [{| j_msg := m; j_seg := firstn k b; j_fate := Waiting |}]. rewrite app_nil_r in I1, I3. constructor.
  - rewrite map_app, I1. reflexivity.
  - constructor; [|constructor]. constructor; cbn; auto. rewrite firstn_skipn, E1. apply prefix_refl.
  - rewrite handed_app, I3, map_app, concat_app. cbn. rewrite Nat2Z.id. reflexivity.
  - apply fin_quiet; [exact I4|reflexivity].
Qed.
Lemma inv_refused sent l q fin wait m seg l2 : Inv sent l q fin wait -> (q <> [] -> seg = []) -> prefix seg (m_bytes m) -> handed l2 = seg -> completions l2 = [] ->
  exists fin' wait', Inv (sent ++ [(m, false)]) (l ++ l2) q fin' wait'.
Proof.
  intros [I1 I2 I3 I4] Hq Hp Hh Hc. set (j := {| j_msg := m; j_seg := seg; j_fate := Refused |}). inversion I2 as [E1 E2|j0 w p q' F B E1 E2]; subst.
  - rewrite app_nil_r in *. exists (fin ++ [j]), []. constructor.
    + rewrite app_nil_r, map_app. reflexivity.
    + constructor.
    + rewrite app_nil_r, handed_app, map_app, concat_app, I3. cbn. rewrite app_nil_r. reflexivity.
    + apply fin_refused; [apply fin_quiet; auto|reflexivity|exact Hp].
  - assert (Hs : handed l2 = []) by (apply Hq; discriminate). exists fin, ((j0 :: w) ++ [j]). constructor.
    + rewrite app_assoc, map_app. reflexivity.
    + cbn. constructor; [exact F|]. apply behind_refused; [exact B|]. split; [reflexivity|exact Hs].
    + rewrite handed_app, I3, app_assoc, (map_app _ (fin ++ j0 :: w)), concat_app. cbn. rewrite Hs. cbn. rewrite !app_nil_r. reflexivity.
    + apply fin_quiet; auto.
Qed.

Lemma accounted_step past w o z r w' z' : accounted past w -> step w o z = Some ((r, w'), z') -> accounted (past ++ [record w o r w']) w'.
Proof.
  intros (q & fin & wait & Hq & I) E. apply step_path in E. destruct E as [Hc [(Hi & -> & Hr)|[_ (x & l & Hx & Hl & D & _)]]].
  { exists q, fin, wait. split; [exact Hq|]. rewrite attempts_snoc, observed_snoc. cbn. rewrite (idle_message _ Hi), skipn_all, !app_nil_r. exact I. }
  specialize (Hq _ Hx). subst q. unfold accounted. rewrite attempts_snoc, observed_snoc. cbn [record s_op s_ret s_events]. rewrite Hl, skipn_after. clear Hl. remember (io w') as iw eqn:Eiw. clear Eiw Hx.
  assert (Quiet : forall l2 y, queue y = queue x -> handed l2 = [] -> completions l2 = [] -> exists q fin wait, (forall x0, Some y = Some x0 -> queue x0 = q) /\ Inv (attempts past) (observed past ++ l2) q fin wait).
  { intros l2 y Ey H1 H2. exists (queue x), fin, wait. split; [intros y0 Hy; congruence|]. apply inv_quiet; assumption. }
  assert (No : forall buf n cb ctx r seg l2, r <> 0 -> (queue x <> [] -> seg = []) -> prefix seg (firstn (S n) buf) -> handed l2 = seg -> completions l2 = [] ->
     exists q fin wait, (forall x0, Some x = Some x0 -> queue x0 = q) /\ Inv (attempts past ++ map (fun m => (m, match Some r with Some 0 => true | _ => false end)) (message_of (OSend true (Some buf) (S n) cb ctx))) (observed past ++ l2) q fin wait).
  { intros buf n cb ctx r0 seg l2 Hr Hs Hp H1 H2. replace (match Some r0 with Some 0 => true | _ => false end) with false by (destruct r0; [congruence|reflexivity|reflexivity]).
    destruct (inv_refused _ _ _ _ _ {| m_bytes := firstn (S n) buf; m_callback := cb; m_context := ctx |} seg l2 I Hs Hp H1 H2) as (f & v & I'). exists (queue x), f, v. split; [congruence|exact I']. }
  inversion D; subst; clear D.
  - rewrite app_nil_r. cbn. apply Quiet; reflexivity.
  - cbn [message_of map]. rewrite app_nil_r. apply Quiet; [reflexivity|apply call_handed; reflexivity|destruct a; reflexivity].
  - cbn [message_of map]. rewrite app_nil_r. apply Quiet; reflexivity.
  - cbn [message_of map]. rewrite app_nil_r. destruct H3 as [(v & -> & _)|[(v & -> & _)|[->|(v & ->)] ] ]; apply Quiet; reflexivity.
  - cbn [message_of map]. rewrite app_nil_r. apply Quiet; [reflexivity|destruct a; reflexivity|destruct a; reflexivity].
  - cbn [message_of map]. rewrite app_nil_r. apply Quiet; reflexivity.
  - cbn [message_of map]. rewrite app_nil_r. apply Quiet; [reflexivity|destruct a; reflexivity|destruct a; reflexivity].
  - apply (No _ _ _ _ _ []); auto; apply prefix_nil.
  - (* queued *)
    rewrite app_nil_r. destruct I as [I1 I2 I3 I4]. inversion I2 as [E1 E2|j0 v p q' F B E1 E2]; [congruence|]. subst wait.
    set (m := {| m_bytes := firstn (S n) buf; m_callback := cb; m_context := ctx |}). exists (queue x ++ [{| p_bytes := m_bytes m; p_size := length (m_bytes m); p_callback := cb; p_context := ctx |}]), fin, ((j0 :: v) ++ [{| j_msg := m; j_seg := []; j_fate := Waiting |}]).
    split; [intros y Hy; injection Hy as <-; reflexivity|]. constructor.
    + rewrite app_assoc, map_app, I1. reflexivity.
    + rewrite <- E2. cbn [app]. constructor; [exact F|]. apply behind_push; [exact B| |reflexivity]. constructor; try reflexivity. apply prefix_refl.
    + rewrite app_assoc, map_app, concat_app, I3. cbn. rewrite app_nil_r. reflexivity.
    + exact I4.
  - apply (No _ _ _ _ _ []); auto; apply prefix_nil.
  - (* sent at once *)
    destruct I as [I1 I2 I3 I4]. rewrite H0 in I2. inversion I2; subst wait. rewrite app_nil_r in I1, I3.
    set (m := {| m_bytes := firstn (S n) buf; m_callback := cb; m_context := ctx |}). set (j := {| j_msg := m; j_seg := m_bytes m; j_fate := Done |}).
    assert (Hlen : length (firstn (S n) buf) = S n) by (rewrite firstn_length; lia).
    assert (Ht : taken (ESend (sock x) (firstn (S n) buf) (Z.of_nat (S n))) = m_bytes m) by (cbn [taken]; rewrite Nat2Z.id, firstn_all2 by lia; reflexivity).
    exists [], (fin ++ [j]), []. split; [intros y Hy; injection Hy as <-; exact H0|]. constructor.
    + rewrite app_nil_r, map_app, I1. reflexivity.
    + constructor.
    + rewrite app_nil_r, map_app, concat_app, handed_app, I3. cbn [map concat]. f_equal. change (ESend ?a ?b ?c :: ?d) with ([ESend a b c] ++ d). rewrite handed_app, handed_one, Ht, call_handed by reflexivity. reflexivity.
    + apply fin_snoc; auto.
      * discriminate.
      * left. apply prefix_refl.
      * intros _. apply prefix_refl.
      * unfold callback_due. cbn [j_fate j j_msg m m_callback m_context]. change (completions (ESend ?a ?b ?c :: ?d)) with (completions d). apply call_completion.
      * intros c0 Hc0. unfold callback_due in Hc0. cbn in Hc0. destruct cb as [cb|]; [|discriminate]. injection Hc0 as <-. eexists [_]. eexists. split; [reflexivity|]. split; [reflexivity|]. split; [|reflexivity].
        rewrite handed_app, handed_one, Ht, I3, map_app, concat_app. cbn [map concat]. rewrite app_nil_r. reflexivity.
      * discriminate.
  - destruct (error_quiet x) as [Q1 Q2]. apply (No _ _ _ _ _ []); auto; apply prefix_nil.
  - (* partly sent *)
    pose proof I as [_ I2 _ _]. rewrite H0 in I2. inversion I2; subst wait. rewrite H0 in I.
    set (m := {| m_bytes := firstn (S n) buf; m_callback := cb; m_context := ctx |}).
    destruct (inv_new_waiting _ _ _ _ (firstn (S n) buf) cb ctx m k I eq_refl eq_refl eq_refl) with (fd := sock x) as (f & v & I'); [rewrite firstn_length; lia|].
    eexists. exists f, v. split; [|exact I']. intros y Hy. injection Hy as <-. cbn [push queue set_queue]. rewrite H0. reflexivity.
  - apply (No _ _ _ _ _ (firstn k (firstn (S n) buf))); auto.
    + intros C. congruence.
    + exists (skipn k (firstn (S n) buf)). symmetry. apply firstn_skipn.
    + rewrite handed_one. cbn [taken]. rewrite Nat2Z.id. reflexivity.
  - cbn [message_of map]. rewrite app_nil_r. apply Quiet; reflexivity.
  - cbn [message_of map]. rewrite app_nil_r. destruct (loops_inv _ _ _ _ H0 _ _ _ _ I) as (f & v & I'). exists (queue x'), f, v. split; [congruence|exact I'].
  - cbn [message_of map]. rewrite app_nil_r. destruct (loops_inv _ _ _ _ H0 _ _ _ _ I) as (f & v & I'). exists (queue x'), f, v. split; [congruence|]. rewrite app_assoc. destruct (received_quiet x' bs). apply inv_quiet; assumption.
  - cbn [message_of map]. rewrite app_nil_r. exists (queue x), fin, wait. split; [discriminate|]. destruct (sock x =? -1); apply inv_quiet; auto.
Qed.

Lemma explains_of sent l q fin wait : Inv sent l q fin wait -> explains sent l (fin ++ wait).
Proof.
  intros [I1 I2 I3 [A1 A2 A3 A4 A5 A6]].
  assert (Hw : forall j, In j wait -> (j_fate j = Refused \/ j_fate j = Waiting) /\ comparable (m_bytes (j_msg j)) (j_seg j)) by (intros j Hj; eapply line_fate; eassumption).
  assert (Hd : concat (map callback_due wait) = []).
  { clear - Hw. induction wait as [|j w IH]; [reflexivity|]. cbn. rewrite IH by (intros k Hk; apply Hw; right; exact Hk). rewrite app_nil_r. unfold callback_due. destruct (Hw j (or_introl eq_refl)) as [[->| ->] _]; reflexivity. }
  constructor; auto.
  - intros j Hj. apply in_app_or in Hj. destruct Hj as [Hj|Hj]; [auto|apply Hw, Hj].
  - intros j Hj Hf. apply in_app_or in Hj. destruct Hj as [Hj|Hj]; [auto|]. destruct (Hw j Hj) as [[C|C] _]; congruence.
  - rewrite map_app, concat_app, Hd, app_nil_r. exact A4.
  - intros a j b E cb Hc. assert (Hj : exists b', fin = a ++ j :: b').
    { clear - E Hw Hc. revert a E. induction fin as [|k fin IH]; intros a E; cbn in E.
      - exfalso. assert (Hj : In j wait) by (rewrite E; apply in_or_app; right; left; reflexivity). unfold callback_due in Hc. destruct (Hw j Hj) as [[C|C] _]; rewrite C in Hc; discriminate.
      - destruct a as [|k' a]; cbn in E; injection E as <- E; [exists fin; reflexivity|]. destruct (IH a E) as [b' ->]. exists b'. reflexivity. }
    destruct Hj as [b' Hj]. eapply A5; eassumption.
  - intros Hn j Hj. apply in_app_or in Hj. destruct Hj as [Hj|Hj]; [auto|]. destruct (Hw j Hj) as [[C|C] _]; congruence.
Qed.

Lemma inv_start : Inv [] [] [] [] [].
Proof. constructor; [reflexivity|constructor|reflexivity|]. constructor; try (intros j []; fail); [reflexivity| |intros _ k []]. intros [|? ?] k b E; discriminate. Qed.
Lemma accounted_fresh w : (forall x, io w = Some x -> queue x = []) -> accounted [] w.
Proof. intros H. exists [], [], []. split; [exact H|exact inv_start]. Qed.
Lemma create_queue c o x o' : socketio_create c o = Some (Some x, o') -> queue x = [].
Proof.
  unfold socketio_create. destruct c as [c|]; [|discriminate]. unfold bind. destruct (alloc_spec o) as (k1 & o1 & u1 & E1 & _). rewrite E1. destruct k1; cbn [negb]; [|discriminate].
  destruct (alloc_spec o1) as (k2 & o2 & u2 & E2 & _). rewrite E2. destruct k2; cbn [negb]; [|discriminate]. destruct (c_hostname c) as [h|].
  - destruct (alloc_spec o2) as (k3 & o3 & u3 & E3 & _). rewrite E3. destruct k3; cbn; [|discriminate]. intros E; injection E as <- <-; reflexivity.
  - unfold lift. destruct (c_accepted c) as [fd|]; [|discriminate]. cbn. destruct (fd =? -1); [discriminate|]. intros E; injection E as <- <-; reflexivity.
Qed.

(* C58: in every history, whatever the kernel does and whatever allocations fail, the bytes and
   the callbacks observed are accounted for. *)
Theorem messages_accounted_for_partial : forall c h w, runs c h w -> exists js, explains (attempts h) (observed h) js.
Proof.
  intros c h w (o & x & o1 & sys & sends & recvs & ops & o2 & Ec & Eh). apply create_queue in Ec.
  destruct (history_inv accounted accounted_step ops [] _ _ _ _ _ (accounted_fresh (newborn x sys sends recvs) (fun y H => ltac:(injection H as <-; exact Ec))) Eh) as (q & fin & wait & _ & I).
  eexists. exact (explains_of _ _ _ _ _ I).
Qed.

(* C185: completions come at most once, in order, and only for messages handed over. *)
Theorem completions_accounted_for : forall c h w, runs c h w -> exists js, explains (attempts h) (observed h) js.
Proof. exact messages_accounted_for_partial. Qed.
