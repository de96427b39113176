(* C95: with re-entrant callbacks too, the messages are accounted for. *)
From Verif Require Import Base SocketIo_Model SocketIo_Spec SocketIo_Paths SocketIo_Fates SocketIoRe_Model SocketIoRe_Spec SocketIoRe_Props SocketIoRe_Close.
Open Scope Z_scope.

#[local] Arguments events_of : simpl never.
#[local] Arguments sends_of : simpl never.
Definition ids (s : st) : list nat := map fst (sends_of (out s)).
Definition okay (r : option Z) : bool := match r with Some 0 => true | _ => false end.
Definition id_of (f : frame) : nat := match f with InOpen n | InClose n | InSent n | InSendFailed n | InWorkSent n _ | InWorkFailed n | InWorkBytes n => n end.
Definition kind (s : st) (fate : nat -> bool) (f : frame) : Prop :=
  match f with InSent n => fate n = true | InSendFailed n => fate n = false | _ => ~ In (id_of f) (ids s) end.
Definition covers (n : nat) (f : frame) : Prop := f = InSent n \/ f = InSendFailed n.
Record T (s : st) (fate : nat -> bool) (cur : option nat) : Prop := {
  t_ids : forall n, In n (ids s) -> (n < calls s)%nat;
  t_ret : forall n r, In (Returned n r) (out s) -> In n (ids s) -> fate n = okay r;
  t_cov : forall n, In n (ids s) -> (exists r, In (Returned n r) (out s)) \/ (exists f, In f (stack s) /\ covers n f) \/ cur = Some n;
  t_kind : forall f, In f (stack s) -> kind s fate f /\ (id_of f < calls s)%nat;
  t_cur : forall n, cur = Some n -> (n < calls s)%nat;
  t_past : forall n r, In (Returned n r) (out s) -> (n < calls s)%nat
}.
Definition INV (s : st) (fate : nat -> bool) (q : list pending) : Prop :=
  exists fin wait, Inv (map (fun a => (snd a, fate (fst a))) (sends_of (out s))) (events_of (out s)) q fin wait.
Definition qrel (s : st) (q : list pending) : Prop := forall x, inst s = Some x -> map (entries s) (rest_items s x) = map Some q.
Definition AA (s : st) : Prop := exists fate q, T s fate None /\ INV s fate q /\ qrel s q /\ match at_ s with Sending n | Receiving n => ~ In n (ids s) /\ (n < calls s)%nat | User => True end.

Lemma sends_app a b : sends_of (a ++ b) = sends_of a ++ sends_of b.
Proof. unfold sends_of. rewrite map_app, concat_app. reflexivity. Qed.
Definition quiet_seen (l : list seen) : Prop := sends_of l = [] /\ handed (events_of l) = [] /\ completions (events_of l) = [].
Lemma INV_quiet s fate q l : INV s fate q -> quiet_seen l -> INV (see s l) fate q.
Proof. intros (fin & wait & H) (A & B & C). exists fin, wait. cbn. rewrite sends_app, A, app_nil_r, events_app. apply inv_quiet; assumption. Qed.
Lemma ids_quiet s l : sends_of l = [] -> ids (see s l) = ids s.
Proof. intros H. unfold ids. cbn. rewrite sends_app, H, app_nil_r. reflexivity. Qed.
Definition no_return (l : list seen) : Prop := forall n r, ~ In (Returned n r) l.
Lemma T_see s fate cur l : T s fate cur -> sends_of l = [] -> no_return l -> T (see s l) fate cur.
Proof.
  intros [A B C D E F] H N. pose proof (ids_quiet s l H) as Hi. constructor; cbn [stack calls see]; rewrite ?Hi; auto.
  - cbn. intros n r Hin. apply in_app_or in Hin. destruct Hin as [Hin|Hin]; [apply B; exact Hin|destruct (N _ _ Hin)].
  - intros n Hn. destruct (C n Hn) as [(r & Hr)|C']; [left; exists r; cbn; apply in_or_app; auto|right; exact C'].
  - intros f Hf. destruct (D f Hf) as [K L]. split; [|exact L]. unfold kind in *. rewrite Hi. exact K.
  - cbn. intros n r Hin. apply in_app_or in Hin. destruct Hin as [Hin|Hin]; [eapply F; exact Hin|destruct (N _ _ Hin)].
Qed.
(* T only looks at the log, the stack and the number of calls *)
Lemma T_same s s' fate cur : T s fate cur -> out s' = out s -> stack s' = stack s -> calls s' = calls s -> T s' fate cur.
Proof.
  intros [A B C D E F] H1 H2 H3. assert (Hi : ids s' = ids s) by (unfold ids; rewrite H1; reflexivity). constructor; rewrite ?Hi, ?H1, ?H2, ?H3; auto.
  intros f Hf. destruct (D f Hf) as [K L]. split; [|exact L]. unfold kind in *. rewrite Hi. exact K.
Qed.
Lemma AA_finish s fate q n r s' : T s fate (Some n) -> (In n (ids s) -> fate n = okay r) -> INV s fate q -> qrel s q -> finish s n r = Ok s' -> AA s'.
Proof.
  intros [A B C D E F] Hf Hi Hq E1. injection E1 as <-. exists fate, q. assert (Hid : ids (goto (see s [Returned n r]) User) = ids s) by (apply (ids_quiet s [Returned n r]); reflexivity).
  split; [|split; [|split; [exact Hq|exact I]]].
  - constructor; rewrite ?Hid; cbn; auto.
    + intros k z Hin Hk. apply in_app_or in Hin. destruct Hin as [Hin|[Hin|[]]]; [eapply B; eassumption|]. injection Hin as <- <-. apply Hf. exact Hk.
    + intros k Hk. destruct (C k Hk) as [(z & Hz)|[C'|C']]; [left; exists z; apply in_or_app; auto|auto|]. injection C' as ->. left. exists r. apply in_or_app. right. left. reflexivity.
    + intros f Hf'. destruct (D f Hf') as [K L]. split; [|exact L]. unfold kind in *. rewrite Hid. exact K.
    + discriminate.
    + intros k z Hin. apply in_app_or in Hin. destruct Hin as [Hin|[Hin|[]]]; [eapply F; exact Hin|]. injection Hin as <- <-. apply E. reflexivity.
  - apply (INV_quiet s fate q [Returned n r]); [exact Hi|]. repeat split.
Qed.
Lemma T_drop s fate n : T s fate (Some n) -> ~ In n (ids s) -> T s fate None.
Proof. intros [A B C D E F] H. constructor; auto; [|discriminate]. intros k Hk. destruct (C k Hk) as [?|[?|C']]; auto. injection C' as ->. contradiction. Qed.
Lemma AA_loop s fate q n s' : T s fate (Some n) -> ~ In n (ids s) -> INV s fate q -> qrel s q -> loop_head s n = Ok s' -> AA s'.
Proof.
  intros Ht Hn Hi Hq E. unfold loop_head in E. destruct (inst s) as [x|] eqn:Ei; [|discriminate]. injection E as <-. exists fate, q. split; [|split; [exact Hi|split; [exact Hq|]]].
  - apply (T_same s); auto. eapply T_drop; eassumption.
  - pose proof (t_cur _ _ _ Ht n eq_refl). change (ids (goto s match items x with [] => Receiving n | _ :: _ => Sending n end)) with (ids s). cbn. destruct (items x); auto.
Qed.
Lemma AA_push s fate q f e : T s fate (Some (id_of f)) -> kind s fate f -> INV (see s [Did e]) fate q -> qrel (push_frame s f) q -> AA (push_frame (see s [Did e]) f).
Proof.
  intros [A B C D E F] Hk Hi Hq. exists fate, q. split; [|split; [exact Hi|split; [exact Hq|exact I]]].
  assert (Hid : ids (push_frame (see s [Did e]) f) = ids s) by (apply (ids_quiet s [Did e]); reflexivity).
  constructor; rewrite ?Hid; cbn; auto.
  - intros n r Hin. apply in_app_or in Hin. destruct Hin as [Hin|[Hin|[]]]; [apply B; exact Hin|discriminate].
  - intros n Hn. destruct (C n Hn) as [(r & Hr)|[(g & Hg & Hc)|C']]; [left; exists r; apply in_or_app; auto|right; left; exists g; auto|]. injection C' as C'. right. left. exists f. split; [auto|].
    unfold covers, kind in *. destruct f; cbn in *; subst; auto; contradiction.
  - intros g [<-|Hg]; [split; [|apply E; reflexivity]|destruct (D g Hg) as [K L]; split; [|exact L]]; unfold kind in *; rewrite Hid; assumption.
  - discriminate.
  - intros n r Hin. apply in_app_or in Hin. destruct Hin as [Hin|[Hin|[]]]; [eapply F; exact Hin|discriminate].
Qed.
Lemma AA_raise s fate q x f next s' : T s fate (Some (id_of f)) -> kind s fate f -> INV s fate q -> qrel (push_frame s f) q -> (forall s2, next s = Ok s2 -> AA s2) -> raise s x f next = Ok s' -> AA s'.
Proof.
  intros Ht Hk Hi Hq Hn E. unfold raise in E. destruct (on_error (core x)); [|apply Hn; exact E]. injection E as <-. eapply AA_push; eauto. apply INV_quiet; [exact Hi|]. repeat split.
Qed.
Lemma qrel_push s f q : qrel s q -> work_completion f = false -> qrel (push_frame s f) q.
Proof. intros H Hf x Hx. unfold rest_items. cbn. rewrite Hf. cbn. apply H. exact Hx. Qed.

Lemma AA_resume logging f s fate q s' : T s fate (Some (id_of f)) -> kind s fate f -> INV s fate q ->
  (match f with InWorkSent n i => existsb work_completion (stack s) = false /\ forall x, inst s = Some x -> NoDup (items x) /\ hd_error (items x) = Some i /\ map (entries s) (tl (items x)) = map Some q | _ => qrel s q end) ->
  resume logging f s = Ok s' -> AA s'.
Proof.
  intros Ht Hk Hi Hq E. destruct f as [n|n|n|n|n i|n|n]; cbn [resume id_of kind] in *.
  - eapply AA_finish; eauto. intros C. contradiction.
  - eapply AA_finish; eauto. intros C. contradiction.
  - unfold after_sent in E. destruct (inst s); [|discriminate]. destruct logging; [|eapply AA_finish; [exact Ht| |exact Hi|exact Hq|exact E]; intros _; exact Hk].
    eapply (AA_finish (see s [Read n])); [| | | |exact E].
    + apply T_see; [exact Ht|reflexivity|]. intros k z [C|[]]; discriminate.
    + intros _. exact Hk.
    + apply INV_quiet; [exact Hi|repeat split].
    + exact Hq.
  - eapply AA_finish; [exact Ht| |exact Hi|exact Hq|exact E]. intros _. exact Hk.
  - destruct Hq as [Hw Hq]. unfold after_work_sent in E. destruct (entries s i) eqn:Ee; [|discriminate]. destruct (inst s) as [x|] eqn:Ei; [|discriminate]. destruct (Hq x eq_refl) as (Hn & Hh & Hm).
    destruct (items x) as [|k it] eqn:Eit; [discriminate|]. injection Hh as ->. cbn [existsb] in E. rewrite Nat.eqb_refl in E. cbn [orb] in E. rewrite remove_first_head in E. cbn [tl] in Hm.
    eapply (AA_loop (set_inst (set_entry s i None) (Some {| core := core x; items := it |}))); [| | | |exact E].
    + apply (T_same s); [exact Ht|reflexivity|reflexivity|reflexivity].
    + exact Hk.
    + exact Hi.
    + intros y Ey. injection Ey as <-. unfold rest_items. cbn. rewrite Hw. rewrite <- Hm. apply map_ext_in. intros k Hki. destruct (k =? i)%nat eqn:Ek; [|reflexivity]. apply Nat.eqb_eq in Ek. subst k. inversion Hn. contradiction.
  - eapply AA_loop; eauto.
  - destruct (inst s) eqn:Ei; [|discriminate]. injection E as <-. exists fate, q. split; [|split; [exact Hi|split; [exact Hq|]]].
    + apply (T_same s); auto. eapply T_drop; eassumption.
    + split; [exact Hk|]. apply (t_cur _ _ _ Ht). reflexivity.
Qed.
Lemma AA_callback logging cb ev f s fate q s' : T s fate (Some (id_of f)) -> kind s fate f ->
  INV (see s (match cb with Some c => [Did (ev c)] | None => [] end)) fate q ->
  (match f with InWorkSent n i => existsb work_completion (stack s) = false /\ forall x, inst s = Some x -> NoDup (items x) /\ hd_error (items x) = Some i /\ map (entries s) (tl (items x)) = map Some q | _ => qrel s q end) ->
  callback logging cb ev f s = Ok s' -> AA s'.
Proof.
  intros Ht Hk Hi Hq E. unfold callback in E. destruct cb as [c|].
  - injection E as <-. apply AA_push with (fate := fate) (q := q); auto. intros x Ex. cbn in Ex. destruct f; try (apply qrel_push; [exact Hq|reflexivity|exact Ex]). destruct Hq as [_ Hq]. unfold rest_items. cbn. apply Hq. exact Ex.
  - eapply AA_resume; eauto. replace s with (see s []) by (unfold see; destruct s; cbn; rewrite app_nil_r; reflexivity). exact Hi.
Qed.

Definition upd (fate : nat -> bool) (n : nat) (b : bool) : nat -> bool := fun k => if (k =? n)%nat then b else fate k.
Lemma T_enter s fate o : T s fate None -> sends_of [Called (calls s) o] = [] -> T (enter s o) fate (Some (calls s)) /\ ids (enter s o) = ids s /\ ~ In (calls s) (ids s).
Proof.
  intros [A B C D E F] H. assert (Hid : ids (enter s o) = ids s) by (apply (ids_quiet s [Called (calls s) o]); exact H). split; [|split; [exact Hid|intros C'; apply A in C'; lia]].
  constructor; rewrite ?Hid; cbn.
  - intros n Hn. apply A in Hn. lia.
  - intros n r Hin. apply in_app_or in Hin. destruct Hin as [Hin|[Hin|[]]]; [apply B; exact Hin|discriminate].
  - intros n Hn. destruct (C n Hn) as [(r & Hr)|[?|?]]; [left; exists r; apply in_or_app; auto|auto|discriminate].
  - intros f Hf. destruct (D f Hf) as [K L]. split; [|lia]. unfold kind in *. rewrite Hid. exact K.
  - intros n Hn. injection Hn as <-. lia.
  - intros n r Hin. apply in_app_or in Hin. destruct Hin as [Hin|[Hin|[]]]; [apply F in Hin; lia|discriminate].
Qed.
Lemma T_enter_send s fate b0 t cb ctx ok : T s fate None -> T (enter s (RSend (b0 :: t) cb ctx)) (upd fate (calls s) ok) (Some (calls s)).
Proof.
  set (o := RSend (b0 :: t) cb ctx).
  intros [A B C D E F]. assert (Hid : ids (enter s o) = ids s ++ [calls s]) by (unfold ids; cbn; rewrite sends_app, map_app; reflexivity).
  assert (Hu : forall k, (k < calls s)%nat -> upd fate (calls s) ok k = fate k). { intros k Hk. unfold upd. destruct (Nat.eqb_spec k (calls s)); [lia|reflexivity]. }
  constructor; rewrite ?Hid; cbn.
  - intros n Hn. apply in_app_or in Hn. destruct Hn as [Hn|[<-|[]]]; [apply A in Hn|]; lia.
  - intros n r Hin Hn. apply in_app_or in Hin. destruct Hin as [Hin|[Hin|[]]]; [|discriminate]. apply in_app_or in Hn. destruct Hn as [Hn|[<-|[]]]; [rewrite Hu by (apply A; exact Hn); apply B; assumption|].
    apply F in Hin. lia.
  - intros n Hn. apply in_app_or in Hn. destruct Hn as [Hn|[<-|[]]]; [|auto]. destruct (C n Hn) as [(r & Hr)|[?|?]]; [left; exists r; apply in_or_app; auto|auto|discriminate].
  - intros f Hf. destruct (D f Hf) as [K L]. split; [|lia]. unfold kind in *. rewrite Hid. destruct f; cbn in *; try (rewrite Hu by lia; exact K); intros Hn; apply in_app_or in Hn; destruct Hn as [Hn|[Hn|[]]]; [contradiction|lia|contradiction|lia|contradiction|lia|contradiction|lia|contradiction|lia].
  - intros n Hn. injection Hn as <-. lia.
  - intros n r Hin. apply in_app_or in Hin. destruct Hin as [Hin|[Hin|[]]]; [apply F in Hin; lia|discriminate].
Qed.
(* what becomes of a message *)
Lemma labels_enter s fate b0 t cb ctx ok : (forall n, In n (ids s) -> (n < calls s)%nat) ->
  map (fun a => (snd a, upd fate (calls s) ok (fst a))) (sends_of (out (enter s (RSend (b0 :: t) cb ctx)))) =
  map (fun a => (snd a, fate (fst a))) (sends_of (out s)) ++ [({| m_bytes := b0 :: t; m_callback := cb; m_context := ctx |}, ok)].
Proof.
  intros H. cbn. rewrite sends_app, map_app. f_equal.
  - apply map_ext_in. intros [k m] Hk. cbn. unfold upd. destruct (Nat.eqb_spec k (calls s)) as [->|]; [|reflexivity]. exfalso. assert (In (calls s) (ids s)) by (unfold ids; apply in_map_iff; exists (calls s, m); auto). apply H in H0. lia.
  - change (sends_of [Called (calls s) (RSend (b0 :: t) cb ctx)]) with [(calls s, {| m_bytes := b0 :: t; m_callback := cb; m_context := ctx |})]. cbn. unfold upd. rewrite Nat.eqb_refl. reflexivity.
Qed.
Lemma inv_queue sent l q fin wait m : Inv sent l q fin wait ->
  exists fin' wait', Inv (sent ++ [(m, true)]) l (q ++ [{| p_bytes := m_bytes m; p_size := length (m_bytes m); p_callback := m_callback m; p_context := m_context m |}]) fin' wait'.
Proof.
  intros [I1 I2 I3 I4]. set (j := {| j_msg := m; j_seg := []; j_fate := Waiting |}). exists fin, (wait ++ [j]). constructor.
  - rewrite app_assoc, map_app, I1. reflexivity.
  - assert (Hf : fits j {| p_bytes := m_bytes m; p_size := length (m_bytes m); p_callback := m_callback m; p_context := m_context m |}) by (constructor; try reflexivity; apply prefix_refl).
    inversion I2 as [E1 E2|j0 w p q' F B E1 E2]; subst; cbn; [constructor; [exact Hf|constructor]|]. constructor; [exact F|]. apply behind_push; auto.
  - rewrite app_assoc, map_app, concat_app, I3. cbn. rewrite app_nil_r. reflexivity.
  - exact I4.
Qed.
Lemma inv_done sent l fin m fd : Inv sent l [] fin [] ->
  exists fin', Inv (sent ++ [(m, true)]) (l ++ ESend fd (m_bytes m) (Z.of_nat (length (m_bytes m))) :: call (m_callback m) (fun c => ESendComplete c (m_context m) 0)) [] fin' [].
Proof.
  intros [I1 I2 I3 I4]. rewrite app_nil_r in I1, I3. set (j := {| j_msg := m; j_seg := m_bytes m; j_fate := Done |}).
  assert (Ht : taken (ESend fd (m_bytes m) (Z.of_nat (length (m_bytes m)))) = m_bytes m) by (cbn [taken]; rewrite Nat2Z.id, firstn_all; reflexivity).
  exists (fin ++ [j]). constructor.
  - rewrite app_nil_r, map_app, I1. reflexivity.
  - constructor.
  - rewrite app_nil_r, map_app, concat_app, handed_app, I3. cbn [map concat]. f_equal. change (ESend ?a ?b ?c :: ?d) with ([ESend a b c] ++ d). rewrite handed_app, handed_one, Ht, call_handed by reflexivity. reflexivity.
  - apply fin_snoc; auto.
    + discriminate.
    + left. apply prefix_refl.
    + intros _. apply prefix_refl.
    + unfold callback_due. cbn [j_fate j j_msg]. change (completions (ESend ?a ?b ?c :: ?d)) with (completions d). apply call_completion.
    + intros c0 Hc0. unfold callback_due in Hc0. cbn in Hc0. destruct (m_callback m) as [cb|]; [|discriminate]. injection Hc0 as <-. eexists [_]. eexists. split; [reflexivity|]. split; [reflexivity|]. split; [|reflexivity].
      rewrite handed_app, handed_one, Ht, I3, map_app, concat_app. cbn [map concat]. rewrite app_nil_r. reflexivity.
    + discriminate.
Qed.
Lemma pop_T s fate f rest : T s fate None -> stack s = f :: rest -> T (pop_frame s) fate (Some (id_of f)) /\ kind (pop_frame s) fate f.
Proof.
  intros [A B C D E F] Hs. destruct (D f) as [K L]; [rewrite Hs; left; reflexivity|]. split; [|exact K]. constructor; cbn; auto.
  - intros n Hn. destruct (C n Hn) as [?|[(g & Hg & Hc)|?]]; [auto| |discriminate]. rewrite Hs in Hg. cbn in Hg. destruct Hg as [<-|Hg]; [right; right; f_equal; destruct Hc as [-> | ->]; reflexivity|]. rewrite Hs. right. left. exists g. auto.
  - intros g Hg. apply D. rewrite Hs in *. right. exact Hg.
  - intros n Hn. injection Hn as <-. exact L.
Qed.
Lemma fd_takes_cases fd a n : fd_takes fd a n = -1 \/ exists k, fd_takes fd a n = Z.of_nat k /\ (k <= n)%nat /\ Z.of_nat k <= max_rw.
Proof. unfold fd_takes. destruct (fd =? -1); [auto|apply kernel_cases]. Qed.

(* in the middle of a call that is not a send *)
Record PRE (s : st) (fate : nat -> bool) (q : list pending) (n : nat) : Prop := { pr_t : T s fate (Some n); pr_n : ~ In n (ids s); pr_i : INV s fate q; pr_q : qrel s q }.
Lemma PRE_see s fate q n l : PRE s fate q n -> sends_of l = [] -> no_return l -> handed (events_of l) = [] -> completions (events_of l) = [] -> PRE (see s l) fate q n.
Proof. intros [A B C D] H1 H2 H3 H4. constructor; [apply T_see; assumption|rewrite ids_quiet; assumption|apply INV_quiet; [exact C|repeat split; assumption]|exact D]. Qed.
Lemma PRE_inst s fate q n x y : PRE s fate q n -> inst s = Some x -> items y = items x -> PRE (set_inst s (Some y)) fate q n.
Proof.
  intros [A B C D] H1 H2. constructor; [apply (T_same s); auto|exact B|exact C|]. intros z Ez. injection Ez as <-. specialize (D x H1). unfold rest_items in *. cbn. rewrite H2. exact D.
Qed.
Lemma PRE_finish s fate q n r s' : PRE s fate q n -> finish s n r = Ok s' -> AA s'.
Proof. intros [A B C D] E. eapply AA_finish; [exact A|intros F; contradiction|exact C|exact D|exact E]. Qed.
Lemma PRE_loop s fate q n s' : PRE s fate q n -> loop_head s n = Ok s' -> AA s'.
Proof. intros [A B C D] E. eapply AA_loop; eassumption. Qed.
Lemma PRE_raise s fate q x n next s' : PRE s fate q n -> (forall s2, next s = Ok s2 -> AA s2) -> raise s x (InWorkFailed n) next = Ok s' -> AA s'.
Proof. intros [A B C D] Hn E. eapply (AA_raise s fate q x (InWorkFailed n)); [exact A|exact B|exact C| |exact Hn|exact E]. apply qrel_push; [exact D|reflexivity]. Qed.
Lemma PRE_callback logging cb ev f s fate q n s' : PRE s fate q n -> id_of f = n -> match f with InOpen _ | InClose _ | InWorkBytes _ => True | _ => False end ->
  (forall c, handed [ev c] = [] /\ completions [ev c] = []) -> callback logging cb ev f s = Ok s' -> AA s'.
Proof.
  intros [A B C D] Hid Hf Hv E. subst n. eapply AA_callback; [exact A| | | |exact E].
  - destruct f; try contradiction; exact B.
  - apply INV_quiet; [exact C|]. destruct cb as [c|]; [|repeat split]. split; [reflexivity|]. apply (Hv c).
  - destruct f; try contradiction; exact D.
Qed.
Ltac noret := try reflexivity; try (intros ? ? Cn; cbn in Cn; repeat (destruct Cn as [Cn|Cn]; [discriminate|]); exact Cn).
Ltac pre H0 Ei := repeat first [exact H0|eapply PRE_inst; [|exact Ei|reflexivity]|apply PRE_see; [|solve [noret]..] ].

Lemma AA_step logging s l s' : J s -> AA s -> (match l with LCall o _ => permitted (existsb is_destroy (out s)) (stack s) o = true | _ => True end) -> re_step logging s l = Ok s' -> AA s'.
Proof.
  intros Hj (fate & q & Ht & Hi & Hq & Ha) Hp E. unfold re_step in E. destruct l as [o a| |a|a]; destruct (at_ s) eqn:Ea; try discriminate.
  - cbn [inst enter] in E. destruct (inst s) as [x|] eqn:Ei; [|discriminate].
    unfold J in Hj. rewrite Ei in Hj. destruct Hj as [(H1 & H2 & H3 & H4 & H5 & _) Hd].
    assert (NS : sends_of [Called (calls s) o] = [] -> exists fate', PRE (enter s o) fate' q (calls s)).
    { intros H. destruct (T_enter s fate o Ht H) as (A & B & C). exists fate. constructor; [exact A|rewrite B; exact C| |exact Hq]. apply (INV_quiet s fate q [Called (calls s) o]); [exact Hi|]. split; [exact H|]. split; reflexivity. }
    assert (Ei0 : inst (enter s o) = Some x) by exact Ei.
    destruct o as [oo oc ob bc oe ec|cb ctx|b cb ctx| |].
    + destruct (NS eq_refl) as (f' & P0). clear NS. unfold re_open in E. destruct (state (core x)); try (eapply PRE_finish; [exact P0|exact E]).
      destruct (sock (core x) =? -1); cbn [negb] in E.
      2: { eapply PRE_callback; [| | | |exact E]; [pre P0 Ei0|reflexivity|exact I|repeat split]. }
      destruct (Z.max (-1) (nth 0 (a_sys a) 0) <? 0); [eapply PRE_finish; [|exact E]; pre P0 Ei0|].
      destruct (_ =? -1).
      * destruct (nth 1 _ _ =? 0); cbn [negb] in E; [|eapply PRE_finish; [|exact E]; pre P0 Ei0]. destruct (nth 2 _ _ =? 0); cbn [negb] in E; [|eapply PRE_finish; [|exact E]; pre P0 Ei0].
        destruct (nth 3 _ _ =? -1); [eapply PRE_finish; [|exact E]; pre P0 Ei0|]. destruct (nth 4 _ _ =? -1); [eapply PRE_finish; [|exact E]; pre P0 Ei0|].
        eapply PRE_callback; [| | | |exact E]; [pre P0 Ei0|reflexivity|exact I|repeat split].
      * destruct (nth 1 _ _ =? 0); cbn [negb] in E; [|eapply PRE_finish; [|exact E]; pre P0 Ei0]. destruct (nth 2 _ _ =? 0); cbn [negb] in E; [|eapply PRE_finish; [|exact E]; pre P0 Ei0].
        destruct (nth 3 _ _ =? -1); [eapply PRE_finish; [|exact E]; pre P0 Ei0|]. destruct (nth 4 _ _ =? -1); [eapply PRE_finish; [|exact E]; pre P0 Ei0|].
        eapply PRE_callback; [| | | |exact E]; [pre P0 Ei0|reflexivity|exact I|repeat split].
    + destruct (NS eq_refl) as (f' & P0). clear NS. unfold re_close in E.
      assert (Q : callback logging cb (fun c => ECloseComplete c ctx) (InClose (calls s)) (set_inst (see (enter s (RClose cb ctx)) [Did (EShutdown (sock (core x))); Did (ECloseFd (sock (core x)))]) (Some {| core := set_state (set_sock (core x) (-1)) CLOSED; items := items x |})) = Ok s' -> AA s').
      { intros E1. eapply PRE_callback; [| | | |exact E1]; [pre P0 Ei0|reflexivity|exact I|repeat split]. }
      destruct (state (core x)); try (apply Q; exact E); eapply PRE_finish; [exact P0|exact E|exact P0|exact E].
    + (* send *)
      unfold re_send in E. destruct b as [|b0 t]; [destruct (NS eq_refl) as (f' & P0); eapply PRE_finish; [exact P0|exact E]|]. clear NS. cbn [length Nat.eqb] in E. set (o := RSend (b0 :: t) cb ctx) in *. set (b := b0 :: t) in *. set (n := calls s) in *.
      set (m := {| m_bytes := b; m_callback := cb; m_context := ctx |}).
      pose proof (fun ok => T_enter_send s fate b0 t cb ctx ok Ht) as Ts. fold b o n in Ts. pose proof (fun ok => labels_enter s fate b0 t cb ctx ok (t_ids _ _ _ Ht)) as Ls. fold b o n in Ls.
      destruct Hi as (fin & wait & Hinv).
      (* what remains to be shown once the fate is known *)
      assert (In0 : forall ok l q', sends_of l = [] -> (exists fin' wait', Inv (map (fun a => (snd a, fate (fst a))) (sends_of (out s)) ++ [(m, ok)]) (events_of (out s) ++ events_of l) q' fin' wait') -> INV (see (enter s o) l) (upd fate n ok) q').
      { intros ok l q' Hl (f & w & Hx). exists f, w. cbn [out see]. rewrite sends_app, Hl, app_nil_r, Ls. cbn [out enter]. rewrite <- app_assoc, !events_app. exact Hx. }
      assert (Fu : forall ok, upd fate n ok n = ok) by (intros ok; unfold upd; rewrite Nat.eqb_refl; reflexivity).
      assert (Refuse : forall l r s1, sends_of l = [] -> no_return l -> completions (events_of l) = [] -> (items x <> [] -> handed (events_of l) = []) -> prefix (handed (events_of l)) b -> okay (Some r) = false -> finish (see (enter s o) l) n (Some r) = Ok s1 -> AA s1).
      { intros l r s1 L1 L2 L3 L4 L5 L6 E1. eapply (AA_finish _ (upd fate n false) q); [apply T_see; [apply Ts|exact L1|exact L2]|intros _; rewrite Fu; symmetry; exact L6| |exact Hq|exact E1].
        apply In0; [exact L1|]. eapply inv_refused; [exact Hinv| |exact L5|reflexivity|exact L3]. intros Hne. apply L4. intros C. apply Hne. specialize (Hq x Ei). unfold rest_items in Hq. rewrite C in Hq. destruct (existsb work_completion (stack s)); destruct q; try reflexivity; cbn in Hq; discriminate Hq. }
      assert (Refuse0 : forall r, okay (Some r) = false -> finish (enter s o) n (Some r) = Ok s' -> AA s').
      { intros r Hr E1. apply (Refuse [] r s'); auto; [intros ? ? []|apply prefix_nil|]. rewrite <- E1. unfold see, finish. cbn. rewrite app_nil_r. reflexivity. }
      destruct (state (core x)); try (eapply Refuse0; [|exact E]; reflexivity).
      (* a new entry *)
      assert (Accept : forall l b2 q', sends_of l = [] -> no_return l -> b2 = m_bytes {| m_bytes := b2; m_callback := cb; m_context := ctx |} -> q' = q ++ [{| p_bytes := b2; p_size := length b2; p_callback := cb; p_context := ctx |}] ->
         INV (see (enter s o) l) (upd fate n true) q' -> finish (see (add_entry (see (enter s o) l) x b2 cb ctx) [Read n]) n (Some 0) = Ok s' -> AA s').
      { intros l b2 q' L1 L2 _ L3 L4 E1. eapply (AA_finish _ (upd fate n true) q'); [| | | |exact E1]; [|intros _; apply Fu| |].
        - apply T_see; [|reflexivity|intros ? ? [C|[]]; discriminate]. apply (T_same (see (enter s o) l)); try reflexivity. apply T_see; [apply Ts|exact L1|exact L2].
        - apply INV_quiet; [exact L4|]. repeat split.
        - intros y Ey. injection Ey as <-. specialize (Hq x Ei). unfold rest_items in *. cbn [stack see add_entry enter items entries fresh_id]. rewrite L3, map_app, <- Hq.
          assert (Hold : forall it, (forall i, In i it -> In i (items x)) -> map (fun k => if (k =? fresh_id s)%nat then Some {| p_bytes := b2; p_size := length b2; p_callback := cb; p_context := ctx |} else entries s k) it = map (entries s) it).
          { intros it Hit. apply map_ext_in. intros k Hk. apply Hit, H3 in Hk. destruct (Nat.eqb_spec k (fresh_id s)); [lia|reflexivity]. }
          destruct (existsb work_completion (stack s)) eqn:Ew.
          + apply existsb_exists in Ew. destruct Ew as (f & Hf & Hw). destruct f; try discriminate. apply H4 in Hf. destruct (items x) as [|i it] eqn:Eit; [discriminate|]. cbn [tl app]. rewrite map_app. cbn. rewrite Nat.eqb_refl. f_equal. apply Hold. intros k Hk. right. exact Hk.
          + rewrite map_app. cbn. rewrite Nat.eqb_refl. f_equal. apply Hold. auto. }
      destruct (items x) as [|i0 it] eqn:Eit.
      * (* sent at once *)
        assert (Hq0 : q = []). { specialize (Hq x Ei). unfold rest_items in Hq. rewrite Eit in Hq. destruct (existsb work_completion (stack s)); destruct q; try reflexivity; cbn in Hq; discriminate Hq. } subst q.
        change (S (length t)) with (length b) in E. destruct (fd_takes_cases (sock (core x)) (a_send a) (length b)) as [Hr|(k & Hr & Hk & _)]; rewrite Hr in E.
        -- assert (Hne : (-1 =? Z.of_nat (length b)) = false) by lia. rewrite Hne in E. change (negb false) with true in E. change (-1 =? -1) with true in E. cbv iota in E.
           set (l := [Read n; Did (ESend (sock (core x)) b (-1))]) in *.
           eapply (AA_raise (see (enter s o) l) (upd fate n false) []); [| | | | |exact E].
           ++ apply T_see; [apply Ts|reflexivity|intros ? ? [C|[C|[]]]; discriminate].
           ++ apply Fu.
           ++ apply In0; [reflexivity|]. eapply inv_refused; [exact Hinv|auto|apply prefix_nil|reflexivity|reflexivity].
           ++ apply qrel_push; [exact Hq|reflexivity].
           ++ intros s2 E2. apply (Refuse l 407 s2); [reflexivity|intros ? ? [C|[C|[]]]; discriminate|reflexivity|intros C; contradiction C; reflexivity|apply prefix_nil|reflexivity|exact E2].
        -- destruct (Z.eqb_spec (Z.of_nat k) (Z.of_nat (length b))) as [Hkb|Hkb]; cbn [negb] in E.
           ++ assert (k = length b) by lia. subst k. assert (wait = []) by (destruct Hinv as [_ I2 _ _]; inversion I2; reflexivity). subst wait.
              set (l := [Read n; Did (ESend (sock (core x)) b (Z.of_nat (length b)))]) in *.
              eapply (AA_callback logging cb _ (InSent n) (see (enter s o) l) (upd fate n true) []); [|apply Fu| |exact Hq|exact E].
              ** apply T_see; [apply Ts|reflexivity|intros ? ? [C|[C|[]]]; discriminate].
              ** destruct (inv_done _ _ _ m (sock (core x)) Hinv) as (fin' & Hx).
                 assert (Hx2 : INV (see (enter s o) (l ++ match cb with Some c => [Did (ESendComplete c ctx 0)] | None => [] end)) (upd fate n true) []).
                 { apply In0; [destruct cb; reflexivity|]. exists fin', []. destruct cb; exact Hx. }
                 unfold INV in *. cbn [out see] in *. rewrite app_assoc in Hx2. exact Hx2.
           ++ assert (Hz : (Z.of_nat k =? -1) = false) by lia. rewrite Hz in E. rewrite Nat2Z.id in E. assert (wait = []) by (destruct Hinv as [_ I2 _ _]; inversion I2; reflexivity). subst wait.
              set (l := [Read n; Did (ESend (sock (core x)) b (Z.of_nat k))]) in *. assert (Ll : no_return l) by (intros ? ? [C|[C|[]]]; discriminate).
              destruct (a_memory a).
              ** eapply (Accept l (skipn k b)); [reflexivity|exact Ll|reflexivity|reflexivity| |exact E]. apply In0; [reflexivity|].
                 destruct (inv_new_waiting _ _ _ _ b cb ctx m k Hinv eq_refl eq_refl eq_refl Hk (sock (core x))) as (f & w & Hx). exists f, w. exact Hx.
              ** apply (Refuse l 415 s'); [reflexivity|exact Ll|reflexivity|intros C; contradiction C; reflexivity| |reflexivity|exact E]. change (events_of l) with [ESend (sock (core x)) b (Z.of_nat k)]. rewrite handed_one. cbn [taken]. rewrite Nat2Z.id. exists (skipn k b). symmetry. apply firstn_skipn.
      * destruct (a_memory a); [|eapply Refuse0; [|exact E]; reflexivity].
        replace (add_entry (enter s o) x b cb ctx) with (add_entry (see (enter s o) []) x b cb ctx) in E by (unfold add_entry, see; cbn; rewrite app_nil_r; reflexivity).
        eapply (Accept [] b); [reflexivity|intros ? ? []|reflexivity|reflexivity| |exact E]. apply In0; [reflexivity|]. change (events_of []) with (@nil event). rewrite app_nil_r. exact (inv_queue _ _ _ _ _ m Hinv).
    + destruct (NS eq_refl) as (f' & P0). unfold re_dowork in E. destruct (state (core x)); try (eapply PRE_finish; [exact P0|exact E]). eapply PRE_loop; eassumption.
    + destruct (NS eq_refl) as (f' & P0). unfold re_destroy in E. set (s1 := see _ _) in E. destruct (free_entries_all (items x) s1 H1) as (s2 & E2 & A & B & C & Dd); [intros i Hin; apply H2 in Hin; exact Hin|].
      rewrite E2 in E. cbn [bind_res] in E. assert (P1 : PRE s1 f' q (calls s)) by (unfold s1; destruct (sock (core x) =? -1); pre P0 Ei0). destruct P1 as [P1 P2 P3 P4].
      assert (Hc : calls s2 = calls s1). { clear - E2. clearbody s1. revert s1 E2. induction (items x) as [|i it IH]; intros s1 E2; cbn in E2; [injection E2 as <-; reflexivity|]. destruct (entries s1 i); [|discriminate]. apply IH in E2. exact E2. }
      eapply (AA_finish (set_inst s2 None) f' q); [| | | |exact E].
      * apply (T_same s1); auto.
      * intros Hn. exfalso. apply P2. unfold ids in *. cbn in Hn. rewrite C in Hn. exact Hn.
      * unfold INV in *. cbn. rewrite C. exact P3.
      * intros y Ey. discriminate.
  - destruct (stack s) as [|f rest] eqn:Es; [discriminate|]. destruct (pop_T s fate f rest Ht Es) as [Tp Kp].
    eapply (AA_resume logging f (pop_frame s) fate q); [exact Tp|exact Kp|exact Hi| |exact E].
    assert (Hpq : work_completion f = false -> qrel (pop_frame s) q).
    { intros Hf y Ey. specialize (Hq y Ey). unfold rest_items in *. cbn. rewrite Es in *. cbn in *. rewrite Hf in Hq. exact Hq. }
    destruct f; try (apply Hpq; reflexivity). unfold J in Hj. split.
    + destruct (inst s) as [x|] eqn:Ei.
      * destruct Hj as [(_ & _ & _ & _ & H5 & _) _]. rewrite Es in H5. cbn. rewrite Es. cbn. apply H5. reflexivity.
      * destruct Hj as (_ & Hs & _). rewrite Es in Hs. discriminate.
    + intros x Ex. cbn in Ex. rewrite Ex in Hj. destruct Hj as [(H1 & _ & _ & H4 & _) _]. split; [exact H1|]. split; [apply (H4 n item); rewrite Es; left; reflexivity|].
      specialize (Hq x Ex). unfold rest_items in Hq. rewrite Es in Hq. exact Hq.
  - (* one round of sending *)
    unfold re_sending in E. destruct (inst s) as [x|] eqn:Ei; [|discriminate]. destruct (items x) as [|i it] eqn:Eit; [discriminate|]. destruct (entries s i) as [p|] eqn:Ep; [|discriminate].
    unfold J in Hj. rewrite Ei in Hj. destruct Hj as [(H1 & H2 & H3 & H4 & H5 & H6) _]. rewrite Ea in H6. destruct H6 as [_ Hw]. destruct Ha as [Hn Hlt].
    pose proof (Hq x Ei) as Hqx. unfold rest_items in Hqx. rewrite Hw, Eit in Hqx. cbn in Hqx. rewrite Ep in Hqx. destruct q as [|p0 q0]; [discriminate|]. cbn in Hqx. injection Hqx as <- Hrest.
    assert (Tn : T s fate (Some n)). { destruct Ht as [A B C D0 E0 F0]. constructor; auto; [|intros k Hk; injection Hk as <-; exact Hlt]. intros k Hk. destruct (C k Hk) as [?|[?|?]]; auto; discriminate. }
    destruct Hi as (fin & wait & Hinv). set (xq := set_callbacks (set_queue (core x) (p :: q0)) None None None None).
    assert (Hsame : map (fun k => if (k =? i)%nat then None else entries s k) it = map Some q0).
    { rewrite <- Hrest. apply map_ext_in. intros k Hk. destruct (Nat.eqb_spec k i) as [->|]; [|reflexivity]. rewrite Eit in H1. inversion H1. contradiction. }
    destruct (fd_takes_cases (sock (core x)) a (p_size p)) as [Hr|(k & Hr & Hk & Hmax)]; rewrite Hr in E.
    + assert (Hne : (-1 =? Z.of_nat (p_size p)) = false) by lia. rewrite Hne in E. cbn [negb] in E. change (-1 =? -1) with true in E. cbv iota in E.
      set (e := ESend (sock (core x)) (firstn (p_size p) (p_bytes p)) (-1)) in *.
      destruct (loops_inv false xq _ _ (L_fail false xq _ [] p q0 eq_refl (L_cut _)) _ _ _ _ Hinv) as (f & w & Hx). cbn [app indicate_error xq on_error set_callbacks call] in Hx.
      assert (P : PRE (set_inst (set_entry (see s [Did e]) i None) (Some {| core := set_state (core x) ERROR; items := it |})) fate q0 n).
      { constructor.
        - apply (T_same (see s [Did e])); try reflexivity. apply T_see; [exact Tn|reflexivity|intros ? ? [C|[]]; discriminate].
        - change (ids (set_inst (set_entry (see s [Did e]) i None) (Some {| core := set_state (core x) ERROR; items := it |}))) with (ids (see s [Did e])). rewrite ids_quiet by reflexivity. exact Hn.
        - exists f, w. cbn. rewrite sends_app, app_nil_r, events_app. exact Hx.
        - intros y Ey. injection Ey as <-. unfold rest_items. cbn. rewrite Hw. exact Hsame. }
      eapply PRE_raise; [exact P| |exact E]. intros s2 E2. eapply PRE_loop; [exact P|exact E2].
    + destruct (Z.eqb_spec (Z.of_nat k) (Z.of_nat (p_size p))) as [Hkp|Hkp]; cbn [negb] in E.
      * rewrite Hkp in *. set (e := ESend (sock (core x)) (firstn (p_size p) (p_bytes p)) (Z.of_nat (p_size p))) in *.
        destruct (loops_inv false xq _ _ (L_full false xq _ [] p q0 eq_refl Hmax (L_cut _)) _ _ _ _ Hinv) as (f & w & Hx). rewrite app_nil_r in Hx.
        eapply (AA_callback logging (p_callback p) _ (InWorkSent n i) (see s [Did e]) fate q0); [| | | |exact E].
        -- apply T_see; [exact Tn|reflexivity|intros ? ? [C|[]]; discriminate].
        -- cbn [kind id_of]. rewrite ids_quiet by reflexivity. exact Hn.
        -- exists f, w. cbn [out see]. rewrite <- app_assoc, sends_app, events_app. assert (Hs0 : sends_of ([Did e] ++ match p_callback p with Some c => [Did (ESendComplete c (p_context p) 0)] | None => [] end) = []) by (destruct (p_callback p); reflexivity). rewrite Hs0, app_nil_r.
           destruct (p_callback p); exact Hx.
        -- split; [exact Hw|]. intros y Ey. cbn in Ey. assert (y = x) by congruence. subst y. rewrite Eit. rewrite Eit in H1. auto.
      * assert (Hz : (Z.of_nat k =? -1) = false) by lia. rewrite Hz, Nat2Z.id in E. set (e := ESend (sock (core x)) (firstn (p_size p) (p_bytes p)) (Z.of_nat k)) in *. assert (Hlt2 : (k < p_size p)%nat) by lia.
        destruct (loops_inv false xq _ _ (L_part false xq _ [] p q0 k eq_refl Hlt2 (L_cut _)) _ _ _ _ Hinv) as (f & w & Hx).
        set (p' := {| p_bytes := memmove_front (p_bytes p) k (p_size p) |}) in *.
        eapply (PRE_loop (set_entry (see s [Did e]) i (Some p')) fate (p' :: q0)); [|exact E]. constructor.
        -- apply (T_same (see s [Did e])); try reflexivity. apply T_see; [exact Tn|reflexivity|intros ? ? [C|[]]; discriminate].
        -- change (ids (set_entry (see s [Did e]) i (Some p'))) with (ids (see s [Did e])). rewrite ids_quiet by reflexivity. exact Hn.
        -- exists f, w. cbn. rewrite sends_app, app_nil_r, events_app. exact Hx.
        -- intros y Ey. cbn in Ey. assert (y = x) by congruence. subst y. unfold rest_items. cbn. rewrite Hw, Eit. cbn. rewrite Nat.eqb_refl. f_equal.
           rewrite <- Hrest. apply map_ext_in. intros j Hjn. destruct (Nat.eqb_spec j i) as [->|]; [|reflexivity]. rewrite Eit in H1. inversion H1. contradiction.
  - unfold re_receiving in E. destruct (inst s) as [x|] eqn:Ei; [|discriminate]. destruct Ha as [Hn Hlt].
    assert (P0 : PRE s fate q n). { constructor; auto. destruct Ht as [A B C D0 E0 F0]. constructor; auto; [|intros k Hk; injection Hk as <-; exact Hlt]. intros k Hk. destruct (C k Hk) as [?|[?|?]]; auto; discriminate. }
    destruct (if sock (core x) =? -1 then None else a) as [b|].
    + eapply PRE_callback; [| | | |exact E]; [pre P0 Ei|reflexivity|exact I|repeat split].
    + eapply PRE_finish; [|exact E]. pre P0 Ei.
Qed.
Lemma AA_run logging : forall l s s', J s -> AA s -> law_abiding logging s l -> re_run logging s l = Ok s' -> AA s'.
Proof.
  induction l as [|a l IH]; intros s s' Hj Haa Hl E; [injection E as <-; exact Haa|]. cbn in *. destruct Hl as [Hp Hl]. destruct (re_step logging s a) as [s1| |] eqn:E1; try discriminate. cbn in E.
  destruct (J_step logging s a Hj Hp) as [C|(s2 & E2 & Hj2)]; [congruence|]. assert (s2 = s1) by congruence. subst s2. eapply IH; [exact Hj2| |exact Hl|exact E]. exact (AA_step logging s a s1 Hj Haa Hp E1).
Qed.
Lemma AA_start x : AA (re_start x).
Proof.
  exists (fun _ => true), []. split; [|split; [|split; [|exact I]]].
  - constructor; cbn; try (intros; contradiction). discriminate.
  - exists [], []. exact inv_start.
  - intros y Ey. injection Ey as <-. reflexivity.
Qed.

(* C95: whenever control is back in the user's program, everything observed is accounted for by
   the messages sent, whatever was called from the callbacks (within the rules). *)
Theorem reentrant_messages_partial : forall logging x s, re_reach logging x s -> quiescent s -> exists js, explains (re_attempts (out s)) (events_of (out s)) js.
Proof.
  intros logging x s (_ & l & Hl & E) [Ha Hs]. destruct (AA_run logging l _ _ (J_start x) (AA_start x) Hl E) as (fate & q & [A B C D0 E0 F0] & (fin & wait & Hinv) & _).
  exists (fin ++ wait). eapply explains_of. replace (re_attempts (out s)) with (map (fun a => (snd a, fate (fst a))) (sends_of (out s))); [exact Hinv|].
  unfold re_attempts. apply map_ext_in. intros [k m] Hk. cbn. f_equal. assert (Hid : In k (ids s)) by (unfold ids; apply in_map_iff; exists (k, m); auto).
  destruct (C k Hid) as [(r & Hr)|[(f & Hf & _)|?]]; [|rewrite Hs in Hf; destruct Hf|discriminate].
  unfold returned_ok. destruct (existsb _ (out s)) eqn:Ex.
  - apply existsb_exists in Ex. destruct Ex as (e & He & Hk'). destruct e as [|k2 r2| |]; try discriminate. destruct r2 as [[| |]|]; try discriminate. apply Nat.eqb_eq in Hk'. subst k2. rewrite (B _ _ He Hid). reflexivity.
  - rewrite (B _ _ Hr Hid). unfold okay. destruct r as [[| |]|]; try reflexivity. exfalso. assert (existsb (fun e => match e with Returned k0 (Some 0) => (k0 =? k)%nat | _ => false end) (out s) = true); [|congruence].
    apply existsb_exists. exists (Returned k (Some 0)). split; [exact Hr|apply Nat.eqb_refl].
Qed.
