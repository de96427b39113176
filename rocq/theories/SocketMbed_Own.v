From Verif Require Import Base SocketMbed_Model.
(* Which callback the mbed socket io calls: the specification *)
(* a history of the io: each event with what was seen of it, in order *)
Inductive history : list (event * list out) -> io -> Prop :=
| history_none : history [] created
| history_step h i e new j : history h i -> step e i = Next j -> outs j = rev new ++ outs i -> history (h ++ [(e, new)]) j.
(* the callbacks for bytes and for errors of the last open that returned 0 *)
Definition register (r : callback * callback) (x : event * list out) : callback * callback :=
  match x with
  | (Open _ b e _, new) => if existsb (fun o => match o with OpenReturns ok => ok | _ => false end) new then (b, e) else r
  | _ => r
  end.
Definition of_history (h : list (event * list out)) : callback * callback := fold_left register h (None, None).
(* a send so far had this callback *)
Definition of_a_send (h : list (event * list out)) (x : N) : Prop := exists bs r m new, In (Send bs (Some x) r m, new) h.
(* after h, during e *)
Definition its_callback (h : list (event * list out)) (e : event) (o : out) : Prop :=
  match o with
  | OpenComplete x => exists b c ok, e = Open (Some x) b c ok
  | CloseComplete x => e = Close (Some x)
  | SendComplete x => of_a_send h x \/ exists bs r m, e = Send bs (Some x) r m
  | Bytes x _ => fst (of_history h) = Some x
  | Error x => snd (of_history h) = Some x
  | _ => True
  end.

(* ---- proofs ---- *)
Definition good (P : N -> Prop) (b e : callback) (o : out) : Prop :=
  match o with Bytes x _ => b = Some x | Error x => e = Some x | SendComplete x => P x | OpenComplete _ | CloseComplete _ | OpenReturns true => False | _ => True end.
Definition queued (P : N -> Prop) (p : pending) : Prop := forall x, p_cb p = Some x -> P x.
Definition keeps P (i j : io) : Prop :=
  Forall (queued P) (queue i) -> on_bytes j = on_bytes i /\ on_error j = on_error i /\ Forall (queued P) (queue j) /\ exists new, outs j = rev new ++ outs i /\ Forall (good P (on_bytes i) (on_error i)) new.
Definition kept P (i : io) (r : result) : Prop := match r with Next j => keeps P i j | _ => True end.
Section Keeps.
Context (P : N -> Prop).
Lemma keeps_refl i : keeps P i i.
Proof. intros Q. split; [reflexivity|]. split; [reflexivity|]. split; [exact Q|]. exists []. split; [reflexivity|constructor]. Qed.
Lemma keeps_same i j k : on_bytes k = on_bytes j -> on_error k = on_error j -> queue k = queue j -> outs k = outs j -> keeps P i j -> keeps P i k.
Proof. intros B E Q O K F. unfold keeps in K. rewrite B, E, Q, O. exact (K F). Qed.
Lemma k_state s i j : keeps P i j -> keeps P i (set_state s j). Proof. apply keeps_same; reflexivity. Qed.
Lemma k_conn c n l i j : keeps P i j -> keeps P i (set_conn c n l j). Proof. apply keeps_same; reflexivity. Qed.
Lemma k_alive a i j : keeps P i j -> keeps P i (set_alive a j). Proof. apply keeps_same; reflexivity. Qed.
Lemma k_frames f i j : keeps P i j -> keeps P i (set_frames f j). Proof. apply keeps_same; reflexivity. Qed.
Lemma k_push f i j : keeps P i j -> keeps P i (push f j). Proof. apply keeps_same; reflexivity. Qed.
Lemma k_emit o i j : (Forall (queued P) (queue j) -> good P (on_bytes j) (on_error j) o) -> keeps P i j -> keeps P i (emit o j).
Proof.
  intros G K F. destruct (K F) as (B & E & Q & new & O & N). split; [exact B|]. split; [exact E|]. split; [exact Q|]. exists (new ++ [o]). split; [cbn; rewrite O, rev_app_distr; reflexivity|].
  apply Forall_app. split; [exact N|]. constructor; [|constructor]. rewrite <- B, <- E. apply G, Q.
Qed.
Lemma k_queue q n i j : (Forall (queued P) (queue j) -> Forall (queued P) q) -> keeps P i j -> keeps P i (set_queue q n j).
Proof. intros G K F. destruct (K F) as (B & E & Q & N). split; [exact B|]. split; [exact E|]. split; [apply G, Q|exact N]. Qed.
Lemma k_receive i j : keeps P i j -> kept P i (receive j).
Proof. intros K. unfold receive. destruct (conn j); [apply k_push, K|exact Logic.I]. Qed.
Lemma k_drain i j : keeps P i j -> kept P i (drain j).
Proof. intros K. unfold drain. destruct (queue j); [apply k_receive, K|]. destruct (conn j); [apply k_push, K|exact Logic.I]. Qed.
Lemma k_finish id i j : keeps P i j -> kept P i (finish id j).
Proof.
  intros K. unfold finish. destruct (existsb _ _); [|exact Logic.I]. apply k_drain, k_queue; [|exact K]. intros F. rewrite Forall_forall in *. intros p I. apply filter_In in I. apply F, I.
Qed.
Lemma k_add bs cb m i j : (forall x, cb = Some x -> P x) -> keeps P i j -> keeps P i (snd (add_pending_io bs cb m j)).
Proof. intros C K. unfold add_pending_io. destruct m; [|exact K]. apply k_queue; [|exact K]. intros F. apply Forall_app. split; [exact F|]. constructor; [exact C|constructor]. Qed.
Lemma k_wire c (b : bool) bs i j : keeps P i j -> keeps P i (if b then j else emit (Wire c bs) j).
Proof. intros K. destruct b; [exact K|]. apply k_emit; [intros _; exact Logic.I|exact K]. Qed.
Lemma k_sent r i j : keeps P i j -> kept P i (sent r j).
Proof.
  intros K. unfold sent. destruct (queue j) as [|p q] eqn:Q; [exact Logic.I|]. destruct (conn j); [|exact Logic.I]. cbv zeta. destruct (_ <? r)%Z; [exact Logic.I|]. destruct (r =? _)%Z.
  - pose proof (k_wire n (length (p_bytes p) =? 0)%nat (p_bytes p) i j K) as W. destruct (p_cb p) as [x|] eqn:C; [|apply k_finish, W]. apply k_push, k_emit; [|exact W]. intros F.
    destruct (length (p_bytes p) =? 0)%nat; cbn [queue emit] in F; rewrite Q in F; inversion F as [|? ? H]; apply (H x C).
  - destruct (r <? 0)%Z.
    + destruct (r <? -2)%Z; [|apply k_receive, K]. destruct (on_error (set_state IO_STATE_ERROR j)) eqn:E; [|apply k_receive, k_state, K]. apply k_push, k_emit; [intros _; exact E|apply k_state, K].
    + apply k_drain, k_queue; [|apply k_wire, K]. intros F. destruct (Z.to_nat r =? 0)%nat; cbn [queue emit] in F; rewrite Q in F; inversion F as [|? ? H G]; (constructor; [exact H|exact G]).
Qed.
Lemma k_received r i j : keeps P i j -> kept P i (received r j).
Proof.
  intros K. unfold received. destruct r as [bs|]; [|exact K]. destruct (_ || _)%bool; [exact Logic.I|]. destruct (on_bytes j) eqn:B; [|apply k_receive, K]. apply k_push, k_emit; [intros _; exact B|exact K].
Qed.
Lemma k_send bs cb r m i : (forall x, cb = Some x -> P x) -> kept P i (socketio_send bs cb r m i).
Proof.
  intros C. unfold socketio_send. destruct bs as [|b bs]; [apply k_emit; [intros _; exact Logic.I|apply keeps_refl] |]. destruct (io_state i); try (apply k_emit; [intros _; exact Logic.I|apply keeps_refl]).
  set (l := b :: bs). clearbody l. destruct (queue i).
  - destruct (conn i); [|exact Logic.I]. destruct (_ <? r)%Z; [exact Logic.I|]. destruct (r =? _)%Z; cbv zeta.
    + assert (W : keeps P i (emit (SendReturns l cb true) (emit (Wire n l) i))) by (apply k_emit; [intros _; exact Logic.I|]; apply k_emit; [intros _; exact Logic.I|apply keeps_refl]).
      destruct cb as [x|]; [|exact W]. apply k_push, k_emit; [intros _; apply C; reflexivity|exact W].
    + set (k := Z.to_nat (if (r <? 0)%Z then 0 else r)). pose proof (k_add (skipn k l) cb m i _ C (k_wire n (k =? 0)%nat (firstn k l) i i (keeps_refl i))) as A.
      destruct (add_pending_io _ _ _ _) as [ok j]. apply k_emit; [intros _; exact Logic.I|exact A].
  - pose proof (k_add l cb m i i C (keeps_refl i)) as A. destruct (add_pending_io _ _ _ _) as [ok j]. apply k_emit; [intros _; exact Logic.I|exact A].
Qed.
Lemma k_destroy i : keeps P i (socketio_destroy i).
Proof. unfold socketio_destroy. apply k_alive, k_queue; [intros _; constructor|]. apply k_conn, keeps_refl. Qed.
End Keeps.
Lemma new_unique (a b : list out) l : rev a ++ l = rev b ++ l -> a = b.
Proof. intros E. apply app_inv_tail in E. rewrite <- (rev_involutive a), E, rev_involutive. reflexivity. Qed.
Lemma k_pop P i : keeps P i (pop i).
Proof. apply k_frames, keeps_refl. Qed.
(* events but open and close *)
Definition other (e : event) : Prop := match e with Open _ _ _ _ | Close _ => False | _ => True end.
Lemma other_step (P : N -> Prop) e i j : other e -> (forall bs x r m, e = Send bs (Some x) r m -> P x) -> step e i = Next j -> keeps P i j.
Proof.
  intros X C S. assert (G : kept P i (step e i)); [|rewrite S in G; exact G]. unfold step, call. destruct e as [o b c ok|c|bs cb r m| | |r|r|]; try contradiction.
  - destruct (may_call i); [|exact Logic.I]. destruct (alive i); [|exact Logic.I]. apply k_send. intros x ->. eapply C. reflexivity.
  - destruct (may_call i); [|exact Logic.I]. destruct (alive i); [|exact Logic.I]. unfold socketio_dowork. destruct (io_state i); try apply keeps_refl. apply k_drain, keeps_refl.
  - destruct (may_call i); [|exact Logic.I]. destruct (alive i); [|exact Logic.I]. apply k_destroy.
  - destruct (frames i) as [|[] ?]; try exact Logic.I. apply k_sent, k_pop.
  - destruct (frames i) as [|[] ?]; try exact Logic.I. apply k_received, k_pop.
  - destruct (frames i) as [|[] ?]; try exact Logic.I; destruct (alive i); try exact Logic.I; [apply k_finish, k_pop|apply k_receive, k_pop|apply k_receive, k_pop|apply k_pop].
Qed.
Definition invariant (h : list (event * list out)) (i : io) : Prop := (on_bytes i, on_error i) = of_history h /\ Forall (queued (of_a_send h)) (queue i).
Lemma of_a_send_more h x e n : of_a_send h x -> of_a_send (h ++ [(e, n)]) x.
Proof. intros (bs & r & m & new & I). exists bs, r, m, new. apply in_or_app. left. exact I. Qed.
Lemma queued_more h l e n : Forall (queued (of_a_send h)) l -> Forall (queued (of_a_send (h ++ [(e, n)]))) l.
Proof. intros F. eapply Forall_impl; [|exact F]. intros p Q x C. apply of_a_send_more, Q, C. Qed.
Lemma own_step h i e new j : invariant h i -> step e i = Next j -> outs j = rev new ++ outs i -> invariant (h ++ [(e, new)]) j /\ Forall (its_callback h e) new.
Proof.
  intros (C & Q) S O. unfold invariant. assert (R : of_history (h ++ [(e, new)]) = register (of_history h) (e, new)) by (unfold of_history; rewrite fold_left_app; reflexivity). rewrite R, <- C.
  assert (D : other e \/ (exists o b c ok, e = Open o b c ok) \/ exists c, e = Close c) by (destruct e; cbn; eauto 8). destruct D as [X|[(o & b & c & ok & ->)|(c & ->)] ].
  - assert (P : forall bs x r m, e = Send bs (Some x) r m -> of_a_send (h ++ [(e, new)]) x) by (intros bs x r m ->; exists bs, r, m, new; apply in_or_app; right; left; reflexivity).
    destruct (other_step _ e i j X P S (queued_more h _ e new Q)) as (B & E & Q' & w & W & F). rewrite W in O. apply new_unique in O. subst w. split.
    + split; [|exact Q']. destruct e; try contradiction; cbn [register]; congruence.
    + rewrite Forall_forall in *. intros y I. specialize (F y I). destruct y; cbn in F |- *; try exact Logic.I; try contradiction; try (rewrite <- C; exact F).
      destruct F as (bs & r & m & n & G). apply in_app_or in G. destruct G as [G|[G|[] ] ]; [left; exists bs, r, m, n; exact G|]. right. injection G as -> _. eauto.
  - unfold step, call in S. destruct (may_call i); [|discriminate]. destruct (alive i); [|discriminate]. unfold socketio_open in S. cbv zeta in S. destruct ok; injection S as <-.
    + destruct o as [x|]; cbn [outs emit set_state set_cbs set_conn queue on_bytes on_error] in O |- *.
      * change (rev [OpenComplete x; OpenReturns true] ++ outs i = rev new ++ outs i) in O. apply new_unique in O. subst new. cbn. split; [split; [reflexivity|apply queued_more, Q] |]. constructor; [cbn; eauto 6|repeat constructor].
      * change (rev [OpenReturns true] ++ outs i = rev new ++ outs i) in O. apply new_unique in O. subst new. cbn. split; [split; [reflexivity|apply queued_more, Q] |]. repeat constructor.
    + change (rev [OpenReturns false] ++ outs i = rev new ++ outs i) in O. apply new_unique in O. subst new. cbn. split; [split; [reflexivity|apply queued_more, Q] |]. repeat constructor.
  - unfold step, call in S. destruct (may_call i); [|discriminate]. destruct (alive i); [|discriminate]. unfold socketio_close in S.
    assert (A : j = emit (CloseReturns false) i \/ exists i', on_bytes i' = on_bytes i /\ on_error i' = on_error i /\ queue i' = queue i /\ outs i' = outs i /\ j = emit (CloseReturns true) (match c with Some x => emit (CloseComplete x) i' | None => i' end)).
    { destruct (io_state i); try (left; congruence); (destruct (conn i); [|discriminate]); injection S as <-; right; (exists (set_state IO_STATE_CLOSED (set_conn None (next_conn i) (live i) i)); repeat split). }
    clear S. destruct A as [->|(i' & B & E & Qi & Oi & ->)].
    + change (rev [CloseReturns false] ++ outs i = rev new ++ outs i) in O. apply new_unique in O. subst new. cbn. split; [split; [reflexivity|apply queued_more, Q] |]. repeat constructor.
    + destruct c as [x|]; cbn [outs emit] in O; rewrite Oi in O; [change (rev [CloseComplete x; CloseReturns true] ++ outs i = rev new ++ outs i) in O|change (rev [CloseReturns true] ++ outs i = rev new ++ outs i) in O]; apply new_unique in O; subst new; cbn; rewrite B, E, Qi;
        (split; [split; [reflexivity|apply queued_more, Q] |]; repeat constructor).
Qed.
Theorem sm_callbacks_own h i : history h i -> forall a e new b, h = a ++ (e, new) :: b -> forall o, In o new -> its_callback a e o.
Proof.
  intros H. assert (G : invariant h i /\ forall a e new b, h = a ++ (e, new) :: b -> forall o, In o new -> its_callback a e o); [|apply G].
  induction H as [|h i e new j H IH S O]; [split; [split; [reflexivity|constructor] |]; intros a e new b E; destruct a; discriminate|]. destruct IH as (C & IH). destruct (own_step h i e new j C S O) as (D & F). split; [exact D|].
  intros a e' new' b E o I. destruct b as [|x b] using rev_ind.
  - apply app_inj_tail in E. destruct E as (<- & E). injection E as <- <-. rewrite Forall_forall in F. apply F, I.
  - clear IHb. rewrite app_comm_cons, app_assoc in E. apply app_inj_tail in E. destruct E as (E & _). apply (IH a e' new' b E o I).
Qed.
(* every execution is a history *)
Lemma step_new e i j : step e i = Next j -> exists new, outs j = rev new ++ outs i.
Proof.
  intros S. assert (D : other e \/ (exists o b c ok, e = Open o b c ok) \/ exists c, e = Close c) by (destruct e; cbn; eauto 8). destruct D as [X|[(o & b & c & ok & ->)|(c & ->)] ].
  - destruct (other_step (fun _ => True) e i j X ltac:(intros; exact Logic.I) S) as (_ & _ & _ & w & W & _); [|exists w; exact W]. apply Forall_forall. intros p _ x _. exact Logic.I.
  - unfold step, call in S. destruct (may_call i); [|discriminate]. destruct (alive i); [|discriminate]. unfold socketio_open in S. cbv zeta in S. destruct ok; injection S as <-.
    + destruct o as [x|]; [exists [OpenComplete x; OpenReturns true]; reflexivity|exists [OpenReturns true]; reflexivity].
    + exists [OpenReturns false]. reflexivity.
  - unfold step, call in S. destruct (may_call i); [|discriminate]. destruct (alive i); [|discriminate]. unfold socketio_close in S.
    destruct (io_state i); try (injection S as <-; exists [CloseReturns false]; reflexivity); (destruct (conn i); [|discriminate]); injection S as <-; (destruct c as [x|]; [exists [CloseComplete x; CloseReturns true]; reflexivity|exists [CloseReturns true]; reflexivity]).
Qed.
Theorem sm_histories es : forall i, run es created = Next i -> exists h, history h i /\ map fst h = es.
Proof.
  induction es as [|e es IH] using rev_ind; intros i R; [injection R as <-; exists []; split; [constructor|reflexivity] |].
  assert (A : forall es i e, run (es ++ [e]) i = match run es i with Next j => step e j | r => r end).
  { clear. induction es as [|x es IH]; intros i e; cbn [run app]; [destruct (step e i); reflexivity|]. destruct (step x i); [apply IH|reflexivity|reflexivity]. }
  rewrite A in R. destruct (run es created) as [j| |] eqn:E; try discriminate. destruct (IH j eq_refl) as (h & H & <-). destruct (step_new e j i R) as (new & N).
  exists (h ++ [(e, new)]). split; [eapply history_step; eassumption|]. rewrite map_app. reflexivity.
Qed.
(* an open, a close, an open that fails, one with other callbacks, and a byte *)
Definition next (e : event) (i : io) : io := match step e i with Next j => j | _ => i end.
Definition case1 := next (Open (Some 1) (Some 2) (Some 3) true)%N created.
Definition case2 := next (Close (Some 4%N)) case1.
Definition case3 := next (Open (Some 5) (Some 6) (Some 7) false)%N case2.
Definition case4 := next (Open None (Some 8) (Some 9) true)%N case3.
Definition case5 := next Dowork case4.
Definition case6 := next (Received (Some [65%N])) case5.
Theorem sm_callbacks_case : exists i h, history h i /\ (exists a b, h = a ++ (Received (Some [65]), [Bytes 8 [65]]) :: b)%N /\ of_history h = (Some 8, Some 9)%N.
Proof.
  exists case6, (((((([] ++ [(Open (Some 1) (Some 2) (Some 3) true, [OpenComplete 1; OpenReturns true])]) ++ [(Close (Some 4), [CloseComplete 4; CloseReturns true])]) ++
    [(Open (Some 5) (Some 6) (Some 7) false, [OpenReturns false])]) ++ [(Open None (Some 8) (Some 9) true, [OpenReturns true])]) ++ [(Dowork, [])]) ++ [(Received (Some [65]), [Bytes 8 [65]])])%N. split; [|split].
  - apply history_step with (i := case5); [|vm_compute; reflexivity|vm_compute; reflexivity]. apply history_step with (i := case4); [|vm_compute; reflexivity|vm_compute; reflexivity].
    apply history_step with (i := case3); [|vm_compute; reflexivity|vm_compute; reflexivity]. apply history_step with (i := case2); [|vm_compute; reflexivity|vm_compute; reflexivity].
    apply history_step with (i := case1); [|vm_compute; reflexivity|vm_compute; reflexivity]. apply history_step with (i := created); [constructor|vm_compute; reflexivity|vm_compute; reflexivity].
  - eexists _, []. reflexivity.
  - vm_compute. reflexivity.
Qed.
