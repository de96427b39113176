From Verif Require Import Base SchannelIo_Model.
(* Which callback the Schannel io calls: the specification *)
(* a history of the io: each event with what was seen of it, in order *)
Inductive history : list (event * list out) -> io -> Prop :=
| history_none : history [] created
| history_step h i e new j : history h i -> step e i = Next j -> outs j = rev new ++ outs i -> history (h ++ [(e, new)]) j.
(* the callbacks of the last open that opened the underlying io, and of the last close that closed it *)
Record registered := { for_open : callback; for_bytes : callback; for_error : callback; for_close : callback }.
Definition nothing : registered := {| for_open := None; for_bytes := None; for_error := None; for_close := None |}.
Definition register (r : registered) (x : event * list out) : registered :=
  match x with
  | (Open o b e _, [XioOpen; _]) => {| for_open := o; for_bytes := b; for_error := e; for_close := for_close r |}
  | (Close c _, [XioClose; _]) => {| for_open := for_open r; for_bytes := for_bytes r; for_error := for_error r; for_close := c |}
  | _ => r
  end.
Definition of_history (h : list (event * list out)) : registered := fold_left register h nothing.
Definition its_callback (r : registered) (o : out) : Prop :=
  match o with
  | OpenComplete c _ => for_open r = Some c
  | CloseComplete c => for_close r = Some c
  | Bytes c _ => for_bytes r = Some c
  | Error c => for_error r = Some c
  | _ => True
  end.

(* ---- proofs ---- *)
Definition cbs (i : io) : registered := {| for_open := on_io_open_complete i; for_bytes := on_bytes_received i; for_error := on_io_error i; for_close := on_io_close_complete i |}.
Definition keeps (i j : io) : Prop := cbs j = cbs i /\ exists new, outs j = rev new ++ outs i /\ Forall (its_callback (cbs i)) new.
Lemma keeps_refl i : keeps i i.
Proof. split; [reflexivity|]. exists []. split; [reflexivity|constructor]. Qed.
Lemma keeps_trans i j k : keeps i j -> keeps j k -> keeps i k.
Proof.
  intros (C & a & A & F) (D & b & B & G). split; [congruence|]. exists (a ++ b). split; [rewrite B, A, rev_app_distr, app_assoc; reflexivity|]. apply Forall_app. split; [exact F|]. rewrite C in G. exact G.
Qed.
Lemma keeps_same i j : cbs j = cbs i -> outs j = outs i -> keeps i j.
Proof. intros C O. split; [exact C|]. exists []. split; [exact O|constructor]. Qed.
Lemma keeps_emit i o : its_callback (cbs i) o -> keeps i (emit o i).
Proof. intros H. split; [reflexivity|]. exists [o]. split; [reflexivity|]. constructor; [exact H|constructor]. Qed.
Lemma keeps_xio i b cb : keeps i (emit (XioSend b cb) i).
Proof. apply keeps_emit. exact Logic.I. Qed.
Lemma keeps_returns i ok : keeps i (emit (SendReturns ok) i).
Proof. apply keeps_emit. exact Logic.I. Qed.
Lemma k_error i : keeps i (indicate_error i).
Proof. unfold indicate_error. destruct (on_io_error i) eqn:E; [apply keeps_emit; exact E|apply keeps_refl]. Qed.
Lemma k_open ok i : keeps i (open_complete ok i).
Proof. unfold open_complete. destruct (on_io_open_complete i) eqn:E; [apply keeps_emit; exact E|apply keeps_refl]. Qed.
Lemma k_close i : keeps i (close_complete i).
Proof. unfold close_complete. destruct (on_io_close_complete i) eqn:E; [apply keeps_emit; exact E|apply keeps_refl]. Qed.
Lemma k_state s i : keeps i (set_state s i). Proof. apply keeps_same; reflexivity. Qed.
Lemma k_buf b z i : keeps i (set_buf b z i). Proof. apply keeps_same; reflexivity. Qed.
Lemma k_needed n i : keeps i (set_needed n i). Proof. apply keeps_same; reflexivity. Qed.
Lemma k_owned f c x t i : keeps i (set_owned f c x t i). Proof. apply keeps_same; reflexivity. Qed.
Lemma k_frames f i : keeps i (set_frames f i). Proof. apply keeps_same; reflexivity. Qed.
Lemma k_failed_open i : keeps i (failed_open i).
Proof. eapply keeps_trans; [apply k_state|apply k_open]. Qed.
Lemma k_failed i : keeps i (failed i).
Proof. eapply keeps_trans; [apply k_state|apply k_error]. Qed.
Lemma k_resize m n i : match resize_receive_buffer m n i with Some j => keeps i j | None => True end.
Proof. unfold resize_receive_buffer. destruct (_ <? _)%Z; [destruct m; [apply k_buf|exact Logic.I]|apply keeps_refl]. Qed.
Lemma k_set_buffer m n i : match set_receive_buffer m n i with Some j => keeps i j | None => True end.
Proof. unfold set_receive_buffer. destruct m; [apply k_buf|exact Logic.I]. Qed.
Lemma k_consume x i : match consume x i with Some j => keeps i j | None => True end.
Proof. unfold consume. destruct x; [destruct (_ && _)%bool; [apply k_buf|exact Logic.I]|apply k_buf]. Qed.
Definition maybe (i : io) (r : option io) : Prop := match r with Some j => keeps i j | None => True end.
Lemma k_after_consume m x i (f g : io -> io) : (forall i, keeps i (f i)) -> (forall i, keeps i (g i)) ->
  maybe i (i <- consume x i ;; let i := set_needed (Some 1%Z) i in Some (match set_receive_buffer m (1 + count i) i with None => f i | Some i => g i end)).
Proof.
  intros F G. pose proof (k_consume x i) as C. destruct (consume x i) as [j|]; [|exact Logic.I]. cbn [maybe]. eapply keeps_trans; [exact C|]. eapply keeps_trans; [apply (k_needed (Some 1%Z))|].
  pose proof (k_set_buffer m (1 + count (set_needed (Some 1%Z) j)) (set_needed (Some 1%Z) j)) as B. destruct (set_receive_buffer _ _ _); [eapply keeps_trans; [exact B|apply G]|apply F].
Qed.
Lemma k_done m x i : maybe i (handshake_done m x i).
Proof. apply (k_after_consume m x i failed_open (fun i => open_complete true (set_state TLSIO_STATE_OPEN i)) k_failed_open). intros j. eapply keeps_trans; [apply k_state|apply k_open]. Qed.
Lemma k_goes_on m x i : maybe i (handshake_goes_on m x i).
Proof. apply (k_after_consume m x i failed_open (set_state TLSIO_STATE_HANDSHAKE_CLIENT_HELLO_SENT) k_failed_open). intros j. apply k_state. Qed.
Lemma k_data m x i : maybe i (data_done m x i).
Proof. apply (k_after_consume m x i failed (fun i => i) k_failed). intros j. apply keeps_refl. Qed.
Lemma k_missing m n i (f : io -> io) : (forall i, keeps i (f i)) -> keeps i (let i := set_needed (Some n) i in match resize_receive_buffer m (count i + n) i with None => f i | Some i => i end).
Proof.
  intros F. eapply keeps_trans; [apply (k_needed (Some n))|]. cbv zeta. pose proof (k_resize m (count (set_needed (Some n) i) + n) (set_needed (Some n) i)) as R. destruct (resize_receive_buffer _ _ _); [exact R|apply F].
Qed.
Lemma maybe_trans i j r : keeps i j -> maybe j r -> maybe i r.
Proof. intros K M. destruct r; [eapply keeps_trans; eassumption|exact Logic.I]. Qed.
Lemma k_handshake a i : maybe i (handshake a i).
Proof.
  unfold handshake. destruct (a_isc a) as [x|x y|t x y| |].
  - apply (k_missing (memory2 a) _ i failed_open k_failed_open).
  - apply k_done.
  - destruct t; [apply k_goes_on|]. cbn [maybe]. eapply keeps_trans; [apply (k_owned (credential_handle_allocated i) (credentials i) (contexts i) (S (tokens i)))|]. eapply keeps_trans; [apply keeps_xio|apply k_frames].
  - apply k_failed_open.
  - apply keeps_refl.
Qed.
Lemma k_decrypt a i : maybe i (decrypt a i).
Proof.
  unfold decrypt. destruct (a_dec a) as [x|[d|] x|].
  - apply (k_missing (memory2 a) _ i failed k_failed).
  - destruct (on_bytes_received i) eqn:E; [|apply k_data]. cbn [maybe]. eapply keeps_trans; [apply (keeps_emit i (Bytes n d)); exact E|apply k_frames].
  - apply k_failed.
  - apply keeps_refl.
Qed.
Lemma k_received bytes a i : maybe i (on_underlying_io_bytes_received bytes a i).
Proof.
  unfold on_underlying_io_bytes_received. cbv zeta. pose proof (k_resize (memory1 a) (count i + Z.of_nat (length bytes)) i) as R. destruct (resize_receive_buffer _ _ _) as [j|]; [|apply keeps_refl].
  eapply maybe_trans; [exact R|]. clear R i. eapply maybe_trans; [apply (k_buf (received_bytes j ++ bytes) (buffer_size j))|]. destruct (_ <? _)%Z; [exact Logic.I|].
  match goal with |- context[set_needed ?n ?k] => set (q := set_needed n k); assert (K : keeps k q) by apply k_needed end. clearbody q. eapply maybe_trans; [exact K|]. destruct (tlsio_state q); try apply keeps_refl; destruct (needed_bytes q) as [n|]; try exact Logic.I; destruct (n =? 0)%Z; try apply keeps_refl; [apply k_handshake|apply k_decrypt].
Qed.
Lemma k_opened ok cred ctx hello i : keeps i (on_underlying_io_open_complete ok cred ctx hello i).
Proof.
  unfold on_underlying_io_open_complete. destruct (tlsio_state i); try apply k_failed. destruct cred; [|apply k_failed]. cbv zeta.
  destruct hello; [|apply k_owned]. eapply keeps_trans; [apply (k_owned true (S (credentials i)) (if ctx then S (contexts i) else contexts i) (S (tokens i)))|]. eapply keeps_trans; [apply keeps_xio|apply k_frames].
Qed.
Lemma k_hello s m i : keeps i (after_hello s m i).
Proof.
  unfold after_hello. destruct s; [|apply k_failed]. cbv zeta. eapply keeps_trans; [apply (k_needed (Some 1%Z))|]. pose proof (k_resize m (1 + count (set_needed (Some 1%Z) i)) (set_needed (Some 1%Z) i)) as R.
  destruct (resize_receive_buffer _ _ _); [eapply keeps_trans; [exact R|apply k_state]|apply k_failed].
Qed.
Lemma k_send bs cb c i : keeps i (send_loop bs cb c i).
Proof.
  unfold send_loop. destruct bs; [apply keeps_returns|]. destruct (tlsio_state i); try (apply keeps_returns). destruct (c _); [|apply keeps_returns].
  eapply keeps_trans; [apply keeps_xio|apply k_frames].
Qed.
Lemma k_uerror i : keeps i (on_underlying_io_error i).
Proof. unfold on_underlying_io_error. destruct (tlsio_state i); try apply keeps_refl; try apply k_failed_open; [apply k_failed|]. eapply keeps_trans; [apply k_state|apply k_close]. Qed.
Lemma k_uclosed i : keeps i (on_underlying_io_close_complete i).
Proof. unfold on_underlying_io_close_complete. destruct (tlsio_state i); try apply keeps_refl. eapply keeps_trans; [apply k_state|apply k_close]. Qed.
Lemma k_after f ok m c i : maybe i (after f ok m c i).
Proof. destruct f; cbn [after]; [apply k_hello|unfold after_token; destruct ok; [apply k_goes_on|apply k_failed_open]|apply k_data|]. destruct ok; [apply k_send|apply keeps_returns]. Qed.
Lemma new_unique (a b : list out) l : rev a ++ l = rev b ++ l -> a = b.
Proof. intros E. apply app_inv_tail in E. rewrite <- (rev_involutive a), E, rev_involutive. reflexivity. Qed.
Lemma own_step h i e new j : cbs i = of_history h -> step e i = Next j -> outs j = rev new ++ outs i -> cbs j = of_history (h ++ [(e, new)]) /\ Forall (its_callback (of_history h)) new.
Proof.
  intros C S O. unfold of_history. rewrite fold_left_app. cbn [fold_left]. fold (of_history h). rewrite <- C.
  assert (G : forall k, step e i = Next k -> keeps i k -> register (cbs i) (e, new) = cbs i -> cbs j = register (cbs i) (e, new) /\ Forall (its_callback (cbs i)) new).
  { intros k S' (K & w & W & F) R. rewrite S in S'. injection S' as <-. rewrite W in O. apply new_unique in O. subst w. split; [congruence|exact F]. }
  destruct e as [o b c r|c r|bs cb c|ok cred ctx hello|bs a| | |ok m c]; cbn [step] in *.
  - unfold tlsio_schannel_open in *. destruct (tlsio_state i); injection S as <-; cbn [outs] in O.
    all: match type of O with outs (emit ?x (emit ?y _)) = _ => assert (N : new = [y; x]) by (apply (new_unique _ _ (outs i)); symmetry; exact O)
         | outs (emit ?x _) = _ => assert (N : new = [x]) by (apply (new_unique _ _ (outs i)); symmetry; exact O) end; subst new; (split; [reflexivity|repeat constructor]).
  - unfold tlsio_schannel_close in *. destruct (tlsio_state i); injection S as <-; cbn [outs] in O.
    all: match type of O with outs (emit ?x (emit ?y _)) = _ => assert (N : new = [y; x]) by (apply (new_unique _ _ (outs i)); symmetry; exact O)
         | outs (emit ?x _) = _ => assert (N : new = [x]) by (apply (new_unique _ _ (outs i)); symmetry; exact O) end; subst new; (split; [reflexivity|repeat constructor]).
  - eapply G; [reflexivity|apply k_send|reflexivity].
  - eapply G; [reflexivity|apply k_opened|reflexivity].
  - pose proof (k_received bs a i) as K. destruct (on_underlying_io_bytes_received bs a i); [|discriminate]. eapply G; [reflexivity|exact K|reflexivity].
  - eapply G; [reflexivity|apply k_uerror|reflexivity].
  - eapply G; [reflexivity|apply k_uclosed|reflexivity].
  - destruct (frames i) as [|f fs] eqn:Fr; [discriminate|]. pose proof (k_after f ok m c (set_frames fs i)) as K. destruct (after f ok m c (set_frames fs i)); [|discriminate]. eapply G; [reflexivity|eapply keeps_trans; [apply (k_frames fs)|exact K]|reflexivity].
Qed.
(* every execution is a history *)
Theorem sch_histories es : forall i, run es created = Next i -> exists h, history h i /\ map fst h = es.
Proof.
  induction es as [|e es IH] using rev_ind; intros i R; [injection R as <-; exists []; split; [constructor|reflexivity] |].
  assert (A : forall es i e, run (es ++ [e]) i = match run es i with Next j => step e j | r => r end).
  { clear. induction es as [|x es IH]; intros i e; cbn [run app]; [destruct (step e i); reflexivity|]. destruct (step x i); [apply IH|reflexivity|reflexivity]. }
  rewrite A in R. destruct (run es created) as [j| |] eqn:E; try discriminate. destruct (IH j eq_refl) as (h & H & <-). clear IH A.
  assert (N : exists new, outs i = rev new ++ outs j).
  { destruct e; cbn [step] in R.
    - unfold tlsio_schannel_open in R. destruct (tlsio_state j); injection R as <-; match goal with |- exists _, outs (emit ?x (emit ?y _)) = _ => exists [y; x]; reflexivity | |- exists _, outs (emit ?x _) = _ => exists [x]; reflexivity end.
    - unfold tlsio_schannel_close in R. destruct (tlsio_state j); injection R as <-; match goal with |- exists _, outs (emit ?x (emit ?y _)) = _ => exists [y; x]; reflexivity | |- exists _, outs (emit ?x _) = _ => exists [x]; reflexivity end.
    - injection R as <-. destruct (k_send bytes cb cipher j) as (_ & w & W & _). exists w. exact W.
    - injection R as <-. destruct (k_opened ok cred ctx hello j) as (_ & w & W & _). exists w. exact W.
    - pose proof (k_received bytes a j) as K. destruct (on_underlying_io_bytes_received bytes a j); [|discriminate]. injection R as <-. destruct K as (_ & w & W & _). exists w. exact W.
    - injection R as <-. destruct (k_uerror j) as (_ & w & W & _). exists w. exact W.
    - injection R as <-. destruct (k_uclosed j) as (_ & w & W & _). exists w. exact W.
    - destruct (frames j) as [|f fs] eqn:Fr; [discriminate|]. pose proof (k_after f ok memory cipher (set_frames fs j)) as K. destruct (after f ok memory cipher (set_frames fs j)); [|discriminate]. injection R as <-. destruct K as (_ & w & W & _). exists w. exact W. }
  destruct N as (new & N). exists (h ++ [(e, new)]). split; [eapply history_step; eassumption|]. rewrite map_app. reflexivity.
Qed.
Theorem sch_callbacks_own h i : history h i -> forall a e new b, h = a ++ (e, new) :: b -> forall o, In o new -> its_callback (of_history a) o.
Proof.
  intros H. assert (G : cbs i = of_history h /\ forall a e new b, h = a ++ (e, new) :: b -> forall o, In o new -> its_callback (of_history a) o); [|apply G].
  induction H as [|h i e new j H IH S O]; [split; [reflexivity|]; intros a e new b E; destruct a; discriminate|]. destruct IH as (C & IH). destruct (own_step h i e new j C S O) as (D & F). split; [exact D|].
  intros a e' new' b E o I. destruct b as [|x b] using rev_ind.
  - apply app_inj_tail in E. destruct E as (<- & E). injection E as <- <-. rewrite Forall_forall in F. apply F, I.
  - clear IHb. rewrite app_comm_cons, app_assoc in E. apply app_inj_tail in E. destruct E as (E & _). apply (IH a e' new' b E o I).
Qed.
(* an open, a close, a second open with other callbacks, and an error *)
Theorem sch_callbacks_case : exists i h, history h i /\ In (UError, [OpenComplete 5 false]) h /\ In (UClosed, [CloseComplete 4]) h /\ exists a b, h = a ++ (UError, [OpenComplete 5 false]) :: b /\ for_open (of_history a) = Some 5%N.
Proof.
  set (i1 := tlsio_schannel_open (Some 1%N) (Some 2%N) (Some 3%N) true created). set (i2 := tlsio_schannel_close (Some 4%N) true i1). set (i3 := on_underlying_io_close_complete i2).
  set (i4 := tlsio_schannel_open (Some 5%N) (Some 6%N) (Some 7%N) true i3).
  exists (on_underlying_io_error i4), (((([] ++ [(Open (Some 1%N) (Some 2%N) (Some 3%N) true, [XioOpen; OpenReturns true])]) ++ [(Close (Some 4%N) true, [XioClose; CloseReturns true])]) ++ [(UClosed, [CloseComplete 4])]) ++
    [(Open (Some 5%N) (Some 6%N) (Some 7%N) true, [XioOpen; OpenReturns true])] ++ [(UError, [OpenComplete 5 false])]). rewrite (app_assoc (_ ++ _) [_] [_]). split; [|split; [right; right; right; right; left; reflexivity|split; [right; right; left; reflexivity|] ] ].
  - apply history_step with (i := i4); [|reflexivity|vm_compute; reflexivity]. apply history_step with (i := i3); [|reflexivity|vm_compute; reflexivity]. apply history_step with (i := i2); [|reflexivity|vm_compute; reflexivity].
    apply history_step with (i := i1); [|reflexivity|vm_compute; reflexivity]. apply history_step with (i := created); [constructor|reflexivity|vm_compute; reflexivity].
  - eexists _, []. split; reflexivity.
Qed.
