(* Proofs about the time-discrete mocks. *)
From Verif Require Import Base TimeMock_Model TimeMock_Spec.
Local Open Scope nat_scope.

Definition due (l : list stimulus) (t : nat) : list stimulus := filter (fun s => at_tick s =? t) l.
Definition ev (s : stimulus) : event := Play (player s) (which s).
Definition nth_ev (l : list stimulus) (t : nat) (o : N) : list event := match nth_error (due l t) (N.to_nat o) with Some s => [ev s] | None => [] end.
(* what the players of mock [m] play *)
Definition own_play (owner : nat -> nat) (m : nat) (w : world) (t : nat) (o : N) : list event :=
  flat_map (fun p => if owner p =? m then play_calls p (allCalls w p) t o else []) (seq 0 (players w)).
Definition good (owner : nat -> nat) (m n : nat) (l : list stimulus) (w : world) : Prop :=
  players w = n /\ (forall t, maxOrder w m t = match length (due l t) with 0 => UNSET | S k => N.of_nat k end) /\ forall t o, own_play owner m w t o = nth_ev l t o.

Lemma due_snoc l s t : due (l ++ [s]) t = due l t ++ if at_tick s =? t then [s] else [].
Proof. unfold due. rewrite filter_app. cbn. destruct (at_tick s =? t); reflexivity. Qed.
Lemma play_snoc p l s t o : play_calls p (l ++ [s]) t o = play_calls p l t o ++ if (time s =? t) && N.eqb (order s) o then [Play p (call s)] else [].
Proof. unfold play_calls. rewrite filter_app, map_app. cbn. destruct (_ && _); reflexivity. Qed.
Lemma flat_map_one (g : nat -> list event) p n : p < n -> (forall q, q < n -> q <> p -> g q = []) -> flat_map g (seq 0 n) = g p.
Proof.
  intros L H. assert (G : forall k m, (forall q, m <= q -> q < m + k -> q <> p -> g q = []) -> flat_map g (seq m k) = if (m <=? p) && (p <? m + k) then g p else []).
  { induction k as [|k IH]; intros m Z; cbn [seq flat_map].
    - destruct (m <=? p) eqn:A, (p <? m + 0) eqn:B; try reflexivity. apply Nat.leb_le in A. apply Nat.ltb_lt in B. lia.
    - rewrite IH by (intros q A B N; apply Z; lia). destruct (Nat.eq_dec m p) as [->|N].
      + replace (Datatypes.S p <=? p) with false by (symmetry; apply Nat.leb_gt; lia). replace ((p <=? p) && (p <? p + Datatypes.S k)) with true by (symmetry; apply andb_true_iff; split; [apply Nat.leb_le; lia|apply Nat.ltb_lt; lia]). apply app_nil_r.
      + rewrite Z by lia. cbn [app]. destruct ((Datatypes.S m <=? p) && (p <? Datatypes.S m + k)) eqn:A, ((m <=? p) && (p <? m + Datatypes.S k)) eqn:B; try reflexivity; exfalso;
          rewrite andb_true_iff, Nat.leb_le, Nat.ltb_lt in *; rewrite andb_false_iff, Nat.leb_gt, Nat.ltb_ge in *; lia. }
  rewrite G by (intros q _ B N; apply H; [lia|exact N]).
  replace ((0 <=? p) && (p <? 0 + n)) with true by (symmetry; apply andb_true_iff; split; [apply Nat.leb_le; lia|apply Nat.ltb_lt; lia]). reflexivity.
Qed.
Lemma flat_map_eq {A B} (f g : A -> list B) l : (forall x, In x l -> f x = g x) -> flat_map f l = flat_map g l.
Proof. induction l as [|x l IH]; intros H; [reflexivity|]. cbn. rewrite H by (left; reflexivity). rewrite IH; [reflexivity|]. intros y I. apply H. right. exact I. Qed.
Lemma flat_map_nil {A B} (f : A -> list B) l : flat_map f l = [] -> forall x, In x l -> f x = [].
Proof. induction l as [|y l IH]; intros H x I; [destruct I|]. cbn in H. apply app_eq_nil in H. destruct H as (H1 & H2). destruct I as [<-|I]; [exact H1|exact (IH H2 x I)]. Qed.

Lemma step_good owner m n l w s : good owner m n l w -> owner (player s) = m -> player s < n -> at_tick s < MAXTICK -> (N.of_nat (length l) < UNSET)%N ->
  exists w', STIM_CALL_AT w m (player s) (which s) (at_tick s) = Some w' /\ good owner m n (l ++ [s]) w'.
Proof.
  intros (Gn & Gm & Gp) OW P T C. unfold STIM_CALL_AT, getAndIncOrder, record_call. apply Nat.ltb_lt in T. rewrite T. cbn [players allCalls maxOrder].
  set (k := length (due l (at_tick s))).
  assert (K : (N.of_nat k < UNSET)%N).
  { assert (k <= length l). { unfold k, due. clear. induction l as [|x l IH]; [constructor|]. cbn. destruct (at_tick x =? at_tick s); cbn; lia. } lia. }
  set (o := if N.eqb (maxOrder w m (at_tick s)) UNSET then 0%N else ((maxOrder w m (at_tick s) + 1) mod 2 ^ 32)%N).
  assert (O : o = N.of_nat k).
  { unfold o. rewrite Gm. fold k. destruct k as [|j] eqn:EK; [reflexivity|]. destruct (N.eqb_spec (N.of_nat j) UNSET) as [Q|Q]; [lia|].
    rewrite N.mod_small; [lia|]. replace (2 ^ 32)%N with (UNSET + 1)%N by reflexivity. lia. }
  clearbody o. unfold SetTime. cbn [players allCalls maxOrder]. replace (set (allCalls w) (player s) (allCalls w (player s) ++ [{| time := 0; order := 0; call := which s |}]) (player s)) with (allCalls w (player s) ++ [{| time := 0; order := 0; call := which s |}]) by (unfold set; rewrite Nat.eqb_refl; reflexivity).
  rewrite rev_app_distr. cbn [rev app]. rewrite rev_involutive. cbn [call]. eexists. split; [reflexivity|]. split; [exact Gn|]. cbn [players allCalls maxOrder]. split.
  - intros t. rewrite due_snoc, app_length. unfold set at 1. rewrite Nat.eqb_refl. unfold set. rewrite (Nat.eqb_sym t). destruct (Nat.eqb_spec (at_tick s) t) as [<-|N].
    + rewrite O. fold k. cbn [length]. rewrite Nat.add_1_r. reflexivity.
    + cbn [length]. rewrite Nat.add_0_r. apply Gm.
  - intros t q. unfold own_play. cbn [players allCalls]. assert (Z := Gp t q). unfold own_play in Z. rewrite Gn in *.
    set (s' := {| time := at_tick s; order := o; call := which s |}). set (f := set (allCalls w) (player s) (allCalls w (player s) ++ [{| time := 0; order := 0; call := which s |}])).
    assert (F : forall r, set f (player s) (allCalls w (player s) ++ [s']) r = set (allCalls w) (player s) (allCalls w (player s) ++ [s']) r) by (intros r; unfold f, set; destruct (r =? player s); reflexivity).
    rewrite (flat_map_eq _ (fun r => if owner r =? m then play_calls r (set (allCalls w) (player s) (allCalls w (player s) ++ [s']) r) t q else [])) by (intros r _; rewrite F; reflexivity).
    destruct ((at_tick s =? t) && N.eqb o q) eqn:Q.
    + apply andb_true_iff in Q. destruct Q as (Q1 & Q2). apply Nat.eqb_eq in Q1. apply N.eqb_eq in Q2. subst t q.
      unfold nth_ev in Z. rewrite O, Nnat.Nat2N.id in Z. replace (nth_error (due l (at_tick s)) k) with (@None stimulus) in Z by (symmetry; apply nth_error_None; unfold k; lia).
      rewrite <- O in Z. pose proof (flat_map_nil _ _ Z) as NZ. cbn beta in NZ. rewrite (flat_map_one _ (player s) n P).
      2:{ intros r R NE. unfold set. apply Nat.eqb_neq in NE. rewrite NE. apply NZ. apply in_seq. lia. }
      assert (NZP := NZ (player s)). rewrite OW, Nat.eqb_refl in *. unfold set at 1. rewrite Nat.eqb_refl, play_snoc, NZP by (apply in_seq; lia). cbn [time order s' call]. rewrite Nat.eqb_refl, N.eqb_refl. cbn [andb app].
      unfold nth_ev. rewrite due_snoc, Nat.eqb_refl, O, Nnat.Nat2N.id, nth_error_app2 by (unfold k; lia). fold k. rewrite Nat.sub_diag. reflexivity.
    + assert (E : flat_map (fun r => if owner r =? m then play_calls r (set (allCalls w) (player s) (allCalls w (player s) ++ [s']) r) t q else []) (seq 0 n) = nth_ev l t q).
      { rewrite <- Z. apply flat_map_eq. intros r _. destruct (owner r =? m); [|reflexivity]. unfold set. destruct (Nat.eqb_spec r (player s)) as [->|N]; [|reflexivity]. rewrite play_snoc. cbn [s' time order]. rewrite Q. apply app_nil_r. }
      rewrite E. unfold nth_ev. rewrite due_snoc. destruct (Nat.eqb_spec (at_tick s) t) as [<-|N]; [|rewrite app_nil_r; reflexivity].
      cbn [andb] in Q. apply N.eqb_neq in Q. destruct (Nat.lt_ge_cases (N.to_nat q) k) as [L|L].
      * rewrite nth_error_app1 by (unfold k in L; exact L). reflexivity.
      * rewrite nth_error_app2 by (unfold k in L; exact L). fold k. assert (N.to_nat q <> k) by (intros E2; apply Q; rewrite O, <- E2; apply Nnat.N2Nat.id).
        replace (nth_error (due l (at_tick s)) (N.to_nat q)) with (@None stimulus) by (symmetry; apply nth_error_None; unfold k in L; exact L).
        destruct (N.to_nat q - k) as [|j] eqn:EJ; [lia|]. cbn. destruct j; reflexivity.
Qed.
Lemma step_other owner m n l w s : good owner m n l w -> owner (player s) <> m -> at_tick s < MAXTICK ->
  exists w', STIM_CALL_AT w (owner (player s)) (player s) (which s) (at_tick s) = Some w' /\ good owner m n l w'.
Proof.
  intros (Gn & Gm & Gp) OW T. unfold STIM_CALL_AT, getAndIncOrder, record_call. apply Nat.ltb_lt in T. rewrite T. cbn [players allCalls maxOrder]. unfold SetTime. cbn [players allCalls maxOrder].
  set (X := set (allCalls w) (player s) (allCalls w (player s) ++ [{| time := 0; order := 0; call := which s |}]) (player s)). assert (EX : X = allCalls w (player s) ++ [{| time := 0; order := 0; call := which s |}]) by (unfold X, set; rewrite Nat.eqb_refl; reflexivity). rewrite EX. clear X EX.
  rewrite rev_app_distr. cbn [rev app]. eexists. split; [reflexivity|]. split; [exact Gn|]. split.
  - intros t. cbn [maxOrder]. unfold set at 1. destruct (Nat.eqb_spec m (owner (player s))) as [Q|Q]; [congruence|]. apply Gm.
  - intros t o. rewrite <- Gp. unfold own_play. cbn [players allCalls]. apply flat_map_eq. intros r _. destruct (Nat.eqb_spec (owner r) m) as [Q|Q]; [|reflexivity]. unfold set. destruct (Nat.eqb_spec r (player s)) as [->|N]; [congruence|reflexivity].
Qed.
Lemma schedule_good owner m n l : forall pre w, good owner m n pre w -> Forall (fun s => player s < n /\ at_tick s < MAXTICK) l -> (N.of_nat (length pre + length l) <= UNSET)%N ->
  exists w', schedule owner l w = Some w' /\ good owner m n (pre ++ filter (fun s => owner (player s) =? m) l) w'.
Proof.
  induction l as [|s l IH]; intros pre w G F C; cbn [schedule filter]; [exists w; rewrite app_nil_r; auto|]. apply Forall_cons_iff in F. destruct F as ((F1 & F2) & F). cbn [length] in C.
  destruct (Nat.eqb_spec (owner (player s)) m) as [OW|OW].
  - destruct (step_good owner m n pre w s G OW F1 F2) as (w1 & E1 & G1); [lia|]. rewrite OW, E1. destruct (IH (pre ++ [s]) w1 G1 F) as (w2 & E & G2); [rewrite app_length; cbn [length]; lia|]. exists w2. split; [exact E|]. rewrite <- app_assoc in G2. exact G2.
  - destruct (step_other owner m n pre w s G OW F2) as (w1 & -> & G1). apply IH; [exact G1|exact F|lia].
Qed.
Lemma nth_all {A} (l : list A) : flat_map (fun k => match nth_error l k with Some x => [x] | None => [] end) (seq 0 (length l)) = l.
Proof.
  assert (G : forall (l pre : list A), flat_map (fun k => match nth_error (pre ++ l) k with Some x => [x] | None => [] end) (seq (length pre) (length l)) = l).
  { clear. induction l as [|x l IH]; intros pre; [reflexivity|]. cbn [length seq flat_map]. rewrite nth_error_app2, Nat.sub_diag by lia. cbn [nth_error app]. f_equal.
    specialize (IH (pre ++ [x])). rewrite app_length in IH. cbn [length] in IH. rewrite Nat.add_1_r, <- app_assoc in IH. exact IH. }
  exact (G l []).
Qed.
Lemma due_short l t : length (due l t) <= length l.
Proof. unfold due. induction l as [|x l IH]; [constructor|]. cbn. destruct (at_tick x =? t); cbn; lia. Qed.
Lemma filter_flat {A B} (h : B -> bool) (f : A -> list B) l : filter h (flat_map f l) = flat_map (fun x => filter h (f x)) l.
Proof. induction l as [|x l IH]; [reflexivity|]. cbn. rewrite filter_app, IH. reflexivity. Qed.
Lemma own_filter owner m w t o : filter (of_mock owner m) (PlayTick w t o) = own_play owner m w t o.
Proof.
  unfold PlayTick, own_play. rewrite filter_flat. apply flat_map_eq. intros p _. unfold play_calls. induction (filter (fun s => (time s =? t) && N.eqb (order s) o) (allCalls w p)) as [|x r IH]; [destruct (owner p =? m); reflexivity|].
  cbn [map filter of_mock]. rewrite IH. destruct (owner p =? m); reflexivity.
Qed.
Lemma tick_good owner m n l w t : good owner m n l w -> (N.of_nat (length l) <= UNSET)%N -> filter (of_mock owner m) (one_tick w m t) = map ev (due l t) ++ [Task t].
Proof.
  intros (Gn & Gm & Gp) C. unfold one_tick. rewrite filter_app. f_equal. rewrite Gm. destruct (length (due l t)) as [|k] eqn:E; [rewrite N.eqb_refl; destruct (due l t); [reflexivity|discriminate E] |].
  assert (DS := due_short l t). destruct (N.eqb_spec (N.of_nat k) UNSET) as [Q|Q]; [lia|].
  rewrite Nnat.Nat2N.id. rewrite <- E. rewrite filter_flat. rewrite (flat_map_eq _ (fun o => match nth_error (map ev (due l t)) o with Some x => [x] | None => [] end)).
  - rewrite <- (map_length ev (due l t)). apply nth_all.
  - intros o _. rewrite own_filter, Gp. unfold nth_ev. rewrite Nnat.Nat2N.id, nth_error_map. destruct (nth_error (due l t) o); reflexivity.
Qed.
Lemma good_new owner m n : good owner m n [] (new_world n).
Proof.
  split; [reflexivity|]. split; [reflexivity|]. intros t o. unfold nth_ev. change (due [] t) with (@nil stimulus). assert (Z : nth_error (@nil stimulus) (N.to_nat o) = None) by (destruct (N.to_nat o); reflexivity). rewrite Z.
  unfold own_play. cbn [players allCalls new_world]. clear. induction (seq 0 n) as [|x r IH]; [reflexivity|]. cbn [flat_map]. rewrite IH. destruct (owner x =? m); reflexivity.
Qed.
(* Stimuli given with STIM_CALL_AT to any number of mocks: running one of them makes each of its own stimuli exactly once, at its tick,
   before the task of that tick and in the order they were given (and running again makes them again). *)
Theorem own_stims_in_order owner m n l nTick : Forall (fun s => player s < n /\ at_tick s < ticks) l -> (N.of_nat (length l) < 2 ^ 32)%N -> nTick < ticks ->
  exists w t, schedule owner l (new_world n) = Some w /\ RunUntilTick w m nTick = Some t /\ filter (of_mock owner m) t = expected_trace (filter (fun s => owner (player s) =? m) l) nTick.
Proof.
  intros F C0 T. change ticks with MAXTICK in *. assert (C : (N.of_nat (length l) <= UNSET)%N) by (change UNSET with (2 ^ 32 - 1)%N; lia). destruct (schedule_good owner m n l [] (new_world n) (good_new owner m n) F C) as (w & E & G). cbn [app] in G.
  eexists w, _. split; [exact E|]. unfold RunUntilTick. replace (nTick <? MAXTICK) with true by (symmetry; apply Nat.ltb_lt; exact T). split; [reflexivity|]. rewrite filter_flat. apply flat_map_eq. intros t _. apply (tick_good owner m n _ w t G).
  assert (length (filter (fun s => owner (player s) =? m) l) <= length l) by (clear; induction l as [|x l IH]; [constructor|]; cbn; destruct (owner (player x) =? m); cbn; lia). lia.
Qed.
(* With a single mock nothing else is made. *)
Theorem stims_in_order_partial m n l nTick : Forall (fun s => player s < n /\ at_tick s < ticks) l -> (N.of_nat (length l) < 2 ^ 32)%N -> nTick < ticks ->
  exists w, schedule (fun _ => m) l (new_world n) = Some w /\ RunUntilTick w m nTick = Some (expected_trace l nTick).
Proof.
  intros F C T. destruct (own_stims_in_order (fun _ => m) m n l nTick F C T) as (w & t & A & B & E). exists w. split; [exact A|]. rewrite B. f_equal.
  assert (X : forall {A} (f : A -> bool) k, (forall x, f x = true) -> filter f k = k) by (intros A0 f k H; induction k as [|x k IH]; [reflexivity|]; cbn; rewrite H, IH; reflexivity).
  rewrite (X _ (of_mock (fun _ => m) m)) in E by (intros [p c|i]; [apply Nat.eqb_refl|reflexivity]). rewrite (X _ (fun s => m =? m)) in E by (intros; apply Nat.eqb_refl). exact E.
Qed.
(* A stimulus, or a run, beyond the greatest tick is refused. *)
Theorem tick_too_large w mock p c t : ticks <= t -> STIM_CALL_AT w mock p c t = None /\ RunUntilTick w mock t = None.
Proof. change ticks with MAXTICK. intros L. unfold STIM_CALL_AT, getAndIncOrder, RunUntilTick. replace (t <? MAXTICK) with false by (symmetry; apply Nat.ltb_ge; exact L). auto. Qed.
Theorem time_before_call n p t o : SetTime (new_world n) p t o = None.
Proof. reflexivity. Qed.
Theorem stims_case : exists w, schedule (fun _ => 0) [ {| at_tick := 2; player := 1; which := 7 |}; {| at_tick := 2; player := 0; which := 8 |}; {| at_tick := 0; player := 1; which := 9 |} ] (new_world 2) = Some w /\
  RunUntilTick w 0 2 = Some [Play 1 9; Task 0; Task 1; Play 1 7; Play 0 8; Task 2].
Proof. eexists. split; vm_compute; reflexivity. Qed.

(* The players are shared: running one mock makes the calls of another, if both have calls at that tick; and a mock that ends takes
   the calls of the others along.  A call given without a time is made at tick 0 if another is. *)
Theorem foreign_stims_refuted : exists w w', STIM_CALL_AT (new_world 2) 0 0 7 1 = Some w /\ STIM_CALL_AT w 1 1 8 1 = Some w' /\
  RunUntilTick w' 0 1 = Some [Task 0; Play 0 7; Play 1 8; Task 1] /\ RunUntilTick (destroy_mock w') 0 1 = Some [Task 0; Task 1].
Proof. eexists _, _. split; [vm_compute; reflexivity|]. split; [vm_compute; reflexivity|]. split; vm_compute; reflexivity. Qed.
Theorem untimed_call_refuted : exists w, STIM_CALL_AT (record_call (new_world 2) 0 5) 0 1 7 0 = Some w /\ RunUntilTick w 0 0 = Some [Play 0 5; Play 1 7; Task 0] /\
  RunUntilTick (record_call (new_world 2) 0 5) 0 0 = Some [Task 0].
Proof. eexists. split; [vm_compute; reflexivity|]. split; vm_compute; reflexivity. Qed.
