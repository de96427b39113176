From Verif Require Import Base TestMutex_Model TestMutex_Spec.

(* ---- mutex ---- *)
Lemma has_snoc h e t : has (h ++ [e]) t = told t e (has h t).
Proof. unfold has. rewrite fold_left_app. reflexivity. Qed.
(* no thread ends while it has the mutex *)
Definition gives_back (h : list (mutex_step * nat)) : Prop := forall a t r b, h = a ++ (Ends t, r) :: b -> has a t = 0.
Lemma gives_back_snoc h e : gives_back (h ++ [e]) -> gives_back h.
Proof. intros G a t r b ->. apply (G a t r (b ++ [e])). rewrite <- app_assoc. reflexivity. Qed.
Lemma mutex_at h m : mutex_runs h m -> gives_back h -> abandoned m = false /\
  match owner m with None => forall t, has h t = 0 | Some (u, n) => n <> 0 /\ forall t, has h t = if t =? u then n else 0 end.
Proof.
  induction 1 as [|h m s r m' R IH D]; intros G; [split; [reflexivity|intros t; reflexivity] |]. specialize (IH (gives_back_snoc _ _ G)). destruct IH as (B & O). destruct m as [o b]. cbn in B, O. subst b.
  destruct s as [t|t|t]; cbn in D.
  - unfold testmutex_acquire, WaitForSingleObject in D. cbn in D. destruct o as [(u & n)|].
    + destruct (Nat.eqb_spec t u) as [->|N]; [|discriminate]. injection D as <- <-. cbn. split; [reflexivity|]. split; [discriminate|]. intros v. rewrite has_snoc. cbn. rewrite (Nat.eqb_sym u v). destruct O as (_ & O). rewrite O. destruct (v =? u); reflexivity.
    + injection D as <- <-. cbn. split; [reflexivity|]. split; [discriminate|]. intros v. rewrite has_snoc. cbn. rewrite (Nat.eqb_sym t v), O. destruct (v =? t); reflexivity.
  - unfold testmutex_release, ReleaseMutex in D. cbn in D. destruct o as [(u & n)|].
    + destruct (Nat.eqb_spec t u) as [->|N]; injection D as <- <-; cbn.
      * split; [reflexivity|]. destruct O as (Z & O). destruct n as [|[|k] ]; [congruence| |].
        -- intros v. rewrite has_snoc. cbn. rewrite (Nat.eqb_sym u v), O. destruct (v =? u); reflexivity.
        -- split; [discriminate|]. intros v. rewrite has_snoc. cbn. rewrite (Nat.eqb_sym u v), O. destruct (v =? u); reflexivity.
      * split; [reflexivity|]. destruct O as (Z & O). split; [exact Z|]. intros v. rewrite has_snoc. cbn. rewrite Bool.andb_false_r. apply O.
    + injection D as <- <-. cbn. split; [reflexivity|]. intros v. rewrite has_snoc. cbn. rewrite Bool.andb_false_r. apply O.
  - assert (T : has h t = 0) by (eapply G; reflexivity). injection D as <- <-. unfold thread_ends. cbn. destruct o as [(u & n)|].
    + destruct O as (Z & O). rewrite O in T. destruct (Nat.eqb_spec t u) as [->|N]; [congruence|]. cbn. split; [reflexivity|]. split; [exact Z|]. intros v. rewrite has_snoc. cbn. destruct (Nat.eqb_spec t v) as [<-|]; [|apply O].
      destruct (Nat.eqb_spec t u); [congruence|reflexivity].
    + cbn. split; [reflexivity|]. intros v. rewrite has_snoc. cbn. rewrite O. destruct (t =? v); reflexivity.
Qed.
(* While threads give the mutex back before they end, one at a time has it; acquire returns when no other has it, and then says 0;
   release says not 0 to the thread that has it, and 0 to the others. *)
Theorem mutex_excludes_partial h m : mutex_runs h m -> gives_back h ->
  (forall t u, has h t <> 0 -> has h u <> 0 -> t = u) /\
  (forall t, (exists m', testmutex_acquire t m = Some (0, m')) <-> forall u, u <> t -> has h u = 0) /\
  (forall t r m', testmutex_acquire t m = Some (r, m') -> r = 0) /\
  (forall t, fst (testmutex_release t m) <> 0 <-> has h t <> 0).
Proof.
  intros R G. destruct (mutex_at h m R G) as (B & O). destruct m as [o b]. cbn in B, O. subst b. unfold testmutex_acquire, testmutex_release, WaitForSingleObject, ReleaseMutex. cbn. destruct o as [(u & n)|].
  - destruct O as (Z & O). split; [|split; [|split] ].
    + intros t v T V. rewrite O in T, V. destruct (Nat.eqb_spec t u), (Nat.eqb_spec v u); congruence.
    + intros t. split.
      * intros (m' & E) v N. rewrite O. destruct (Nat.eqb_spec t u) as [->|]; [|discriminate]. destruct (Nat.eqb_spec v u); [congruence|reflexivity].
      * intros E. destruct (Nat.eqb_spec t u) as [->|N]; [eexists; reflexivity|]. specialize (E u (not_eq_sym N)). rewrite O, Nat.eqb_refl in E. congruence.
    + intros t r m' E. destruct (t =? u); congruence.
    + intros t. rewrite O. destruct (t =? u); cbn; split; congruence.
  - split; [intros t v T; rewrite O in T; congruence|]. split; [intros t; split; [intros _ u _; apply O|intros _; eexists; reflexivity] |]. split; [intros t r m' E; congruence|].
    intros t. rewrite O. cbn. split; congruence.
Qed.
(* After a thread ended with the mutex the next to acquire it is told that it failed, but has it: all others wait for ever. *)
Theorem mutex_abandoned_refuted t u : exists m, mutex_runs [(Acquire t, 0); (Ends t, 0); (Acquire u, 1)] m /\ forall v, v <> u -> testmutex_acquire v m = None.
Proof.
  exists {| owner := Some (u, 1); abandoned := false |}. split.
  - change [(Acquire t, 0); (Ends t, 0); (Acquire u, 1)] with ((([] ++ [(Acquire t, 0)]) ++ [(Ends t, 0)]) ++ [(Acquire u, 1)]). eapply mruns_step with (m := {| owner := None; abandoned := true |}); [|reflexivity].
    eapply mruns_step with (m := {| owner := Some (t, 1); abandoned := false |}); [|cbn; unfold thread_ends; cbn; rewrite Nat.eqb_refl; reflexivity]. eapply mruns_step; [constructor|reflexivity].
  - intros v N. unfold testmutex_acquire, WaitForSingleObject. cbn. destruct (Nat.eqb_spec v u); [contradiction|reflexivity].
Qed.
(* the two libraries say the opposite *)
Theorem micromock_mutex_opposite t m : MicroMockAcquireMutex t m = match testmutex_acquire t m with Some (r, m) => Some (1 - r, m) | None => None end /\ MicroMockReleaseMutex t m = testmutex_release t m.
Proof. unfold MicroMockAcquireMutex, testmutex_acquire. destruct (WaitForSingleObject t m) as [([|] & m')|]; split; reflexivity. Qed.
Fixpoint mutex_play (l : list (mutex_step * nat)) (m : mutex) : option mutex :=
  match l with [] => Some m | (s, r) :: l => match mutex_do s m with Some (q, m) => if q =? r then mutex_play l m else None | None => None end end.
Lemma mutex_played l : forall h m m', mutex_runs h m -> mutex_play l m = Some m' -> mutex_runs (h ++ l) m'.
Proof.
  induction l as [|(s & r) l IH]; intros h m m' R P; cbn in P; [injection P as <-; rewrite app_nil_r; exact R|].
  destruct (mutex_do s m) as [(q & m1)|] eqn:D; [|discriminate]. destruct (Nat.eqb_spec q r) as [->|]; [|discriminate]. change ((s, r) :: l) with ([(s, r)] ++ l). rewrite app_assoc. apply (IH _ m1); [|exact P]. eapply mruns_step; eassumption.
Qed.
Theorem mutex_case : exists m, mutex_runs [(Acquire 1, 0); (Acquire 1, 0); (Release 2, 0); (Release 1, 1); (Release 1, 1); (Ends 1, 0); (Acquire 2, 0)] m /\
  gives_back [(Acquire 1, 0); (Acquire 1, 0); (Release 2, 0); (Release 1, 1); (Release 1, 1); (Ends 1, 0); (Acquire 2, 0)].
Proof.
  exists {| owner := Some (2, 1); abandoned := false |}. split.
  - apply (mutex_played _ [] CreateMutexW); [constructor|reflexivity].
  - intros a t r b E. do 8 (destruct a as [|x a]; cbn [app] in E; [inversion E; subst; reflexivity|]; match type of E with _ :: _ = _ => injection E as <- E | _ => discriminate end).
Qed.

(* ---- semaphore ---- *)
Definition open_stage (s : stage) : bool := match s with Outside => false | _ => true end.
Definition in_test (s : stage) : bool := match s with Testing => true | _ => false end.
(* the processes with a handle *)
Definition counted (w : world) (ps : list nat) : Prop :=
  NoDup ps /\ (forall p, In p ps <-> open_stage (stages w p) = true) /\
  object w = match ps with [] => None | _ => Some ((SEMAPHORE_HIGH_WATER - N.of_nat (length (filter (fun p => in_test (stages w p)) ps)))%N, length ps) end /\
  (N.of_nat (length (filter (fun p => in_test (stages w p)) ps)) <= SEMAPHORE_HIGH_WATER)%N.
Lemma count_other (f f' : nat -> bool) p ps : ~ In p ps -> (forall q, q <> p -> f' q = f q) -> length (filter f' ps) = length (filter f ps).
Proof.
  intros N E. induction ps as [|q ps IH]; [reflexivity|]. cbn. rewrite E by (intros ->; apply N; left; reflexivity). destruct (f q); cbn; rewrite IH; try reflexivity; intros I; apply N; right; exact I.
Qed.
Lemma count_changed (f f' : nat -> bool) p ps : NoDup ps -> In p ps -> (forall q, q <> p -> f' q = f q) -> length (filter f' ps) + (if f p then 1 else 0) = length (filter f ps) + (if f' p then 1 else 0).
Proof.
  intros D I E. induction D as [|q ps N D IH]; [contradiction|]. destruct (Nat.eq_dec q p) as [->|Q].
  - cbn. pose proof (count_other f f' p ps N E) as C. destruct (f p), (f' p); cbn; lia.
  - destruct I as [->|I]; [congruence|]. cbn. rewrite (E q Q). specialize (IH I). destruct (f q); cbn; lia.
Qed.
Lemma one_left (f : nat -> bool) p ps : NoDup ps -> In p ps -> f p = true -> (length (filter f ps) = 1 <-> forall q, In q ps -> f q = true -> q = p).
Proof.
  intros D I F. pose proof (count_changed f (fun q => if q =? p then false else f q) p ps D I) as C. cbv beta in C. rewrite F, Nat.eqb_refl in C.
  assert (X : length (filter (fun q => if q =? p then false else f q) ps) + 1 = length (filter f ps)) by (rewrite C; [lia|intros q Q; destruct (Nat.eqb_spec q p); congruence]). split.
  - intros L q J G. destruct (Nat.eq_dec q p) as [Q|Q]; [exact Q|]. assert (K : In q (filter (fun q => if q =? p then false else f q) ps)) by (apply filter_In; destruct (Nat.eqb_spec q p); [congruence|]; auto).
    destruct (filter (fun q => if q =? p then false else f q) ps); [contradiction|cbn in X; lia].
  - intros G. assert (K : filter (fun q => if q =? p then false else f q) ps = []); [|rewrite K in X; cbn in X; lia].
    destruct (filter _ ps) as [|q l] eqn:K; [reflexivity|]. assert (J : In q (filter (fun q => if q =? p then false else f q) ps)) by (rewrite K; left; reflexivity).
    apply filter_In in J. destruct J as (J & H). destruct (Nat.eqb_spec q p) as [->|Q]; [discriminate|]. destruct (Q (G q J H)).
Qed.
Definition at_most_high_water (n : nat) : Prop := (N.of_nat n <= SEMAPHORE_HIGH_WATER)%N.
Definition no_kill (h : list (step * bool)) : Prop := forall p r, ~ In (Killed p, r) h.
Lemma removed p : forall ps : list nat, NoDup ps -> In p ps -> exists l, NoDup l /\ length ps = S (length l) /\ ~ In p l /\ (forall q, In q l <-> In q ps /\ q <> p) /\ forall f, f p = false -> length (filter f l) = length (filter f ps).
Proof.
  intros ps D I. destruct (in_split _ _ I) as (a & b & ->). exists (a ++ b). pose proof (NoDup_remove _ _ _ D) as (D' & N). split; [exact D'|]. rewrite !app_length. cbn. split; [lia|]. split; [exact N|]. split.
  - intros q. rewrite !in_app_iff. cbn. split; [intros H; split; [tauto|]; intros ->; apply N, in_or_app; exact H|]. intros ([H|[H|H] ] & Q); [left; exact H|destruct Q; symmetry; exact H|right; exact H].
  - intros f F. rewrite !filter_app, !app_length. cbn. rewrite F. reflexivity.
Qed.
Lemma counted_object w ps c k : counted w ps -> object w = Some (c, k) -> ps <> [] /\ c = (SEMAPHORE_HIGH_WATER - N.of_nat (length (filter (fun p => in_test (stages w p)) ps)))%N /\ k = length ps.
Proof. intros (_ & _ & O & _) E. rewrite O in E. destruct ps; [discriminate|]. injection E as <- <-. auto using nil_cons. Qed.
Lemma is_open w ps p : counted w ps -> stages w p <> Outside -> In p ps /\ exists c, object w = Some (c, length ps).
Proof.
  intros (D & I & O & _) S. assert (J : In p ps) by (apply I; destruct (stages w p); [destruct (S eq_refl)|reflexivity..]). split; [exact J|]. rewrite O. destruct ps; [contradiction|eauto].
Qed.
Lemma step_counted w ps s : counted w ps -> (forall p, s <> Killed p) ->
  match do_step s w with
  | Cannot => True | Undefined => False
  | Done w' r => (exists ps', counted w' ps') /\ (forall q, stages w' q = if q =? process s then match s with Creates _ => Opened | Acquires _ => Testing | Releases _ => Released | _ => Outside end else stages w q) /\
      match s with Releases p => stages w p = Testing /\ (r = true <-> forall q, stages w q = Testing -> q = p) | _ => r = false end
  end.
Proof.
  intros C K. pose proof C as (D & I & O & H). destruct s as [p|p|p|p|p]; cbn [do_step process]; [| | | |destruct (K p eq_refl)].
  - destruct (stages w p) eqn:S; try exact Logic.I. split; [|split; [reflexivity|reflexivity] ]. exists (p :: ps). assert (N : ~ In p ps) by (rewrite I, S; discriminate).
    assert (L : length (filter (fun q => in_test (stages (goes w p Opened (match object w with None => Some (SEMAPHORE_HIGH_WATER, 1) | Some (c, k) => Some (c, Datatypes.S k) end)) q)) (p :: ps)) = length (filter (fun q => in_test (stages w q)) ps)).
    { cbn [filter goes stages]. rewrite Nat.eqb_refl. cbn [in_test]. apply (count_other _ _ p); [exact N|]. intros q Q. destruct (Nat.eqb_spec q p); congruence. }
    split; [constructor; assumption|]. split; [|split; [|rewrite L; exact H] ].
    + intros q. cbn [goes stages]. destruct (Nat.eqb_spec q p) as [->|Q]; [split; [reflexivity|left; reflexivity] |]. rewrite <- I. cbn. split; [intros [E|E]; [congruence|exact E] |auto].
    + rewrite L. cbn [goes object]. rewrite O. destruct ps; [reflexivity|]. reflexivity.
  - destruct (stages w p) eqn:S; try exact Logic.I. destruct (is_open w ps p C) as (J & c & E); [congruence|]. rewrite E. destruct (N.eqb_spec c 0) as [->|Z]; [exact Logic.I|].
    destruct (counted_object _ _ _ _ C E) as (NE & -> & _). split; [|split; [reflexivity|reflexivity] ]. exists ps.
    assert (L : length (filter (fun q => in_test (stages (goes w p Testing (Some ((SEMAPHORE_HIGH_WATER - N.of_nat (length (filter (fun p0 => in_test (stages w p0)) ps)) - 1)%N, length ps))) q)) ps) = Datatypes.S (length (filter (fun q => in_test (stages w q)) ps))).
    { pose proof (count_changed (fun q => in_test (stages w q)) (fun q => in_test (if q =? p then Testing else stages w q)) p ps D J) as X. cbv beta in X. rewrite S, Nat.eqb_refl in X. cbn [in_test] in X. cbn [goes stages]. rewrite Nat.add_0_r in X. rewrite X by (intros q Q; destruct (Nat.eqb_spec q p); congruence). lia. }
    split; [exact D|]. split; [|split; [|rewrite L; lia] ].
    + intros q. cbn [goes stages]. destruct (Nat.eqb_spec q p) as [->|Q]; [split; [reflexivity|intros _; exact J] |apply I].
    + rewrite L. cbn [goes object]. destruct ps; [congruence|]. f_equal. f_equal. lia.
  - destruct (stages w p) eqn:S; try exact Logic.I. destruct (is_open w ps p C) as (J & c & E); [congruence|]. rewrite E. destruct (counted_object _ _ _ _ C E) as (NE & Ec & _).
    set (n := length (filter (fun q => in_test (stages w q)) ps)) in *.
    assert (L : Datatypes.S (length (filter (fun q => in_test (if q =? p then Released else stages w q)) ps)) = n).
    { pose proof (count_changed (fun q => in_test (stages w q)) (fun q => in_test (if q =? p then Released else stages w q)) p ps D J) as X. cbv beta in X. rewrite S, Nat.eqb_refl in X. cbn [in_test] in X. fold n in X. rewrite Nat.add_0_r in X. rewrite <- X by (intros q Q; destruct (Nat.eqb_spec q p); congruence). lia. }
    assert (B : (c <? SEMAPHORE_HIGH_WATER)%N = true) by (apply N.ltb_lt; lia). rewrite B. split; [|split; [reflexivity|split; [reflexivity|] ] ].
    + exists ps. split; [exact D|]. split; [|split].
      * intros q. cbn [goes stages]. destruct (Nat.eqb_spec q p) as [->|Q]; [split; [reflexivity|intros _; exact J] |apply I].
      * cbn [goes object stages]. destruct ps as [|z ps]; [congruence|]. f_equal. f_equal. lia.
      * cbn [goes stages]. lia.
    + rewrite N.eqb_eq. pose proof (one_left (fun q => in_test (stages w q)) p ps D J) as X. cbv beta in X. rewrite S in X. fold n in X. specialize (X eq_refl). transitivity (n = 1); [split; intros; lia|]. rewrite X. split.
      * intros G q T. apply G; [apply I; rewrite T; reflexivity|rewrite T; reflexivity].
      * intros G q _ T. apply G. destruct (stages w q); cbn in T; congruence.
  - destruct (stages w p) eqn:S; try exact Logic.I. destruct (is_open w ps p C) as (J & c & E); [congruence|]. split; [|split; [reflexivity|reflexivity] ]. destruct (removed p ps D J) as (l & Dl & Ll & Nl & Il & Fl). exists l.
    assert (X : length (filter (fun q => in_test (if q =? p then Outside else stages w q)) l) = length (filter (fun q => in_test (stages w q)) ps)).
    { rewrite <- (Fl (fun q => in_test (stages w q))) by (rewrite S; reflexivity). apply (count_other _ _ p); [exact Nl|]. intros q Q. destruct (Nat.eqb_spec q p); congruence. }
    destruct (counted_object _ _ _ _ C E) as (NE & Ec & _). split; [exact Dl|]. split; [|split].
    + intros q. rewrite Il, I. cbn [goes stages]. destruct (Nat.eqb_spec q p) as [->|Q]; [|tauto]. cbn. split; [intros (_ & Q); congruence|discriminate].
    + cbn [goes object stages]. rewrite X, E, Ll. destruct l as [|z l]; [reflexivity|]. cbn [close_handle length]. rewrite Ec. reflexivity.
    + cbn [goes stages]. rewrite X. exact H.
Qed.
Lemma testing_snoc h s r p : testing (h ++ [(s, r)]) p <-> (process s = p /\ s = Acquires p) \/ (process s <> p /\ testing h p).
Proof.
  split.
  - intros (a & q & b & E & F). destruct b as [|x b] using rev_ind.
    + apply app_inj_tail in E. destruct E as (_ & E). injection E as -> _. left. split; reflexivity.
    + clear IHb. rewrite app_comm_cons, app_assoc in E. apply app_inj_tail in E. destruct E as (-> & <-). right. split; [apply (F s r), in_or_app; right; left; reflexivity|].
      exists a, q, b. split; [reflexivity|]. intros u v J. apply (F u v), in_or_app. left. exact J.
  - intros [(_ & ->)|(N & a & q & b & -> & F)].
    + exists h, r, []. split; [reflexivity|]. intros ? ? [].
    + exists a, q, (b ++ [(s, r)]). split; [rewrite <- app_assoc; reflexivity|]. intros u v J. apply in_app_or in J. destruct J as [J|[J|[] ] ]; [apply (F u v J)|]. injection J as -> _. exact N.
Qed.
Lemma runs_counted h w : runs h w -> no_kill h -> (exists ps, counted w ps) /\ forall p, testing h p <-> stages w p = Testing.
Proof.
  induction 1 as [|h w s r w' R IH D]; intros K.
  - split.
    + exists []. repeat split; try constructor; try contradiction; try discriminate.
    + intros p. split; [intros (a & r & b & E & _); destruct a; discriminate|discriminate].
  - assert (K' : no_kill h) by (intros p q J; apply (K p q), in_or_app; left; exact J). destruct (IH K') as ((ps & C) & T). assert (Ks : forall p, s <> Killed p) by (intros p ->; apply (K p r), in_or_app; right; left; reflexivity).
    pose proof (step_counted w ps s C Ks) as X. rewrite D in X. destruct X as (C' & S & _). split; [exact C'|]. intros p. rewrite testing_snoc, S, T.
    destruct (Nat.eqb_spec p (process s)) as [->|N].
    + rewrite <- T. destruct s as [q|q|q|q|q]; cbn [process]; split; try (intros [(_ & E)|(N & _)]; congruence); try discriminate. intros _. left. split; reflexivity.
    + split; [intros [(E & _)|(_ & E)]; congruence|]. intros E. right. split; congruence.
Qed.
(* However the processes are interleaved: the one that releases reports memory leaks exactly when no other runs its tests; no other
   step reports, no step is undefined, and with less than a million processes none waits. *)
Theorem leaks_reported_by_the_last_partial h w : runs h w -> no_kill h ->
  (forall a s r b, h = a ++ (s, r) :: b -> (r = true <-> exists p, s = Releases p /\ forall q, testing a q -> q = p)) /\
  (forall s, (forall p, s <> Killed p) -> do_step s w <> Undefined).
Proof.
  intros R K. split.
  - revert K. induction R as [|h w s r w' R IH D]; intros K a s' r' b E; [destruct a; discriminate|].
    assert (K' : no_kill h) by (intros p q J; apply (K p q), in_or_app; left; exact J).
    destruct b as [|x b] using rev_ind; [|clear IHb; rewrite app_comm_cons, app_assoc in E; apply app_inj_tail in E; destruct E as (E & _); apply (IH K' a s' r' b E)].
    apply app_inj_tail in E. destruct E as (<- & E). injection E as <- <-. destruct (runs_counted h w R K') as ((ps & C) & T). assert (Ks : forall p, s <> Killed p) by (intros p ->; apply (K p r), in_or_app; right; left; reflexivity).
    pose proof (step_counted w ps s C Ks) as X. rewrite D in X. destruct X as (_ & _ & X). destruct s as [p|p|p|p|p]; try (subst r; split; [discriminate|intros (q & Q & _); discriminate]).
    destruct X as (_ & X). rewrite X. split; [intros G; exists p; split; [reflexivity|]; intros q Q; apply G, T, Q|]. intros (q & Q & G). injection Q as <-. intros q Q. apply G, T, Q.
  - intros s Ks. destruct (runs_counted h w R K) as ((ps & C) & _). pose proof (step_counted w ps s C Ks) as X. destruct (do_step s w); [discriminate|contradiction|discriminate].
Qed.
Theorem init_waits_only_for_many h w p : runs h w -> no_kill h -> stages w p = Opened -> do_step (Acquires p) w = Cannot ->
  exists ps, NoDup ps /\ Forall (testing h) ps /\ N.of_nat (length ps) = SEMAPHORE_HIGH_WATER.
Proof.
  intros R K S D. destruct (runs_counted h w R K) as ((ps & C) & T). cbn [do_step] in D. rewrite S in D. destruct (is_open w ps p C) as (J & c0 & E); [congruence|]. rewrite E in D. destruct (c0 =? 0)%N eqn:Z; [apply N.eqb_eq in Z|discriminate].
  destruct (counted_object _ _ _ _ C E) as (_ & Ec & _). destruct C as (Dn & _ & _ & H). exists (filter (fun q => in_test (stages w q)) ps). split; [apply NoDup_filter, Dn|]. split; [|lia].
  apply Forall_forall. intros q Q. apply filter_In in Q. destruct Q as (_ & Q). apply T. destruct (stages w q); cbn in Q; congruence.
Qed.
Fixpoint play (l : list (step * bool)) (w : world) : option world :=
  match l with [] => Some w | (s, r) :: l => match do_step s w with Done w q => if Bool.eqb q r then play l w else None | _ => None end end.
Lemma played l : forall h w w', runs h w -> play l w = Some w' -> runs (h ++ l) w'.
Proof.
  induction l as [|(s & r) l IH]; intros h w w' R P; cbn in P; [injection P as <-; rewrite app_nil_r; exact R|].
  destruct (do_step s w) as [| |w1 q] eqn:D; try discriminate. destruct (Bool.eqb q r) eqn:B; [|discriminate]. apply Bool.eqb_prop in B. subst q. change ((s, r) :: l) with ([(s, r)] ++ l). rewrite app_assoc. apply (IH _ w1); [|exact P]. eapply runs_step; eassumption.
Qed.
(* two processes, then a third alone *)
Theorem leaks_case : exists w, runs [(Creates 1, false); (Acquires 1, false); (Creates 2, false); (Acquires 2, false); (Releases 1, false); (Destroys 1, false); (Releases 2, true); (Destroys 2, false); (Creates 3, false); (Acquires 3, false); (Releases 3, true)] w /\
  stages w 3 = Released.
Proof. eexists. split; [apply (played _ [] start); [constructor|reflexivity] |reflexivity]. Qed.
(* One that is killed while it runs its tests is counted as running for as long as others have a handle: the last of them does not report. *)
Theorem leaks_after_kill_refuted : exists w, runs [(Creates 1, false); (Acquires 1, false); (Creates 2, false); (Acquires 2, false); (Killed 1, false); (Releases 2, false); (Destroys 2, false); (Creates 3, false); (Acquires 3, false); (Releases 3, true)] w.
Proof. eexists. apply (played _ [] start); [constructor|reflexivity]. Qed.
