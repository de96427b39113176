(* The mocking library does what the specification of tests says, for every test and every memory. *)
From Coq Require Import Permutation.
From Verif Require Import Base Strings_Model Strings_Props UMockName_Model UMockName_Spec UMockTypes_Model UMockTypes_Spec UMockTypes_Props UMock_Model UMock_Spec.
Local Open Scope Z_scope.

(* ---- texts in memory ---- *)
Lemma store_one b i v : store_all b i [v] = store b i v.
Proof. cbn. destruct (store b i v); reflexivity. Qed.
Definition text (n a : list N) : list N := ([91] ++ n ++ [40] ++ a ++ [41; 93])%N.
Lemma stringify_at w s h c o : deref s h = Some c ->
  exists r o' used, umockcall_stringify w s (Some h) o = Some (r, o') /\ o = used ++ o' /\
   match text_of w c with
   | None => r = None
   | Some t => (r = None /\ In false used) \/ r = Some (filled (t ++ [0%N]))
   end.
Proof.
  intros D. cbn [umockcall_stringify]. unfold bind at 1, lift at 1. rewrite D. unfold text_of.
  destruct (str_of w (data_stringify c) (umockcall_data c)) as [a|]; [|exists None, o, []; auto].
  unfold bind at 1. destruct (alloc_spec o) as (ok & o1 & used & A & U & F). rewrite A. destruct ok; cbn [negb].
  2:{ exists None, o1, used. split; [reflexivity|]. split; [exact U|]. left. auto. }
  set (n := function_name c). fold (text n a).
  assert (E : store_all (fresh (length n + length a + 4 + 1)) 0 (text n a ++ [0%N]) = Some (filled (text n a ++ [0%N]))).
  { apply store_all_exact. rewrite fresh_length. unfold text. rewrite !app_length. cbn [length]. lia. }
  unfold text in E at 1. change [41%N; 93%N] with ([41%N] ++ [93%N]) in E. rewrite <- !app_assoc in E. unfold bind, lift, ret.
  rewrite store_all_cat, store_one in E. cbn [length] in E. destruct (store (fresh (length n + length a + 4 + 1)) 0 91) as [b1|]; [|discriminate E].
  rewrite store_all_cat in E. cbn [Nat.add] in E. destruct (store_all b1 1 n) as [b2|]; [|discriminate E].
  replace (S (length n)) with (length n + 1)%nat in E by lia.
  rewrite store_all_cat, store_one in E. cbn [length] in E. destruct (store b2 (length n + 1) 40) as [b3|]; [|discriminate E].
  replace (length n + 1 + 1)%nat with (length n + 2)%nat in E by lia.
  rewrite store_all_cat in E. destruct (store_all b3 (length n + 2) a) as [b4|]; [|discriminate E].
  replace (length n + 2 + length a)%nat with (length n + length a + 2)%nat in E by lia.
  rewrite store_all_cat, store_one in E. cbn [length] in E. destruct (store b4 (length n + length a + 2) 41) as [b5|]; [|discriminate E].
  replace (length n + length a + 2 + 1)%nat with (length n + length a + 3)%nat in E by lia.
  rewrite store_all_cat, store_one in E. cbn [length] in E. destruct (store b5 (length n + length a + 3) 93) as [b6|]; [|discriminate E].
  replace (length n + length a + 3 + 1)%nat with (length n + length a + 4)%nat in E by lia. rewrite store_one in E.
  destruct (store b6 (length n + length a + 4) 0) as [b7|]; [|discriminate E]. injection E as ->.
  eexists _, o1, used. split; [reflexivity|]. split; [exact U|]. right. reflexivity.
Qed.
Lemma text_ok w c : world_ok w -> cstr_ok (function_name c) -> forall t, text_of w c = Some t -> cstr_ok t /\ (4 <= length t)%nat.
Proof.
  intros W K t. unfold text_of. destruct (str_of w (data_stringify c) (umockcall_data c)) as [a|] eqn:E; [|discriminate]. intros X. injection X as <-. apply W in E. split.
  - assert (forall x, In x [91; 40; 41; 93]%N -> char_ok x) as Y by (intros x H; cbn in H; unfold char_ok; lia).
    constructor; [apply Y; cbn; auto|]. apply Forall_app. split; [exact K|]. constructor; [apply Y; cbn; auto|]. apply Forall_app. split; [exact E|].
    constructor; [apply Y; cbn; auto|]. constructor; [apply Y; cbn; auto|]. constructor.
  - cbn [length app]. rewrite !app_length. cbn [length]. rewrite app_length. cbn [length]. lia.
Qed.

(* what is in a block of at least k + 1 cells after k characters and the end were written *)
Definition holds (b : option block) (pre : list N) : Prop := pre = [] \/ exists rest, b = Some (filled pre ++ rest).
Lemma resized_write b pre t :
  holds b pre -> store_all (resized b (length pre + length t + 1)) (length pre) (t ++ [0%N]) = Some (filled (pre ++ t ++ [0%N])).
Proof.
  intros H. set (m := (length pre + length t + 1)%nat).
  assert (X : exists mid, resized b m = filled pre ++ mid /\ length mid = length (t ++ [0%N])).
  { assert (L : length (resized b m) = m).
    { unfold resized. rewrite firstn_length, app_length, fresh_length. lia. }
    destruct H as [-> | [rest ->] ].
    - exists (resized b m). split; [reflexivity|]. rewrite L, app_length. unfold m. cbn. lia.
    - unfold resized in *. rewrite <- app_assoc in *. exists (firstn (m - length pre) (rest ++ fresh m)).
      assert (Y : firstn m (filled pre ++ rest ++ fresh m) = filled pre ++ firstn (m - length pre) (rest ++ fresh m)).
      { rewrite firstn_app, filled_length. f_equal. apply firstn_all2. rewrite filled_length. unfold m. lia. }
      split; [exact Y|]. rewrite Y, app_length, filled_length in L. rewrite app_length. assert (M : m = (length pre + length t + 1)%nat) by reflexivity. clearbody m. cbn [length]. lia. }
  destruct X as (mid & -> & L). pose proof (store_all_app_gen (t ++ [0%N]) (filled pre) mid [] L) as E. rewrite filled_length, !app_nil_r in E. rewrite E.
  unfold filled. now rewrite <- map_app.
Qed.
Lemma append_at w s : world_ok w -> forall hs cs b pre o,
  Forall2 (fun h c => deref s h = Some c /\ cstr_ok (function_name c)) hs cs -> holds b pre ->
  exists ok b' n o' used, append_calls w s hs b (length pre) o = Some ((ok, b', n), o') /\ o = used ++ o' /\
   match texts_of w (map Some cs) with
   | None => ok = false
   | Some t => (ok = false /\ In false used) \/ (ok = true /\ n = length (pre ++ t) /\ (hs = [] /\ b' = b \/ hs <> [] /\ t <> [] /\ b' = Some (filled (pre ++ t ++ [0%N]))))
   end.
Proof.
  intros W. induction hs as [|h hs IH]; intros cs b pre o F H.
  - inversion F. subst. exists true, b, (length pre), o, []. split; [reflexivity|]. split; [reflexivity|]. cbn. right. rewrite app_nil_r. auto.
  - inversion F as [|? c ? cs' (D & K) F']. subst. cbn [append_calls map texts_of]. unfold bind at 1.
    destruct (stringify_at w s h c o D) as (r & o1 & u1 & E & U1 & X). rewrite E.
    destruct (text_of w c) as [t|] eqn:T.
    2:{ subst r. eexists _, _, _, o1, u1. split; [reflexivity|]. auto. }
    destruct (text_ok w c W K t T) as (Kt & Lt). destruct X as [ [-> X] | ->].
    { eexists _, _, _, o1, u1. split; [reflexivity|]. split; [exact U1|]. destruct (texts_of w (map Some cs')); auto. }
    rewrite string_in_filled by exact Kt. cbn [lift]. unfold lift at 1, bind at 1. unfold realloc, bind at 1. unfold bind at 1.
    destruct (alloc_spec o1) as (ok & o2 & u2 & A & U2 & F2). rewrite A. cbn [ret]. unfold ret at 1. destruct ok.
    2:{ eexists _, _, _, o2, (u1 ++ u2). split; [reflexivity|]. split; [rewrite U1, U2; apply app_assoc|]. destruct (texts_of w (map Some cs')); [left|]; split; auto. apply in_or_app. auto. }
    unfold bind at 1, lift at 1. rewrite resized_write by exact H.
    destruct (IH cs' (Some (filled (pre ++ t ++ [0%N]))) (pre ++ t) o2 F') as (ok & b' & n & o3 & u3 & E3 & U3 & X3).
    { right. exists (filled [0%N]). unfold filled. now rewrite !map_app, app_assoc. }
    rewrite app_length in E3. rewrite E3. eexists _, _, _, o3, (u1 ++ u2 ++ u3). split; [reflexivity|]. split; [rewrite U1, U2, U3, !app_assoc; reflexivity|].
    destruct (texts_of w (map Some cs')) as [ts|] eqn:Ts; [|exact X3].
    destruct X3 as [ [-> X3]|(-> & -> & X3)]; [left; split; [reflexivity|]; rewrite !in_app_iff; auto|]. right. split; [reflexivity|]. rewrite <- !app_assoc in *.
    split; [reflexivity|]. right. split; [discriminate|]. split; [intros Y; apply app_eq_nil in Y; destruct Y as [-> _]; cbn in Lt; lia|].
    destruct X3 as [ [-> ->]|(_ & _ & ->)]; [|reflexivity]. inversion F'. subst. cbn in Ts. injection Ts as <-. reflexivity.
Qed.

(* ---- the state and the test ---- *)
Definition same_data (c : call) : nat * nat := (data_free c, umockcall_data c).
Record shows_test (s : umock) (t : test) : Prop := {
  st_ready : u_ready s = ready t;
  st_types : exists tab, shows (u_types s) tab /\ types_on t = match tab with Some _ => true | None => false end;
  st_on : ready t = true -> types_on t = true;
  st_recorder : if ready t then exists e a, call_recorder s = Some {| expected_calls := map (fun h => (h, true)) (met t) ++ map (fun h => (h, false)) (pending t);
                  actual_calls := unexpected t; expected_calls_string := e; actual_calls_string := a |}
                else met t = [] /\ pending t = [] /\ unexpected t = [];
  st_count : length (u_calls s) = length (made t);
  st_deref : forall h c, deref s h = Some c <-> In h (live t) /\ nth_error (made t) h = Some c;
  st_all : Permutation (seq 0 (length (made t))) (gone t ++ live t);
  st_freed : map Some (u_freed s) = map (fun h => option_map same_data (nth_error (made t) h)) (gone t);
  st_names : Forall (fun c => cstr_ok (function_name c)) (made t) }.

Lemma live_bound s t h : shows_test s t -> In h (live t) -> (h < length (made t))%nat.
Proof. intros S H. assert (In h (seq 0 (length (made t)))) by (eapply Permutation_in; [symmetry; apply (st_all _ _ S)|apply in_or_app; auto]). apply in_seq in H0. lia. Qed.
Lemma live_deref s t h : shows_test s t -> In h (live t) -> exists c, nth_error (made t) h = Some c /\ deref s h = Some c /\ cstr_ok (function_name c).
Proof.
  intros S H. pose proof (live_bound _ _ _ S H) as B. destruct (nth_error (made t) h) as [c|] eqn:E; [|apply nth_error_None in E; lia].
  exists c. split; [reflexivity|]. split; [apply (st_deref _ _ S); auto|]. pose proof (st_names _ _ S) as K. rewrite Forall_forall in K. apply K. eapply nth_error_In, E.
Qed.
Lemma live_nodup s t : shows_test s t -> NoDup (gone t ++ live t).
Proof. intros S. eapply Permutation_NoDup; [apply (st_all _ _ S)|apply seq_NoDup]. Qed.
Lemma drop_perm h l : NoDup l -> In h l -> Permutation l (h :: drop h l).
Proof.
  intros N H. apply NoDup_Permutation; [exact N| |].
  - constructor; [apply remove_In|]. unfold drop. clear H. induction N as [|x l X N IH]; cbn; [constructor|]. destruct (Nat.eq_dec h x); [exact IH|].
    constructor; [|exact IH]. intros Y. apply in_remove in Y. now apply X.
  - intros x. split; intros X.
    + destruct (Nat.eq_dec h x) as [->|n]; [now left|right; apply in_in_remove; congruence].
    + destruct X as [<-|X]; [exact H|]. apply in_remove in X. tauto.
Qed.
(* destroying a call that lives *)
Lemma destroy_at s t h : shows_test s t -> In h (live t) -> exists s' c, umockcall_destroy s (Some h) = Some s' /\ nth_error (made t) h = Some c /\
  u_types s' = u_types s /\ u_ready s' = u_ready s /\ call_recorder s' = call_recorder s /\ u_calls s' = upd (u_calls s) h None /\ u_freed s' = u_freed s ++ [same_data c].
Proof.
  intros S H. destruct (live_deref _ _ _ S H) as (c & A & B & _). cbn [umockcall_destroy]. rewrite B. eexists _, c. repeat split; auto.
Qed.
Lemma deref_upd s s' h : u_calls s' = upd (u_calls s) h None -> forall h' c, deref s' h' = Some c <-> h' <> h /\ deref s h' = Some c.
Proof.
  intros E h' c. unfold deref. rewrite E. destruct (Nat.eq_dec h' h) as [->|n].
  - split; [|tauto]. destruct (lt_dec h (length (u_calls s))) as [L|L]; [rewrite upd_same by exact L; discriminate|].
    replace (nth_error (upd (u_calls s) h None) h) with (@None (option call)); [discriminate|]. symmetry. apply nth_error_None. rewrite upd_length. lia.
  - rewrite upd_other by congruence. tauto.
Qed.
Lemma nth_some {A} (l : list A) i x : nth_error l i = Some x -> (i < length l)%nat.
Proof. intros E. apply nth_error_Some. congruence. Qed.

(* destroying many *)
Lemma destroy_many hs : forall s t, NoDup hs -> (forall h, In h hs -> exists c, deref s h = Some c /\ nth_error (made t) h = Some c) ->
  exists s', destroy_calls s hs = Some s' /\ u_types s' = u_types s /\ u_ready s' = u_ready s /\ call_recorder s' = call_recorder s /\ length (u_calls s') = length (u_calls s) /\
   (forall h c, deref s' h = Some c <-> ~ In h hs /\ deref s h = Some c) /\
   map Some (u_freed s') = map Some (u_freed s) ++ map (fun h => option_map same_data (nth_error (made t) h)) hs.
Proof.
  induction hs as [|h hs IH]; intros s t N H.
  - exists s. cbn. rewrite app_nil_r. repeat split; auto; tauto.
  - inversion N as [|? ? X N']. subst. destruct (H h (or_introl eq_refl)) as (c & D & M). cbn [destroy_calls umockcall_destroy]. rewrite D.
    set (s1 := {| u_types := _; u_ready := _; call_recorder := _; u_calls := upd _ _ _; u_freed := _ |}).
    pose proof (deref_upd s s1 h eq_refl) as Q.
    destruct (IH s1 t N') as (s' & E & A1 & A2 & A3 & A4 & A5 & A6).
    { intros h' Y. destruct (H h' (or_intror Y)) as (c' & D' & M'). exists c'. split; [|exact M']. apply Q. split; [congruence|exact D']. }
    exists s'. split; [exact E|]. split; [exact A1|]. split; [exact A2|]. split; [exact A3|]. split; [rewrite A4; cbn; apply upd_length|]. split.
    + intros h' c'. rewrite A5, Q. cbn [In]. split; [intros (P1 & P2 & P3)|intros (P1 & P2)]; repeat split; auto. intros [<-|P]; auto.
    + rewrite A6. cbn [u_freed s1 map]. rewrite map_app, <- app_assoc. cbn [map app]. rewrite M. reflexivity.
Qed.

(* ---- the types of C ---- *)
Lemma register_at tt tab n st eq cp fr o : shows tt (Some tab) -> cstr_ok n -> tokens n <> [] -> lookup tab (tokens n) = None ->
  exists z tt' o' used, umocktypes_register_type tt (Some n) (Some st) (Some eq) (Some cp) (Some fr) o = Some ((z, tt'), o') /\ o = used ++ o' /\
   ((z = 0 /\ shows tt' (Some (tab ++ [(tokens n, {| to_string := st; equal := eq; duplicate := cp; release := fr |})]))) \/ (z <> 0 /\ In false used /\ shows tt' (Some tab))).
Proof.
  intros S K T L. destruct (tstep_at tt (Some tab) (TRegister (Some n) (Some st) (Some eq) (Some cp) (Some fr)) o S K) as (r & c & s' & o' & used & E & U & X).
  cbn [tstep] in E. unfold bind in E. destruct (umocktypes_register_type tt (Some n) (Some st) (Some eq) (Some cp) (Some fr) o) as [ [ [z tt'] o1]|]; [|discriminate E].
  injection E as <- <- <- <-. exists z, tt', o1, used. split; [reflexivity|]. split; [exact U|]. destruct X as [(ok & t' & M & R & S')|(_ & _ & R & _ & S' & F)].
  - left. cbn [meaning] in M. rewrite L in M. destruct (tokens n) as [|x ts] eqn:Tn; [congruence|]. injection M as <- <-. cbn [returns fst] in R. injection R as ->. auto.
  - right. cbn [returns fst] in R. destruct R as (z' & R & Z). injection R as <-. auto.
Qed.
Lemma lookup_app tab ts n f : lookup tab n = None -> n <> ts -> lookup (tab ++ [(ts, f)]) n = None.
Proof.
  intros L D. induction tab as [|[m g] tab IH]; cbn [app lookup] in *.
  - destruct (same_type ts n) eqn:Q; [|reflexivity]. apply same_type_spec in Q. congruence.
  - destruct (same_type m n); [discriminate L|]. now apply IH.
Qed.
Lemma register_types_at l : forall tt first tab o, shows tt (Some tab) -> NoDup (map tokens l) -> (forall n, In n l -> cstr_ok n /\ tokens n <> [] /\ lookup tab (tokens n) = None) ->
  exists z tt' tab' o' used, register_types tt first l o = Some ((z, tt'), o') /\ o = used ++ o' /\ shows tt' (Some tab') /\ (z <> 0 -> In false used) /\ (z = 0 -> map fst tab' = map fst tab ++ map tokens l).
Proof.
  induction l as [|n l IH]; intros tt first tab o S N H.
  - exists 0, tt, tab, o, []. cbn. rewrite app_nil_r. repeat split; auto; congruence || apply S.
  - inversion N as [|? ? X N']. subst. destruct (H n (or_introl eq_refl)) as (K & T & L). cbn [register_types]. unfold bind.
    destruct (register_at tt tab n first (first + 1) (first + 2) (first + 3) o S K T L) as (z & tt' & o1 & u1 & E & U & [ [-> S']|(Z & F & S')]); rewrite E.
    + cbn [Z.eqb negb]. edestruct (IH tt' (first + 4)%nat) as (z & tt2 & tab2 & o2 & u2 & E2 & U2 & S2 & F2 & G2); [exact S'|exact N'| |].
      * intros m Hm. destruct (H m (or_intror Hm)) as (Km & Tm & Lm). split; [exact Km|]. split; [exact Tm|]. apply lookup_app; [exact Lm|]. intros Q. apply X. rewrite <- Q. now apply in_map.
      * rewrite E2. exists z, tt2, tab2, o2, (u1 ++ u2). split; [reflexivity|]. split; [rewrite U, U2; apply app_assoc|]. split; [exact S2|]. split; [intros Z; apply in_or_app; auto|].
        intros Z. rewrite (G2 Z), map_app, <- app_assoc. reflexivity.
    + destruct (Z.eqb_spec z 0) as [->|_]; [congruence|]. cbn [negb]. exists 303, tt', tab, o1, u1. split; [reflexivity|]. split; [exact U|]. split; [exact S'|]. split; [auto|discriminate].
Qed.
Lemma c_types_ok : NoDup (map tokens c_types) /\ forall n, In n c_types -> cstr_ok n /\ tokens n <> [].
Proof.
  split.
  - assert (Q : exists l, l = map tokens c_types /\ nodup (list_eq_dec token_eq_dec) l = l) by (eexists; split; [reflexivity|vm_compute; reflexivity]).
    destruct Q as (l & <- & <-). apply NoDup_nodup.
  - assert (Q : forallb (fun n => cstr_okb n && match tokens n with [] => false | _ => true end) c_types = true) by (vm_compute; reflexivity).
    rewrite forallb_forall in Q. intros n H. specialize (Q n H). apply andb_true_iff in Q. destruct Q as [A B]. split; [now apply cstr_okb_ok|]. destruct (tokens n); congruence.
Qed.

(* ---- one step ---- *)
Lemma are_equal_at w s l r a b : l <> r -> deref s l = Some a -> deref s r = Some b -> umockcall_are_equal w s (Some l) (Some r) = Some (same w a b).
Proof.
  intros D A B. cbn [umockcall_are_equal]. destruct (Nat.eqb_spec l r); [congruence|]. rewrite A, B. unfold same.
  destruct (Nat.eq_dec (data_are_equal a) (data_are_equal b)) as [e|e]; destruct (Nat.eqb_spec (data_are_equal a) (data_are_equal b)); try congruence; cbn [negb]; [|reflexivity].
  destruct (list_eq_dec N.eq_dec (function_name a) (function_name b)) as [f|f]; destruct (Z.eqb_spec (strcmp (function_name a) (function_name b)) 0) as [g|g]; cbn [negb]; try reflexivity.
  - f_equal. set (z := eq_of w _ _ _). destruct (Z.eqb_spec z 1) as [->|]; [reflexivity|]. destruct (Z.eqb_spec z 0) as [->|]; reflexivity.
  - apply strcmp_eq in f. congruence.
  - apply strcmp_eq in g. congruence.
Qed.
Lemma match_skip w s ms l h : match_expected w s (map (fun h => (h, true)) ms ++ l) h =
  match match_expected w s l h with Some (Matched m l') => Some (Matched m (map (fun h => (h, true)) ms ++ l')) | f => f end.
Proof.
  induction ms as [|m ms IH]; cbn [map app match_expected].
  - destruct (match_expected w s l h) as [ [| |m l']|]; reflexivity.
  - rewrite IH. destruct (match_expected w s l h) as [ [| |m' l']|]; reflexivity.
Qed.
Lemma texts_ok w cs : world_ok w -> Forall (fun c => cstr_ok (function_name c)) cs -> forall t, texts_of w (map Some cs) = Some t -> cstr_ok t.
Proof.
  intros W. induction 1 as [|c cs K F IH]; cbn [map texts_of]; intros t E; [injection E as <-; constructor|].
  destruct (text_of w c) as [a|] eqn:A; [|discriminate E]. destruct (texts_of w (map Some cs)) as [b|]; [|discriminate E]. injection E as <-.
  apply Forall_app. split; [eapply text_ok; eauto|now apply IH].
Qed.
Lemma live_calls s t hs : shows_test s t -> (forall h, In h hs -> In h (live t)) ->
  exists cs, map (nth_error (made t)) hs = map Some cs /\ Forall2 (fun h c => deref s h = Some c /\ cstr_ok (function_name c)) hs cs /\ Forall (fun c => cstr_ok (function_name c)) cs.
Proof.
  intros S. induction hs as [|h hs IH]; intros H; [exists []; repeat constructor|].
  destruct IH as (cs & A & B & C); [intros; apply H; now right|]. destruct (live_deref _ _ _ S (H h (or_introl eq_refl))) as (c & E & D & K).
  exists (c :: cs). cbn [map]. rewrite A, E. repeat split; constructor; auto.
Qed.
Lemma filter_pending ms ps : map fst (filter (fun e : nat * bool => negb (snd e)) (map (fun h => (h, true)) ms ++ map (fun h => (h, false)) ps)) = ps.
Proof.
  induction ms as [|m ms IH]; cbn; [|exact IH]. induction ps as [|p ps IH]; cbn; [reflexivity|]. now rewrite IH.
Qed.
Lemma all_expected ms ps : map fst (map (fun h : nat => (h, true)) ms ++ map (fun h => (h, false)) ps) = ms ++ ps.
Proof. rewrite map_app, !map_map. cbn. now rewrite !map_id. Qed.
Lemma last_some (l : list nat) d : last (map Some l) (Some d) = Some (last l d).
Proof. induction l as [|x [|y l] IH]; cbn in *; auto. Qed.
Lemma destroy_calls_app a b s : destroy_calls s (a ++ b) = match destroy_calls s a with Some s => destroy_calls s b | None => None end.
Proof. revert s. induction a as [|h a IH]; intros s; [reflexivity|]. cbn [app destroy_calls]. destruct (umockcall_destroy s (Some h)); [apply IH|reflexivity]. Qed.
Lemma calls_gone s t : shows_test s t -> ready t = true ->
  exists s', destroy_calls s (met t ++ pending t ++ unexpected t) = Some s' /\ u_types s' = u_types s /\ u_ready s' = u_ready s /\ call_recorder s' = call_recorder s /\
   length (u_calls s') = length (made t) /\ (forall h c, deref s' h = Some c <-> In h (mine t) /\ nth_error (made t) h = Some c) /\
   map Some (u_freed s') = map (fun h => option_map same_data (nth_error (made t) h)) (gone t ++ met t ++ pending t ++ unexpected t).
Proof.
  intros S R. pose proof (live_nodup _ _ S) as N. apply NoDup_app_elim in N. destruct N as (_ & N & _). unfold live in N. apply NoDup_app_elim in N. destruct N as (_ & N & D).
  destruct (destroy_many (met t ++ pending t ++ unexpected t) s t N) as (s' & E & A1 & A2 & A3 & A4 & A5 & A6).
  { intros h H. destruct (live_deref _ _ h S) as (c & X & Y & _); [apply in_or_app; now right|]. eauto. }
  exists s'. split; [exact E|]. split; [exact A1|]. split; [exact A2|]. split; [exact A3|]. split; [rewrite A4; apply (st_count _ _ S)|]. split.
  - intros h c. rewrite A5, (st_deref _ _ S). unfold live. rewrite (in_app_iff (mine t)). split; [tauto|]. intros (X & Y). split; [|auto]. intros Z. eapply D; eauto.
  - rewrite A6, (st_freed _ _ S), <- map_app. reflexivity.
Qed.
Lemma shows_no_calls s s' t r y : shows_test s t -> ready t = true ->
  u_ready s' = r -> (exists tab, shows (u_types s') tab /\ y = match tab with Some _ => true | None => false end) -> (r = true -> y = true) ->
  (if r then exists e a, call_recorder s' = Some {| expected_calls := []; actual_calls := []; expected_calls_string := e; actual_calls_string := a |} else True) ->
  length (u_calls s') = length (made t) -> (forall h c, deref s' h = Some c <-> In h (mine t) /\ nth_error (made t) h = Some c) ->
  map Some (u_freed s') = map (fun h => option_map same_data (nth_error (made t) h)) (gone t ++ met t ++ pending t ++ unexpected t) ->
  shows_test s' (no_calls t r y).
Proof.
  intros S R A B C D E F G. constructor; cbn [ready types_on made mine met pending unexpected gone no_calls]; auto.
  - destruct r; auto.
  - intros h c. rewrite F. unfold live. cbn [mine met pending unexpected app no_calls]. rewrite app_nil_r. reflexivity.
  - rewrite (st_all _ _ S). unfold live. cbn [mine met pending unexpected app no_calls]. rewrite app_nil_r, <- !app_assoc. apply Permutation_app_head.
    rewrite (Permutation_app_comm (mine t)). rewrite <- !app_assoc. reflexivity.
  - apply (st_names _ _ S).
Qed.
Lemma shows_strings s t e a : shows_test s t -> ready t = true ->
  shows_test (set_recorder s (Some {| expected_calls := map (fun h => (h, true)) (met t) ++ map (fun h => (h, false)) (pending t); actual_calls := unexpected t; expected_calls_string := e; actual_calls_string := a |})) t.
Proof. intros [A B C D E F G H I] R. constructor; auto. rewrite R. eexists _, _. reflexivity. Qed.
(* a call of mine given away: it goes to the pending or the unexpected calls *)
Lemma live_moved s t h m p u : shows_test s t -> In h (mine t) -> Permutation (m ++ p ++ u) (h :: met t ++ pending t ++ unexpected t) ->
  forall t', mine t' = drop h (mine t) -> met t' = m -> pending t' = p -> unexpected t' = u -> Permutation (live t') (live t).
Proof.
  intros S H P t' A B C D. unfold live. rewrite A, B, C, D, P. pose proof (live_nodup _ _ S) as N. apply NoDup_app_elim in N. destruct N as (_ & N & _). unfold live in N. apply NoDup_app_elim in N.
  rewrite (drop_perm h (mine t)) at 2 by tauto. cbn [app]. symmetry. apply Permutation_middle.
Qed.
Definition step_shown (w : world) (s : umock) (t : test) (op : uop) (o : oracle) : Prop :=
  exists r s' o' used t' m, ustep w s op o = Some ((r, s'), o') /\ o = used ++ o' /\ says w t op r t' m /\ (m = true -> In false used) /\ shows_test s' t'.
Lemma init_at w s t o : shows_test s t -> step_shown w s t UInit o.
Proof.
  intros S. unfold step_shown. cbn [ustep]. unfold bind at 1. unfold umock_c_init. rewrite (st_ready _ _ S). destruct (ready t) eqn:R.
  { eexists _, _, o, [], t, false. split; [reflexivity|]. split; [reflexivity|]. split; [apply s_init_twice; [auto|cbn; lia]|]. split; [discriminate|exact S]. }
  destruct (st_types _ _ S) as (tab & ST & TO). unfold umocktypes_init. rewrite (sh_init _ _ ST). destruct tab as [tab|].
  { eexists _, _, o, [], t, false. split; [reflexivity|]. split; [reflexivity|]. split; [apply s_init_twice; [auto|cbn; lia]|]. split; [discriminate|]. cbn.
    destruct s. exact S. }
  cbn [Z.eqb negb]. unfold bind at 1. unfold umocktypes_c_register_types.
  assert (S0 : shows {| type_handlers := []; initialized := true; names := names (u_types s) |} (Some [])) by (constructor; cbn; [reflexivity|constructor|rewrite (sh_names _ _ ST); reflexivity]).
  destruct c_types_ok as (N & K). destruct (register_types_at c_types _ 0 _ o S0 N) as (z & tt & tab & o1 & u1 & E & U & ST' & F & _).
  { intros n H. destruct (K n H). auto. }
  rewrite E. clear E. destruct (Z.eqb_spec z 0) as [->|Z]; cbn [negb].
  2:{ eexists _, _, o1, u1, _, true. split; [reflexivity|]. split; [exact U|]. split; [apply s_init_memory; [auto|congruence|cbn; lia]|]. split; [auto|].
      destruct S as [A B C D G H I J L]. rewrite R in D. constructor; cbn; auto; try congruence. exists (Some tab). auto. }
  unfold bind at 1, umockcallrecorder_create, bind at 1. destruct (alloc_spec o1) as (ok & o2 & u2 & A & U2 & F2). rewrite A. unfold ret at 1. destruct ok.
  - eexists _, _, o2, (u1 ++ u2), _, false. split; [reflexivity|]. split; [rewrite U, U2; apply app_assoc|]. split; [apply s_init; [auto|congruence]|]. split; [discriminate|].
    destruct S as [SA B C D G H I J L]. rewrite R in D. destruct D as (D1 & D2 & D3). constructor; cbn; auto; try congruence; [exists (Some tab); auto|].
    rewrite D1, D2, D3. eexists _, _. reflexivity.
  - eexists _, _, o2, (u1 ++ u2), _, true. split; [reflexivity|]. split; [rewrite U, U2; apply app_assoc|]. split; [apply s_init_memory; [auto|congruence|cbn; lia]|]. split; [intros _; apply in_or_app; auto|].
    destruct S as [SA B C D G H I J L]. rewrite R in D. constructor; cbn; auto; try congruence. exists (Some tab). auto.
Qed.
Lemma deinit_at w s t o : shows_test s t -> step_shown w s t UDeinit o.
Proof.
  intros S. unfold step_shown. cbn [ustep]. unfold bind at 1, lift. unfold umock_c_deinit. rewrite (st_ready _ _ S). destruct (ready t) eqn:R.
  2:{ eexists _, _, o, [], t, false. split; [reflexivity|]. split; [reflexivity|]. split; [now apply s_deinit_not|]. split; [discriminate|exact S]. }
  pose proof (st_recorder _ _ S) as Q. rewrite R in Q. destruct Q as (e & a & Q). rewrite Q. cbn [umockcallrecorder_destroy umockcallrecorder_reset_all_calls expected_calls actual_calls].
  rewrite all_expected. set (s0 := set_types s (umocktypes_deinit (u_types s))).
  destruct (st_types _ _ S) as (tab & ST & TO). pose proof (st_on _ _ S R) as On. rewrite On in TO. destruct tab as [tab|]; [|discriminate TO].
  assert (S1 : shows_test (set_types s (u_types s)) t) by (destruct s; exact S).
  pose proof (calls_gone _ _ S R) as (s' & E & A1 & A2 & A3 & A4 & A5 & A6).
  assert (X : forall hs s1 s2, destroy_calls s1 hs = Some s2 -> forall y, destroy_calls (set_types s1 y) hs = Some (set_types s2 y)).
  { induction hs as [|h hs IH]; intros s1 s2 X y; cbn [destroy_calls] in *; [congruence|]. cbn [umockcall_destroy] in *. change (deref (set_types s1 y) h) with (deref s1 h).
    destruct (deref s1 h) as [c|]; [|discriminate X]. exact (IH _ _ X y). }
  apply (X _ _ _) with (y := umocktypes_deinit (u_types s)) in E. fold s0 in E. rewrite app_assoc, destroy_calls_app in E.
  destruct (destroy_calls s0 (met t ++ pending t)) as [s2|]; [|discriminate E]. rewrite E.
  eexists _, _, o, [], _, false. split; [reflexivity|]. split; [reflexivity|]. split; [now apply s_deinit|]. split; [discriminate|].
  eapply shows_no_calls; eauto; try (cbn; auto; congruence). exists None. split; [|reflexivity]. cbn [set_ready set_recorder set_types u_types].
  unfold umocktypes_deinit. rewrite (sh_init _ _ ST). constructor; cbn; auto. pose proof (rows_length _ _ (sh_rows _ _ ST)) as L. cbn in L. rewrite (sh_names _ _ ST), L. lia.
Qed.
Lemma reset_at w s t o : shows_test s t -> step_shown w s t UReset o.
Proof.
  intros S. unfold step_shown. cbn [ustep]. unfold bind at 1, lift. unfold umock_c_reset_all_calls. rewrite (st_ready _ _ S). destruct (ready t) eqn:R.
  2:{ eexists _, _, o, [], t, false. split; [reflexivity|]. split; [reflexivity|]. split; [now apply s_reset_not|]. split; [discriminate|exact S]. }
  pose proof (st_recorder _ _ S) as Q. rewrite R in Q. destruct Q as (e & a & Q). rewrite Q. cbn [umockcallrecorder_reset_all_calls expected_calls actual_calls].
  rewrite all_expected. pose proof (calls_gone _ _ S R) as (s' & E & A1 & A2 & A3 & A4 & A5 & A6). rewrite app_assoc, destroy_calls_app in E.
  destruct (destroy_calls s (met t ++ pending t)) as [s2|]; [|discriminate E]. rewrite E.
  eexists _, _, o, [], _, false. split; [reflexivity|]. split; [reflexivity|]. split; [now apply s_reset|]. split; [discriminate|].
  destruct (st_types _ _ S) as (tab & ST & TO). eapply shows_no_calls; eauto; try (cbn; auto; congruence).
  - cbn. rewrite A2, (st_ready _ _ S). exact R.
  - exists tab. cbn. rewrite A1. auto.
  - intros _. exact (st_on _ _ S R).
  - cbn. eauto.
Qed.
Lemma create_at w s t o n d f st e : shows_test s t -> allowed t (UCreate n d f st e) -> step_shown w s t (UCreate n d f st e) o.
Proof.
  intros S K. unfold step_shown. cbn [ustep]. unfold bind at 1.
  assert (Null : n = None \/ d = None \/ f = None \/ st = None \/ e = None -> umockcall_create s n d f st e o = Some ((None, s), o)).
  { unfold umockcall_create, ret. destruct n, d, f, st, e; auto. intros [H|[H|[H|[H|H] ] ] ]; discriminate H. }
  destruct n as [n|], d as [d|], f as [f|], st as [st|], e as [e|];
    try (rewrite Null by auto; eexists _, _, o, [], t, false; split; [reflexivity|]; split; [reflexivity|]; split; [apply s_create_null; auto|]; split; [discriminate|exact S]).
  clear Null. unfold umockcall_create, bind at 1. destruct (alloc_spec o) as (ok & o1 & u1 & A & U & F). rewrite A. destruct ok; cbn [negb].
  2:{ eexists _, _, o1, u1, t, true. split; [reflexivity|]. split; [exact U|]. split; [apply s_create_memory|]. split; [auto|exact S]. }
  unfold bind at 1. destruct (alloc_spec o1) as (ok & o2 & u2 & A2 & U2 & F2). rewrite A2. destruct ok; cbn [negb].
  2:{ eexists _, _, o2, (u1 ++ u2), t, true. split; [reflexivity|]. split; [rewrite U, U2; apply app_assoc|]. split; [apply s_create_memory|]. split; [intros; apply in_or_app; auto|exact S]. }
  eexists _, _, o2, (u1 ++ u2), _, false. split; [reflexivity|]. split; [rewrite U, U2; apply app_assoc|]. cbn [fst snd]. rewrite (st_count _ _ S). split; [apply s_create|]. split; [discriminate|].
  set (c := {| function_name := n; umockcall_data := d; data_free := f; data_stringify := st; data_are_equal := e |}).
  pose proof S as [SA SB SC SD SE SF SG SH SI]. constructor; cbn [set_calls add_made u_ready u_types call_recorder u_calls u_freed ready types_on made mine met pending unexpected gone]; auto.
  - rewrite !app_length, SE. reflexivity.
  - intros h x. assert (L : In h (live (add_made t c)) <-> In h (live t) \/ h = length (made t)).
    { unfold live. cbn. rewrite !in_app_iff. cbn. intuition. }
    rewrite L. assert (Old : In h (live t) -> (h < length (made t))%nat) by (intros; eapply live_bound; eauto). unfold deref. cbn [u_calls set_calls].
    destruct (lt_dec h (length (made t))) as [B|B].
    + rewrite !nth_error_app1 by lia. specialize (SF h x). unfold deref in SF. rewrite SF. intuition. lia.
    + rewrite !nth_error_app2 by lia. rewrite SE. destruct (Nat.eq_dec h (length (made t))) as [->|D].
      * rewrite Nat.sub_diag. cbn. split; [intros X; injection X as <-; auto|intros [_ X]; injection X as <-; reflexivity].
      * replace (h - length (made t))%nat with (Datatypes.S (h - length (made t) - 1))%nat by lia. cbn. destruct (h - length (made t) - 1)%nat; cbn; intuition; discriminate.
  - rewrite app_length. cbn [length]. rewrite Nat.add_1_r, seq_S, SG. cbn [Nat.add]. unfold live. cbn. rewrite <- !app_assoc. apply Permutation_app_head, Permutation_app_head. rewrite !app_assoc. rewrite (Permutation_app_comm _ [length (made t)]). rewrite <- !app_assoc. reflexivity.
  - rewrite SH. apply map_ext_in. intros h Hh. rewrite nth_error_app1; [reflexivity|].
    assert (In h (seq 0 (length (made t)))) by (eapply Permutation_in; [symmetry; exact SG|apply in_or_app; auto]). apply in_seq in H. lia.
  - apply Forall_app. split; [exact SI|]. constructor; [exact K|constructor].
Qed.
Lemma destroyed_shown s t h s' c : shows_test s t -> In h (mine t) -> nth_error (made t) h = Some c ->
  forall m p, Permutation (m ++ p ++ unexpected t) (met t ++ pending t ++ unexpected t) ->
  (if ready t then exists e a, call_recorder s' = Some {| expected_calls := map (fun h => (h, true)) m ++ map (fun h => (h, false)) p; actual_calls := unexpected t; expected_calls_string := e; actual_calls_string := a |}
   else m = [] /\ p = [] /\ unexpected t = []) ->
  u_types s' = u_types s -> u_ready s' = u_ready s -> u_calls s' = upd (u_calls s) h None -> u_freed s' = u_freed s ++ [same_data c] ->
  shows_test s' {| ready := ready t; types_on := types_on t; made := made t; mine := drop h (mine t); met := m; pending := p; unexpected := unexpected t; gone := gone t ++ [h] |}.
Proof.
  intros S H C m p P Q A1 A2 A3 A4. pose proof S as [SA SB SC SD SE SF SG SH SI].
  set (t' := {| ready := ready t; types_on := types_on t; made := made t; mine := drop h (mine t); met := m; pending := p; unexpected := unexpected t; gone := gone t ++ [h] |}).
  assert (L : Permutation (live t) (h :: live t')).
  { unfold live, t'. cbn [mine met pending unexpected]. rewrite P. pose proof (live_nodup _ _ S) as N. apply NoDup_app_elim in N. destruct N as (_ & N & _). unfold live in N. apply NoDup_app_elim in N. destruct N as (N & _).
    rewrite (drop_perm h (mine t)) at 1 by auto. reflexivity. }
  constructor; cbn [ready types_on made mine met pending unexpected gone t']; auto.
  - congruence.
  - rewrite A1. exact SB.
  - rewrite A3, upd_length. exact SE.
  - intros h' c'. rewrite (deref_upd s s' h A3), SF. assert (X : In h' (live t) <-> h' = h \/ In h' (live t')).
    { split; intros X; [apply (Permutation_in _ L) in X; destruct X; auto|]. apply (Permutation_in _ (Permutation_sym L)). destruct X; cbn; auto. }
    rewrite X. fold t'. assert (Y : ~ In h (live t')). { pose proof (live_nodup _ _ S) as N. apply NoDup_app_elim in N. destruct N as (_ & N & _). apply (Permutation_NoDup L) in N. now inversion N. }
    split; [intros (P1 & [P2|P2] & P3); [congruence|auto]|intros (P1 & P2); split; [intros ->; contradiction|auto] ].
  - rewrite SG, <- app_assoc. apply Permutation_app_head. exact L.
  - rewrite A4, !map_app, SH. cbn. rewrite C. reflexivity.
Qed.
Lemma destroy_step w s t o h : shows_test s t -> allowed t (UDestroy h) -> step_shown w s t (UDestroy h) o.
Proof.
  intros S K. unfold step_shown. cbn [ustep]. unfold bind at 1, lift. destruct h as [h|].
  2:{ eexists _, _, o, [], t, false. split; [reflexivity|]. split; [reflexivity|]. split; [apply s_destroy_null|]. split; [discriminate|exact S]. }
  cbn in K. destruct (destroy_at s t h S) as (s' & c & E & C & A1 & A2 & A3 & A4 & A5); [apply in_or_app; auto|]. rewrite E.
  eexists _, _, o, [], _, false. split; [reflexivity|]. split; [reflexivity|]. split; [apply s_destroy|]. split; [discriminate|].
  eapply destroyed_shown; eauto. rewrite A3. exact (st_recorder _ _ S).
Qed.
Lemma equal_step w s t o l r : shows_test s t -> allowed t (UAreEqual l r) -> step_shown w s t (UAreEqual l r) o.
Proof.
  intros S (K1 & K2). unfold step_shown. cbn [ustep]. unfold bind at 1, lift. destruct l as [l|], r as [r|]; cbn [sees] in *.
  - destruct (Nat.eq_dec l r) as [->|D].
    + cbn [umockcall_are_equal]. rewrite Nat.eqb_refl. eexists _, _, o, [], t, false. split; [reflexivity|]. split; [reflexivity|]. split; [apply s_equal_self|]. split; [discriminate|exact S].
    + destruct (live_deref _ _ _ S K1) as (a & A & Da & _), (live_deref _ _ _ S K2) as (b & B & Db & _). rewrite (are_equal_at w s l r a b D Da Db).
      eexists _, _, o, [], t, false. split; [reflexivity|]. split; [reflexivity|]. split; [eapply s_equal; eauto|]. split; [discriminate|exact S].
  - eexists _, _, o, [], t, false. split; [reflexivity|]. split; [reflexivity|]. split; [apply s_equal_one; [auto|discriminate]|]. split; [discriminate|exact S].
  - eexists _, _, o, [], t, false. split; [reflexivity|]. split; [reflexivity|]. split; [apply s_equal_one; [auto|discriminate]|]. split; [discriminate|exact S].
  - eexists _, _, o, [], t, false. split; [reflexivity|]. split; [reflexivity|]. split; [apply s_equal_null|]. split; [discriminate|exact S].
Qed.
Lemma stringify_step w s t o h : shows_test s t -> world_ok w -> allowed t (UStringify h) -> step_shown w s t (UStringify h) o.
Proof.
  intros S W K. unfold step_shown. cbn [ustep]. unfold bind at 1. destruct h as [h|].
  2:{ cbn. eexists _, _, o, [], t, false. split; [reflexivity|]. split; [reflexivity|]. split; [apply s_text_null|]. split; [discriminate|exact S]. }
  cbn in K. destruct (live_deref _ _ _ S K) as (c & C & D & Kc). destruct (stringify_at w s h c o D) as (r & o1 & u1 & E & U & X). rewrite E.
  assert (T : texts w t [h] = match text_of w c with Some a => Some (a ++ []) | None => None end) by (unfold texts; cbn [map texts_of]; rewrite C; reflexivity).
  destruct (text_of w c) as [a|] eqn:Ta.
  - rewrite app_nil_r in T. destruct (text_ok w c W Kc a Ta) as (Ka & _). destruct X as [ [-> X]| ->].
    + eexists _, _, o1, u1, t, true. split; [reflexivity|]. split; [exact U|]. split; [apply s_text_memory|]. split; [auto|exact S].
    + unfold bind, lift. cbn [read_string]. rewrite string_in_filled by exact Ka. eexists _, _, o1, u1, t, false. split; [reflexivity|]. split; [exact U|]. split; [rewrite <- T; apply s_text|]. split; [discriminate|exact S].
  - subst r. eexists _, _, o1, u1, t, false. split; [reflexivity|]. split; [exact U|]. split; [rewrite <- T; apply s_text|]. split; [discriminate|exact S].
Qed.
Lemma data_step w s t o h : shows_test s t -> allowed t (UData h) -> step_shown w s t (UData h) o.
Proof.
  intros S K. unfold step_shown. cbn [ustep]. unfold bind at 1, lift. destruct h as [h|]; cbn [umockcall_get_call_data].
  - cbn in K. destruct (live_deref _ _ _ S K) as (c & C & D & Kc). rewrite D. eexists _, _, o, [], t, false. split; [reflexivity|]. split; [reflexivity|]. split; [now apply s_data|]. split; [discriminate|exact S].
  - eexists _, _, o, [], t, false. split; [reflexivity|]. split; [reflexivity|]. split; [apply s_data_null|]. split; [discriminate|exact S].
Qed.
Lemma given_shown s t h s' u p : shows_test s t -> ready t = true -> In h (mine t) -> Permutation (met t ++ p ++ u) (h :: met t ++ pending t ++ unexpected t) ->
  (exists e a, s' = set_recorder s (Some {| expected_calls := map (fun h => (h, true)) (met t) ++ map (fun h => (h, false)) p; actual_calls := u; expected_calls_string := e; actual_calls_string := a |})) ->
  shows_test s' {| ready := ready t; types_on := types_on t; made := made t; mine := drop h (mine t); met := met t; pending := p; unexpected := u; gone := gone t |}.
Proof.
  intros S R H P (e & a & ->). pose proof S as [SA SB SC SD SE SF SG SH SI].
  set (t' := {| ready := ready t; types_on := types_on t; made := made t; mine := drop h (mine t); met := met t; pending := p; unexpected := u; gone := gone t |}).
  assert (L : Permutation (live t') (live t)) by (eapply live_moved; eauto; reflexivity).
  constructor; cbn [ready types_on made mine met pending unexpected gone t' set_recorder u_ready u_types call_recorder u_calls u_freed]; auto.
  - rewrite R. eauto.
  - intros h' c'. change (deref (set_recorder s _) h') with (deref s h'). rewrite SF. split; intros [X Y]; (split; [|exact Y]); [apply (Permutation_in _ (Permutation_sym L)) in X|apply (Permutation_in _ L) in X]; exact X.
  - fold t'. rewrite L. exact SG.
Qed.
Lemma expect_step w s t o h : shows_test s t -> allowed t (UExpect h) -> step_shown w s t (UExpect h) o.
Proof.
  intros S K. unfold step_shown. cbn [ustep]. unfold bind at 1. unfold umock_c_add_expected_call. rewrite (st_ready _ _ S). destruct (ready t) eqn:R.
  2:{ eexists _, _, o, [], t, false. split; [reflexivity|]. split; [reflexivity|]. split; [apply s_expect_not; [auto|cbn; lia]|]. split; [discriminate|exact S]. }
  pose proof (st_recorder _ _ S) as Q. rewrite R in Q. destruct Q as (e & a & Q). rewrite Q. destruct h as [h|].
  2:{ eexists _, _, o, [], t, false. split; [reflexivity|]. split; [reflexivity|]. split; [apply s_expect_not; [auto|cbn; lia]|]. split; [discriminate|apply shows_strings; auto]. }
  cbn [umockcallrecorder_add_expected_call]. unfold bind. destruct (alloc_spec o) as (ok & o1 & u1 & A & U & F). rewrite A. destruct ok; cbn [negb].
  - eexists _, _, o1, u1, _, false. split; [reflexivity|]. split; [exact U|]. split; [now apply s_expect|]. split; [discriminate|]. cbn in K.
    eapply given_shown; eauto.
    + rewrite <- app_assoc. rewrite (Permutation_app_comm [h] (unexpected t)). rewrite !app_assoc. rewrite (Permutation_app_comm _ [h]). rewrite <- !app_assoc. reflexivity.
    + exists e, a. cbn. unfold set_recorder. cbn. rewrite map_app, app_assoc. reflexivity.
  - eexists _, _, o1, u1, t, true. split; [reflexivity|]. split; [exact U|]. split; [apply s_expect_memory; [exact R|cbn; lia]|]. split; [auto|apply shows_strings; auto].
Qed.
Lemma actual_step w s t o h m : shows_test s t -> allowed t (UActual h m) -> step_shown w s t (UActual h m) o.
Proof.
  intros S K. unfold step_shown. cbn [ustep]. unfold bind at 1. unfold umock_c_add_actual_call. rewrite (st_ready _ _ S). destruct (ready t) eqn:R.
  2:{ eexists _, _, o, [], t, false. split; [reflexivity|]. split; [reflexivity|]. split; [apply s_actual_not; [auto|cbn; lia]|]. split; [discriminate|exact S]. }
  pose proof (st_recorder _ _ S) as Q. rewrite R in Q. destruct Q as (e & a & Q). rewrite Q. unfold bind at 1.
  assert (Null : h = None \/ m = false -> forall r, umockcallrecorder_add_actual_call w s (Some r) h m o = Some ((151, None, Some r, s), o)).
  { intros [->| ->] r; [reflexivity|]. destruct h; reflexivity. }
  destruct h as [h|]; [destruct m|];
    try (rewrite Null by auto; eexists _, _, o, [], t, false; split; [reflexivity|]; split; [reflexivity|]; split; [apply s_actual_not; [auto|cbn; lia]|]; split; [discriminate|apply shows_strings; auto]).
  clear Null. cbn in K. cbn [umockcallrecorder_add_actual_call expected_calls actual_calls expected_calls_string actual_calls_string]. unfold bind at 1, lift at 1. rewrite match_skip.
  assert (Surprise : forall r0, says w t (UActual (Some h) true) (UMatch 0 (Some None)) (surprise t h) false -> r0 = {| expected_calls := map (fun h => (h, true)) (met t) ++ map (fun h => (h, false)) (pending t); actual_calls := unexpected t; expected_calls_string := e; actual_calls_string := a |} ->
    exists r s' o' used t' m, match (ok <- alloc ;; if negb ok then ret (201, Some (@None nat), Some r0, s) else ret (0, Some None, Some {| expected_calls := expected_calls r0; actual_calls := actual_calls r0 ++ [h]; expected_calls_string := expected_calls_string r0; actual_calls_string := actual_calls_string r0 |}, s))%m o with
      | Some (x, o') => (let '(z, m, r, s) := x in ret (UMatch z m, set_recorder s r)) o' | None => None end = Some ((r, s'), o') /\ o = used ++ o' /\ says w t (UActual (Some h) true) r t' m /\ (m = true -> In false used) /\ shows_test s' t').
  { intros r0 Y ->. unfold bind. destruct (alloc_spec o) as (ok & o1 & u1 & A & U & F). rewrite A. destruct ok; cbn [negb].
    - eexists _, _, o1, u1, _, false. split; [reflexivity|]. split; [exact U|]. split; [exact Y|]. split; [discriminate|].
      eapply given_shown; eauto.
      rewrite !app_assoc. rewrite (Permutation_app_comm _ [h]). rewrite <- !app_assoc. reflexivity.
    - eexists _, _, o1, u1, t, true. split; [reflexivity|]. split; [exact U|]. split; [apply s_actual_memory; [exact R|lia]|]. split; [auto|]. apply shows_strings; auto. }
  destruct (pending t) as [|x p] eqn:P.
  - cbn [map match_expected]. specialize (Surprise _ (s_actual_none w t h R P) eq_refl). destruct Surprise as (r & s' & o' & used & t' & m & E & Z). exists r, s', o', used, t', m. split; [|exact Z]. revert E. unfold bind. cbn. 
    destruct (alloc o) as [ [ [|] o1]|]; cbn; auto.
  - cbn [map match_expected]. assert (Lx : In x (live t)) by (unfold live; rewrite P, !in_app_iff; cbn; auto). assert (Lh : In h (live t)) by (apply in_or_app; auto).
    assert (D : x <> h). { pose proof (live_nodup _ _ S) as N. apply NoDup_app_elim in N. destruct N as (_ & N & _). unfold live in N. apply NoDup_app_elim in N. destruct N as (_ & _ & N). intros ->. apply (N h K). rewrite P, !in_app_iff. cbn. auto. }
    destruct (live_deref _ _ _ S Lx) as (ca & Ca & Da & _), (live_deref _ _ _ S Lh) as (cb & Cb & Db & _). rewrite (are_equal_at w s x h ca cb D Da Db).
    destruct (Z.eqb_spec (same w ca cb) 1) as [E1|E1].
    + destruct (destroy_at s t h S Lh) as (s' & c & E & C & A1 & A2 & A3 & A4 & A5). unfold bind, lift. rewrite E.
      eexists _, _, o, [], _, false. split; [reflexivity|]. split; [reflexivity|]. split; [eapply (s_actual_met w t h x p ca cb); eauto|]. split; [discriminate|].
      eapply destroyed_shown; eauto.
      * rewrite P, <- app_assoc. reflexivity.
      * rewrite R. exists e, a. cbn. rewrite map_app, <- app_assoc. reflexivity.
    + destruct (Z.eqb_spec (same w ca cb) 0) as [E0|E0]; cbn [negb].
      * specialize (Surprise _ (s_actual_other w t h x p ca cb R P Ca Cb E0) eq_refl). destruct Surprise as (r & s' & o' & used & t' & m & E & Z). exists r, s', o', used, t', m. split; [|exact Z]. revert E. unfold bind. cbn. 
        destruct (alloc o) as [ [ [|] o1]|]; cbn; auto.
      * eexists _, _, o, [], t, false. split; [reflexivity|]. split; [reflexivity|]. split; [eapply (s_actual_error w t h x p ca cb); eauto; lia|]. split; [discriminate|].
        change ((x, false) :: map (fun h0 : nat => (h0, false)) p) with (map (fun h0 : nat => (h0, false)) (x :: p)). rewrite <- P. apply shows_strings; auto.
Qed.
Lemma texts_at w s t hs : shows_test s t -> world_ok w -> (forall h, In h hs -> In h (live t)) -> forall b o,
  exists ok b' n o' used, append_calls w s hs b 0 o = Some ((ok, b', n), o') /\ o = used ++ o' /\
   match texts w t hs with
   | None => ok = false
   | Some x => cstr_ok x /\ ((ok = false /\ In false used) \/ (ok = true /\ n = length x /\ (hs = [] /\ b' = b /\ x = [] \/ hs <> [] /\ x <> [] /\ b' = Some (filled (x ++ [0%N])))))
   end.
Proof.
  intros S W H b o. destruct (live_calls s t hs S H) as (cs & A & B & C). destruct (append_at w s W hs cs b [] o B (or_introl eq_refl)) as (ok & b' & n & o' & used & E & U & X).
  exists ok, b', n, o', used. split; [exact E|]. split; [exact U|]. unfold texts. rewrite A. destruct (texts_of w (map Some cs)) as [x|] eqn:T; [|exact X].
  split; [eapply texts_ok; eauto|]. destruct X as [X|(-> & -> & X)]; [left; exact X|]. right. split; [reflexivity|]. split; [reflexivity|]. destruct X as [ (-> & ->)|X]; [left|right; exact X].
  inversion B. subst. cbn in T. injection T as <-. auto.
Qed.
Lemma expected_step w s t o : shows_test s t -> world_ok w -> step_shown w s t UExpected o.
Proof.
  intros S W. unfold step_shown. cbn [ustep]. unfold bind at 1. unfold umock_c_get_expected_calls. rewrite (st_ready _ _ S). destruct (ready t) eqn:R.
  2:{ eexists _, _, o, [], t, false. split; [reflexivity|]. split; [reflexivity|]. split; [now apply s_expected_not|]. split; [discriminate|exact S]. }
  pose proof (st_recorder _ _ S) as Q. rewrite R in Q. destruct Q as (e & a & Q). rewrite Q. unfold bind at 1.
  unfold umockcallrecorder_get_expected_calls. cbn [expected_calls expected_calls_string]. rewrite filter_pending. unfold bind at 1.
  destruct (texts_at w s t (pending t) S W) with (b := e) (o := o) as (ok & b' & n & o1 & u1 & E & U & X); [intros; unfold live; rewrite !in_app_iff; auto|]. rewrite E.
  assert (Sh : forall b, shows_test (set_recorder s (Some (with_expected_string {| expected_calls := map (fun h => (h, true)) (met t) ++ map (fun h => (h, false)) (pending t); actual_calls := unexpected t; expected_calls_string := e; actual_calls_string := a |} b))) t)
    by (intros b; apply shows_strings; auto).
  pose proof (s_expected w t R) as Y. destruct (texts w t (pending t)) as [x|].
  2:{ subst ok. cbn [negb]. eexists _, _, o1, u1, t, false. split; [reflexivity|]. split; [exact U|]. split; [exact Y|]. split; [discriminate|apply Sh]. }
  destruct X as (Kx & [ [-> X]|(-> & -> & X)]); cbn [negb].
  - eexists _, _, o1, u1, t, true. split; [reflexivity|]. split; [exact U|]. split; [apply s_expected_memory|]. split; [auto|apply Sh].
  - destruct X as [ (_ & -> & ->)|(_ & N & ->)].
    + cbn [length Nat.eqb]. unfold realloc, bind. destruct (alloc_spec o1) as (ok & o2 & u2 & A & U2 & F). rewrite A. unfold ret at 1. destruct ok.
      * assert (Z : exists m, resized e 1 = [m]) by (unfold resized; destruct e as [ [|m e]|]; cbn; eauto). destruct Z as (m & Z). rewrite Z.
        unfold lift. cbn. eexists _, _, o2, (u1 ++ u2), t, false. split; [reflexivity|]. split; [rewrite U, U2; apply app_assoc|]. split; [exact Y|]. split; [discriminate|apply Sh].
      * eexists _, _, o2, (u1 ++ u2), t, true. split; [reflexivity|]. split; [rewrite U, U2; apply app_assoc|]. split; [apply s_expected_memory|]. split; [intros _; apply in_or_app; auto|apply Sh].
    + destruct x as [|x0 x]; [congruence|]. cbn [length Nat.eqb]. unfold bind, lift. cbn [read_string]. rewrite string_in_filled by exact Kx.
      eexists _, _, o1, u1, t, false. split; [reflexivity|]. split; [exact U|]. split; [exact Y|]. split; [discriminate|apply Sh].
Qed.
Lemma actuals_step w s t o : shows_test s t -> world_ok w -> step_shown w s t UActuals o.
Proof.
  intros S W. unfold step_shown. cbn [ustep]. unfold bind at 1. unfold umock_c_get_actual_calls. rewrite (st_ready _ _ S). destruct (ready t) eqn:R.
  2:{ eexists _, _, o, [], t, false. split; [reflexivity|]. split; [reflexivity|]. split; [now apply s_actuals_not|]. split; [discriminate|exact S]. }
  pose proof (st_recorder _ _ S) as Q. rewrite R in Q. destruct Q as (e & a & Q). rewrite Q. unfold bind at 1.
  unfold umockcallrecorder_get_actual_calls. cbn [actual_calls actual_calls_string].
  assert (Sh : forall b, shows_test (set_recorder s (Some (with_actual_string {| expected_calls := map (fun h => (h, true)) (met t) ++ map (fun h => (h, false)) (pending t); actual_calls := unexpected t; expected_calls_string := e; actual_calls_string := a |} b))) t)
    by (intros b; apply shows_strings; auto).
  pose proof (s_actuals w t R) as Y. destruct (unexpected t) as [|h hs] eqn:L.
  - unfold realloc, bind. destruct (alloc_spec o) as (ok & o2 & u2 & A & U2 & F). rewrite A. unfold ret at 1. destruct ok.
    + assert (Z : exists m, resized a 1 = [m]) by (unfold resized; destruct a as [ [|m a]|]; cbn; eauto). destruct Z as (m & Z). rewrite Z.
      unfold lift. cbn. eexists _, _, o2, u2, t, false. split; [reflexivity|]. split; [exact U2|]. split; [exact Y|]. split; [discriminate|apply Sh].
    + eexists _, _, o2, u2, t, true. split; [reflexivity|]. split; [exact U2|]. split; [apply s_actuals_memory|]. split; [auto|]. cbn [snd]. pose proof (shows_strings s t e a S R) as V. rewrite L in V. exact V.
  - destruct (texts_at w s t (h :: hs) S W) with (b := a) (o := o) as (ok & b' & n & o1 & u1 & E & U & X); [intros x Hx; unfold live; rewrite L, !in_app_iff; auto|]. unfold bind at 1. rewrite E.
    destruct (texts w t (h :: hs)) as [x|].
    2:{ subst ok. cbn [negb]. eexists _, _, o1, u1, t, false. split; [reflexivity|]. split; [exact U|]. split; [exact Y|]. split; [discriminate|apply Sh]. }
    destruct X as (Kx & [ [-> X]|(-> & -> & X)]); cbn [negb].
    + eexists _, _, o1, u1, t, true. split; [reflexivity|]. split; [exact U|]. split; [apply s_actuals_memory|]. split; [auto|apply Sh].
    + destruct X as [ (X & _)|(_ & N & ->)]; [discriminate X|]. unfold bind, lift. cbn [read_string]. rewrite string_in_filled by exact Kx.
      eexists _, _, o1, u1, t, false. split; [reflexivity|]. split; [exact U|]. split; [exact Y|]. split; [discriminate|apply Sh].
Qed.
Lemma last_step w s t o : shows_test s t -> step_shown w s t ULast o.
Proof.
  intros S. unfold step_shown. cbn [ustep]. unfold umock_c_get_last_expected_call. rewrite (st_ready _ _ S). destruct (ready t) eqn:R.
  2:{ eexists _, _, o, [], t, false. split; [reflexivity|]. split; [reflexivity|]. split; [now apply s_last_not|]. split; [discriminate|exact S]. }
  pose proof (st_recorder _ _ S) as Q. rewrite R in Q. destruct Q as (e & a & Q). rewrite Q. cbn [umockcallrecorder_get_last_expected_call expected_calls].
  eexists _, _, o, [], t, false. split; [reflexivity|]. split; [reflexivity|]. split; [|split; [discriminate|exact S] ].
  rewrite all_expected. pose proof (s_last w t R) as Y.
  assert (Z : forall l : list nat, l <> [] -> forall d, last (map Some l) None = Some (last l d)).
  { clear. intros l. induction l as [|x [|y l] IH]; intros H d; [congruence|reflexivity|]. cbn [map last] in *. apply IH. discriminate. }
  destruct (met t) as [|m ms]; cbn [map app] in *; [destruct (pending t) as [|p ps]; cbn [map] in *|]; [exact Y| |].
  - pose proof (Z (p :: ps) ltac:(discriminate) p) as V. cbn [map] in V. rewrite V in Y. exact Y.
  - pose proof (Z (m :: ms ++ pending t) ltac:(discriminate) m) as V. cbn [map] in V. rewrite V in Y. exact Y.
Qed.
Lemma ustep_at w s t op o : shows_test s t -> world_ok w -> allowed t op -> step_shown w s t op o.
Proof.
  intros S W K. destruct op; auto using init_at, deinit_at, reset_at, create_at, destroy_step, equal_step, stringify_step, data_step, expect_step, actual_step, expected_step, actuals_step, last_step.
Qed.
Lemma play_at p : forall s t o, shows_test s t -> careful t p ->
  exists tr s' o' used t' m, play s p o = Some ((tr, s'), o') /\ o = used ++ o' /\ explained t tr t' m /\ (m = true -> In false used) /\ shows_test s' t'.
Proof.
  induction p as [|w op next IH]; intros s t o S K; cbn [play].
  - exists [], s, o, [], t, false. split; [reflexivity|]. split; [reflexivity|]. split; [constructor|]. split; [discriminate|exact S].
  - destruct K as (W & A & K). destruct (ustep_at w s t op o S W A) as (r & s1 & o1 & u1 & t1 & m1 & E & U & Y & F & S1). unfold bind. rewrite E.
    destruct (IH r s1 t1 o1 S1 (K r t1 m1 Y)) as (tr & s2 & o2 & u2 & t2 & m2 & E2 & U2 & Y2 & F2 & S2). rewrite E2. cbn [fst snd].
    eexists _, s2, o2, (u1 ++ u2), t2, (m1 || m2). split; [reflexivity|]. split; [rewrite U, U2; apply app_assoc|]. split; [econstructor; eauto|]. split; [|exact S2].
    intros H. apply in_or_app. apply orb_true_iff in H. tauto.
Qed.
Lemma start_shown : shows_test umock_start test_start.
Proof.
  constructor; cbn; auto; try discriminate.
  - exists None. split; [|reflexivity]. constructor; cbn; auto.
  - intros h c. unfold deref. cbn. destruct h; split; try discriminate; tauto.
Qed.

(* Every test that is careful with its calls, whatever it does next after each answer, and every memory: nothing
   undefined happens; each answer is what the specification says, and lacks only where memory did; every call ever
   created is in exactly one place, and the data given back are those of the calls destroyed, once each and in that
   order. *)
Theorem umock_spec p o : careful test_start p ->
  exists tr s o' t m, play umock_start p o = Some ((tr, s), o') /\ explained test_start tr t m /\ (m = true -> In false o) /\
   Permutation (seq 0 (length (made t))) (gone t ++ mine t ++ met t ++ pending t ++ unexpected t) /\
   map Some (u_freed s) = map (fun h => option_map (fun c => (data_free c, umockcall_data c)) (nth_error (made t) h)) (gone t) /\
   (forall h c, deref s h = Some c <-> In h (live t) /\ nth_error (made t) h = Some c).
Proof.
  intros K. destruct (play_at p umock_start test_start o start_shown K) as (tr & s & o' & used & t & m & E & U & X & F & S).
  exists tr, s, o', t, m. split; [exact E|]. split; [exact X|]. split; [intros H; rewrite U; apply in_or_app; auto|]. destruct S as [A B C D G H I J L].
  split; [exact I|]. split; [exact J|exact H].
Qed.
