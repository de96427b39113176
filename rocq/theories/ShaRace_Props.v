(* C45: hashing in different contexts from several threads. *)
From Verif Require Import Base Sha_Spec Sha_Model Sha_Words Sha_Compress Sha_Padding Sha_Stream Sha_History Sha_Props ShaRace_Model.
Open Scope N_scope.
#[local] Arguments Block_Size : simpl never.
Open Scope o_scope.
#[local] Arguments variant_for : simpl never.

(** * Specification *)

(* thread i is the next to run, and no other thread that uses the same C file is halfway through
   adding to its length *)
Definition quiet (s : rstate) (i : nat) : Prop :=
  forall j ti tj, j <> i -> nth_error (threads s) i = Some ti -> nth_error (threads s) j = Some tj -> t_mid tj = true ->
    file_of (t_which tj) <> file_of (t_which ti).
Fixpoint undisturbed (s : rstate) (sched : list nat) : Prop :=
  match sched with
  | [] => True
  | i :: k => quiet s i /\ forall s', rstep s i = Some s' -> undisturbed s' k
  end.

Definition job_ok (j : algorithm * list N) : Prop := bytes_ok (snd j) /\ hashable (fst j) (bits_of_bytes (snd j)).
Definition coded (j : algorithm * list N) : N * list N := (code_of (fst j), snd j).

(* thread i has hashed its message: Result gave the right digest *)
Definition hashed (s : rstate) (i : nat) (j : algorithm * list N) : Prop :=
  exists t, nth_error (threads s) i = Some t /\ t_out t = Some (shaSuccess, Some (digest (fst j) (bits_of_bytes (snd j)))).
Definition still_hashing (s : rstate) (i : nat) : Prop :=
  exists t, nth_error (threads s) i = Some t /\ t_out t = None.

(** * One thread *)

Inductive good (a : algorithm) (msg : list N) (t : thread) : nat -> Prop :=
| g_between m : t_mid t = false -> t_out t = None -> absorbing a (t_ctx t) m -> msg = m ++ t_left t -> good a msg t (2 * length (t_left t) + 1)
| g_mid c m b : t_mid t = true -> t_out t = None -> absorbing a c m -> put_byte c (N.land b 0xFF) = Some (t_ctx t) -> msg = m ++ b :: t_left t ->
    good a msg t (2 * length (t_left t) + 2)
| g_done : t_mid t = false -> t_out t = Some (shaSuccess, Some (digest a (bits_of_bytes msg))) -> good a msg t 0.

Lemma rest_is_AddLength V c n : AddLength_rest V (Length_Low c) c n = AddLength V c n.
Proof. reflexivity. Qed.
Lemma variant_of_code a : variant_of (code_of a) = Some (variant_for a).
Proof. destruct a; reflexivity. Qed.

Lemma result_ok a c m : absorbing a c m ->
  exists c', sha_result (variant_for a) (Some c) true = Some (shaSuccess, Some (digest a (bits_of_bytes m)), Some c').
Proof.
  intros [(full & rest & -> & Hr & Hb) Hs Ht Hc Hk]. unfold sha_result. cbn [negb]. rewrite Hk, Hc. cbn [N.eqb negb].
  destruct (Finalize_ok a c full rest [] 0x80 Hb Hr) as (c' & E & H1 & H2 & H3); [cbn; lia|reflexivity|reflexivity|exact Hs|].
  rewrite E. cbn [obind]. rewrite H3, app_nil_r by (rewrite Ht; cbn [length]; lia). cbn [obind]. eauto.
Qed.

Lemma tstep_good a msg t n temp : good a msg t n -> t_which t = code_of a -> bytes_ok msg -> hashable a (bits_of_bytes msg) ->
  (t_mid t = true -> temp = Length_Low (t_ctx t)) ->
  exists temp' t', tstep temp t = Some (temp', t') /\ good a msg t' (pred n) /\ t_which t' = code_of a /\
    (t_mid t' = true -> temp' = Length_Low (t_ctx t')).
Proof.
  intros G Hw Hm Hh Htemp. unfold tstep. rewrite Hw, variant_of_code. cbn [obind]. unfold hashable in Hh. rewrite bits_of_bytes_length in Hh.
  destruct G as [m H1 H2 H3 H4|c m b H1 H2 H3 H4 H5|H1 H2]; rewrite H2.
  - rewrite H1. destruct (t_left t) as [|b l] eqn:El.
    + rewrite app_nil_r in H4. subst m. destruct (result_ok a (t_ctx t) msg H3) as (c' & E). rewrite E. cbn [obind snd fst].
      eexists _, _. split; [reflexivity|]. split; [apply g_done; reflexivity|]. split; [reflexivity|]. discriminate.
    + rewrite (s_corrupted _ _ _ H3), N.eqb_refl. subst msg. apply Forall_app in Hm as [Hm1 Hm2]. inversion Hm2 as [|? ? Hb Hl]; subst.
      destruct (absorb_byte a (t_ctx t) m b H3 Hb) as (c1 & E1 & _). rewrite E1. cbn [obind].
      eexists _, _. split; [reflexivity|]. split; [|split; [reflexivity|reflexivity]].
      replace (pred (2 * length (b :: l) + 1)) with (2 * length l + 2)%nat by (cbn [length]; lia).
      apply (g_mid a (m ++ b :: l) {| t_which := code_of a; t_ctx := c1; t_left := l; t_mid := true; t_out := None |} (t_ctx t) m b); auto.
  - rewrite H1. rewrite (Htemp H1), rest_is_AddLength. subst msg. apply Forall_app in Hm as [Hm1 Hm2]. inversion Hm2 as [|? ? Hb Hl]; subst.
    destruct (absorb_byte a c m b H3 Hb) as (c1 & E1 & Hok & _). rewrite H4 in E1. injection E1 as <-.
    destruct Hok as (c3 & E3 & Ha3). { rewrite app_length in Hh. cbn [length] in Hh. lia. }
    rewrite E3. cbn [obind]. eexists _, _. split; [reflexivity|]. split; [|split; [reflexivity|discriminate]].
    replace (pred (2 * length (t_left t) + 2)) with (2 * length (t_left t) + 1)%nat by lia.
    apply (g_between a (m ++ b :: t_left t) {| t_which := code_of a; t_ctx := c3; t_left := t_left t; t_mid := false; t_out := None |} (m ++ [b])); auto.
    rewrite <- app_assoc. reflexivity.
  - eexists _, _. split; [reflexivity|]. split; [apply g_done; assumption|]. split; [exact Hw|]. congruence.
Qed.

(** * All threads *)

Definition inv (jobs : list (algorithm * list N)) (s : rstate) (k : nat -> nat) : Prop :=
  length (threads s) = length jobs /\
  forall i a msg t, nth_error jobs i = Some (a, msg) -> nth_error (threads s) i = Some t ->
    t_which t = code_of a /\ good a msg t (k i) /\ (t_mid t = true -> addTemp s (file_of (t_which t)) = Length_Low (t_ctx t)).

Lemma file_eqb_eq x y : file_eqb x y = true <-> x = y.
Proof. destruct x, y; cbn; split; congruence. Qed.

Lemma rstep_inv jobs s k i : Forall job_ok jobs -> inv jobs s k -> quiet s i ->
  exists s', rstep s i = Some s' /\ inv jobs s' (fun j => if (j =? i)%nat then pred (k j) else k j).
Proof.
  intros Hj [Hl Hi] Q. unfold rstep. destruct (nth_error (threads s) i) as [t|] eqn:Et.
  - destruct (nth_error jobs i) as [[a msg]|] eqn:Ej.
    2:{ apply nth_error_None in Ej. assert (i < length (threads s))%nat by (apply nth_error_Some; congruence). lia. }
    destruct (Hi _ _ _ _ Ej Et) as (Hw & G & Htemp).
    assert (J : job_ok (a, msg)) by (eapply Forall_forall; [exact Hj|eapply nth_error_In; exact Ej]). destruct J as [J1 J2].
    destruct (tstep_good a msg t (k i) (addTemp s (file_of (t_which t))) G Hw J1 J2 Htemp) as (temp' & t' & E & G' & Hw' & Ht').
    rewrite E. cbn [obind fst snd]. eexists. split; [reflexivity|]. split; [cbn [threads]; rewrite upd_length; exact Hl|].
    cbn [threads addTemp]. intros j b m u Ejb Eu. destruct (Nat.eqb_spec j i) as [->|Hne].
    + rewrite upd_same in Eu by (apply nth_error_Some; congruence). injection Eu as <-.
      rewrite Ej in Ejb. injection Ejb as <- <-. rewrite Hw', Hw, (proj2 (file_eqb_eq _ _) eq_refl). auto.
    + rewrite upd_other in Eu by congruence. destruct (Hi _ _ _ _ Ejb Eu) as (H1 & H2 & H3). split; [exact H1|]. split; [exact H2|].
      intros Hmid. destruct (file_eqb (file_of (t_which u)) (file_of (t_which t))) eqn:Ef; [|auto].
      apply file_eqb_eq in Ef. exfalso. eapply (Q j t u); eauto.
  - exists s. split; [reflexivity|]. split; [exact Hl|]. intros j b m u Ejb Eu. destruct (Nat.eqb_spec j i) as [->|Hne]; [congruence|eauto].
Qed.

Lemma rrun_inv jobs sched : Forall job_ok jobs -> forall s k, inv jobs s k -> undisturbed s sched ->
  exists s', rrun s sched = Some s' /\ inv jobs s' (fun j => k j - count_occ Nat.eq_dec sched j)%nat.
Proof.
  intros Hj. induction sched as [|i sched IH]; intros s k Hi U; cbn [rrun].
  - exists s. split; [reflexivity|]. destruct Hi as [H1 H2]. split; [exact H1|]. intros. cbn [count_occ]. rewrite Nat.sub_0_r. auto.
  - destruct U as [Q U]. destruct (rstep_inv jobs s k i Hj Hi Q) as (s1 & E & Hi1). rewrite E. cbn [obind].
    destruct (IH s1 _ Hi1 (U _ E)) as (s' & E' & H1 & H2). exists s'. split; [exact E'|]. split; [exact H1|].
    intros j a m t Ej Et. specialize (H2 j a m t Ej Et). cbn [count_occ]. destruct (Nat.eq_dec i j) as [->|Hne].
    + rewrite Nat.eqb_refl in H2. replace (k j - S (count_occ Nat.eq_dec sched j))%nat with (pred (k j) - count_occ Nat.eq_dec sched j)%nat by lia. exact H2.
    + destruct (Nat.eqb_spec j i) as [->|_]; [congruence|]. exact H2.
Qed.

Lemma rstart_inv jobs : exists s, rstart (map coded jobs) = Some s /\
  inv jobs s (fun i => match nth_error jobs i with Some j => 2 * length (snd j) + 1 | None => 0 end)%nat.
Proof.
  unfold rstart.
  assert (H : exists ts, start_threads (map coded jobs) = Some ts /\ Forall2 (fun j t => t = {| t_which := code_of (fst j); t_ctx := sha_reset (variant_for (fst j));
      t_left := snd j; t_mid := false; t_out := None |}) jobs ts).
  { induction jobs as [|[a m] jobs (ts & E & F)]; [exists []; split; [reflexivity|constructor]|]. cbn [map coded fst snd start_threads].
    rewrite variant_of_code. cbn [obind]. rewrite E. cbn [obind]. eexists. split; [reflexivity|]. constructor; [reflexivity|exact F]. }
  destruct H as (ts & E & F). rewrite E. cbn [obind]. eexists. split; [reflexivity|]. split; [cbn [threads]; clear E; induction F; cbn; congruence|].
  cbn [threads addTemp]. intros i a m t Ej Et. rewrite Ej.
  assert (t = {| t_which := code_of a; t_ctx := sha_reset (variant_for a); t_left := m; t_mid := false; t_out := None |}) as ->.
  { revert i Ej Et. clear E. induction F as [|x y l1 l2 Hxy F IH]; intros [|i] Ej Et; cbn in Ej, Et; try discriminate.
    - injection Ej as ->. injection Et as ->. exact Hxy.
    - eauto. }
  split; [reflexivity|]. split; [|discriminate].
  apply (g_between a m {| t_which := code_of a; t_ctx := sha_reset (variant_for a); t_left := m; t_mid := false; t_out := None |} []); auto. apply reset_ok.
Qed.

(* C45, if no thread runs code of a C file while another is between the two accesses of that
   file's addTemp: each thread gets the digest it would get alone, as soon as it has had enough
   steps, however they are interleaved. *)
Theorem usha_threads_partial jobs sched : Forall job_ok jobs ->
  exists s0, rstart (map coded jobs) = Some s0 /\
  (undisturbed s0 sched ->
   exists s, rrun s0 sched = Some s /\
   forall i j, nth_error jobs i = Some j ->
     (hashed s i j \/ still_hashing s i) /\
     ((2 * length (snd j) + 1 <= count_occ Nat.eq_dec sched i)%nat -> hashed s i j)).
Proof.
  intros Hj. destruct (rstart_inv jobs) as (s0 & E0 & H0). exists s0. split; [exact E0|]. intros U.
  destruct (rrun_inv jobs sched Hj s0 _ H0 U) as (s & E & Hl & Hi). exists s. split; [exact E|].
  intros i [a m] Ej. destruct (nth_error (threads s) i) as [t|] eqn:Et.
  2:{ apply nth_error_None in Et. assert (i < length jobs)%nat by (apply nth_error_Some; congruence). lia. }
  destruct (Hi _ _ _ _ Ej Et) as (_ & G & _). rewrite Ej in G. cbn [snd] in *. split.
  - inversion G; [right; exists t; auto|right; exists t; auto|left; exists t; auto].
  - intros Hc. replace (_ - _)%nat with 0%nat in G by lia. inversion G; [lia|lia|exists t; auto].
Qed.

(* no two threads use the same C file: every schedule will do *)
Definition different_files (jobs : list (algorithm * list N)) : Prop :=
  forall i j a b m n, i <> j -> nth_error jobs i = Some (a, m) -> nth_error jobs j = Some (b, n) -> file_of (code_of a) <> file_of (code_of b).

Theorem usha_threads_different_files jobs sched : Forall job_ok jobs -> different_files jobs ->
  exists s0 s, rstart (map coded jobs) = Some s0 /\ rrun s0 sched = Some s /\
   forall i j, nth_error jobs i = Some j ->
     (hashed s i j \/ still_hashing s i) /\
     ((2 * length (snd j) + 1 <= count_occ Nat.eq_dec sched i)%nat -> hashed s i j).
Proof.
  intros Hj Hd. destruct (usha_threads_partial jobs sched Hj) as (s0 & E0 & H). exists s0.
  destruct H as (s & E & H); [|exists s; auto].
  destruct (rstart_inv jobs) as (s0' & E0' & H0). rewrite E0 in E0'. injection E0' as <-. clear E0. revert s0 H0.
  generalize (fun i => match nth_error jobs i with Some j => 2 * length (snd j) + 1 | None => 0 end)%nat.
  induction sched as [|i sched IH]; intros k s0 H0; cbn [undisturbed]; [exact I|].
  assert (Q : quiet s0 i).
  { intros j ti tj Hne E1 E2 _. destruct H0 as [Hl Hi].
    destruct (nth_error jobs i) as [[a m]|] eqn:Ei.
    2:{ apply nth_error_None in Ei. assert (i < length (threads s0))%nat by (apply nth_error_Some; congruence). lia. }
    destruct (nth_error jobs j) as [[b n]|] eqn:Ejj.
    2:{ apply nth_error_None in Ejj. assert (j < length (threads s0))%nat by (apply nth_error_Some; congruence). lia. }
    destruct (Hi _ _ _ _ Ei E1) as (-> & _). destruct (Hi _ _ _ _ Ejj E2) as (-> & _). eapply Hd; [|exact Ejj|exact Ei]. congruence. }
  split; [exact Q|]. intros s' E'. destruct (rstep_inv jobs s0 k i Hj H0 Q) as (s1 & E1 & H1).
  rewrite E' in E1. injection E1 as <-. eapply IH. exact H1.
Qed.

(* C45 is false in general: two threads hash with SHA-1, the first has written addTemp for its only
   byte when the second, two bytes further, writes it for its third; the first then sees a carry,
   counts 2^32 bits too many and gives a wrong digest. *)
Definition race_jobs : list (algorithm * list N) := [(Sha1, [97]); (Sha1, [98; 99; 100])].
Definition race_schedule : list nat := [0; 1; 1; 1; 1; 1; 0; 0]%nat.

Definition out_of (s : option rstate) (i : nat) : list N :=
  match s with Some s => match nth_error (threads s) i with Some t => match t_out t with Some (0, Some d) => d | _ => [] end | None => [] end | None => [] end.

Theorem usha_threads_refuted :
  Forall job_ok race_jobs /\
  exists s0 s t d, rstart (map coded race_jobs) = Some s0 /\ rrun s0 race_schedule = Some s /\ nth_error (threads s) 0 = Some t /\
    t_out t = Some (shaSuccess, Some d) /\ d <> digest Sha1 (bits_of_bytes [97]).
Proof.
  split; [repeat constructor|].
  rewrite <- (hash_of_ok Sha1 [97]) by (repeat constructor).
  assert (S : match (s0 <- rstart (map coded race_jobs) ;; s <- rrun s0 race_schedule ;; t <- nth_error (threads s) 0 ;; t_out t) with
              | Some (0, Some d) => negb (same d (hash_of 0 [97])) | _ => false end = true) by (vm_compute; reflexivity).
  destruct (rstart (map coded race_jobs)) as [s0|]; [|discriminate S]. cbn [obind] in S. exists s0.
  destruct (rrun s0 race_schedule) as [s|]; [|discriminate S]. cbn [obind] in S. exists s.
  destruct (nth_error (threads s) 0) as [t|]; [|discriminate S]. cbn [obind] in S. exists t.
  destruct (t_out t) as [[[|] [d|]]|]; try discriminate S. exists d. split; [reflexivity|]. split; [reflexivity|]. split; [reflexivity|]. split; [reflexivity|].
  intros K. change (code_of Sha1) with 0 in K. rewrite <- K in S.
  assert (R : forall l, same l l = true) by (induction l as [|x l IH]; cbn; [reflexivity|rewrite N.eqb_refl; exact IH]).
  rewrite R in S. discriminate S.
Qed.

(** * The hypotheses are met *)
Example race_example : Forall job_ok [(Sha1, str "abc"); (Sha256, str "xy"); (Sha512, [])] /\ different_files [(Sha1, str "abc"); (Sha256, str "xy"); (Sha512, [])].
Proof.
  split; [repeat constructor|]. intros i j a b m n Hne Hi Hj.
  destruct i as [|[|[|i]]], j as [|[|[|j]]]; cbn in Hi, Hj; try discriminate; try lia; try (destruct i; discriminate); try (destruct j; discriminate); inversion Hi; inversion Hj; discriminate.
Qed.
(* two threads with the same algorithm, one after the other and then byte by byte *)
Example undisturbed_example : exists s0, rstart (map coded [(Sha256, [1; 2]); (Sha256, [3])]) = Some s0 /\ undisturbed s0 [0; 0; 1; 1; 0; 0; 1; 0]%nat.
Proof.
  eexists. split; [reflexivity|]. cbn [undisturbed].
  Ltac one := split;
    [intros j ti tj Hne Hi Hj Hm; destruct j as [|[|j]]; cbn in Hi, Hj; try congruence;
       [..|destruct j; discriminate]; injection Hi as <-; injection Hj as <-; discriminate Hm
    |intros s' E; vm_compute in E; injection E as <-].
  do 8 one. exact I.
Qed.
