(* C113 (threads with C11 and on Windows) and C114 (identifiers on Windows). *)
From Verif Require Import Base UniqueId_Model ThreadMbed_Model Ports_Model.
From Verif Require UniqueId_Spec.
Local Open Scope nat_scope.

(** * Threads *)

Definition opened (w : tworld) (h t : nat) : Prop := nth_error (handles w) h = Some (Some t).
Definition sound (w : tworld) : Prop := forall h t, opened w h t -> t < length (made w).

Lemma close_same A (l : list (option A)) h x : nth_error l h = Some x -> nth_error (close l h) h = Some None.
Proof.
  revert h. induction l as [|y l IH]; intros [|h] H; try discriminate H; [reflexivity|]. cbn [nth_error] in H. exact (IH h H).
Qed.
Lemma close_other A (l : list (option A)) h k : h <> k -> nth_error (close l h) k = nth_error l k.
Proof.
  revert h k. induction l as [|y l IH]; intros [|h] [|k] N; try reflexivity; try congruence.
  change (nth_error (close l h) k = nth_error l k). apply IH. congruence.
Qed.

(* A create that does not give a handle leaves nothing behind; one that does has made a thread,
   and the handle is new and for this thread. *)
Theorem c11_create_all_or_nothing : forall args memory started w, sound w ->
  match c11_create args memory started w with
  | (THREADAPI_OK, Handle h, w') => exists v t, started = Some v /\ opened w' h t /\ nth_error (made w') t = Some v /\
      (forall t', ~ opened w h t') /\ (forall k u, opened w k u -> opened w' k u) /\ sound w' /\ t = length (made w)
  | (THREADAPI_OK, _, _) => False
  | (_, st, w') => st = Nothing /\ made w' = made w /\ (forall k u, opened w' k u <-> opened w k u)
  end.
Proof.
  intros args memory started w S. unfold c11_create. destruct args; [|repeat split; auto]. destruct memory; [|repeat split; auto].
  destruct started as [v|].
  - exists v, (length (made w)). unfold opened, sound in *. cbn [handles made].
    split; [reflexivity|]. split; [rewrite nth_error_app2, Nat.sub_diag by lia; reflexivity|].
    split; [rewrite nth_error_app2, Nat.sub_diag by lia; reflexivity|].
    split. { intros t' X. assert (length (handles w) < length (handles w)) by (apply nth_error_Some; congruence). lia. }
    split. { intros k u X. rewrite nth_error_app1; [exact X|apply nth_error_Some; congruence]. }
    split; [|reflexivity]. intros h t X. unfold opened in *. cbn [handles made] in *. rewrite app_length. cbn [length].
    destruct (Nat.lt_ge_cases h (length (handles w))) as [L|G]; [rewrite nth_error_app1 in X by exact L; specialize (S _ _ X); lia|].
    rewrite nth_error_app2 in X by exact G. destruct (h - length (handles w)) as [|d]; [injection X as <-; lia|destruct d; discriminate X].
  - split; [reflexivity|]. split; [reflexivity|]. intros k u. unfold opened. cbn [handles]. split; intros X.
    + destruct (Nat.lt_ge_cases k (length (handles w))) as [L|G]; [now rewrite nth_error_app1 in X by exact L|].
      rewrite nth_error_app2 in X by exact G. destruct (k - length (handles w)) as [|d]; [discriminate X|destruct d; discriminate X].
    + rewrite nth_error_app1; [exact X|apply nth_error_Some; congruence].
Qed.
(* Join gives the value of the thread and releases this handle, and no other, on every path. *)
Theorem c11_join_releases : forall h t v res answer w, opened w h t -> nth_error (made w) t = Some v ->
  exists r out w', c11_join (Some h) res answer w = Some (r, out, w') /\
    (r = THREADAPI_OK <-> answer = thrd_success) /\ (r = THREADAPI_OK -> out = if res then Some v else None) /\ (r <> THREADAPI_OK -> out = None) /\
    (forall u, ~ opened w' h u) /\ (forall k u, k <> h -> (opened w' k u <-> opened w k u)).
Proof.
  intros h t v res answer w O M. unfold c11_join. unfold opened in O. rewrite O, M. cbn zeta.
  destruct answer; do 3 eexists; (split; [reflexivity|]); (split; [split; congruence|]); (split; [congruence|]); (split; [congruence|]);
    (split; [intros u X; unfold opened in X; cbn [handles] in X; rewrite (close_same _ _ _ _ O) in X; discriminate X
            |intros k u N; unfold opened; cbn [handles]; rewrite close_other by congruence; reflexivity]).
Qed.
Theorem win_join_releases : forall h t v res waited got w, opened w h t -> nth_error (made w) t = Some v ->
  exists r out w', win_join (Some h) res waited got w = Some (r, out, w') /\
    (r = THREADAPI_OK <-> waited = true /\ (res = true -> got = true)) /\ (r = THREADAPI_OK -> out = if res then Some v else None) /\ (r <> THREADAPI_OK -> out = None) /\
    (forall u, ~ opened w' h u) /\ (forall k u, k <> h -> (opened w' k u <-> opened w k u)).
Proof.
  intros h t v res waited got w O M. unfold win_join. unfold opened in O. rewrite O, M. cbn zeta.
  destruct waited, res, got; do 3 eexists; (split; [reflexivity|]); (split; [intuition congruence|]); (split; [congruence|]); (split; [congruence|]);
    (split; [intros u X; unfold opened in X; cbn [handles] in X; rewrite (close_same _ _ _ _ O) in X; discriminate X
            |intros k u N; unfold opened; cbn [handles]; rewrite close_other by congruence; reflexivity]).
Qed.
Theorem win_create_partial : forall v w, sound w ->
  match win_create true (Some v) w with
  | (THREADAPI_OK, Handle h, w') => exists t, opened w' h t /\ nth_error (made w') t = Some v /\ (forall k u, opened w k u -> opened w' k u) /\ sound w'
  | _ => False
  end.
Proof.
  intros v w S. pose proof (c11_create_all_or_nothing true true (Some v) w S) as X. cbn in X. cbn [win_create].
  destruct X as (v' & t & E & A & B & _ & C & D & _). injection E as <-. exists t. auto.
Qed.
(* Windows: when CreateThread fails, success is reported and NULL stored; a join of it fails. *)
Theorem win_create_failed_refuted : forall w res waited got,
  win_create true None w = (THREADAPI_OK, Null, w) /\ win_join None res waited got w = Some (THREADAPI_INVALID_ARG, None, w).
Proof. intros. split; reflexivity. Qed.
(* a second join *)
Theorem c11_join_twice : forall h t v res answer w r out w' res' answer', opened w h t -> nth_error (made w) t = Some v ->
  c11_join (Some h) res answer w = Some (r, out, w') -> c11_join (Some h) res' answer' w' = None.
Proof.
  intros h t v res answer w r out w' res' answer' O M E. destruct (c11_join_releases h t v res answer w O M) as (r1 & o1 & w1 & E1 & _ & _ & _ & N & _).
  rewrite E in E1. injection E1 as <- <- <-. unfold c11_join. destruct (nth_error (handles w') h) as [ [u|]|] eqn:X; try reflexivity. exfalso. exact (N u X).
Qed.
Example thread_case : exists w1 w2, c11_create true true (Some 5%Z) (mkt [] []) = (THREADAPI_OK, Handle 0, w1) /\
  c11_join (Some 0) true thrd_success w1 = Some (THREADAPI_OK, Some 5%Z, w2) /\ handles w2 = [None].
Proof. eexists. eexists. split; [reflexivity|]. split; reflexivity. Qed.

(** * Identifiers *)

(* With a buffer of exactly 37 bytes: the text and its end. *)
Theorem win_uid_partial : forall blk t, length blk = 37 -> length t = 36 ->
  UniqueId_Generate_win (Some blk) 37 true (Some t) = Some (UNIQUEID_OK, Some (map Some (t ++ [0%N]))).
Proof.
  intros blk t L T. unfold UniqueId_Generate_win. cbn [Nat.ltb Nat.leb negb]. rewrite L. cbn [Nat.leb].
  unfold copy. rewrite !app_length, repeat_length, skipn_length, L, T. cbn [length Nat.add Nat.sub Nat.leb andb].
  rewrite firstn_all2 by (rewrite app_length, T; cbn [length]; lia).
  assert (skipn 37 (repeat (Some 0%N) 37 ++ skipn 37 blk) = []) as E.
  { apply length_zero_iff_nil. rewrite skipn_length, app_length, repeat_length, skipn_length, L. reflexivity. }
  rewrite E, app_nil_r. reflexivity.
Qed.
(* With any bigger one: bytes after the text RPC made are read. *)
Theorem win_uid_overread_refuted : forall blk len t, 37 < len -> len <= length blk -> length t = 36 ->
  UniqueId_Generate_win (Some blk) len true (Some t) = None.
Proof.
  intros blk len t L B T. unfold UniqueId_Generate_win.
  replace (len <? 37) with false by (symmetry; apply Nat.ltb_ge; lia). cbn [negb].
  replace (len <=? length blk) with true by (symmetry; apply Nat.leb_le; lia).
  unfold copy. rewrite app_length, T. cbn [length Nat.add]. replace (len <=? 37) with false by (symmetry; apply Nat.leb_gt; lia). reflexivity.
Qed.
Theorem win_uid_refused : forall uid len created text, uid = None \/ len < 37 ->
  UniqueId_Generate_win uid len created text = Some (UNIQUEID_INVALID_ARG, uid).
Proof.
  intros uid len created text H. unfold UniqueId_Generate_win. destruct uid; [|reflexivity]. destruct H as [H|H]; [discriminate H|].
  apply Nat.ltb_lt in H. now rewrite H.
Qed.
Theorem win_uid_no_memory : forall blk len created, 37 <= len -> 
  UniqueId_Generate_win (Some blk) len created None = Some (UNIQUEID_ERROR, Some blk).
Proof.
  intros blk len created H. unfold UniqueId_Generate_win. replace (len <? 37) with false by (symmetry; apply Nat.ltb_ge; lia). destruct created; reflexivity.
Qed.
