(* Lemmas about the gballoc model: the chain of ALLOCATION nodes and the bookkeeping. *)
From Coq Require Import Permutation.
From Verif Require Import Base Mem Gballoc_Model Gballoc_Spec.
Open Scope N_scope.

Lemma perm_filter {A} (f : A -> bool) l1 l2 : Permutation l1 l2 -> Permutation (filter f l1) (filter f l2).
Proof.
  induction 1; cbn.
  - constructor.
  - destruct (f x); [constructor; auto | auto].
  - destruct (f x), (f y); try apply Permutation_refl. apply perm_swap.
  - eapply Permutation_trans; eauto.
Qed.

Lemma in_heap_perm h l p : Permutation h l -> in_heap h p = holds_block l p.
Proof.
  intros H. unfold in_heap, holds_block. apply eq_true_iff_eq. rewrite !existsb_exists.
  split; intros (b & Hb & E); exists b; split; auto.
  - eapply Permutation_in; eauto.
  - eapply Permutation_in; [apply Permutation_sym|]; eauto.
Qed.

Lemma holds_app l1 l2 p : holds_block (l1 ++ l2) p = holds_block l1 p || holds_block l2 p.
Proof. apply existsb_app. Qed.

Lemma holds_in l p : holds_block l p = true <-> In p (map fst l).
Proof.
  unfold holds_block. rewrite existsb_exists, in_map_iff. split.
  - intros (b & Hb & E). exists b. split; [lia|exact Hb].
  - intros (b & E & Hb). exists b. split; [exact Hb|lia].
Qed.
Lemma not_holds_in l p : holds_block l p = false <-> ~ In p (map fst l).
Proof. rewrite <- holds_in. destruct (holds_block l p); split; congruence. Qed.

Lemma without_none l p : holds_block l p = false -> without l p = l.
Proof.
  induction l as [|b l IH]; [reflexivity|]. cbn. destruct (fst b =? p); cbn; [discriminate|].
  intros H. f_equal. apply IH. exact H.
Qed.
Lemma resized_none l p q n : holds_block l p = false -> resized l p q n = l.
Proof.
  induction l as [|b l IH]; [reflexivity|]. cbn. destruct (fst b =? p); cbn; [discriminate|].
  intros H. f_equal. apply IH. exact H.
Qed.

(* The nodes reached from c, with their numbers. *)
Inductive chain (nds : list (option ALLOCATION)) : option nat -> list (nat * (N * N)) -> Prop :=
| chain_nil : chain nds None []
| chain_cons i a l : nth_error nds i = Some (Some a) -> chain nds (a_next a) l ->
                     chain nds (Some i) ((i, (a_ptr a, a_size a)) :: l).

Lemma chain_upd nds c l i x : chain nds c l -> ~ In i (map fst l) -> chain (upd nds i x) c l.
Proof.
  induction 1 as [|j a l Hj Hl IH]; intros Hn; [constructor|]. cbn in Hn.
  constructor; [|apply IH; tauto]. rewrite upd_other; [exact Hj|]. intros ->. apply Hn. left. reflexivity.
Qed.

Lemma chain_app nds c l x : chain nds c l -> chain (nds ++ [x]) c l.
Proof.
  induction 1 as [|j a l Hj Hl IH]; [constructor|]. constructor; [|exact IH].
  rewrite nth_error_app1; [exact Hj|]. apply nth_error_Some. congruence.
Qed.

Lemma chain_bound nds c l i : chain nds c l -> In i (map fst l) -> (i < length nds)%nat.
Proof.
  induction 1 as [|j a l Hj Hl IH]; cbn; [tauto|]. intros [<-|H]; [|auto].
  apply nth_error_Some. congruence.
Qed.

Lemma chain_fuel nds c l : chain nds c l -> NoDup (map fst l) -> (length l <= length nds)%nat.
Proof.
  intros H Hd. rewrite <- (map_length fst l), <- (seq_length (length nds) 0).
  apply NoDup_incl_length; [exact Hd|]. intros i Hi. apply in_seq. pose proof (chain_bound _ _ _ _ H Hi). lia.
Qed.

Lemma chain_split nds c l1 i q s l2 : chain nds c (l1 ++ (i, (q, s)) :: l2) ->
  exists a, nth_error nds i = Some (Some a) /\ a_ptr a = q /\ a_size a = s /\ chain nds (a_next a) l2.
Proof.
  revert c; induction l1 as [|x l1 IH]; intros c H; cbn in H.
  - inversion H; subst. eauto.
  - inversion H; subst. eauto.
Qed.

(* the number of the last node of l1, or prev *)
Definition last_id (prev : option nat) (l1 : list (nat * (N * N))) : option nat :=
  fold_left (fun _ x => Some (fst x)) l1 prev.

Lemma walk_none nds c l : chain nds c l -> forall fuel prev p, (length l <= fuel)%nat ->
  (match p with Some q => holds_block (map snd l) q = false | None => True end) -> walk fuel nds c prev p = Ok None.
Proof.
  induction 1 as [|j a l Hj Hl IH]; intros fuel prev p Hf Hp; [destruct fuel; reflexivity|].
  destruct fuel as [|fuel]; cbn in Hf; [lia|]. cbn. rewrite Hj. destruct p as [q|].
  - cbn in Hp. destruct (a_ptr a =? q); cbn in Hp; [discriminate|]. apply IH; [lia|exact Hp].
  - apply IH; [lia|exact I].
Qed.

Lemma walk_found nds c l1 i q s l2 : forall fuel prev, chain nds c (l1 ++ (i, (q, s)) :: l2) ->
  (length l1 < fuel)%nat -> holds_block (map snd l1) q = false ->
  walk fuel nds c prev (Some q) = Ok (Some (i, last_id prev l1)).
Proof.
  revert c; induction l1 as [|x l1 IH]; intros c fuel prev H Hf Hp; cbn in H; cbn in Hf;
    (destruct fuel as [|fuel]; [lia|]); inversion H as [|j a l Hj Hl E1 E2]; subst; cbn; rewrite Hj.
  - rewrite N.eqb_refl. reflexivity.
  - cbn in Hp. destruct (a_ptr a =? q); cbn in Hp; [discriminate|]. apply IH; [exact Hl|lia|exact Hp].
Qed.

(* gballoc_free unlinks a node *)
Lemma chain_unlink nds c l1 j qs i a l2 :
  chain nds c (l1 ++ (j, qs) :: (i, (a_ptr a, a_size a)) :: l2) ->
  NoDup (map fst (l1 ++ (j, qs) :: (i, (a_ptr a, a_size a)) :: l2)) ->
  nth_error nds i = Some (Some a) ->
  exists b, nth_error nds j = Some (Some b) /\
    chain (upd (upd nds j (Some {| a_size := a_size b; a_ptr := a_ptr b; a_next := a_next a |})) i None) c
          (l1 ++ (j, qs) :: l2).
Proof.
  revert c; induction l1 as [|x l1 IH]; intros c H Hd Hi; cbn in H, Hd.
  - inversion H as [|j' b l Hj Hl E1 E2]; subst. exists b. split; [exact Hj|]. cbn [app].
    inversion Hl as [|i' a' l' Hi' Hl' E1' E2']; subst. assert (a' = a) by congruence. subst a'.
    inversion Hd as [|? ? Hn1 Hd1]; subst. inversion Hd1 as [|? ? Hn2 Hd2]; subst. cbn in Hn1.
    set (b' := {| a_size := a_size b; a_ptr := a_ptr b; a_next := a_next a |}).
    change (a_ptr b, a_size b) with (a_ptr b', a_size b'). constructor.
    + rewrite upd_other by (intros ->; tauto). apply upd_same. apply nth_error_Some. congruence.
    + cbn [b' a_next]. apply chain_upd; [apply chain_upd|]; auto.
  - inversion H as [|k b l Hk Hl E1 E2]; subst. inversion Hd as [|? ? Hn1 Hd1]; subst.
    destruct (IH _ Hl Hd1 Hi) as (b' & Hj & Hc). exists b'. split; [exact Hj|]. cbn [app]. constructor; [|exact Hc].
    assert (Hkj : j <> k). { intros ->. apply Hn1. rewrite map_app. apply in_or_app. right. left. reflexivity. }
    assert (Hki : i <> k). { intros ->. apply Hn1. rewrite map_app. apply in_or_app. right. right. left. reflexivity. }
    rewrite !upd_other by auto. exact Hk.
Qed.

(* gballoc_realloc changes a node in place *)
Lemma chain_change nds c l1 i q s l2 a r n :
  chain nds c (l1 ++ (i, (q, s)) :: l2) -> NoDup (map fst (l1 ++ (i, (q, s)) :: l2)) ->
  nth_error nds i = Some (Some a) ->
  chain (upd nds i (Some {| a_size := n; a_ptr := r; a_next := a_next a |})) c (l1 ++ (i, (r, n)) :: l2).
Proof.
  revert c; induction l1 as [|x l1 IH]; intros c H Hd Hi; cbn in H, Hd.
  - inversion H as [|j' b l Hj Hl E1 E2]; subst. assert (b = a) by congruence. subst b. cbn [app].
    inversion Hd as [|? ? Hn1 Hd1]; subst.
    set (b' := {| a_size := n; a_ptr := r; a_next := a_next a |}).
    change (r, n) with (a_ptr b', a_size b'). constructor.
    + apply upd_same. apply nth_error_Some. congruence.
    + cbn [b' a_next]. apply chain_upd; auto.
  - inversion H as [|k b l Hk Hl E1 E2]; subst. inversion Hd as [|? ? Hn1 Hd1]; subst.
    cbn [app]. constructor; [|apply IH; auto].
    rewrite upd_other; [exact Hk|]. intros ->. apply Hn1. rewrite map_app. apply in_or_app. right. left. reflexivity.
Qed.

Lemma last_id_app prev l1 x : last_id prev (l1 ++ [x]) = Some (fst x).
Proof. unfold last_id. rewrite fold_left_app. reflexivity. Qed.

Lemma holds_split (l : list (nat * (N * N))) p : holds_block (map snd l) p = true ->
  exists l1 i s l2, l = l1 ++ (i, (p, s)) :: l2 /\ holds_block (map snd l1) p = false.
Proof.
  induction l as [|[i [q s]] l IH]; cbn; [discriminate|]. destruct (N.eqb_spec q p) as [->|Hne]; cbn.
  - intros _. exists [], i, s, l. split; reflexivity.
  - intros H. destruct (IH H) as (l1 & i' & s' & l2 & -> & Hl). exists ((i, (q, s)) :: l1), i', s', l2.
    split; [reflexivity|]. cbn. destruct (N.eqb_spec q p); [contradiction|exact Hl].
Qed.

Lemma total_app l1 l2 : total (l1 ++ l2) = total l1 + total l2.
Proof.
  induction l1 as [|b l IH]; [reflexivity|]. change (snd b + total (l ++ l2) = snd b + total l + total l2).
  rewrite IH. lia.
Qed.

Lemma without_app l1 l2 p : without (l1 ++ l2) p = without l1 p ++ without l2 p.
Proof. apply filter_app. Qed.
Lemma resized_app l1 l2 p q n : resized (l1 ++ l2) p q n = resized l1 p q n ++ resized l2 p q n.
Proof. apply map_app. Qed.

(* the ALLOCATION nodes not freed *)
Definition live (nds : list (option ALLOCATION)) : nat :=
  length (filter (fun x => match x with Some _ => true | None => false end) nds).
Lemma live_app nds x : live (nds ++ [Some x]) = S (live nds).
Proof. unfold live. rewrite filter_app, app_length. cbn. lia. Qed.
Lemma live_some nds i a b : nth_error nds i = Some (Some a) -> live (upd nds i (Some b)) = live nds.
Proof.
  unfold live. revert i; induction nds as [|x nds IH]; intros [|i] H; cbn in H; try discriminate.
  - injection H as ->. reflexivity.
  - cbn. specialize (IH i H). destruct x; cbn; lia.
Qed.
Lemma live_none nds i a : nth_error nds i = Some (Some a) -> S (live (upd nds i None)) = live nds.
Proof.
  unfold live. revert i; induction nds as [|x nds IH]; intros [|i] H; cbn in H; try discriminate.
  - injection H as ->. reflexivity.
  - cbn. specialize (IH i H). destruct x; cbn; lia.
Qed.

(* ------------------------------------------------------------------ *)
(* How the state of the program represents the blocks its clients hold. *)
Record inv (st : gstate) (sp : gspec) (l : list (nat * (N * N))) : Prop := {
  i_chain : chain (nodes st) (head st) l;
  i_ids : NoDup (map fst l);
  i_live : live (nodes st) = length l;
  i_blocks : map snd l = blocks sp;
  i_addr : NoDup (map fst (blocks sp ++ loose sp));
  i_heap : Permutation (heap st) (blocks sp ++ loose sp);
  i_on : initialized st = on sp;
  i_off : on sp = false -> blocks sp = [];
  i_total : total (blocks sp) < 2 ^ 64;
  i_count : on sp = true -> totalSize st = total (blocks sp) /\ maxSize st = peak sp /\ peak sp < 2 ^ 64 /\ total (blocks sp) <= peak sp }.

Lemma inv_start : inv gstart nothing [].
Proof. constructor; cbn; try constructor; try congruence. Qed.

Lemma wrap_sub a b : b <= a -> a < 2 ^ 64 -> wrap (a + (two64 - b)) = a - b.
Proof.
  intros H1 H2. unfold wrap, two64 in *. change (2 ^ 64) with 18446744073709551616 in *.
  replace (a + (18446744073709551616 - b)) with (a - b + 1 * 18446744073709551616) by lia.
  rewrite N.mod_add by discriminate. apply N.mod_small. lia.
Qed.
Lemma wrap_add_sub a b c : b <= a -> c < 2 ^ 64 -> a - b + c < 2 ^ 64 -> a < 2 ^ 64 -> wrap (wrap (a + (two64 - b)) + c) = a - b + c.
Proof.
  intros H1 H2 H3 H4. unfold wrap, two64 in *. change (2 ^ 64) with 18446744073709551616 in *.
  replace (a + (18446744073709551616 - b)) with (a - b + 1 * 18446744073709551616) by lia.
  rewrite N.mod_add by discriminate. rewrite (N.mod_small (a - b)) by lia. apply N.mod_small. exact H3.
Qed.

Lemma inv_give st sp l real size n a : inv st sp l -> real = n -> size = wrap n -> on sp = true ->
  forall r sp1, give sp n a = Some (r, sp1) ->
  exists st1 l1, obind (c_malloc (heap st) real a) (fun x =>
      match fst x with
      | None => Ok (GP None, with_heap st (snd x))
      | Some p => Ok (GP (Some p), track st p size (snd x))
      end) = Ok (r, st1) /\ inv st1 sp1 l1.
Proof.
  intros I -> -> Hon r sp1 H. destruct I. destruct a as [p|]; cbn in H |- *.
  2:{ injection H as <- <-. exists st, l. destruct st; split; [reflexivity|]. constructor; auto. }
  rewrite (in_heap_perm _ _ p i_heap0). unfold free_addr in H.
  destruct (holds_block (blocks sp ++ loose sp) p) eqn:Hp; cbn in H; [discriminate|].
  destruct (N.ltb_spec (total (blocks sp) + n) (2 ^ 64)) as [Hs|]; [|discriminate].
  rewrite Hon in H. injection H as <- <-. destruct (i_count0 Hon) as (Ht & Hm & Hpk & Hle).
  eexists _, ((length (nodes st), (p, n)) :: l). split; [reflexivity|].
  assert (Ew : wrap n = n) by (apply wrap_small; unfold two64; lia).
  assert (Et : wrap (totalSize st + wrap n) = total (blocks sp) + n).
  { rewrite Ew, Ht. apply wrap_small. exact Hs. }
  constructor; cbn [nodes head blocks loose set_blocks on track count_more initialized totalSize maxSize heap peak].
  - rewrite Ew. set (a := {| a_size := n; a_ptr := p; a_next := head st |}).
    change (p, n) with (a_ptr a, a_size a). constructor.
    + rewrite nth_error_app2, Nat.sub_diag by lia. reflexivity.
    + apply chain_app. exact i_chain0.
  - cbn. constructor; [|exact i_ids0]. intros Hi. pose proof (chain_bound _ _ _ _ i_chain0 Hi). lia.
  - rewrite live_app. cbn. lia.
  - cbn. rewrite i_blocks0. reflexivity.
  - cbn. constructor; [apply not_holds_in; exact Hp|exact i_addr0].
  - cbn. constructor. exact i_heap0.
  - congruence.
  - discriminate.
  - change (n + total (blocks sp) < 2 ^ 64). lia.
  - intros _. rewrite Et, Hm. change (total ((p, n) :: blocks sp)) with (n + total (blocks sp)).
    split; [lia|]. destruct (N.ltb_spec (peak sp) (total (blocks sp) + n)); lia.
Qed.

(* while gballoc is off the calls go to the C allocator *)
Lemma inv_loose st sp l sp' h : inv st sp l -> on sp = false ->
  on sp' = false -> blocks sp' = [] -> peak sp' = peak sp ->
  NoDup (map fst (loose sp')) -> Permutation h (loose sp') ->
  inv (with_heap st h) sp' l.
Proof.
  intros [] Hoff Ho Hb Hp Hn Hh. pose proof (i_off0 Hoff) as E0. constructor; cbn; auto; try congruence.
  - rewrite Hb. exact Hn.
  - rewrite Hb. exact Hh.
Qed.

Lemma inv_give_off st sp l n a : inv st sp l -> on sp = false ->
  forall r sp1, give sp n a = Some (r, sp1) ->
  exists st1, obind (c_malloc (heap st) n a) (fun x => Ok (GP (fst x), with_heap st (snd x))) = Ok (r, st1) /\ inv st1 sp1 l.
Proof.
  intros I Hon r sp1 H. destruct a as [p|]; cbn in H |- *.
  2:{ injection H as <- <-. exists st. destruct st; split; [reflexivity|exact I]. }
  rewrite (in_heap_perm _ _ p (i_heap _ _ _ I)). unfold free_addr in H.
  destruct (holds_block (blocks sp ++ loose sp) p) eqn:Hp; cbn in H; [discriminate|].
  destruct (N.ltb_spec (total (blocks sp) + n) (2 ^ 64)) as [Hs|]; [|discriminate].
  rewrite Hon in H. injection H as <- <-. eexists. split; [reflexivity|].
  pose proof (i_off _ _ _ I Hon) as E0. pose proof (i_addr _ _ _ I) as Ea. pose proof (i_heap _ _ _ I) as Eh.
  rewrite E0 in Hp, Ea, Eh. cbn [app] in Hp, Ea, Eh.
  eapply inv_loose; eauto; cbn; [constructor; [apply not_holds_in; exact Hp|exact Ea] | constructor; exact Eh].
Qed.

Lemma nodup_without (l : list (N * N)) p : NoDup (map fst l) -> NoDup (map fst (without l p)).
Proof.
  induction l as [|b l IH]; cbn; [auto|]. intros H. inversion H as [|? ? Hn Hd]; subst.
  destruct (fst b =? p); cbn; [auto|]. constructor; [|auto]. intros Hi. apply Hn.
  apply in_map_iff in Hi as (x & Ex & Hx). apply filter_In in Hx as [Hx _]. apply in_map_iff. eauto.
Qed.

Lemma without_not_holds l p : holds_block (without l p) p = false.
Proof.
  induction l as [|b l IH]; [reflexivity|]. cbn. destruct (fst b =? p) eqn:E; cbn; [exact IH|]. rewrite E. exact IH.
Qed.
Lemma without_holds l p q : q <> p -> holds_block (without l p) q = holds_block l q.
Proof.
  intros Hne. induction l as [|b l IH]; [reflexivity|]. cbn. destruct (N.eqb_spec (fst b) p) as [E|E]; cbn.
  - unfold holds_block in IH at 1. unfold without in IH at 1. fold (without l p). fold (holds_block (without l p) q).
    destruct (N.eqb_spec (fst b) q); [congruence|]. exact IH.
  - f_equal. exact IH.
Qed.

Lemma nodup_middle {A} (l1 : list A) x l2 : NoDup (l1 ++ x :: l2) -> ~ In x l1 /\ ~ In x l2 /\ NoDup (l1 ++ l2).
Proof.
  intros H. pose proof (NoDup_remove_1 _ _ _ H) as H1. pose proof (NoDup_remove_2 _ _ _ H) as H2.
  repeat split; auto; intros Hi; apply H2; apply in_or_app; auto.
Qed.

Lemma inv_free st sp l p e : inv st sp l -> on sp = true -> lock_ok e = true -> holds_block (blocks sp) p = true ->
  exists st1 l1, gballoc_free_locked st (head st) (Some p) e = Ok (GU, st1) /\ inv st1 (set_blocks sp (without (blocks sp) p)) l1.
Proof.
  intros I Hon Hlk Hp. pose proof I as []. destruct (i_count0 Hon) as (Ht & Hm & Hpk & Hle).
  rewrite <- i_blocks0 in Hp. destruct (holds_split _ _ Hp) as (l1 & i & s & l2 & -> & Hl1).
  destruct (chain_split _ _ _ _ _ _ _ i_chain0) as (a & Hi & Ha & Hs & Hc2). subst p s.
  set (sp' := set_blocks sp _). unfold gballoc_free_locked. rewrite Hlk. cbn [negb].
  rewrite (walk_found (nodes st) (head st) l1 i (a_ptr a) (a_size a) l2 _ None i_chain0).
  2:{ pose proof (chain_fuel _ _ _ i_chain0 i_ids0) as Hf. rewrite app_length in Hf. cbn in Hf. lia. }
  2:{ exact Hl1. }
  cbn [obind]. unfold get_node at 1. rewrite Hi. cbn [obind c_free].
  rewrite (in_heap_perm _ _ _ i_heap0), holds_app, <- i_blocks0, Hp. cbn [orb obind].
  assert (Eb : blocks sp = map snd l1 ++ (a_ptr a, a_size a) :: map snd l2) by (rewrite <- i_blocks0, map_app; reflexivity).
  rewrite Eb, map_app, map_app in i_addr0. cbn in i_addr0. rewrite <- app_assoc in i_addr0.
  change ((a_ptr a :: map fst (map snd l2)) ++ map fst (loose sp)) with (a_ptr a :: (map fst (map snd l2) ++ map fst (loose sp))) in i_addr0.
  destruct (nodup_middle _ _ _ i_addr0) as (_ & Hn2 & Hd2).
  assert (Hl2 : holds_block (map snd l2) (a_ptr a) = false).
  { apply not_holds_in. intros Hx. apply Hn2. apply in_or_app. auto. }
  assert (Hlo : holds_block (loose sp) (a_ptr a) = false).
  { apply not_holds_in. intros Hx. apply Hn2. apply in_or_app. auto. }
  assert (Ew : without (blocks sp) (a_ptr a) = map snd l1 ++ map snd l2).
  { rewrite Eb, without_app. cbn. rewrite N.eqb_refl. cbn. fold (without (map snd l2) (a_ptr a)).
    rewrite !without_none by assumption. reflexivity. }
  assert (Etot : total (blocks sp) = total (map snd l1 ++ map snd l2) + a_size a).
  { rewrite Eb, !total_app. change (total ((a_ptr a, a_size a) :: map snd l2)) with (a_size a + total (map snd l2)). lia. }
  assert (Ec : wrap (totalSize st + (two64 - a_size a)) = total (map snd l1 ++ map snd l2)).
  { rewrite wrap_sub; lia. }
  assert (Ew2 : heap_remove (blocks sp ++ loose sp) (a_ptr a) = without (blocks sp) (a_ptr a) ++ loose sp).
  { unfold heap_remove. rewrite filter_app. fold (without (blocks sp) (a_ptr a)) (without (loose sp) (a_ptr a)).
    rewrite (without_none (loose sp)) by exact Hlo. reflexivity. }
  assert (Hids : NoDup (map fst (l1 ++ l2))).
  { rewrite map_app in i_ids0 |- *. exact (proj2 (proj2 (nodup_middle _ _ _ i_ids0))). }
  assert (Hnew : forall nds hd, chain nds hd (l1 ++ l2) -> S (live nds) = live (nodes st) ->
    inv {| nodes := nds; head := hd; totalSize := wrap (totalSize st + (two64 - a_size a)); maxSize := maxSize st;
           initialized := initialized st; heap := heap_remove (heap st) (a_ptr a) |} sp' (l1 ++ l2)).
  { intros nds hd Hc Hlv. rewrite app_length in i_live0. cbn in i_live0. constructor; cbn [nodes head blocks loose sp' set_blocks on initialized totalSize maxSize heap peak]; auto; try congruence.
    - rewrite app_length. lia.
    - rewrite Ew, map_app. reflexivity.
    - rewrite Ew, !map_app, <- app_assoc. exact Hd2.
    - rewrite <- Ew2. apply perm_filter. exact i_heap0.
    - rewrite Ew. lia.
    - intros _. rewrite Ec, Ew. split; [reflexivity|]. split; [|lia].
      lia. }
  destruct l1 as [|x l1'] using rev_ind.
  - cbn [last_id fold_left obind]. eexists _, ([] ++ l2). split; [reflexivity|]. apply Hnew; cbn [app fst snd].
    + apply chain_upd; [exact Hc2|]. cbn in i_ids0. inversion i_ids0; subst; auto.
    + eapply live_none; eauto.
  - clear IHl1'. rewrite last_id_app. destruct x as [j qs]. cbn [fst].
    rewrite <- app_assoc in i_chain0, i_ids0. cbn [app] in i_chain0, i_ids0.
    destruct (chain_unlink _ _ _ _ _ _ _ _ i_chain0 i_ids0 Hi) as (b & Hj & Hc).
    unfold get_node. rewrite Hj. cbn [obind fst snd]. eexists _, _. split; [reflexivity|]. apply Hnew.
    + rewrite <- app_assoc. exact Hc.
    + assert (Hne : j <> i).
      { rewrite map_app in i_ids0. apply nodup_middle in i_ids0 as (_ & Hx & _). cbn in Hx. intros ->. tauto. }
      erewrite live_none; [eapply live_some; exact Hj|]. rewrite upd_other by exact Hne. exact Hi.
Qed.

Lemma inv_realloc st sp l p q n e : inv st sp l -> on sp = true -> lock_ok e = true -> holds_block (blocks sp) p = true ->
  answer e = Some q -> (n =? 0) = false ->
  free_addr sp q || (q =? p) = true -> total (without (blocks sp) p) + n < 2 ^ 64 ->
  exists st1 l1, gballoc_realloc st (Some p) n e = Ok (GP (Some q), st1) /\ inv st1 (set_blocks sp (resized (blocks sp) p q n)) l1.
Proof.
  intros I Hon Hlk Hp Hans Hn0 Hq Hsz. pose proof I as []. destruct (i_count0 Hon) as (Ht & Hm & Hpk & Hle).
  rewrite <- i_blocks0 in Hp. destruct (holds_split _ _ Hp) as (l1 & i & s & l2 & -> & Hl1).
  destruct (chain_split _ _ _ _ _ _ _ i_chain0) as (a & Hi & Ha & Hs & Hc2). subst p s.
  set (sp' := set_blocks sp _). unfold gballoc_realloc. rewrite i_on0, Hon, Hlk. cbn [negb].
  rewrite (walk_found (nodes st) (head st) l1 i (a_ptr a) (a_size a) l2 _ None i_chain0).
  2:{ pose proof (chain_fuel _ _ _ i_chain0 i_ids0) as Hf. rewrite app_length in Hf. cbn in Hf. lia. }
  2:{ exact Hl1. }
  cbn [obind]. unfold get_node at 1. rewrite Hi. cbn [obind c_realloc].
  rewrite (in_heap_perm _ _ _ i_heap0), holds_app, <- i_blocks0, Hp. cbn [orb obind negb]. rewrite Hn0, Hans.
  assert (Eb : blocks sp = map snd l1 ++ (a_ptr a, a_size a) :: map snd l2) by (rewrite <- i_blocks0, map_app; reflexivity).
  pose proof i_addr0 as Haddr.
  rewrite Eb, map_app, map_app in Haddr. cbn in Haddr. rewrite <- app_assoc in Haddr.
  change ((a_ptr a :: map fst (map snd l2)) ++ map fst (loose sp)) with (a_ptr a :: (map fst (map snd l2) ++ map fst (loose sp))) in Haddr.
  destruct (nodup_middle _ _ _ Haddr) as (Hn1 & Hn2 & Hd2).
  assert (Hl2 : holds_block (map snd l2) (a_ptr a) = false).
  { apply not_holds_in. intros Hx. apply Hn2. apply in_or_app. auto. }
  assert (Hlo : holds_block (loose sp) (a_ptr a) = false).
  { apply not_holds_in. intros Hx. apply Hn2. apply in_or_app. auto. }
  assert (Ew : without (blocks sp) (a_ptr a) = map snd l1 ++ map snd l2).
  { rewrite Eb, without_app. cbn. rewrite N.eqb_refl. cbn. fold (without (map snd l2) (a_ptr a)).
    rewrite !without_none by assumption. reflexivity. }
  assert (Er : resized (blocks sp) (a_ptr a) q n = map snd l1 ++ (q, n) :: map snd l2).
  { rewrite Eb, resized_app. cbn. rewrite N.eqb_refl. fold (resized (map snd l2) (a_ptr a) q n).
    rewrite !resized_none by assumption. reflexivity. }
  assert (Etot : total (blocks sp) = total (map snd l1 ++ map snd l2) + a_size a).
  { rewrite Eb, !total_app. change (total ((a_ptr a, a_size a) :: map snd l2)) with (a_size a + total (map snd l2)). lia. }
  assert (Ew2 : heap_remove (blocks sp ++ loose sp) (a_ptr a) = without (blocks sp) (a_ptr a) ++ loose sp).
  { unfold heap_remove. rewrite filter_app. fold (without (blocks sp) (a_ptr a)) (without (loose sp) (a_ptr a)).
    rewrite (without_none (loose sp)) by exact Hlo. reflexivity. }
  assert (Hph : Permutation (heap_remove (heap st) (a_ptr a)) ((map snd l1 ++ map snd l2) ++ loose sp)).
  { rewrite <- Ew, <- Ew2. apply perm_filter. exact i_heap0. }
  assert (Hfree : holds_block ((map snd l1 ++ map snd l2) ++ loose sp) q = false).
  { rewrite <- Ew. destruct (N.eqb_spec q (a_ptr a)) as [->|Hne].
    - rewrite holds_app, without_not_holds, Hlo. reflexivity.
    - rewrite orb_false_r in Hq. unfold free_addr in Hq. rewrite holds_app in Hq |- *. rewrite without_holds by exact Hne.
      destruct (holds_block (blocks sp) q || holds_block (loose sp) q); [discriminate|reflexivity]. }
  rewrite (in_heap_perm _ _ _ Hph), Hfree. cbn [obind fst snd].
  eexists _, (l1 ++ (i, (q, n)) :: l2). split; [reflexivity|].
  assert (Ec : wrap (wrap (totalSize st + (two64 - a_size a)) + n) = total (map snd l1 ++ map snd l2) + n).
  { rewrite Ew in Hsz. rewrite wrap_add_sub; lia. }
  assert (Etr : total (map snd l1 ++ (q, n) :: map snd l2) = total (map snd l1 ++ map snd l2) + n).
  { rewrite !total_app. change (total ((q, n) :: map snd l2)) with (n + total (map snd l2)). lia. }
  constructor; cbn [nodes head blocks loose sp' set_blocks on count_more initialized totalSize maxSize heap peak]; try congruence.
  - eapply chain_change; eauto.
  - rewrite map_app in i_ids0 |- *. exact i_ids0.
  - rewrite (live_some _ _ _ _ Hi), i_live0, !app_length. reflexivity.
  - rewrite Er, map_app. reflexivity.
  - rewrite Er, !map_app. cbn [map fst]. rewrite <- app_assoc. cbn [app]. apply NoDup_Add with (a := q) (l := map fst (map snd l1) ++ (map fst (map snd l2) ++ map fst (loose sp))).
    + apply Add_app.
    + split; [exact Hd2|]. apply not_holds_in in Hfree. rewrite !map_app, <- app_assoc in Hfree. exact Hfree.
  - rewrite Er. rewrite <- app_assoc. change (((q, n) :: map snd l2) ++ loose sp) with ((q, n) :: (map snd l2 ++ loose sp)).
    apply Permutation_cons_app. rewrite app_assoc. exact Hph.
  - intros _. rewrite Ec, Er, Etr, Hm. rewrite Ew in Hsz. split; [reflexivity|].
    destruct (N.ltb_spec (peak sp) (total (map snd l1 ++ map snd l2) + n)); lia.
Qed.

Theorem inv_step st sp l op r sp1 : inv st sp l -> gspec_step sp op = Some (r, sp1) ->
  exists st1 l1, gstep st op = Ok (r, st1) /\ inv st1 sp1 l1.
Proof.
  intros I H. pose proof (i_on _ _ _ I) as Hon. destruct op as [e| |n e|k n e|p n e|p e|e|e]; cbn in H |- *.
  - unfold gballoc_init. rewrite Hon. destruct (on sp) eqn:On; cbn in H.
    + injection H as <- <-. eauto.
    + destruct (lock_ok e); cbn in H |- *; injection H as <- <-; [|eauto].
      eexists _, l. split; [reflexivity|]. destruct I. pose proof (i_off0 On) as E0. constructor; cbn; auto; try congruence.
      intros _. rewrite E0. repeat split; cbn; lia.
  - destruct (blocks sp) as [|b bs] eqn:E0; [|discriminate]. injection H as <- <-. eexists _, l. split; [reflexivity|].
    destruct I. rewrite E0 in *. constructor; cbn; auto; discriminate.
  - unfold gballoc_malloc, gballoc_alloc. rewrite Hon. destruct (on sp) eqn:On; cbn in H |- *.
    + destruct (lock_ok e); cbn in H |- *; [|injection H as <- <-; eauto].
      destruct (node_ok e); cbn in H |- *; [|injection H as <- <-; eauto].
      destruct (answer e) eqn:Ea.
      * eapply inv_give; eauto. unfold give in H. destruct (N.ltb_spec (total (blocks sp) + n) (2 ^ 64)) as [Hs|].
        -- symmetry. apply wrap_small. unfold two64. lia.
        -- rewrite andb_false_r in H. discriminate.
      * cbn in *. injection H as <- <-. exists st, l. destruct st; split; [reflexivity|exact I].
    + destruct (inv_give_off _ _ _ n (answer e) I On _ _ H) as (st1 & E & I1). eauto.
  - unfold gballoc_calloc, gballoc_alloc. rewrite Hon. destruct (on sp) eqn:On; cbn in H |- *.
    + destruct (lock_ok e); cbn in H |- *; [|injection H as <- <-; eauto].
      destruct (node_ok e); cbn in H |- *; [|injection H as <- <-; eauto].
      eapply inv_give; eauto.
    + destruct (inv_give_off _ _ _ (k * n) (answer e) I On _ _ H) as (st1 & E & I1). eauto.
  - destruct p as [p|].
    2:{ unfold gballoc_realloc. rewrite Hon. destruct (on sp) eqn:On; cbn in H |- *.
        + destruct (lock_ok e); cbn in H |- *; [|injection H as <- <-; eauto].
          destruct (node_ok e); cbn in H |- *; [|injection H as <- <-; eauto].
          destruct (answer e) eqn:Ea.
          * eapply inv_give; eauto. unfold give in H. destruct (N.ltb_spec (total (blocks sp) + n) (2 ^ 64)) as [Hs|].
            -- symmetry. apply wrap_small. unfold two64. lia.
            -- rewrite andb_false_r in H. discriminate.
          * cbn in *. injection H as <- <-. exists st, l. destruct st; split; [reflexivity|exact I].
        + destruct (inv_give_off _ _ _ n (answer e) I On _ _ H) as (st1 & E & I1). eauto. }
    destruct (on sp) eqn:On; cbn in H.
    + destruct (lock_ok e) eqn:Lk; cbn in H.
      2:{ injection H as <- <-. unfold gballoc_realloc. rewrite Hon, Lk. cbn. eauto. }
      destruct (n =? 0) eqn:N0; [discriminate|].
      destruct (holds_block (blocks sp) p) eqn:Hp.
      * destruct (answer e) as [q|] eqn:Ea.
        -- destruct (free_addr sp q || (q =? p)) eqn:Hq; cbn in H; [|discriminate].
           destruct (N.ltb_spec (total (without (blocks sp) p) + n) (2 ^ 64)); [|discriminate].
           injection H as <- <-. eapply inv_realloc; eauto.
        -- injection H as <- <-. exists st, l. split; [|exact I]. unfold gballoc_realloc. rewrite Hon, Lk. cbn [negb].
           pose proof I as []. pose proof Hp as Hp'. rewrite <- i_blocks0 in Hp.
           destruct (holds_split _ _ Hp) as (l1 & i & s & l2 & -> & Hl1).
           rewrite (walk_found (nodes st) (head st) l1 i p s l2 _ None i_chain0).
           2:{ pose proof (chain_fuel _ _ _ i_chain0 i_ids0) as Hf. rewrite app_length in Hf. cbn in Hf. lia. }
           2:{ exact Hl1. }
           destruct (chain_split _ _ _ _ _ _ _ i_chain0) as (a & Hi & Ha & Hs & Hc2).
           cbn [obind]. unfold get_node. rewrite Hi. cbn [obind c_realloc].
           rewrite (in_heap_perm _ _ _ i_heap0), holds_app, Hp', N0, Ea. cbn. destruct st; reflexivity.
      * destruct (holds_block (loose sp) p); [|discriminate]. injection H as <- <-. exists st, l. split; [|exact I].
        unfold gballoc_realloc. rewrite Hon, Lk. cbn [negb]. pose proof I as [].
        rewrite (walk_none _ _ _ i_chain0); [reflexivity| |].
        -- apply (chain_fuel _ _ _ i_chain0 i_ids0).
        -- rewrite i_blocks0. exact Hp.
    + unfold gballoc_realloc. rewrite Hon. cbn [negb].
      destruct (n =? 0) eqn:N0; [discriminate|]. destruct (holds_block (loose sp) p) eqn:Hp; [|discriminate].
      pose proof (i_off _ _ _ I On) as E0. pose proof (i_addr _ _ _ I) as Ead. pose proof (i_heap _ _ _ I) as Eh.
      unfold free_addr in H. rewrite E0 in H, Ead, Eh. cbn [app] in H, Ead, Eh.
      unfold c_realloc. rewrite (in_heap_perm _ _ _ Eh), Hp, N0. cbn [negb].
      destruct (answer e) as [q|].
      * assert (Hph : Permutation (heap_remove (heap st) p) (without (loose sp) p)) by (apply perm_filter; exact Eh).
        rewrite (in_heap_perm _ _ _ Hph).
        destruct (negb (holds_block (loose sp) q) || (q =? p)) eqn:Hq; [|discriminate]. injection H as <- <-.
        assert (Hfree : holds_block (without (loose sp) p) q = false).
        { destruct (N.eqb_spec q p) as [E|Hne]; [rewrite E; apply without_not_holds|]. rewrite without_holds by exact Hne.
          destruct (holds_block (loose sp) q); [discriminate|reflexivity]. }
        rewrite Hfree. cbn [obind fst snd]. eexists _, l. split; [reflexivity|].
        eapply inv_loose; eauto; cbn.
        -- constructor; [apply not_holds_in; exact Hfree|apply nodup_without; exact Ead].
        -- constructor. exact Hph.
      * injection H as <- <-. exists st, l. destruct st; split; [reflexivity|exact I].
  - destruct p as [p|].
    2:{ injection H as <- <-. exists st, l. split; [|exact I]. unfold gballoc_free, gballoc_free_locked. pose proof I as [].
        rewrite Hon. destruct (on sp); cbn; [|destruct st; reflexivity]. destruct (lock_ok e); [|reflexivity]. cbn.
        rewrite (walk_none _ _ _ i_chain0); [reflexivity| |exact Logic.I]. apply (chain_fuel _ _ _ i_chain0 i_ids0). }
    unfold gballoc_free. rewrite Hon. destruct (on sp) eqn:On; cbn [negb].
    + destruct (lock_ok e) eqn:Lk; cbn in H.
      2:{ injection H as <- <-. unfold gballoc_free_locked. rewrite Lk. cbn. eauto. }
      destruct (holds_block (blocks sp) p) eqn:Hp.
      * injection H as <- <-. eapply inv_free; eauto.
      * destruct (holds_block (loose sp) p); [|discriminate]. injection H as <- <-. exists st, l. split; [|exact I].
        unfold gballoc_free_locked. rewrite Lk. cbn [negb]. pose proof I as [].
        rewrite (walk_none _ _ _ i_chain0); [reflexivity| |].
        -- apply (chain_fuel _ _ _ i_chain0 i_ids0).
        -- rewrite i_blocks0. exact Hp.
    + destruct (holds_block (loose sp) p) eqn:Hp; [|discriminate]. injection H as <- <-.
      pose proof (i_off _ _ _ I On) as E0. pose proof (i_addr _ _ _ I) as Ead. pose proof (i_heap _ _ _ I) as Eh.
      rewrite E0 in Ead, Eh. cbn [app] in Ead, Eh.
      unfold c_free. rewrite (in_heap_perm _ _ _ Eh), Hp. cbn [obind]. eexists _, l. split; [reflexivity|].
      eapply inv_loose; eauto; cbn.
      * apply nodup_without. exact Ead.
      * apply perm_filter. exact Eh.
  - injection H as <- <-. exists st, l. split; [|exact I]. unfold gballoc_getMaximumMemoryUsed. rewrite Hon.
    destruct (on sp) eqn:On; [|reflexivity]. destruct (i_count _ _ _ I On) as (_ & -> & _). destruct (lock_ok e); reflexivity.
  - injection H as <- <-. exists st, l. split; [|exact I]. unfold gballoc_getCurrentMemoryUsed. rewrite Hon.
    destruct (on sp) eqn:On; [|reflexivity]. destruct (i_count _ _ _ I On) as (-> & _). destruct (lock_ok e); reflexivity.
Qed.

Lemma inv_run ops : forall st sp l rs sp1, inv st sp l -> gspec_run sp ops = Some (rs, sp1) ->
  exists st1 l1, grun st ops = Ok (rs, st1) /\ inv st1 sp1 l1.
Proof.
  induction ops as [|op ops IH]; intros st sp l rs sp1 I H; cbn in H |- *.
  - injection H as <- <-. eauto.
  - destruct (gspec_step sp op) as [[r sp2]|] eqn:E; [|discriminate].
    destruct (gspec_run sp2 ops) as [[rs' sp3]|] eqn:E2; [|discriminate]. injection H as <- <-.
    destruct (inv_step _ _ _ _ _ _ I E) as (st1 & l1 & Es & I1). rewrite Es. cbn.
    destruct (IH _ _ _ _ _ I1 E2) as (st2 & l2 & Er & I2). rewrite Er. cbn. eauto.
Qed.
