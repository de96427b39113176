(* Theorems about src/list.c: C19, C20. *)
From Verif Require Import Base Refine List_Model List_Spec List_Proofs.
Open Scope N_scope.

Definition lempty : lheap := {| nodes := []; heads := [] |}.
Definition lspec0 : lspec := {| added := 0; seqs := [] |}.

Lemma lrep_init : lrep lempty lspec0.
Proof.
  constructor; cbn; try reflexivity.
  - intros [|l] s; cbn; discriminate.
  - intros [|l]; reflexivity.
  - intros [|l] s; cbn; discriminate.
  - intros [|l] l' s s' i _; cbn; discriminate.
  - intros [|a] n; cbn; discriminate.
Qed.

(** * C19: histories of list calls are histories on sequences *)

(* For every history of calls over any number of lists and any allocation outcomes:
   unless a call uses a destroyed list or a removed item, every call returns what the
   sequences say, and at the end a client walking any list that is still alive from its
   head meets exactly the items of its sequence, in order (see lists_walk). *)
Theorem lists_refine_sequences : forall (ops : list lop) (o : oracle),
  exists ms, length ms = length ops /\ (In false ms -> In false o) /\
    forall rs sp, srun lsp_step lspec0 ops ms = Some (rs, sp) ->
    exists st o', run lstep lempty ops o = Some ((rs, st), o') /\ lrep st sp.
Proof.
  intros ops o. apply (refinement lstep lsp_step lrep list_simulate). apply lrep_init.
Qed.

(* A client that walks a list with list_get_head_item, list_get_next_item and
   list_item_get_value. *)
Fixpoint walk_items (fuel : nat) (st : lheap) (i : option nat) : option (list (nat * N)) :=
  match i with
  | None => Some []
  | Some a =>
      match fuel with
      | O => None
      | S k =>
          match list_item_get_value st (Some a) [], list_get_next_item st (Some a) [] with
          | Some ((LRVal v, _), _), Some ((LRItem nx, _), _) =>
              match walk_items k st nx with Some t => Some ((a, v) :: t) | None => None end
          | _, _ => None
          end
      end
  end.
Definition walk_list (fuel : nat) (st : lheap) (l : nat) : option (list (nat * N)) :=
  match list_get_head_item st (Some l) [] with
  | Some ((LRItem h, _), _) => walk_items fuel st h
  | _ => None
  end.

Theorem lists_walk : forall st sp l s, lrep st sp -> seq_of sp l = Some s ->
  forall fuel, (length s <= fuel)%nat -> walk_list fuel st l = Some s.
Proof.
  intros st sp l s R L fuel Hf. destruct (lr_chain _ _ R l s L) as (h & Eh & C).
  unfold walk_list, list_get_head_item, bind, lift, ret. rewrite Eh. clear Eh L.
  revert fuel Hf. induction C as [|a n s E C IH]; intros fuel Hf.
  - destruct fuel; reflexivity.
  - destruct fuel as [|fuel]; [cbn in Hf; lia|]. cbn.
    unfold bind, lift, ret. rewrite E. rewrite (IH fuel) by (cbn in Hf; lia). reflexivity.
Qed.

(* Handles never repeat: each item of each list has its own. *)
Theorem lists_handles_distinct : forall st sp l s l' s' p q,
  lrep st sp -> seq_of sp l = Some s -> seq_of sp l' = Some s' ->
  forall i v w, nth_error s p = Some (i, v) -> nth_error s' q = Some (i, w) -> l = l' /\ p = q.
Proof.
  intros st sp l s l' s' p q R L L' i v w E E'.
  assert (I1 : In i (hs s)) by (unfold hs; apply in_map_iff; exists (i, v); split; [reflexivity|eapply nth_error_In, E]).
  assert (I2 : In i (hs s')) by (unfold hs; apply in_map_iff; exists (i, w); split; [reflexivity|eapply nth_error_In, E']).
  destruct (Nat.eq_dec l l') as [->|Hne]; [|exfalso; eapply (lr_disj _ _ R l l'); eauto].
  split; [reflexivity|]. rewrite L in L'. injection L' as <-.
  pose proof (lr_nodup _ _ R _ _ L) as D. apply (NoDup_nth_error (hs s)); [exact D| |].
  - unfold hs. rewrite map_length. apply nth_error_Some. congruence.
  - unfold hs. rewrite !nth_error_map, E, E'. reflexivity.
Qed.

(* Nothing leaks: when the lists are all destroyed, every node has been freed. *)
Theorem lists_destroyed_nothing_left : forall st sp, lrep st sp ->
  (forall l, seq_of sp l = None) -> forall a, getnode (nodes st) a = None.
Proof.
  intros st sp R H a. destruct (getnode (nodes st) a) as [n|] eqn:E; [|reflexivity].
  destruct (lr_owned _ _ R a n E) as (l & s & El & _). rewrite H in El. discriminate.
Qed.

(* Failing calls (no memory, NULL, item not in the list) change nothing at all. *)
Theorem lists_failure_changes_nothing : forall st op o r st' o',
  lstep st op o = Some ((r, st'), o') ->
  (r = LRInt false \/ r = LRItem None \/ r = LRList None) -> st' = st.
Proof.
  intros st op o r st' o' H Hr.
  destruct op; cbn [lstep] in H;
    unfold list_create, list_destroy, list_add, list_remove, list_get_head_item, list_get_next_item,
      list_item_get_value, list_find, bind, lift, ret in H;
    crunch H; inversion H; subst; auto; destruct Hr as [Hr|[Hr|Hr]]; discriminate.
Qed.

(** * C20: list_find *)

(* list_find returns the first item, in order, on which the match function holds, after
   calling it exactly on the items up to and including that one; NULL if none, after
   calling it once on every item. *)
Theorem list_find_first : forall st sp l s f o,
  lrep st sp -> seq_of sp l = Some s ->
  exists i calls, list_find st (Some l) (Some f) o = Some ((LRFind i calls, st), o) /\
    ((exists pre v post a, s = pre ++ (a, v) :: post /\ i = Some a /\ f a v = true /\
        (forall b w, In (b, w) pre -> f b w = false) /\ calls = map fst pre ++ [a])
     \/ (i = None /\ (forall b w, In (b, w) s -> f b w = false) /\ calls = map fst s)).
Proof.
  intros st sp l s f o R L. destruct (lr_chain _ _ R l s L) as (h & Eh & C).
  pose proof (lr_nodup _ _ R _ _ L) as D. pose proof (chain_length _ _ _ C D) as Hlen.
  cbn [list_find]. unfold bind, lift, ret. rewrite Eh. rewrite (find_loop_ok _ f s _ h C) by lia.
  eexists _, _. split; [reflexivity|]. clear. induction s as [|[a v] s IH]; cbn.
  - right. split; [reflexivity|]. split; [intros b w []|reflexivity].
  - destruct (f a v) eqn:E.
    + left. exists [], v, s, a. cbn. repeat split; auto. intros b w [].
    + destruct (first_match f s) as [r cs]. cbn in *.
      destruct IH as [(pre & v' & post & a' & -> & -> & Hf & Hp & ->)|(-> & Hp & ->)].
      * left. exists ((a, v) :: pre), v', post, a'. cbn. repeat split; auto.
        intros b w [H|H]; [injection H as <- <-; exact E|eauto].
      * right. split; [reflexivity|]. split; [|reflexivity].
        intros b w [H|H]; [injection H as <- <-; exact E|eauto].
Qed.

(* A history with two lists: items added to both, one removed in the middle. *)
Example lists_history :
  match srun lsp_step lspec0
    [LCreate; LCreate; LAdd (Some 0%nat) 11; LAdd (Some 1%nat) 21; LAdd (Some 0%nat) 12; LAdd (Some 0%nat) 13;
     LRemove (Some 0%nat) (Some 2%nat); LRemove (Some 1%nat) (Some 0%nat); LNext (Some 0%nat); LValue (Some 3%nat);
     LFind (Some 0%nat) (Some (fun _ v => v =? 13)); LDestroy (Some 1%nat); LHead (Some 0%nat)]
    (repeat true 13) with
  | Some (rs, sp) => (rs, seqs sp)
  | None => ([], [])
  end =
  ([LRList (Some 0%nat); LRList (Some 1%nat); LRItem (Some 0%nat); LRItem (Some 1%nat); LRItem (Some 2%nat);
    LRItem (Some 3%nat); LRInt true; LRInt false; LRItem (Some 3%nat); LRVal 13; LRFind (Some 3%nat) [0; 3]%nat;
    LRInt true; LRItem (Some 0%nat)], [Some [(0%nat, 11); (3%nat, 13)]; None]).
Proof. vm_compute. reflexivity. Qed.

Print Assumptions lists_refine_sequences.
