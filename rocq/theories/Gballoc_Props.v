(* C39, C40, C41, C71: gballoc. *)
From Coq Require Import Permutation.
From Verif Require Import Base Mem Gballoc_Model Gballoc_Spec Gballoc_Proofs.
Open Scope N_scope.

(** * C39: one thread *)

(* Whatever the sequence of calls and the answers of the allocator and of the lock, as long as
   the caller frees and resizes only blocks it holds (not to 0 bytes) and frees all it
   obtained before gballoc_deinit: nothing undefined happens, every call returns what the
   specification says - gballoc_getCurrentMemoryUsed the sum of the sizes of the blocks held,
   gballoc_getMaximumMemoryUsed the largest it has been -, the memory in use is exactly the
   blocks held, and there is one bookkeeping node per tracked block. *)
Theorem gballoc_accounts_exactly ops rs sp : gspec_run nothing ops = Some (rs, sp) ->
  exists st, grun gstart ops = Ok (rs, st) /\ Permutation (heap st) (blocks sp ++ loose sp) /\
    live (nodes st) = length (blocks sp).
Proof.
  intros H. destruct (inv_run ops _ _ _ _ _ inv_start H) as (st & l & E & I). exists st.
  split; [exact E|]. split; [exact (i_heap _ _ _ I)|]. rewrite (i_live _ _ _ I), <- (i_blocks _ _ _ I), map_length. reflexivity.
Qed.

Definition yes (p : N) : env := {| lock_ok := true; node_ok := true; answer := Some p |}.
Definition full : env := {| lock_ok := true; node_ok := true; answer := None |}.

(* it is met by a run with all kinds of calls: *)
Example gballoc_accounts_exactly_example :
  gspec_run nothing [GMalloc 7 (yes 5); GInit full; GMalloc 10 (yes 100); GCalloc 3 4 (yes 200); GRealloc None 5 (yes 300);
    GRealloc (Some 200) 20 (yes 400); GMax full; GFree (Some 100) full; GRealloc (Some 300) 6 full; GCurrent full; GMax full;
    GFree (Some 5) full; GFree (Some 400) full; GFree None full; GFree (Some 300) full; GCurrent full; GMax full; GDeinit; GFree (Some 5) full]
  = Some ([GP (Some 5); GI true; GP (Some 100); GP (Some 200); GP (Some 300); GP (Some 400); GN 35; GU; GP None; GN 25; GN 35;
           GU; GU; GU; GU; GN 0; GN 35; GU; GU], {| blocks := []; loose := []; on := false; peak := 35 |}).
Proof. reflexivity. Qed.

(* The two numbers in plain words: after any such sequence, with gballoc initialised. *)
Theorem gballoc_current_and_maximum ops rs sp e : gspec_run nothing ops = Some (rs, sp) -> on sp = true -> lock_ok e = true ->
  exists st, grun gstart (ops ++ [GCurrent e; GMax e]) = Ok (rs ++ [GN (total (blocks sp)); GN (peak sp)], st) /\
    total (blocks sp) <= peak sp.
Proof.
  intros H Hon Hl. destruct (inv_run ops _ _ _ _ _ inv_start H) as (st & l & E & I).
  pose proof (i_on _ _ _ I) as Ion. destruct (i_count _ _ _ I Hon) as (Ht & Hm & _ & Hle). exists st. split; [|exact Hle].
  clear H I. revert E. generalize gstart. revert rs. induction ops as [|op ops IH]; intros rs g; cbn.
  - intros [= <- ->]. unfold gballoc_getCurrentMemoryUsed, gballoc_getMaximumMemoryUsed. rewrite Ion, Hon, Hl. cbn.
    rewrite Ht, Hm. reflexivity.
  - destruct (gstep g op) as [| |[r g1]]; cbn; try discriminate. destruct (grun g1 ops) as [| |[rs' g2]] eqn:E2; cbn; try discriminate.
    intros [= <- ->]. rewrite (IH rs' g1 E2). reflexivity.
Qed.

(** * C40: re-initialisation *)

(* gballoc_init, gballoc_malloc(n), gballoc_deinit, gballoc_init, gballoc_free: for every n > 0
   the current memory used is then 2^64 - n although nothing is allocated. *)
Theorem gballoc_reinit_refuted n p : 0 < n < 2 ^ 64 ->
  exists st, grun gstart [GInit full; GMalloc n (yes p); GDeinit; GInit full; GFree (Some p) full; GCurrent full]
    = Ok ([GI true; GP (Some p); GU; GI true; GU; GN (2 ^ 64 - n)], st) /\ heap st = [].
Proof.
  intros Hn. cbn. repeat (rewrite N.eqb_refl; cbn).
  match goal with |- exists st, Ok (_, ?s) = _ /\ _ => exists s end. split; [|reflexivity]. repeat f_equal. unfold wrap, two64.
  change (2 ^ 64) with 18446744073709551616 in *. apply N.mod_small. lia.
Qed.

(** * C71: resizing to 0 bytes *)

(* gballoc_realloc(p, 0) frees the block (the C library's realloc does) but goes on counting
   it, and freeing it again through gballoc_free - the only way to correct the count - is a
   double free. *)
Theorem gballoc_realloc_zero_refuted n p : 0 < n < 2 ^ 64 ->
  (exists st, grun gstart [GInit full; GMalloc n (yes p); GRealloc (Some p) 0 full; GCurrent full]
     = Ok ([GI true; GP (Some p); GP None; GN n], st) /\ heap st = []) /\
  grun gstart [GInit full; GMalloc n (yes p); GRealloc (Some p) 0 full; GFree (Some p) full] = UB.
Proof.
  intros Hn. cbn. repeat (rewrite N.eqb_refl; cbn). split; [|reflexivity].
  match goal with |- exists st, Ok (_, ?s) = _ /\ _ => exists s end. split; [|reflexivity].
  unfold wrap, two64. change (2 ^ 64) with 18446744073709551616 in *.
  rewrite (N.mod_small (0 + n)) by lia. reflexivity.
Qed.

(** * C41: threads *)

Definition tstart (k : nat) : tstate := {| shared := gstart; waiting := repeat None k |}.

(* Two threads free two different blocks: gballoc_free reads head before it takes the lock,
   so the second to get the lock walks over the node the first has freed. *)
Theorem gballoc_concurrent_free_refuted n m p q : p <> q ->
  trun (tstart 2) [TCall 0 (GInit full); TCall 0 (GMalloc n (yes p)); TCall 1 (GMalloc m (yes q));
                   TFree1 0 (Some p); TFree1 1 (Some q); TFree2 1 full; TFree2 0 full] = UB.
Proof.
  intros Hne. cbn. destruct (N.eqb_spec p q) as [->|_]; [contradiction|]. cbn.
  repeat (rewrite N.eqb_refl; cbn). reflexivity.
Qed.

(* A thread frees a block while another allocates one: the new block drops out of the list, so
   that freeing it later does nothing and the memory is lost. *)
Theorem gballoc_lost_block_refuted n m p q : p <> q -> exists s,
  trun (tstart 2) [TCall 0 (GInit full); TCall 0 (GMalloc n (yes p)); TFree1 0 (Some p); TCall 1 (GMalloc m (yes q));
                   TFree2 0 full; TFree1 1 (Some q); TFree2 1 full] = Ok s /\ heap (shared s) = [(q, m)].
Proof.
  intros Hne. cbn. destruct (N.eqb_spec p q) as [->|_]; [contradiction|]. cbn.
  repeat (rewrite N.eqb_refl; cbn). try (destruct (N.eqb_spec q p) as [->|_]; [contradiction|]; cbn). repeat (rewrite N.eqb_refl; cbn).
  eexists. split; [reflexivity|]. reflexivity.
Qed.

(* These are the only races of the model: any interleaving in which, whenever a gballoc_free
   gets the lock, head is still what it read before, is equivalent to the calls made one
   after the other in the order in which they get the lock. *)
Fixpoint head_unchanged (s : tstate) (evs : list tevent) : Prop :=
  match evs with
  | [] => True
  | ev :: r =>
      match ev with
      | TFree2 t _ => match nth_error (waiting s) t with Some (Some (c, _)) => c = head (shared s) | _ => True end
      | _ => True
      end /\
      match tstep s ev with Ok s' => head_unchanged s' r | _ => True end
  end.
(* the calls in the order in which they get the lock; w = what each thread is about to free *)
Fixpoint in_lock_order (w : list (option (option N))) (evs : list tevent) : list gop :=
  match evs with
  | [] => []
  | TCall _ op :: r => op :: in_lock_order w r
  | TFree1 t p :: r => in_lock_order (upd w t (Some p)) r
  | TFree2 t e :: r => match nth_error w t with Some (Some p) => [GFree p e] | _ => [] end ++ in_lock_order (upd w t None) r
  end.

Lemma map_upd {A B} (f : A -> B) (l : list A) i x : map f (upd l i x) = upd (map f l) i (f x).
Proof. revert i; induction l as [|y l IH]; intros [|i]; cbn; f_equal; auto. Qed.

Lemma gballoc_threads_gen evs : forall s s', trun s evs = Ok s' -> head_unchanged s evs ->
  exists rs, grun (shared s) (in_lock_order (map (option_map snd) (waiting s)) evs) = Ok (rs, shared s').
Proof.
  induction evs as [|ev evs IH]; intros s s' H Hh; cbn in H.
  - injection H as <-. exists []. reflexivity.
  - destruct (tstep s ev) as [| |s1] eqn:E; cbn in H; try discriminate. cbn [head_unchanged] in Hh. rewrite E in Hh.
    destruct Hh as [Hc Hh]. destruct (IH _ _ H Hh) as (rs & Er). destruct ev as [t op|t p|t e]; cbn in E.
    + destruct (idle s t); [|discriminate].
      assert (E' : obind (gstep (shared s) op) (fun x => Ok {| shared := snd x; waiting := waiting s |}) = Ok s1).
      { destruct op; try exact E. discriminate. }
      destruct (gstep (shared s) op) as [| |[r g1]] eqn:Eg; cbn in E'; try discriminate. injection E' as <-. cbn in Er.
      exists (r :: rs). cbn [in_lock_order grun]. rewrite Eg. cbn. rewrite Er. reflexivity.
    + destruct (idle s t); [|discriminate]. injection E as <-. cbn in Er. exists rs. cbn [in_lock_order].
      rewrite map_upd in Er. exact Er.
    + destruct (nth_error (waiting s) t) as [[[c p]|]|] eqn:Ew; try discriminate. cbn [in_lock_order].
      rewrite nth_error_map, Ew. cbn [option_map snd app grun]. subst c.
      assert (Ef : obind (gstep (shared s) (GFree p e)) (fun x => Ok {| shared := snd x; waiting := upd (waiting s) t None |}) = Ok s1).
      { cbn [gstep]. unfold gballoc_free in E |- *. destruct (initialized (shared s)); exact E. }
      destruct (gstep (shared s) (GFree p e)) as [| |[r g1]]; cbn in Ef; try discriminate. injection Ef as <-. cbn in Er.
      rewrite map_upd in Er. exists (r :: rs). cbn [obind snd]. cbn [option_map] in Er. rewrite Er. reflexivity.
Qed.

Theorem gballoc_threads_partial k evs s : trun (tstart k) evs = Ok s -> head_unchanged (tstart k) evs ->
  exists rs, grun gstart (in_lock_order (repeat None k) evs) = Ok (rs, shared s).
Proof.
  intros H Hh. destruct (gballoc_threads_gen _ _ _ H Hh) as (rs & E). exists rs. cbn in E.
  assert (Ek : forall j, map (option_map (@snd (option nat) (option N))) (repeat None j) = repeat None j).
  { intros j. induction j as [|j IHj]; [reflexivity|]. cbn [repeat map option_map]. rewrite IHj. reflexivity. }
  rewrite Ek in E. exact E.
Qed.

(* e.g. a thread allocates and frees while another waits to free: *)
Example gballoc_threads_example :
  let evs := [TCall 0 (GInit full); TCall 0 (GMalloc 3 (yes 10)); TCall 1 (GMalloc 4 (yes 20)); TFree1 0 (Some 10);
              TCall 1 (GRealloc (Some 20) 9 (yes 30)); TFree2 0 full; TFree1 1 (Some 30); TFree2 1 full] in
  head_unchanged (tstart 2) evs /\
  in_lock_order (repeat None 2) evs = [GInit full; GMalloc 3 (yes 10); GMalloc 4 (yes 20); GRealloc (Some 20) 9 (yes 30);
                                       GFree (Some 10) full; GFree (Some 30) full] /\
  exists s, trun (tstart 2) evs = Ok s /\ heap (shared s) = [] /\ totalSize (shared s) = 0.
Proof. cbn. repeat split. eexists. repeat split. Qed.
