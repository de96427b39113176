(* Proofs about array values, wide strings and pointer arguments kept by mocks, and about the singletons of mocks. *)
From Coq Require Import Permutation.
From Verif Require Import Base Strings_Model Strings_Props UMockC_Model UMockC_Spec UMockC_Props MockVal_Model MockVal_Spec.
Local Open Scope nat_scope.

Lemma read_enough {A} n (l : list A) : n <= length l -> read_n n l = Some (firstn n l).
Proof. intros H. unfold read_n. apply Nat.leb_le in H. rewrite H. reflexivity. Qed.

(* ---- arrays ---- *)
(* the object [v] in the heap [m], made from the heap [m0] that has nothing of it *)
Definition array_at {A} (m0 : heap A) (v : array_value) (m : heap A) (now : option (list A)) : Prop :=
  fresh_above m /\ next m0 <= next m /\
  match now with
  | None => isNULL v = true /\ forall i, cells m i = cells m0 i
  | Some l => isNULL v = false /\ exists i, copy v = Some i /\ next m0 <= i < next m /\ cells m i = Some l /\ forall j, j <> i -> cells m j = cells m0 j
  end.
Lemma fresh_new {A} (l : list A) m : fresh_above m -> fresh_above (snd (new l m)).
Proof. intros F i H. cbn in *. unfold set_cell. destruct (Nat.eqb_spec i (next m)); [lia|]. apply F. lia. Qed.
Lemma filled_at {A} (m0 m : heap A) e : fresh_above m0 -> fresh_above m -> next m0 <= next m -> (forall i, cells m i = cells m0 i) ->
  array_at m0 {| isNULL := false; copy := Some (next m) |} (snd (new e m)) (Some e).
Proof.
  intros F0 F L E. split; [apply fresh_new, F|]. split; [cbn; lia|]. split; [reflexivity|]. exists (next m). split; [reflexivity|]. split; [cbn; lia|]. cbn. unfold set_cell.
  rewrite Nat.eqb_refl. split; [reflexivity|]. intros j H. apply Nat.eqb_neq in H. rewrite H. apply E.
Qed.
Lemma deleted {A} (m0 m : heap A) v l : fresh_above m0 -> array_at m0 v m (Some l) ->
  exists m', delete_copy v m = Some m' /\ fresh_above m' /\ next m' = next m /\ forall i, cells m' i = cells m0 i.
Proof.
  intros F0 (F & L & _ & i & C & R & K & E). unfold delete_copy, delete. rewrite C, K. eexists. split; [reflexivity|]. split; [|split; [reflexivity|] ].
  - intros j H. cbn in *. unfold set_cell. destruct (j =? i); [reflexivity|apply F, H].
  - intros j. cbn. unfold set_cell. destruct (Nat.eqb_spec j i) as [->|H]; [symmetry; apply F0; lia|apply E, H].
Qed.
Lemma set_at {A} n p (m0 m : heap A) v now : fresh_above m0 -> enough n p -> array_at m0 v m now ->
  exists w m', set_array n p true v m = Returns w m' /\ array_at m0 w m' (next_value n now p).
Proof.
  intros F0 En I. destruct now as [l|].
  - destruct (deleted m0 m v l F0 I) as (m1 & D & F1 & N1 & E1). assert (I0 := I). destruct I as (F & L & N & I). unfold set_array. rewrite N. destruct p as [|k|]; cbn [next_value].
    + rewrite D. eexists _, _. split; [reflexivity|]. split; [exact F1|]. split; [lia|]. split; [reflexivity|exact E1].
    + rewrite D, (read_enough n k En). eexists _, _. split; [reflexivity|]. apply (filled_at m0 m1); auto. lia.
    + eexists _, _. split; [reflexivity|]. exact I0.
  - assert (I0 := I). destruct I as (F & L & N & E). unfold set_array. rewrite N. destruct p as [|k|]; cbn [next_value].
    + eexists _, _. split; [reflexivity|exact I0].
    + rewrite (read_enough n k En). eexists _, _. split; [reflexivity|]. apply (filled_at m0 m); auto.
    + eexists _, _. split; [reflexivity|exact I0].
Qed.
(* With memory, an array value is always the elements found at the last pointer given, whatever became of them since; every copy is given
   back, once, by the time the value is destroyed, and no other block is touched. *)
Theorem array_life_partial (A : Type) n (first : option (list A)) ps (m0 : heap A) : fresh_above m0 ->
  (forall l, first = Some l -> n <= length l) -> Forall (enough n) ps ->
  exists v m w m1 m2, construct_array n first true m0 = Returns v m /\ set_arrays n ps v m = Some (w, m1) /\
    get_array w m1 = Some (last_value n first ps) /\ destroy_array w m1 = Some m2 /\ forall i, cells m2 i = cells m0 i.
Proof.
  intros F0 Hf Hp.
  assert (C : exists v m, construct_array n first true m0 = Returns v m /\ array_at m0 v m (option_map (firstn n) first)).
  { destruct first as [l|]; cbn [construct_array option_map].
    - rewrite (read_enough n l (Hf l eq_refl)). eexists _, _. split; [reflexivity|]. apply (filled_at m0 m0); auto.
    - eexists _, _. split; [reflexivity|]. split; [exact F0|]. split; [lia|]. split; [reflexivity|auto]. }
  destruct C as (v & m & C & I). exists v, m. unfold last_value. revert v m C I. generalize (option_map (firstn n) first). 
  assert (G : forall ps now v m, Forall (enough n) ps -> array_at m0 v m now ->
    exists w m1, set_arrays n ps v m = Some (w, m1) /\ array_at m0 w m1 (fold_left (next_value n) ps now)).
  { clear ps Hp. intros ps. induction ps as [|p ps IH]; intros now v m Hp I; cbn [set_arrays fold_left].
    - eexists _, _. split; [reflexivity|exact I].
    - inversion Hp as [|? ? P Ps]; subst. destruct (set_at n p m0 m v now F0 P I) as (w & m1 & E & J). rewrite E. exact (IH _ _ _ Ps J). }
  intros now v m C I. destruct (G ps now v m Hp I) as (w & m1 & E & J). exists w, m1. revert J. generalize (fold_left (next_value n) ps now). intros fin J.
  assert (D : exists m2, destroy_array w m1 = Some m2 /\ forall i, cells m2 i = cells m0 i).
  { unfold destroy_array. destruct fin as [l|].
    - destruct (deleted m0 m1 w l F0 J) as (m2 & D & _ & _ & K). destruct J as (_ & _ & N & _). rewrite N. eauto.
    - destruct J as (_ & _ & N & K). rewrite N. eauto. }
  destruct D as (m2 & D & K). exists m2. split; [exact C|]. split; [exact E|]. split; [|split; [exact D|exact K] ].
  unfold get_array. destruct J as (_ & _ & J). destruct fin as [l|].
  - destruct J as (N & i & Ci & _ & Ki & _). rewrite N, Ci, Ki. reflexivity.
  - destruct J as (N & _). rewrite N. reflexivity.
Qed.
Theorem array_life_case : exists v m w m1,
  construct_array 2 (Some [1; 2; 3]) true (@empty_heap nat) = Returns v m /\ set_arrays 2 [Null; At [7; 8]; Own; At [4; 5; 6]] v m = Some (w, m1) /\
  get_array w m1 = Some (Some [4; 5]) /\ (next m1 = 3 /\ cells m1 0 = None /\ cells m1 1 = None /\ cells m1 2 <> None) /\ array_equal (fun a => [N.of_nat a]) (Some [4; 5]) (Some [4; 6]) = false.
Proof. do 4 eexists. split; [reflexivity|]. split; [reflexivity|]. repeat split. discriminate. Qed.
(* A constructor that throws leaves nothing.  A SetValue that throws leaves an object whose destruction is undefined. *)
Theorem array_throw (A : Type) n l (m0 : heap A) : construct_array n (Some l) false m0 = Throws None m0.
Proof. reflexivity. Qed.
Theorem array_throw_refuted (A : Type) n (l k : list A) m0 : n <= length l ->
  exists v m w m1, construct_array n (Some l) true m0 = Returns v m /\ set_array n (At k) false v m = Throws (Some w) m1 /\ destroy_array w m1 = None.
Proof.
  intros H. unfold construct_array. rewrite (read_enough n l H). do 4 eexists. split; [reflexivity|]. unfold set_array, delete_copy, delete. cbn. unfold set_cell. rewrite Nat.eqb_refl.
  split; [reflexivity|]. unfold destroy_array, delete_copy, delete. cbn. unfold set_cell. rewrite Nat.eqb_refl. reflexivity.
Qed.

(* ---- comparing arrays by their texts ---- *)
Section texts.
  Variables (A : Type) (show : A -> list N) (ok : A -> Prop).
  Hypothesis no_nul : forall a, ok a -> Forall (fun c => c <> 0%N) (show a).
  Definition mark (c : N) : Prop := c = 44%N \/ c = 125%N.
  Hypothesis readable : forall a b c d x y, ok a -> ok b -> mark c -> mark d -> show a ++ c :: x = show b ++ d :: y -> a = b /\ c :: x = d :: y.
  Definition tail (l : list A) : list N := elements show false l ++ [125%N].
  Lemma tail_mark l : exists c x, tail l = c :: x /\ mark c.
  Proof using. destruct l as [|a l]; unfold tail; cbn; eexists _, _; (split; [reflexivity|]); [right|left]; reflexivity. Qed.
  Lemma tail_inj l : forall k, Forall ok l -> Forall ok k -> length l = length k -> tail l = tail k -> l = k.
  Proof using readable.
    induction l as [|a l IH]; intros [|b k] P Q L E; cbn in L; try discriminate; [reflexivity|]. inversion P; inversion Q; subst. unfold tail in E. cbn in E.
    rewrite <- !app_assoc in E. injection E as E. destruct (tail_mark l) as (c & x & T & M). destruct (tail_mark k) as (d & y & U & W). unfold tail in T, U. rewrite T, U in E.
    destruct (readable a b c d x y) as (-> & E2); auto. f_equal. apply IH; auto. unfold tail. rewrite T, U. exact E2.
  Qed.
  Lemma text_inj l k : Forall ok l -> Forall ok k -> length l = length k -> array_text show (Some l) = array_text show (Some k) -> l = k.
  Proof using readable.
    intros P Q L E. destruct l as [|a l], k as [|b k]; cbn in L; try discriminate; [reflexivity|]. inversion P; inversion Q; subst. unfold array_text in E. cbn in E.
    rewrite <- !app_assoc in E. injection E as E. destruct (tail_mark l) as (c & x & T & M). destruct (tail_mark k) as (d & y & U & W). unfold tail in T, U. rewrite T, U in E.
    destruct (readable a b c d x y) as (-> & E2); auto. f_equal. apply tail_inj; auto. unfold tail. rewrite T, U. exact E2.
  Qed.
  Lemma c_str_all t : Forall (fun c => c <> 0%N) t -> c_str t = t.
  Proof using. induction 1 as [|c t C F IH]; cbn; [reflexivity|]. apply N.eqb_neq in C. rewrite C, IH. reflexivity. Qed.
  Lemma elements_no_nul l : forall b, Forall ok l -> Forall (fun c => c <> 0%N) (elements show b l).
  Proof using no_nul.
    induction l as [|a l IH]; intros b P; cbn; [constructor|]. inversion P; subst. apply Forall_app. split; [destruct b; constructor; [discriminate|constructor]|].
    apply Forall_app. split; auto.
  Qed.
  Lemma text_no_nul l : Forall ok l -> Forall (fun c => c <> 0%N) (array_text show (Some l)).
  Proof using no_nul. intros P. cbn. constructor; [discriminate|]. apply Forall_app. split; [apply elements_no_nul, P|]. constructor; [discriminate|constructor]. Qed.
  Lemma equal_texts a b : (forall l, a = Some l -> Forall ok l) -> (forall l, b = Some l -> Forall ok l) -> (forall l k, a = Some l -> b = Some k -> length l = length k) ->
    (array_equal show a b = true <-> a = b).
  Proof using no_nul readable.
    intros P Q L. unfold array_equal. rewrite Z.eqb_eq, strcmp_eq. destruct a as [l|], b as [k|].
    - rewrite !c_str_all by (apply text_no_nul; auto). split; [|congruence]. intros E. f_equal. apply text_inj; auto.
    - split; [|discriminate]. cbn. discriminate.
    - split; [|discriminate]. cbn. discriminate.
    - tauto.
  Qed.
End texts.
Arguments equal_texts {A}.

(* Arrays of the same size are equal exactly when both are NULL or all elements are: for integers that are printed as numbers *)
Theorem arrays_of_integers (a b : option (list Z)) : (forall l k, a = Some l -> b = Some k -> length l = length k) -> (array_equal print_signed a b = true <-> a = b).
Proof.
  intros L. assert (D : forall z, Forall (fun c => c = 45%N \/ digit c) (print_signed z)).
  { intros z. destruct (print_signed_at z) as [ (_ & _ & H & _)|(_ & t & -> & _ & H & _)]; [|constructor; [left; reflexivity|] ]; (eapply Forall_impl; [|exact H]); intros c Hc; right; exact Hc. }
  apply (equal_texts print_signed (fun _ => True)); auto.
  - intros z _. eapply Forall_impl; [|apply D]. intros c [->|H] E; [discriminate|]. subst c. unfold digit in H. lia.
  - intros x y c d s t _ _ C E H.
    assert (G : forall u v, Forall (fun c => c = 45%N \/ digit c) u -> Forall (fun c => c = 45%N \/ digit c) v -> u ++ c :: s = v ++ d :: t -> u = v /\ c :: s = d :: t).
    { clear H. assert (K : forall e, mark e -> e = 45%N \/ digit e -> False) by (intros e [->| ->] [X|X]; try discriminate X; unfold digit in X; lia).
      intros u. induction u as [|e u IH]; intros [|f v] Du Dv H.
      - auto.
      - cbn in H. injection H as <- _. inversion Dv; subst. destruct (K c); auto.
      - cbn in H. injection H as -> _. inversion Du; subst. destruct (K d); auto.
      - cbn in H. injection H as <- H. inversion Du; inversion Dv; subst. destruct (IH v) as (-> & ?); auto. }
    destruct (G _ _ (D x) (D y) H) as (E1 & E2). split; [|exact E2]. apply (signed_unique (print_signed x)); [apply print_signed_at|rewrite E1; apply print_signed_at].
  - intros; apply Forall_forall; auto.
  - intros; apply Forall_forall; auto.
Qed.
(* and for characters, which are printed as they are, when none is 0. *)
Theorem arrays_of_chars_partial (a b : option (list N)) : (forall l, a = Some l \/ b = Some l -> Forall (fun c => c <> 0%N) l) ->
  (forall l k, a = Some l -> b = Some k -> length l = length k) -> (array_equal (fun c => [c]) a b = true <-> a = b).
Proof.
  intros P L. apply (equal_texts (fun c => [c]) (fun c => c <> 0%N)); auto.
  intros x y c d s t _ _ _ _ H. cbn in H. injection H as -> -> ->. auto.
Qed.
(* What follows an element that is 0 is not compared. *)
Theorem arrays_of_chars_refuted l k r : array_equal (fun c => [c]) (Some (l ++ 0%N :: k)) (Some (l ++ 0%N :: r)) = true.
Proof.
  unfold array_equal. rewrite Z.eqb_eq, strcmp_eq. cbn. f_equal.
  assert (G : forall l b k r, c_str (elements (fun c => [c]) b (l ++ 0%N :: k) ++ [125%N]) = c_str (elements (fun c => [c]) b (l ++ 0%N :: r) ++ [125%N])).
  { clear. intros l. induction l as [|x l IH]; intros b k r; destruct b; cbn; [reflexivity|reflexivity| |]; destruct (x =? 0)%N; try reflexivity; repeat (match goal with |- _ :: _ = _ :: _ => apply f_equal end); apply IH. }
  apply G.
Qed.

(* ---- wide strings ---- *)
Theorem wide_partial a b : a <> Some NULL_TEXT -> b <> Some NULL_TEXT -> (wide_equal (wide a) (wide b) = true <-> a = b).
Proof. intros A B. unfold wide_equal. rewrite Z.eqb_eq, strcmp_eq. destruct a, b; cbn; split; intros E; try congruence; try reflexivity; subst; congruence. Qed.
Theorem wide_kept t : wide (Some t) = t /\ (Forall (fun c => (0 < c < 256)%N) t -> wide_text (wide (Some t)) = t).
Proof.
  split; [reflexivity|]. intros F. unfold wide_text. cbn. induction F as [|c t C F IH]; cbn; [reflexivity|]. rewrite N.mod_small by lia.
  destruct (N.eqb_spec c 0); [lia|]. rewrite IH. reflexivity.
Qed.
(* NULL is taken for the text NULL, also when it is given back; a character beyond 255 prints as another one or ends the text. *)
Theorem wide_refuted : wide None = NULL_TEXT /\ wide_equal (wide None) (wide (Some NULL_TEXT)) = true /\
  wide_text (wide (Some [65; 256; 66]%N)) = [65%N] /\ wide_text (wide (Some [321%N])) = wide_text (wide (Some [65%N])) /\ wide_equal (wide (Some [321%N])) (wide (Some [65%N])) = false.
Proof. repeat split. Qed.

(* ---- pointer arguments of time-discrete calls ---- *)
Definition ids {A} (hs : list (holder A)) : list nat := flat_map (fun h => match copyArray h with Some i => [i] | None => [] end) hs.
(* exactly the blocks of the list are live *)
Definition live {A} (m : heap A) (L : list nat) : Prop := NoDup L /\ fresh_above m /\ forall i, cells m i <> None <-> In i L.
Definition means {A} (m : heap A) (h : holder A) (a : option (list A)) : Prop :=
  match a with
  | None => wasNULL h = true /\ copyArray h = None
  | Some l => wasNULL h = false /\ original h = true /\
      ((arraySize h = Some 0 /\ copyArray h = None /\ exists v, theValue h = Some v /\ l = [v]) \/
       (l <> [] /\ arraySize h = Some (length l) /\ exists i, copyArray h = Some i /\ cells m i = Some l))
  end.
Lemma means_frame {A} (m m' : heap A) h a : (forall i, In i (ids [h]) -> cells m' i = cells m i) -> means m h a -> means m' h a.
Proof.
  intros E. destruct a as [l|]; cbn [means]; [|auto]. intros (N & O & [H|(Q & S & i & C & K)]); (split; [exact N|]; split; [exact O|]); [left; exact H|right].
  split; [exact Q|]. split; [exact S|]. exists i. split; [exact C|]. rewrite E; [exact K|]. cbn. rewrite C. left. reflexivity.
Qed.
Lemma live_new {A} (m : heap A) L e : live m L -> live (snd (new e m)) (next m :: L) /\ forall i, In i L -> cells (snd (new e m)) i = cells m i.
Proof.
  intros (D & F & E). assert (Q : ~ In (next m) L) by (rewrite <- E; intros H; apply H, F; lia). split.
  - split; [constructor; assumption|]. split; [apply fresh_new, F|]. intros i. cbn. unfold set_cell. destruct (Nat.eqb_spec i (next m)) as [->|H].
    + split; [intros _; left; reflexivity|discriminate].
    + rewrite E. split; [auto|]. intros [G|G]; [congruence|exact G].
  - intros i H. cbn. unfold set_cell. destruct (Nat.eqb_spec i (next m)) as [->|G]; [contradiction|reflexivity].
Qed.
Lemma live_delete {A} (m : heap A) i L : live m (i :: L) -> exists m', delete i m = Some m' /\ live m' L /\ forall j, In j L -> cells m' j = cells m j.
Proof.
  intros (D & F & E). unfold delete. destruct (cells m i) eqn:C; [|destruct (proj2 (E i) (or_introl eq_refl) C)]. eexists. split; [reflexivity|]. inversion D as [|? ? Q Du]; subst. split.
  - split; [exact Du|]. split.
    + intros j H. cbn. unfold set_cell. destruct (j =? i); [reflexivity|apply F, H].
    + intros j. cbn. unfold set_cell. destruct (Nat.eqb_spec j i) as [->|G]; [split; [congruence|contradiction]|]. rewrite E. split; [intros [X|X]; [congruence|exact X]|intros X; right; exact X].
  - intros j H. cbn. unfold set_cell. destruct (Nat.eqb_spec j i) as [->|G]; [contradiction|reflexivity].
Qed.
Lemma destroy_at {A} (m : heap A) h L : live m (ids [h] ++ L) -> exists m', destroy_holder h m = Some m' /\ live m' L /\ forall j, In j L -> cells m' j = cells m j.
Proof. unfold destroy_holder, ids, flat_map. destruct (copyArray h) as [i|]; cbn [app]; intros I; [apply live_delete, I|]. eexists. split; [reflexivity|]. auto. Qed.
Lemma destroy_all_at {A} (hs : list (holder A)) : forall m L, live m (ids hs ++ L) -> exists m', destroy_all hs m = Some m' /\ live m' L /\ forall j, In j L -> cells m' j = cells m j.
Proof.
  induction hs as [|h hs IH]; intros m L I; cbn [destroy_all]; [eexists; split; [reflexivity|]; auto|].
  assert (X : ids (h :: hs) ++ L = ids [h] ++ (ids hs ++ L)) by (unfold ids; cbn [flat_map]; rewrite app_nil_r, <- app_assoc; reflexivity). rewrite X in I.
  destruct (destroy_at m h _ I) as (m1 & D & I1 & E1). rewrite D. destruct (IH m1 L I1) as (m2 & D2 & I2 & E2). exists m2. split; [exact D2|]. split; [exact I2|].
  intros j H. rewrite E2 by exact H. apply E1, in_or_app. right. exact H.
Qed.
Lemma copy_at {A} (m : heap A) h a L : live m L -> (forall i, In i (ids [h]) -> In i L) -> means m h a ->
  exists k m', copy_holder h m = Some (k, m') /\ live m' (ids [k] ++ L) /\ means m' k a /\ forall j, In j L -> cells m' j = cells m j.
Proof.
  intros I S M. unfold copy_holder. destruct (copyArray h) as [i|] eqn:C.
  - destruct a as [l|]; cbn [means] in M; [|destruct M; congruence]. destruct M as (N & O & [ (_ & X & _)|(Q & Z & j & Cj & K)]); [congruence|]. assert (j = i) by congruence. subst j.
    rewrite Z, K, read_enough by lia. rewrite firstn_all. eexists _, _. split; [reflexivity|]. destruct (live_new m L l I) as (I1 & E1). split; [exact I1|]. split; [|exact E1].
    cbn [means wasNULL original arraySize copyArray theValue]. split; [exact N|]. split; [exact O|]. right. split; [exact Q|]. split; [reflexivity|]. exists (next m). split; [reflexivity|].
    cbn. unfold set_cell. rewrite Nat.eqb_refl. reflexivity.
  - eexists _, _. split; [reflexivity|]. unfold ids at 1. cbn [flat_map]. rewrite C. split; [exact I|]. auto.
Qed.
Lemma copy_all_at {A} (hs : list (holder A)) : forall m L done, live m L -> (forall i, In i (ids hs) -> In i L) -> Forall2 (means m) hs done ->
  exists ks m', copy_all hs m = Some (ks, m') /\ live m' (ids ks ++ L) /\ Forall2 (means m') ks done /\ forall j, In j L -> cells m' j = cells m j.
Proof.
  induction hs as [|h hs IH]; intros m L done I S M; inversion M as [|? a ? d Mh Mt]; subst; cbn [copy_all].
  - exists [], m. split; [reflexivity|]. split; [exact I|]. split; [constructor|auto].
  - assert (X : ids (h :: hs) = ids [h] ++ ids hs) by (unfold ids; cbn [flat_map]; rewrite app_nil_r; reflexivity). rewrite X in S.
    destruct (copy_at m h a L I) as (k & m1 & C & I1 & M1 & E1); [intros i Hi; apply S, in_or_app; left; exact Hi|exact Mh|]. rewrite C.
    destruct (IH m1 (ids [k] ++ L) d I1) as (ks & m2 & C2 & I2 & M2 & E2).
    + intros i Hi. apply in_or_app. right. apply S, in_or_app. right. exact Hi.
    + assert (G : forall i, In i (ids hs) -> cells m1 i = cells m i) by (intros i Hi; apply E1, S, in_or_app; right; exact Hi). clear - G Mt.
      induction Mt as [|x b xs ys Mx _ IHt]; [constructor|]. constructor.
      * apply (means_frame m); [|exact Mx]. intros i Hi. apply G. unfold ids in *. cbn [flat_map] in *. rewrite app_nil_r in Hi. apply in_or_app. left. exact Hi.
      * apply IHt. intros i Hi. apply G. unfold ids in *. cbn [flat_map]. apply in_or_app. right. exact Hi.
    + rewrite C2. exists (k :: ks), m2. split; [reflexivity|].
      assert (Y : ids (k :: ks) = ids [k] ++ ids ks) by (unfold ids; cbn [flat_map]; rewrite app_nil_r; reflexivity). rewrite Y. split; [|split].
      * destruct I2 as (D2 & F2 & K2). assert (P : Permutation (ids ks ++ ids [k] ++ L) ((ids [k] ++ ids ks) ++ L)) by (rewrite <- app_assoc, !app_assoc; apply Permutation_app_tail, Permutation_app_comm).
        split; [eapply Permutation_NoDup; [exact P|exact D2]|]. split; [exact F2|]. intros i. rewrite K2. split; apply Permutation_in; [exact P|apply Permutation_sym, P].
      * constructor; [|exact M2]. apply (means_frame m1); [|exact M1]. intros i Hi. apply E2, in_or_app. left. exact Hi.
      * intros j Hj. rewrite E2 by (apply in_or_app; right; exact Hj). apply E1, Hj.
Qed.
Definition kept {A} (s : list (holder A) * heap A) (done : list (option (list A))) : Prop := live (snd s) (ids (fst s)) /\ Forall2 (means (snd s)) (fst s) done.
Lemma ids_app {A} (a b : list (holder A)) : ids (a ++ b) = ids a ++ ids b.
Proof. unfold ids. apply flat_map_app. Qed.
Lemma means_all_frame {A} (m m' : heap A) hs done : (forall i, In i (ids hs) -> cells m' i = cells m i) -> Forall2 (means m) hs done -> Forall2 (means m') hs done.
Proof.
  intros G M. induction M as [|x b xs ys Mx _ IHt]; [constructor|]. constructor.
  - apply (means_frame m); [|exact Mx]. intros i Hi. apply G. unfold ids in *. cbn [flat_map] in *. rewrite app_nil_r in Hi. apply in_or_app. left. exact Hi.
  - apply IHt. intros i Hi. apply G. unfold ids in *. cbn [flat_map]. apply in_or_app. right. exact Hi.
Qed.
Lemma call_kept {A} (c : call A) s done : kept s done -> proper done c -> exists t, do_call c s = Some t /\ kept t (given_step done c).
Proof.
  destruct s as (hs, m). intros (I & M) P. cbn [fst snd] in *. destruct c as [v moves|n content]; cbn [do_call given_step fst snd].
  - unfold stim. assert (R : exists ks m1, (if moves then match copy_all hs m with None => None | Some (hs0, m0) => match destroy_all hs m0 with None => None | Some m1 => Some (hs0, m1) end end else Some (hs, m)) = Some (ks, m1) /\ kept (ks, m1) done).
    { destruct moves; [|eexists _, _; split; [reflexivity|split; assumption] ]. destruct (copy_all_at hs m (ids hs) done I) as (ks & m1 & C & I1 & M1 & E1); auto. rewrite C.
      assert (I2 : live m1 (ids hs ++ ids ks)).
      { destruct I1 as (D1 & F1 & K1). assert (P1 := Permutation_app_comm (ids ks) (ids hs)). split; [eapply Permutation_NoDup; [exact P1|exact D1]|]. split; [exact F1|].
        intros i. rewrite K1. split; apply Permutation_in; [exact P1|apply Permutation_sym, P1]. }
      destruct (destroy_all_at hs m1 (ids ks) I2) as (m2 & D2 & I3 & E2). rewrite D2. eexists _, _. split; [reflexivity|]. split; [exact I3|]. apply (means_all_frame m1); assumption. }
    destruct R as (ks & m1 & -> & I1 & M1). cbn [fst snd] in *.
    assert (H : copy_holder (hold v) m1 = Some (hold v, m1) /\ destroy_holder (hold v) m1 = Some m1 /\ ids [hold v] = [] /\ means m1 (hold v) (option_map (fun a => [a]) v)).
    { destruct v as [a|]; cbn; (split; [reflexivity|]; split; [reflexivity|]; split; [reflexivity|]); [|auto]. split; [reflexivity|]. split; [reflexivity|]. left. split; [reflexivity|]. split; [reflexivity|]. eauto. }
    destruct H as (H1 & H2 & H3 & H4). rewrite H1, H2. eexists. split; [reflexivity|]. split; cbn [fst snd].
    + rewrite ids_app, H3, app_nil_r. exact I1.
    + apply Forall2_app; [exact M1|]. constructor; [exact H4|constructor].
  - unfold array_size. destruct n as [|n]; [eexists; split; [reflexivity|]; split; assumption|]. destruct P as [P|(Le & Nn)]; [discriminate|]. set (k := Datatypes.S n) in *.
    destruct (rev hs) as [|h t] eqn:R.
    { assert (hs = []) by (rewrite <- (rev_involutive hs), R; reflexivity). subst hs. inversion M; subst. eexists. split; [reflexivity|]. split; assumption. }
    assert (E : hs = rev t ++ [h]) by (rewrite <- (rev_involutive hs), R; reflexivity). subst hs. clear R. apply Forall2_app_inv_l in M. destruct M as (d1 & d2 & M1 & M2 & ->).
    inversion M2 as [|? a ? z Mh Mz]; subst. inversion Mz; subst. rewrite last_last in Nn. destruct a as [l|]; [|congruence].
    rewrite ids_app in I.
    assert (I' : live m (ids [h] ++ ids (rev t))).
    { destruct I as (D1 & F1 & K1). assert (P1 := Permutation_app_comm (ids (rev t)) (ids [h])). split; [eapply Permutation_NoDup; [exact P1|exact D1]|]. split; [exact F1|].
      intros i. rewrite K1. split; apply Permutation_in; [exact P1|apply Permutation_sym, P1]. }
    destruct (destroy_at m h _ I') as (m1 & D & I1 & E1). unfold set_array_size. rewrite D. cbn [means] in Mh. destruct Mh as (N & O & _). rewrite O, (read_enough k content Le).
    destruct (live_new m1 (ids (rev t)) (firstn k content) I1) as (I2 & E2). eexists. split; [reflexivity|].
    assert (G : given_step (d1 ++ [Some l]) (ArraySize k content) = d1 ++ [Some (firstn k content)]).
    { cbn [given_step]. unfold k at 1. cbn iota. destruct (d1 ++ [Some l]) as [|u r] eqn:X; [destruct d1; discriminate|]. rewrite <- X, removelast_last. reflexivity. }
    cbn [given_step] in G. replace (match d1 ++ [Some l] with [] => _ | _ :: _ => _ end) with (d1 ++ [Some (firstn k content)]) by (symmetry; exact G).
    split; cbn [fst snd].
    + rewrite ids_app. unfold ids at 2. cbn [flat_map copyArray app]. destruct I2 as (D2 & F2 & K2). assert (P2 := Permutation_app_comm [next m1] (ids (rev t))). cbn [app] in P2.
      split; [eapply Permutation_NoDup; [exact P2|exact D2]|]. split; [exact F2|]. intros i. rewrite K2. split; apply Permutation_in; [exact P2|apply Permutation_sym, P2].
    + apply Forall2_app.
      * apply (means_all_frame m); [|exact M1]. intros i Hi. change (cells (snd (new (firstn k content) m1)) i = cells m i). rewrite E2, E1 by exact Hi. reflexivity.
      * constructor; [|constructor]. cbn [means wasNULL original arraySize copyArray theValue]. split; [exact N|]. split; [reflexivity|]. right. rewrite firstn_length_le by exact Le.
        split; [intros X; apply (f_equal (@length A)) in X; rewrite firstn_length_le in X by exact Le; discriminate X|]. split; [reflexivity|]. exists (next m1). split; [reflexivity|].
        cbn. unfold set_cell. rewrite Nat.eqb_refl. reflexivity.
Qed.
Lemma held_means {A} (m : heap A) h a : means m h a -> held h m = Some a.
Proof.
  unfold held. destruct a as [l|]; cbn [means].
  - intros (-> & _ & [ (-> & _ & v & -> & ->)|(Q & -> & i & -> & K)]); [reflexivity|]. destruct l; [congruence|]. cbn [length]. rewrite K. reflexivity.
  - intros (-> & _). reflexivity.
Qed.
(* With memory, for every sequence of scheduled calls whatever the vector does, as long as sizes are set for arguments that are not NULL and have as many
   elements: each call is given what the test gave, and at the end every block has been given back, once. *)
Theorem pointer_arguments_partial (A : Type) (cs : list (call A)) : all_proper [] cs ->
  exists hs m m', do_calls cs ([], empty_heap) = Some (hs, m) /\ Forall2 (fun h a => held h m = Some a) hs (given cs) /\
    destroy_all hs m = Some m' /\ forall i, cells m' i = None.
Proof.
  intros P. assert (G : forall (cs : list (call A)) s done, kept s done -> all_proper done cs -> exists t, do_calls cs s = Some t /\ kept t (fold_left given_step cs done)).
  { clear. intros cs. induction cs as [|c cs IH]; intros s done K P; cbn [do_calls fold_left]; [eauto|]. destruct P as (P & Ps). destruct (call_kept c s done K P) as (t & E & K1). rewrite E. apply IH; assumption. }
  destruct (G cs ([], empty_heap) []) as ((hs & m) & E & I & M); [|exact P|].
  { split; cbn; [|constructor]. split; [constructor|]. split; [intros i _; reflexivity|]. intros i. cbn. tauto. }
  cbn [fst snd] in *. destruct (destroy_all_at hs m []) as (m' & D & (_ & _ & K) & _); [rewrite app_nil_r; exact I|]. exists hs, m, m'. split; [exact E|]. split; [|split; [exact D|] ].
  - unfold given. clear - M. induction M as [|h a hs' d Mh _ IH]; constructor; [apply held_means, Mh|exact IH].
  - intros i. destruct (cells m' i) eqn:C; [|reflexivity]. destruct (proj1 (K i)); congruence.
Qed.
Theorem pointer_arguments_case : all_proper [] [Stim (Some 1) false; ArraySize 2 [1; 2; 3]; Stim None true; Stim (Some 9) true; ArraySize 3 [9; 8; 7]; ArraySize 1 [6]] /\
  given [Stim (Some 1) false; ArraySize 2 [1; 2; 3]; Stim None true; Stim (Some 9) true; ArraySize 3 [9; 8; 7]; ArraySize 1 [6]] = [Some [1; 2]; None; Some [6]].
Proof. cbn. repeat split; try (right; split; [lia|discriminate]). Qed.
(* A size set for a NULL argument reads through a pointer that was never set; one that is too large reads beyond the array. *)
Theorem pointer_arguments_refuted : do_calls [Stim None false; ArraySize 2 [1; 2; 3]] ([], empty_heap) = None /\ do_calls [Stim (Some 1) false; ArraySize 2 [1]] ([], empty_heap) = None.
Proof. split; reflexivity. Qed.

(* ---- singletons ---- *)
Fixpoint global_run (es : list life) (i : option nat) (l : list nat) : option nat * list nat :=
  match es with [] => (i, l) | e :: t => global_run t (global_step e i) (alive e false l) end.
Fixpoint safe_run (es : list life) (i : option nat) (l : list nat) : option nat * list nat :=
  match es with [] => (i, l) | e :: t => let '(j, refused) := safe_step e i in safe_run t j (alive e refused l) end.
(* mocks begin only while there is none and end only while they are alive *)
Fixpoint one_at_a_time (es : list life) (l : list nat) : Prop :=
  match es with [] => True | e :: t => match e with Born _ => l = [] | Dies x => In x l end /\ one_at_a_time t (alive e false l) end.
(* One at a time, the singleton is the mock that is alive. *)
Theorem singleton_partial es : one_at_a_time es [] -> let '(i, l) := global_run es None [] in l = match i with Some x => [x] | None => [] end.
Proof.
  assert (G : forall es i, one_at_a_time es (match i with Some x => [x] | None => [] end) -> let '(j, l) := global_run es i (match i with Some x => [x] | None => [] end) in l = match j with Some x => [x] | None => [] end).
  { clear. intros es. induction es as [|e es IH]; intros i P; cbn [global_run]; [reflexivity|]. destruct P as (P & Ps). destruct e as [x|x]; cbn [global_step] in *.
    - destruct i; [discriminate|]. apply (IH (Some x)). exact Ps.
    - destruct i as [y|]; [|destruct P]. destruct P as [->|[]]. cbn [alive filter] in *. rewrite Nat.eqb_refl in *. apply (IH None). exact Ps. }
  intros P. exact (G es None P).
Qed.
Theorem singleton_case : one_at_a_time [Born 1; Dies 1; Born 2] [] /\ global_run [Born 1; Dies 1; Born 2] None [] = (Some 2, [2]).
Proof. cbn. auto. Qed.
(* Of two mocks of a class, the end of either takes the singleton away from the other. *)
Theorem singleton_refuted x y : x <> y -> global_run [Born x; Born y; Dies y] None [] = (None, [x]) /\ global_run [Born x; Born y; Dies x] None [] = (None, [y]).
Proof. intros H. cbn. rewrite !Nat.eqb_refl. assert (G : (x =? y) = false) by (apply Nat.eqb_neq, H). assert (K : (y =? x) = false) by (apply Nat.eqb_neq; auto). rewrite G, K. auto. Qed.
(* The thread-safe one is always the mock that is alive, in every order of the atomic exchanges of any number of threads; a second one is refused. *)
Theorem safe_singleton es : let '(i, l) := safe_run es None [] in l = match i with Some x => [x] | None => [] end /\ forall x, snd (safe_step (Born x) i) = true <-> l <> [].
Proof.
  assert (G : forall es i, let '(j, l) := safe_run es i (match i with Some x => [x] | None => [] end) in l = match j with Some x => [x] | None => [] end /\ forall x, snd (safe_step (Born x) j) = true <-> l <> []).
  { clear. intros es. induction es as [|e es IH]; intros i; cbn [safe_run].
    - split; [reflexivity|]. intros x. destruct i; cbn; split; congruence.
    - destruct e as [x|x]; destruct i as [y|]; cbn [safe_step alive].
      + apply (IH (Some y)).
      + apply (IH (Some x)).
      + destruct (Nat.eqb_spec x y) as [->|H]; cbn [filter].
        * rewrite Nat.eqb_refl. apply (IH None).
        * destruct (Nat.eqb_spec y x); [congruence|]. apply (IH (Some y)).
      + apply (IH None). }
  exact (G es None).
Qed.
(* With several of them it is the one that began last, until any of them ends. *)
Theorem singleton_last es x i l : fst (global_run (es ++ [Born x]) i l) = Some x /\ fst (global_run (es ++ [Dies x]) i l) = None.
Proof. revert i l. induction es as [|e es IH]; intros i l; [split; reflexivity|]. cbn [app global_run]. apply IH. Qed.

(* Arrays whose elements print alike are taken for equal: double values that agree in six digits, pointers of a type printed as a text. *)
Theorem arrays_alike_refuted (A : Type) (show : A -> list N) l r : map show l = map show r -> array_equal show (Some l) (Some r) = true.
Proof.
  intros E. unfold array_equal. rewrite Z.eqb_eq, strcmp_eq. cbn. f_equal. f_equal. f_equal. generalize true. revert r E. induction l as [|a l IH]; intros [|b r] E first; cbn in E; try discriminate; [reflexivity|].
  injection E as E1 E2. cbn [elements]. rewrite E1, (IH r E2). reflexivity.
Qed.
