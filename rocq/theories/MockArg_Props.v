(* Proofs about validated buffers. *)
From Verif Require Import Base Crt_Proofs MockArg_Model MockArg_Spec.
From Coq Require Import Permutation Sorted.
Notation sort := MockArg_Model.sort.
Local Open Scope nat_scope.

Definition of_piece (p : piece) : validation := {| m_Offset := fst p; m_ByteCount := length (snd p); m_Buffer := Some (snd p) |}.
Lemma wanted_cons o d l p b : wanted ((o, d) :: l) p b <-> (o <= p /\ nth_error d (p - o) = Some b) \/ wanted l p b.
Proof.
  split.
  - intros (o' & d' & [E|I] & A & B); [injection E as <- <-; auto|right; exists o', d'; auto].
  - intros [ (A & B)|(o' & d' & I & A & B)]; [exists o, d; cbn; auto|exists o', d'; cbn; auto].
Qed.
Lemma in_range o (d : list N) p : (o <=? p) && (p <? o + length d) = true <-> o <= p /\ exists b, nth_error d (p - o) = Some b.
Proof.
  rewrite andb_true_iff, Nat.leb_le, Nat.ltb_lt. split; intros (A & B); (split; [exact A|]).
  - destruct (nth_error d (p - o)) eqn:E; [eauto|]. apply nth_error_None in E. lia.
  - destruct B as (b & B). assert (p - o < length d) by (apply nth_error_Some; congruence). lia.
Qed.
Lemma wanted_dec l p : (exists b, wanted l p b) \/ forall b, ~ wanted l p b.
Proof.
  induction l as [|(o, d) l IH]; [right; intros b (? & ? & [] & _)|]. destruct IH as [ (b & W)|IH]; [left; exists b; apply wanted_cons; auto|].
  destruct ((o <=? p) && (p <? o + length d)) eqn:Q.
  - apply in_range in Q. destruct Q as (A & b & B). left. exists b. apply wanted_cons. auto.
  - right. intros b W. apply wanted_cons in W. destruct W as [ (A & B)|W]; [|exact (IH b W)]. assert ((o <=? p) && (p <? o + length d) = true) by (apply in_range; eauto). congruence.
Qed.
Lemma expected_at l : forall p found, exists r, expected_byte (map of_piece l) p found = Some r /\ ((exists b, r = Some b /\ wanted l p b) \/ ((forall b, ~ wanted l p b) /\ r = found)).
Proof.
  induction l as [|(o, d) l IH]; intros p found; cbn [map expected_byte of_piece m_Offset m_ByteCount m_Buffer fst snd].
  - exists found. split; [reflexivity|]. right. split; [intros b (? & ? & [] & _)|reflexivity].
  - destruct ((o <=? p) && (p <? o + length d)) eqn:Q.
    + apply in_range in Q. destruct Q as (A & b & B). rewrite B. destruct (IH p (Some b)) as (r & E & H). exists r. split; [exact E|]. left. destruct H as [ (c & -> & W)|(_ & ->)]; [exists c|exists b]; (split; [reflexivity|]); apply wanted_cons; auto.
    + destruct (IH p found) as (r & E & H). exists r. split; [exact E|]. destruct H as [ (c & -> & W)|(N & ->)]; [left; exists c; split; [reflexivity|apply wanted_cons; auto]|right; split; [|reflexivity] ].
      intros b W. apply wanted_cons in W. destruct W as [ (A & B)|W]; [|exact (N b W)]. assert ((o <=? p) && (p <? o + length d) = true) by (apply in_range; eauto). congruence.
Qed.
Lemma conflict_at l d : consistent l -> forall i, exists c, conflict (map of_piece l) d i = Some c /\ (c = false <-> forall k b x, nth_error d k = Some b -> wanted l (i + k) x -> x = b).
Proof.
  intros C. induction d as [|b d IH]; intros i; cbn [conflict]; [exists false; split; [reflexivity|]; split; [intros _ [|k] b x E; discriminate E|reflexivity]|].
  destruct (expected_at l i None) as (r & -> & H). destruct (IH (S i)) as (c & E & F).
  assert (X : (forall k b0 x, nth_error (b :: d) k = Some b0 -> wanted l (i + k) x -> x = b0) <-> (forall x, wanted l i x -> x = b) /\ c = false).
  { rewrite F. split.
    - intros G. split; [intros x W; apply (G 0 b x); [reflexivity|rewrite Nat.add_0_r; exact W]|]. intros k b0 x B W. apply (G (S k) b0 x); [exact B|]. rewrite Nat.add_succ_r. exact W.
    - intros (G1 & G2) [|k] b0 x B W; [injection B as <-; apply G1; rewrite Nat.add_0_r in W; exact W|apply (G2 k b0 x B); rewrite Nat.add_succ_r in W; exact W]. }
  destruct H as [ (x & -> & W)|(N & ->)].
  - destruct (N.eqb_spec x b) as [->|Q].
    + exists c. split; [exact E|]. rewrite X. split; [intros ->; split; [intros y Wy; exact (C i y b Wy W)|reflexivity]|tauto].
    + exists true. split; [reflexivity|]. split; [discriminate|]. intros G. apply X in G. destruct G as (G & _). destruct Q. exact (G x W).
  - exists c. split; [exact E|]. rewrite X. split; [intros ->; split; [intros y Wy; destruct (N y Wy)|reflexivity]|tauto].
Qed.
Lemma wanted_app l m p b : wanted (l ++ m) p b <-> wanted l p b \/ wanted m p b.
Proof.
  split; [intros (o & d & I & H); apply in_app_or in I; destruct I; [left|right]; exists o, d; auto|]. intros [ (o & d & I & H)|(o & d & I & H)]; exists o, d; (split; [apply in_or_app; auto|exact H]).
Qed.
Lemma consistent_snoc l o d : consistent (l ++ [(o, d)]) <-> consistent l /\ forall k b x, nth_error d k = Some b -> wanted l (o + k) x -> x = b.
Proof.
  split.
  - intros C. split; [intros p b c W V; apply (C p); apply wanted_app; auto|]. intros k b x E W. apply (C (o + k)); apply wanted_app; [left; exact W|right]. exists o, d. cbn. split; [auto|]. split; [lia|]. replace (o + k - o) with k by lia. exact E.
  - intros (C & G) p b c W V. apply wanted_app in W, V. assert (X : forall z, wanted [(o, d)] p z -> o <= p /\ nth_error d (p - o) = Some z) by (intros z Z; apply wanted_cons in Z; destruct Z as [Z|(? & ? & [] & _)]; exact Z).
    destruct W as [W|W], V as [V|V].
    + exact (C p b c W V).
    + apply X in V. destruct V as (A & V). apply (G (p - o) c b V). replace (o + (p - o)) with p by lia. exact W.
    + apply X in W. destruct W as (A & W). symmetry. apply (G (p - o) b c W). replace (o + (p - o)) with p by lia. exact V.
    + apply X in W, V. destruct W as (_ & W), V as (_ & V). congruence.
Qed.
(* Validations are accepted as long as they do not contradict each other, and the first that does is refused. *)
Lemma add_at l o d : d <> [] -> consistent l -> (consistent (l ++ [(o, d)]) /\ AddBufferValidation (map of_piece l) d o [] = Some (Done (map of_piece (l ++ [(o, d)])), [])) \/ (~ consistent (l ++ [(o, d)]) /\ AddBufferValidation (map of_piece l) d o [] = Some (Thrown INVALID_VALIDATE_BUFFERS, [])).
Proof.
  intros N C. unfold AddBufferValidation. destruct d as [|b d]; [congruence|]. destruct (conflict_at l (b :: d) C o) as (c & E & F). unfold bind, lift, alloc, ret. rewrite E. destruct c.
  - right. split; [|reflexivity]. intros K. apply consistent_snoc in K. destruct K as (_ & K). apply F in K. discriminate K.
  - left. split; [apply consistent_snoc; split; [exact C|apply F; reflexivity]|]. rewrite map_app. reflexivity.
Qed.
Theorem validations_spec l : Forall (fun p => snd p <> []) l ->
  (consistent l -> exists vs, add_all l [] [] = Some (Done vs, []) /\ vs = map of_piece l) /\ (~ consistent l -> add_all l [] [] = Some (Thrown INVALID_VALIDATE_BUFFERS, [])).
Proof.
  intros H. enough (G : forall l pre, Forall (fun p => snd p <> []) l -> consistent pre -> (consistent (pre ++ l) /\ add_all l (map of_piece pre) [] = Some (Done (map of_piece (pre ++ l)), [])) \/ (~ consistent (pre ++ l) /\ add_all l (map of_piece pre) [] = Some (Thrown INVALID_VALIDATE_BUFFERS, []))).
  { destruct (G l [] H) as [ (A & B)|(A & B)]; [intros p b c (? & ? & [] & _)|split; [eauto|tauto]|split; [tauto|auto] ]. }
  clear. induction l as [|(o, d) l IH]; intros pre H C; [left; rewrite app_nil_r; auto|]. apply Forall_cons_iff in H. destruct H as (H1 & H). cbn [add_all].
  destruct (add_at pre o d H1 C) as [ (A & ->)|(A & ->)].
  - specialize (IH _ H A). rewrite <- app_assoc in IH. exact IH.
  - right. split; [|reflexivity]. intros K. apply A. assert (X : forall p z, wanted (pre ++ [(o, d)]) p z -> wanted (pre ++ (o, d) :: l) p z).
    { intros p z Z. change ((o, d) :: l) with ([(o, d)] ++ l). rewrite app_assoc. apply wanted_app. auto. }
    intros p b c W V. apply (K p); apply X; assumption.
Qed.

Theorem empty_validation_refused vs off o : AddBufferValidation vs [] off o = Some (Thrown INVALID_VALIDATE_BUFFERS, o).
Proof. reflexivity. Qed.

(* sorting *)
Lemma insert_perm v l : Permutation (insert v l) (v :: l).
Proof. induction l as [|w l IH]; [reflexivity|]. cbn. destruct (before v w); [reflexivity|]. rewrite IH. apply perm_swap. Qed.
Lemma sort_perm l : Permutation (sort l) l.
Proof. induction l as [|v l IH]; [reflexivity|]. cbn. rewrite insert_perm, IH. reflexivity. Qed.
Lemma before_total a b : before a b = false -> before b a = true.
Proof. unfold before. intros H. apply orb_false_iff in H. destruct H as (A & B). apply Nat.ltb_ge in A. apply orb_true_iff. destruct (Nat.eq_dec (m_Offset a) (m_Offset b)) as [E|E]; [right; rewrite E, Nat.eqb_refl in *; cbn in *; apply Nat.leb_gt in B; apply Nat.leb_le; lia|left; apply Nat.ltb_lt; lia]. Qed.
Lemma before_trans a b c : before a b = true -> before b c = true -> before a c = true.
Proof. unfold before. rewrite !orb_true_iff, !andb_true_iff, !Nat.ltb_lt, !Nat.eqb_eq, !Nat.leb_le. lia. Qed.
Lemma insert_sorted v l : StronglySorted (fun a b => before a b = true) l -> StronglySorted (fun a b => before a b = true) (insert v l).
Proof.
  induction 1 as [|w l S IH F]; [repeat constructor|]. cbn. destruct (before v w) eqn:Q.
  - constructor; [constructor; assumption|]. constructor; [exact Q|]. eapply Forall_impl; [|exact F]. intros x X. eapply before_trans; eassumption.
  - constructor; [exact IH|]. apply Forall_forall. intros x I. apply (Permutation_in _ (insert_perm v l)) in I. destruct I as [<-|I]; [apply before_total; exact Q|]. rewrite Forall_forall in F. apply F. exact I.
Qed.
Lemma sort_sorted l : StronglySorted (fun a b => before a b = true) (sort l).
Proof. induction l; [constructor|]. cbn. apply insert_sorted. assumption. Qed.
Lemma sorted_pieces l : exists l', sort (map of_piece l) = map of_piece l' /\ Permutation l l'.
Proof. destruct (Permutation_map_inv of_piece l (sort_perm (map of_piece l))) as (l' & E & P). exists l'. split; assumption. Qed.
Lemma wanted_perm l l' p b : Permutation l l' -> wanted l p b <-> wanted l' p b.
Proof. intros P. split; intros (o & d & I & H); exists o, d; (split; [|exact H]); [eapply Permutation_in; [exact P|exact I]|eapply Permutation_in; [apply Permutation_sym; exact P|exact I] ]. Qed.

(* the mask *)
Lemma mask_at l : forall blk, consistent l -> (forall o d, In (o, d) l -> o + length d <= length blk) -> exists blk', copy_mask (map of_piece l) blk = Some blk' /\
   (forall p b, wanted l p b -> nth_error blk' p = Some (Some b)) /\ forall p, (forall b, ~ wanted l p b) -> nth_error blk' p = nth_error blk p.
Proof.
  induction l as [|(o, d) l IH]; intros blk C L; cbn [map copy_mask of_piece m_Buffer m_Offset fst snd].
  - exists blk. split; [reflexivity|]. split; [intros p b (? & ? & [] & _)|reflexivity].
  - destruct (store_all_some d blk o) as (b1 & E); [apply L; left; reflexivity|]. rewrite E. destruct (IH b1) as (b2 & E2 & W2 & N2).
    + intros p b c W V. apply (C p); apply wanted_cons; auto.
    + intros o' d' I. rewrite (store_all_length _ _ _ _ E). apply L. right. exact I.
    + exists b2. split; [exact E2|]. split.
      * intros p b W. destruct (wanted_dec l p) as [ (c & V)|N]; [rewrite (W2 p c V); repeat f_equal; apply (C p); [apply wanted_cons; auto|exact W]|].
        rewrite (N2 p N), (store_all_nth _ _ _ _ p E). apply wanted_cons in W. destruct W as [ (A & B)|W]; [|destruct (N b W)]. assert (Q : (o <=? p) && (p <? o + length d) = true) by (apply in_range; eauto). rewrite Q, B. reflexivity.
      * intros p N. rewrite N2 by (intros b W; apply (N b), wanted_cons; auto). rewrite (store_all_nth _ _ _ _ p E). destruct ((o <=? p) && (p <? o + length d)) eqn:Q; [|reflexivity]. apply in_range in Q. destruct Q as (A & b & B). destruct (N b). apply wanted_cons. auto.
Qed.

(* the last of the sorted list ends last *)
Lemma last_greatest (l : list validation) z : StronglySorted (fun a b => before a b = true) l -> l <> [] -> In (last l z) l /\ forall x, In x l -> x = last l z \/ before x (last l z) = true.
Proof.
  induction 1 as [|v l S IH F]; intros N; [congruence|]. destruct l as [|w l]; [cbn; split; [auto|intros x [->|[] ]; auto]|]. destruct IH as (A & B); [discriminate|].
  change (last (v :: w :: l) z) with (last (w :: l) z). split; [right; exact A|]. intros x [<-|I]; [right; rewrite Forall_forall in F; apply F; exact A|exact (B x I)].
Qed.
Lemma show_spec read n : forall pos, (forall i, i < n -> exists c, read (pos + i) = Some c) -> exists t, show_bytes n pos read = Some t /\ length t = n /\ forall i, i < n -> exists c, read (pos + i) = Some c /\ nth_error t i = Some (Byte c).
Proof.
  induction n as [|n IH]; intros pos H; [exists []; split; [reflexivity|split; [reflexivity|intros; lia] ]|]. cbn [show_bytes].
  destruct (H 0) as (c & E); [lia|]. rewrite Nat.add_0_r in E. rewrite E. destruct (IH (S pos)) as (t & -> & L & T).
  { intros i J. destruct (H (S i)) as (x & X); [lia|]. rewrite Nat.add_succ_r in X. eauto. }
  exists (Byte c :: t). split; [reflexivity|]. split; [cbn; lia|]. intros [|i] J; [exists c; rewrite Nat.add_0_r; auto|]. destruct (T i) as (x & X & Y); [lia|]. rewrite Nat.add_succ_r. exists x. auto.
Qed.
Lemma format_at read l : StronglySorted (fun a b => before a b = true) (map of_piece l) -> Forall (fun p => snd p <> []) l -> (forall p b, wanted l p b -> exists c, read p = Some c) -> forall pos,
  exists t, format (map of_piece l) pos read = Some t /\
    (forall k b, wanted l (pos + k) b -> exists c, read (pos + k) = Some c /\ nth_error t k = Some (Byte c)) /\
    (forall k x, nth_error t k = Some x -> x = Dots \/ exists b, wanted l (pos + k) b) /\
    forall k, k < length t -> exists z b, pos + k <= z /\ wanted l z b.
Proof.
  induction l as [|(o, d) l IH]; intros SS NE RD pos.
  - exists []. split; [reflexivity|]. split; [intros k b (? & ? & [] & _)|]. split; [intros [|k] x E; discriminate E|intros k L; cbn in L; lia].
  - cbn [map] in SS. apply StronglySorted_inv in SS. destruct SS as (SS & F). apply Forall_cons_iff in NE. destruct NE as (ND & NE). cbn in ND.
    assert (LD : 0 < length d) by (destruct d; [congruence|cbn; lia]).
    cbn [map format of_piece m_Offset m_ByteCount fst snd]. set (dots := o - pos). set (n := o + length d - (pos + dots)).
    assert (WS : forall i, o <= i -> i < o + length d -> exists b, wanted ((o, d) :: l) i b).
    { intros i A B. destruct (nth_error d (i - o)) eqn:E; [eexists; apply wanted_cons; eauto|apply nth_error_None in E; lia]. }
    destruct (show_spec read n (pos + dots)) as (t1 & E1 & L1 & T1).
    { intros i J. destruct (WS (pos + dots + i)) as (b & W); [lia|lia|]. exact (RD _ _ W). }
    destruct (IH SS NE) with (pos := pos + dots + n) as (t2 & E2 & W2 & K2 & Z2); [intros p b W; apply (RD p b), wanted_cons; auto|].
    rewrite E1, E2. exists (repeat Dots dots ++ t1 ++ t2). split; [reflexivity|].
    assert (LO : forall p b, wanted l p b -> o <= p).
    { intros p b (o' & d' & I & A & _). rewrite Forall_forall in F. specialize (F (of_piece (o', d')) (in_map _ _ _ I)). unfold before in F. cbn [of_piece m_Offset m_ByteCount fst snd] in F. rewrite orb_true_iff, andb_true_iff, Nat.ltb_lt, Nat.eqb_eq in F. lia. }
    split; [|split].
    + intros k b W. assert (OK : o <= pos + k) by (apply wanted_cons in W; destruct W as [ (A & _)|W]; [exact A|exact (LO _ _ W)]).
      rewrite nth_error_app2; rewrite repeat_length; [|lia]. destruct (Nat.lt_ge_cases (k - dots) n) as [Q|Q].
      * destruct (T1 (k - dots) Q) as (c & R & N). replace (pos + dots + (k - dots)) with (pos + k) in R by lia. exists c. split; [exact R|]. rewrite nth_error_app1 by lia. exact N.
      * rewrite nth_error_app2 by lia. rewrite L1. apply wanted_cons in W. destruct W as [ (A & B)|W].
        { assert (pos + k - o < length d) by (apply nth_error_Some; congruence). lia. }
        destruct (W2 (k - dots - n) b) as (c & R & N); [replace (pos + dots + n + (k - dots - n)) with (pos + k) by lia; exact W|]. replace (pos + dots + n + (k - dots - n)) with (pos + k) in R by lia. eauto.
    + intros k x E. destruct (Nat.lt_ge_cases k dots) as [Q|Q].
      * rewrite nth_error_app1 in E by (rewrite repeat_length; exact Q). left. apply nth_error_In, repeat_spec in E. exact E.
      * rewrite nth_error_app2 in E by (rewrite repeat_length; exact Q). rewrite repeat_length in E. destruct (Nat.lt_ge_cases (k - dots) n) as [Q2|Q2]; [right; apply WS; lia|].
        rewrite nth_error_app2 in E by lia. rewrite L1 in E. destruct (K2 _ _ E) as [->|(b & W)]; [left; reflexivity|]. right. exists b. apply wanted_cons. right. replace (pos + dots + n + (k - dots - n)) with (pos + k) in W by lia. exact W.
    + intros k L. rewrite !app_length, repeat_length, L1 in L. destruct (Nat.lt_ge_cases k (dots + n)) as [Q|Q].
      * destruct (Nat.eq_dec n 0) as [Q0|Q0].
        { destruct (WS o) as (b & W); [lia|lia|]. assert (dots = 0) by lia. lia. }
        destruct (WS (o + length d - 1)) as (b & W); [lia|lia|]. exists (o + length d - 1), b. split; [lia|exact W].
      * destruct (Z2 (k - dots - n)) as (z & b & A & W); [lia|]. exists z, b. split; [lia|]. apply wanted_cons. auto.
Qed.
Lemma first_nth {A} (l : list A) : forall n i, i < n -> nth_error (firstn n l) i = nth_error l i.
Proof. induction l as [|a l IH]; intros [|n] [|i] L; try lia; try reflexivity. cbn. apply IH. lia. Qed.
Lemma validate_at l mem : readable l mem -> exists r, validate (map of_piece l) mem = Some r /\ (r = true <-> agrees l mem).
Proof.
  induction l as [|(o, d) l IH]; intros R; cbn [map validate of_piece m_Offset m_ByteCount m_Buffer fst snd].
  - exists true. split; [reflexivity|]. split; [intros _ p b (? & ? & [] & _)|reflexivity].
  - assert (L : o + length d <= length mem) by (apply (R o d); left; reflexivity). replace (o + length d <=? length mem) with true by (symmetry; apply Nat.leb_le; exact L).
    destruct IH as (r & -> & H); [intros o' d' I; apply R; right; exact I|]. eexists. split; [reflexivity|].
    assert (X : firstn (length d) (skipn o mem) = d <-> forall p b, o <= p /\ nth_error d (p - o) = Some b -> nth_error mem p = Some b).
    { split.
      - intros E p b (A & B). assert (J : p - o < length d) by (apply nth_error_Some; congruence). rewrite <- E, first_nth, nth_skipn in B by exact J. replace (o + (p - o)) with p in B by lia. exact B.
      - intros G. apply nth_error_ext. intros i. destruct (Nat.lt_ge_cases i (length d)) as [J|J].
        + rewrite first_nth, nth_skipn by exact J. destruct (nth_error d i) eqn:B; [|apply nth_error_None in B; lia]. apply G. split; [lia|]. replace (o + i - o) with i by lia. exact B.
        + transitivity (@None N); [|symmetry]; apply nth_error_None; [rewrite firstn_length, skipn_length; lia|exact J]. }
    rewrite andb_true_iff, H. destruct (list_eq_dec N.eq_dec (firstn (length d) (skipn o mem)) d) as [E|E].
    + split; [intros (_ & G) p b W; apply wanted_cons in W; destruct W as [W|W]; [apply (proj1 X E); exact W|apply G; exact W]|]. intros G. split; [reflexivity|]. intros p b W. apply G, wanted_cons. auto.
    + split; [intros (Q & _); discriminate Q|]. intros G. destruct E. apply X. intros p b W. apply G, wanted_cons. auto.
Qed.
Lemma agrees_perm l l' mem : Permutation l l' -> agrees l mem <-> agrees l' mem.
Proof. intros P. split; intros A p b W; apply A; [rewrite (wanted_perm _ _ _ _ P)|rewrite <- (wanted_perm _ _ _ _ P)]; exact W. Qed.
(* An argument whose buffer was given validations that do not contradict each other is equal to the actual one exactly when the
   bytes at the validated places are those expected (and the values themselves are equal, unless the argument is ignored); the two
   texts show the bytes there. *)
Theorem validate_buffer_partial l mem ignored same : l <> [] -> Forall (fun p => snd p <> []) l -> consistent l -> ends_in_order l -> readable l mem ->
  exists vs r ta te, add_all l [] [] = Some (Done vs, []) /\ arguments_equal vs (Some mem) ignored same [] = Some (Done (r, ta, te), []) /\
    (r = true <-> agrees l mem /\ (ignored = true \/ same = true)) /\
    text_of l (fun p b => nth_error mem p = Some b) ta /\ text_of l (wanted l) te.
Proof.
  intros NE ND C EO RD. destruct (validations_spec l ND) as (V & _). destruct (V C) as (vs & E & ->). clear V. exists (map of_piece l).
  destruct (sorted_pieces l) as (l' & ES & P). assert (SS := sort_sorted (map of_piece l)). unfold arguments_equal. rewrite ES in *.
  assert (ND' : Forall (fun p => snd p <> []) l') by (rewrite Forall_forall in *; intros x I; apply ND; eapply Permutation_in; [apply Permutation_sym; exact P|exact I]).
  assert (C' : consistent l') by (intros p b c W W2; apply (C p); rewrite (wanted_perm _ _ _ _ P); assumption).
  assert (RD' : readable l' mem) by (intros o d I; apply (RD o d); eapply Permutation_in; [apply Permutation_sym; exact P|exact I]).
  assert (NE' : l' <> []) by (intros Q; rewrite Q in P; exact (NE (Permutation_nil (Permutation_sym P)))).
  unfold CreateBufferValidationMask, bind, alloc, lift, ret. cbn [negb].
  destruct (last_greatest (map of_piece l') {| m_Offset := 0; m_ByteCount := 0; m_Buffer := None |} SS) as (LI & LG); [destruct l'; [congruence|discriminate]|].
  set (z := last (map of_piece l') {| m_Offset := 0; m_ByteCount := 0; m_Buffer := None |}) in *. clearbody z. apply in_map_iff in LI. destruct LI as ((oz, dz) & <- & Iz).
  destruct (mask_at l' (fresh (oz + length dz)) C') as (mask & EM & MW & _).
  { intros o d I. unfold fresh. rewrite repeat_length. destruct (LG _ (in_map of_piece _ _ I)) as [Q|Q]; [injection Q as -> Q2 _; lia|].
    unfold before in Q. cbn [of_piece m_Offset m_ByteCount fst snd] in Q. rewrite orb_true_iff, andb_true_iff, Nat.ltb_lt, Nat.eqb_eq, Nat.leb_le in Q. destruct Q as [Q|Q]; [|lia].
    apply (EO o d oz dz); [eapply Permutation_in; [apply Permutation_sym; exact P|exact I]|eapply Permutation_in; [apply Permutation_sym; exact P|exact Iz]|exact Q]. }
  cbn [of_piece m_Offset m_ByteCount fst snd]. rewrite EM.
  assert (RW : forall p b, wanted l' p b -> exists c, nth_error mem p = Some c).
  { intros p b (o & d & I & A & B). assert (p - o < length d) by (apply nth_error_Some; congruence). destruct (nth_error mem p) eqn:Q; [eauto|]. apply nth_error_None in Q. specialize (RD' o d I). lia. }
  destruct (format_at (nth_error mem) l' SS ND' RW 0) as (ta & -> & A1 & A2 & A3).
  destruct (format_at (fun p => match nth_error mask p with Some (Some b) => Some b | _ => None end) l' SS ND') with (pos := 0) as (te & -> & B1 & B2 & B3); [intros p b W; exists b; rewrite (MW p b W); reflexivity|].
  destruct (validate_at l' mem RD') as (r & -> & R). cbn [Nat.add] in *. exists (if r && negb ignored then same else r), ta, te.
  split; [exact E|]. split; [reflexivity|]. split.
  - rewrite (agrees_perm _ _ mem P), <- R. destruct r, ignored, same; cbn; intuition congruence.
  - split; (split; [|split]).
    + intros p b W. apply (wanted_perm _ _ _ _ P) in W. destruct (A1 p b W) as (c & X & Y). exists c. auto.
    + intros p k X. destruct (A2 p k X) as [Y|(b & Y)]; [auto|]. right. exists b. apply (wanted_perm _ _ _ _ P). exact Y.
    + intros p L. destruct (A3 p L) as (q & b & X & Y). exists q, b. split; [exact X|]. apply (wanted_perm _ _ _ _ P). exact Y.
    + intros p b W. apply (wanted_perm _ _ _ _ P) in W. destruct (B1 p b W) as (c & X & Y). rewrite (MW p b W) in X. injection X as <-. exists b. split; [apply (wanted_perm _ _ _ _ P); exact W|exact Y].
    + intros p k X. destruct (B2 p k X) as [Y|(b & Y)]; [auto|]. right. exists b. apply (wanted_perm _ _ _ _ P). exact Y.
    + intros p L. destruct (B3 p L) as (q & b & X & Y). exists q, b. split; [exact X|]. apply (wanted_perm _ _ _ _ P). exact Y.
Qed.
Theorem validate_case : exists vs r ta te, add_all [(3, [7; 8]%N); (0, [1]%N)] [] [] = Some (Done vs, []) /\ arguments_equal vs (Some [1; 0; 0; 7; 9; 5]%N) false true [] = Some (Done (r, ta, te), []) /\
  r = false /\ ta = [Byte 1%N; Dots; Dots; Byte 7%N; Byte 9%N] /\ te = [Byte 1%N; Dots; Dots; Byte 7%N; Byte 8%N].
Proof. eexists _, _, _, _. split; [reflexivity|]. split; [vm_compute; reflexivity|]. auto. Qed.
Theorem conflict_case : add_all [(0, [1; 2; 3]%N); (1, [2; 4]%N)] [] [] = Some (Thrown INVALID_VALIDATE_BUFFERS, []).
Proof. reflexivity. Qed.

(* A NULL argument is refused, whatever is validated. *)
Theorem validate_null_argument l ignored same : l <> [] -> Forall (fun p => snd p <> []) l -> consistent l -> ends_in_order l ->
  exists vs, add_all l [] [] = Some (Done vs, []) /\ arguments_equal vs None ignored same [] = Some (Thrown INVALID_ARGUMENT, []).
Proof.
  intros NE ND C EO. assert (exists mem, readable l mem) as (mem & RD).
  { clear. induction l as [|(o, d) l (m & IH)]; [exists []; intros ? ? []|]. exists (m ++ repeat 0%N (o + length d)). intros o' d' [E|I]; [injection E as -> ->; rewrite app_length, repeat_length; lia|]. rewrite app_length. specialize (IH o' d' I). lia. }
  destruct (validate_buffer_partial l mem ignored same NE ND C EO RD) as (vs & r & ta & te & A & B & _). exists vs. split; [exact A|]. revert B. unfold arguments_equal, bind, lift, ret.
  unfold CreateBufferValidationMask, bind, alloc, lift, ret. cbn [negb]. destruct (copy_mask _ _); intros B; [reflexivity|discriminate B].
Qed.
(* Without memory for the mask the comparison throws. *)
Theorem validate_no_memory vs mem ignored same o : arguments_equal vs mem ignored same (false :: o) = Some (Thrown ALLOCATION_FAILURE, o).
Proof. reflexivity. Qed.

(* A validation that lies inside an earlier one makes the mask too short: bytes are written behind it. *)
Theorem nested_validation_refuted : exists l mem vs, consistent l /\ readable l mem /\ Forall (fun p => snd p <> []) l /\ agrees l mem /\ add_all l [] [] = Some (Done vs, []) /\ arguments_equal vs (Some mem) false true [] = None.
Proof.
  exists [(0, [1; 2; 3]%N); (1, [2]%N)], [1; 2; 3]%N. eexists. split; [|split; [|split; [|split; [|split; [reflexivity|reflexivity] ] ] ] ].
  - intros p b c W V. apply wanted_cons in W, V. destruct W as [ (_ & W)|W], V as [ (_ & V)|V]; try (apply wanted_cons in W; destruct W as [ (? & W)|(? & ? & [] & _)]); try (apply wanted_cons in V; destruct V as [ (? & V)|(? & ? & [] & _)]); destruct p as [|[|[|p] ] ]; cbn in *; try lia; try congruence; try (destruct p; cbn in *; congruence).
  - intros o d [E|[E|[] ] ]; injection E as <- <-; cbn; lia.
  - repeat constructor; discriminate.
  - intros p b W. apply wanted_cons in W. destruct W as [ (_ & W)|W]; [rewrite Nat.sub_0_r in W; exact W|]. apply wanted_cons in W. destruct W as [ (? & W)|(? & ? & [] & _)]. destruct p as [|[|[|p] ] ]; cbn in *; try lia; try congruence. all: destruct p; discriminate W.
Qed.
(* Without memory for the copy of the expected bytes the validation is added all the same, and comparing is undefined. *)
Theorem validation_without_memory_refuted : exists vs, AddBufferValidation [] [1]%N 0 [false] = Some (Done vs, []) /\ arguments_equal vs (Some [1]%N) false true [] = None.
Proof. eexists. split; reflexivity. Qed.

(* Copy-out buffers: after the call every place of the caller's memory has the byte of the last buffer given for it, and the others
   are as before; buffers that do not fit are not caught. *)
Lemma copy_all_pieces l : forall pre, copy_all l (map of_piece pre) [] = Some (map of_piece (pre ++ l), []).
Proof.
  induction l as [|(o, d) l IH]; intros pre; [rewrite app_nil_r; reflexivity|]. cbn [copy_all]. unfold AddCopyOutArgumentBuffer, bind, alloc, ret.
  specialize (IH (pre ++ [(o, d)])). rewrite <- app_assoc, map_app in IH. exact IH.
Qed.
Lemma copy_out_at l : forall mem, (forall o d, In (o, d) l -> o + length d <= length mem) -> exists mem', CopyOutArgumentDataFrom (map of_piece l) mem = Some mem' /\ length mem' = length mem /\
  (forall p b, newest l p b -> nth_error mem' p = Some (Some b)) /\ forall p, (forall b, ~ wanted l p b) -> nth_error mem' p = nth_error mem p.
Proof.
  induction l as [|(o, d) l IH]; intros mem L; cbn [map CopyOutArgumentDataFrom of_piece m_Buffer m_Offset m_ByteCount fst snd].
  - exists mem. split; [reflexivity|]. split; [reflexivity|]. split; [intros p b ([|? ?] & ? & ? & ? & E & _); discriminate E|reflexivity].
  - rewrite firstn_all. destruct (store_all_some d mem o) as (m1 & E); [apply L; left; reflexivity|]. rewrite E. assert (LE := store_all_length _ _ _ _ E).
    destruct (IH m1) as (m2 & E2 & L2 & W2 & N2); [intros o' d' I; rewrite LE; apply L; right; exact I|]. exists m2. split; [exact E2|]. split; [congruence|]. split.
    + intros p b ([|x early] & off & d' & late & Q & A & B & NL); injection Q as Q1 Q2.
      * subst off d' late. rewrite (N2 p NL), (store_all_nth _ _ _ _ p E). assert (R : (o <=? p) && (p <? o + length d) = true) by (apply in_range; eauto). rewrite R, B. reflexivity.
      * apply W2. exists early, off, d', late. auto.
    + intros p N. rewrite N2 by (intros b W; apply (N b), wanted_cons; auto). rewrite (store_all_nth _ _ _ _ p E). destruct ((o <=? p) && (p <? o + length d)) eqn:Q; [|reflexivity]. apply in_range in Q. destruct Q as (A & b & B). destruct (N b). apply wanted_cons. auto.
Qed.
Theorem copy_out_spec l mem : readable l mem -> exists cs mem', copy_all l [] [] = Some (cs, []) /\ CopyOutArgumentDataFrom cs (filled mem) = Some (filled mem') /\ length mem' = length mem /\
  (forall p b, newest l p b -> nth_error mem' p = Some b) /\ forall p, (forall b, ~ wanted l p b) -> nth_error mem' p = nth_error mem p.
Proof.
  intros R. destruct (copy_out_at l (filled mem)) as (m & E & L & W & N); [intros o d I; unfold filled; rewrite map_length; apply (R o d I)|].
  assert (G : forall (l : list piece) p, (exists b, newest l p b) \/ forall b, ~ wanted l p b).
  { clear. induction l as [|(o, d) l IH]; intros p; [right; intros b (? & ? & [] & _)|]. destruct (IH p) as [ (b & e & off & d' & late & -> & H)|N]; [left; exists b, ((o, d) :: e), off, d', late; auto|].
    destruct (wanted_dec [(o, d)] p) as [ (b & W)|N2]; [left; apply wanted_cons in W; destruct W as [ (A & B)|(? & ? & [] & _)]; exists b, [], o, d, l; auto|]. right. intros b W. apply wanted_cons in W. destruct W as [W|W]; [apply (N2 b), wanted_cons; auto|exact (N b W)]. }
  assert (F : exists mem', m = filled mem' /\ length mem' = length m).
  { assert (V : forall p x, nth_error m p = Some x -> exists b, x = Some b).
    { intros p x X. destruct (G l p) as [ (b & Q)|Q]; [rewrite (W p b Q) in X; injection X as <-; eauto|]. rewrite (N p Q) in X. unfold filled in X. rewrite nth_error_map in X. destruct (nth_error mem p); [injection X as <-; eauto|discriminate X]. }
    clear -V. induction m as [|x m IH]; [exists []; auto|]. destruct (V 0 x eq_refl) as (b & ->). destruct IH as (m' & -> & L); [intros p x X; exact (V (S p) x X)|]. exists (b :: m'). split; [reflexivity|]. cbn. lia. }
  destruct F as (mem' & -> & LM). exists (map of_piece l), mem'. split; [exact (copy_all_pieces l [])|]. split; [exact E|]. split; [rewrite LM, L; unfold filled; apply map_length|].
  assert (X : forall p b (k : list BinNums.N), nth_error (filled k) p = Some (Some b) <-> nth_error k p = Some b) by (intros p b k; unfold filled; rewrite nth_error_map; destruct (nth_error k p); cbn; split; congruence).
  split; [intros p b Q; apply X, W; exact Q|]. intros p Q. specialize (N p Q). unfold filled in N. rewrite !nth_error_map in N. destruct (nth_error mem' p), (nth_error mem p); cbn in N; congruence.
Qed.
Theorem copy_out_case : exists cs mem', copy_all [(1, [7; 8]%N); (2, [9]%N)] [] [] = Some (cs, []) /\ CopyOutArgumentDataFrom cs (filled [1; 2; 3; 4]%N) = Some (filled mem') /\ mem' = [1; 7; 9; 4]%N.
Proof. eexists _, [1; 7; 9; 4]%N. split; [reflexivity|]. split; reflexivity. Qed.
Theorem copy_out_too_long_refuted : exists cs, AddCopyOutArgumentBuffer [] [1; 2]%N 1 [] = Some (cs, []) /\ CopyOutArgumentDataFrom cs (filled [0; 0]%N) = None.
Proof. eexists. split; reflexivity. Qed.
Theorem copy_out_without_memory_refuted : exists cs, AddCopyOutArgumentBuffer [] [1]%N 0 [false] = Some (cs, []) /\ CopyOutArgumentDataFrom cs (filled [0]%N) = None.
Proof. eexists. split; reflexivity. Qed.
