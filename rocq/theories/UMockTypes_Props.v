(* The registry of types is the table of the specification, for every history and every memory. *)
From Verif Require Import Base Strings_Model Strings_Props UMockName_Model UMockName_Spec UMockName_Props UMockTypes_Model UMockTypes_Spec.
Local Open Scope Z_scope.

Definition row (h : handlers) : functions := {| to_string := stringify_func h; equal := are_equal_func h; duplicate := copy_func h; release := free_func h |}.
(* a registered type of the module is a row of the table *)
Definition is_row (h : handlers) (r : list token * functions) : Prop :=
  h_type h = render (fst r) /\ row h = snd r /\ fst r <> [] /\ exists n, fst r = tokens n.
Record shows (s : types) (t : table) : Prop := {
  sh_init : initialized s = match t with Some _ => true | None => false end;
  sh_rows : Forall2 is_row (type_handlers s) (match t with Some l => l | None => [] end);
  sh_names : names s = length (match t with Some l => l | None => [] end) }.

Lemma string_in_filled s : cstr_ok s -> string_in (filled (s ++ [0%N])) = Some s.
Proof.
  induction s as [|c s IH]; intros K; [reflexivity|]. inversion K as [|? ? C K2]. subst. cbn [app filled map string_in].
  unfold filled in IH. rewrite IH by exact K2. unfold char_ok in C. destruct (N.eqb_spec c 0) as [->|]; [|reflexivity]. exfalso. lia.
Qed.
Lemma lex_ok s : forall cur, cstr_ok cur -> cstr_ok s -> Forall (fun t => match t with Word w => cstr_ok w | Star => True end) (lex cur s).
Proof.
  induction s as [|c s IH]; intros cur Kc K; cbn [lex].
  - destruct cur; cbn; constructor; auto.
  - inversion K as [|? ? C K2]. subst. assert (Fl : Forall (fun t => match t with Word w => cstr_ok w | Star => True end) (flush cur)) by (destruct cur; cbn; constructor; auto).
    destruct (white c).
    + apply Forall_app. split; [exact Fl|]. apply IH; [constructor|exact K2].
    + destruct (c =? 42)%N.
      * apply Forall_app. split; [exact Fl|]. constructor; [exact Logic.I|]. apply IH; [constructor|exact K2].
      * apply IH; [|exact K2]. apply Forall_app. split; [exact Kc|]. constructor; [exact C|constructor].
Qed.
Lemma render_ok ts : Forall (fun t => match t with Word w => cstr_ok w | Star => True end) ts -> cstr_ok (render ts).
Proof.
  induction ts as [|[w|] ts IH]; intros K; [constructor| |]; inversion K as [|? ? A B]; subst; specialize (IH B).
  - rewrite render_word. apply Forall_app. split; [exact A|]. destruct ts as [|[v|] ts]; [exact IH| |exact IH]. constructor; [|exact IH]. vm_compute; auto.
  - cbn [render]. constructor; [vm_compute; auto|exact IH].
Qed.

Lemma normalize_at s n o : cstr_ok n ->
  exists r o' used, normalize s (Some n) o = Some (r, o') /\ o = used ++ o' /\
   ((r = (None, s) /\ (tokens n = [] \/ In false used)) \/ (r = (Some (render (tokens n)), more_names s) /\ tokens n <> [])).
Proof.
  intros K. unfold normalize, bind, lift. destruct (normalize_spec (Some n) o) as (r & o' & used & E & U & A & B & C); [intros ? X; injection X as <-; exact K|].
  rewrite E. destruct r as [b|].
  - specialize (C b eq_refl). subst b. rewrite string_in_filled by (apply render_ok, lex_ok; [constructor|exact K]).
    eexists _, o', used. split; [reflexivity|]. split; [exact U|]. right. split; [reflexivity|]. intros T. discriminate (A T).
  - eexists _, o', used. split; [reflexivity|]. split; [exact U|]. left. split; [reflexivity|].
    destruct (tokens n) eqn:T; [left; reflexivity|right]. apply B; [discriminate|reflexivity].
Qed.
Lemma same_type_spec a b : same_type a b = true <-> a = b.
Proof. unfold same_type. destruct (list_eq_dec _ a b); split; congruence. Qed.
Lemma search hs l n : Forall2 is_row hs l ->
  match get_value_type_handlers hs (render (tokens n)) with
  | Some h => lookup l (tokens n) = Some (row h)
  | None => lookup l (tokens n) = None
  end.
Proof.
  induction 1 as [|h [ts f] hs l (A & B & C & m & D) F IH]; [reflexivity|]. cbn in A, B, C, D. cbn [get_value_type_handlers lookup].
  destruct (Z.eqb_spec (strcmp (h_type h) (render (tokens n))) 0) as [E|E].
  - apply strcmp_eq in E. rewrite A, D, normalize_same in E. destruct (same_type ts (tokens n)) eqn:S; [now rewrite B|].
    rewrite (proj2 (same_type_spec ts (tokens n))) in S by congruence. discriminate.
  - destruct (same_type ts (tokens n)) eqn:S; [|exact IH]. apply same_type_spec in S. exfalso. apply E, strcmp_eq. congruence.
Qed.
Lemma lookup_nil hs l : Forall2 is_row hs l -> lookup l [] = None.
Proof.
  induction 1 as [|h [ts f] hs l (A & B & C & D) F IH]; [reflexivity|]. cbn in C. cbn [lookup].
  destruct (same_type ts []) eqn:S; [|exact IH]. apply same_type_spec in S. congruence.
Qed.

Lemma rows_length (hs : list handlers) (l : list (list token * functions)) : Forall2 is_row hs l -> length hs = length l.
Proof. induction 1; cbn; congruence. Qed.
Definition step_ok (s' : types) (t : table) (op : top) (r : tret) (c : list tcall) (used : list bool) : Prop :=
  (exists ok t', meaning t op = (ok, c, t') /\ returns op ok r /\ shows s' t') \/
  (op <> TDeinit /\ op <> TInit /\ returns op false r /\ c = [] /\ shows s' t /\ In false used).

Lemma free_more s t : shows s t -> shows (free_name (more_names s)) t.
Proof. intros [A B C]. constructor; cbn; auto. Qed.

Lemma tstep_at s t op o : shows s t -> op_ok op ->
  exists r c s' o' used, tstep s op o = Some ((r, c, s'), o') /\ o = used ++ o' /\ step_ok s' t op r c used.
Proof.
  intros S K. pose proof S as [SI SR SN].
  assert (Z0 : forall r c s', (exists o' used, tstep s op o = Some ((r, c, s'), o') /\ o = used ++ o' /\ step_ok s' t op r c used) ->
     exists r c s' o' used, tstep s op o = Some ((r, c, s'), o') /\ o = used ++ o' /\ step_ok s' t op r c used) by eauto 10.
  destruct op as [ | |n st eq cp fr|n v a|n l r a|n d src a|n v].
  - cbn [tstep]. unfold umocktypes_init. rewrite SI. destruct t as [l|].
    + eexists _, _, _, o, []. split; [reflexivity|]. split; [reflexivity|]. left. eexists _, _. split; [reflexivity|]. split; [exists 67; split; [reflexivity|lia]|exact S].
    + eexists _, _, _, o, []. split; [reflexivity|]. split; [reflexivity|]. left. eexists _, _. split; [reflexivity|]. split; [reflexivity|].
      constructor; cbn; auto.
  - eexists _, _, _, o, []. split; [reflexivity|]. split; [reflexivity|]. left. eexists _, _. split; [reflexivity|]. split; [reflexivity|].
    unfold umocktypes_deinit. rewrite SI. destruct t as [l|]; [|exact S]. constructor; cbn; auto. rewrite SN. apply rows_length in SR. rewrite SR. lia.
  - cbn [tstep]. unfold umocktypes_register_type.
    destruct n as [n|], st as [st|], eq as [eq|], cp as [cp|], fr as [fr|];
      try (eexists _, _, _, o, []; split; [reflexivity|]; split; [reflexivity|]; left; eexists _, _; split; [reflexivity|]; split; [exists 117; split; [reflexivity|lia]|exact S]).
    rewrite SI. destruct t as [l|]; cbn [negb].
    2:{ eexists _, _, _, o, []. split; [reflexivity|]. split; [reflexivity|]. left. eexists _, _. split; [reflexivity|]. split; [exists 122; split; [reflexivity|lia]|exact S]. }
    unfold bind. destruct (normalize_at s n o K) as (r & o1 & used & E & U & [ [-> X]|[-> X] ]); rewrite E; cbn [fst snd].
    + eexists _, _, _, o1, used. split; [reflexivity|]. split; [exact U|]. destruct X as [X|X].
      * left. eexists _, _. split; [cbn [meaning]; rewrite X; reflexivity|]. split; [exists 130; split; [reflexivity|lia]|exact S].
      * right. repeat split; try discriminate; auto. exists 130. split; [reflexivity|lia].
    + pose proof (search _ _ n SR) as L. cbn [more_names type_handlers]. destruct (get_value_type_handlers (type_handlers s) (render (tokens n))) as [h|].
      * pose proof (free_more _ _ S) as S'.
        assert (Q : meaning (Some l) (TRegister (Some n) (Some st) (Some eq) (Some cp) (Some fr)) = (functions_eqb {| to_string := st; equal := eq; duplicate := cp; release := fr |} (row h), [], Some l)).
        { cbn [meaning]. rewrite L. destruct (tokens n); [congruence|reflexivity]. }
        unfold functions_eqb, row in Q. cbn [to_string equal duplicate release] in Q.
        destruct (st =? stringify_func h)%nat, (eq =? are_equal_func h)%nat, (cp =? copy_func h)%nat, (fr =? free_func h)%nat; cbn [negb orb andb] in *;
          (eexists _, _, _, o1, used; split; [reflexivity|]; split; [exact U|]; left; eexists _, _; split; [exact Q|]; split;
           [first [reflexivity | exists 145; split; [reflexivity|lia] ]|exact S']).
      * destruct (alloc_spec o1) as (ok & o2 & u2 & A & U2 & F). rewrite A. destruct ok; cbn [negb].
        -- eexists _, _, _, o2, (used ++ u2). split; [reflexivity|]. split; [rewrite U, U2; apply app_assoc|]. left. eexists _, _.
           split; [cbn [meaning]; rewrite L; destruct (tokens n) eqn:T; [congruence|rewrite <- T; reflexivity]|]. split; [reflexivity|].
           constructor; cbn; [exact SI| |rewrite app_length, SN; cbn; lia].
           apply Forall2_app; [exact SR|]. constructor; [|constructor]. repeat split; cbn; eauto.
        -- eexists _, _, _, o2, (used ++ u2). split; [reflexivity|]. split; [rewrite U, U2; apply app_assoc|]. right.
           split; [discriminate|]. split; [discriminate|]. split; [exists 160; split; [reflexivity|lia]|]. split; [reflexivity|]. split; [apply free_more, S|].
           apply in_or_app. right. auto.
  - cbn [tstep]. unfold umocktypes_stringify.
    destruct n as [n|], v as [v|]; try (eexists _, _, _, o, []; split; [reflexivity|]; split; [reflexivity|]; left; eexists _, _; split; [cbn [meaning known]; destruct t; reflexivity|]; split; [reflexivity|exact S]).
    rewrite SI. destruct t as [tl|]; cbn [negb].
    2:{ eexists _, _, _, o, []. split; [reflexivity|]. split; [reflexivity|]. left. eexists _, _. split; [reflexivity|]. split; [reflexivity|exact S]. }
    unfold bind. destruct (normalize_at s n o K) as (x & o1 & used & E & U & [ [-> X]|[-> X] ]); rewrite E; cbn [fst snd].
    + eexists _, _, _, o1, used. split; [reflexivity|]. split; [exact U|]. destruct X as [X|X].
      * left. eexists _, _. split; [cbn [meaning known]; rewrite X, (lookup_nil _ _ SR); reflexivity|]. split; [reflexivity|exact S].
      * right. repeat split; try discriminate; auto.
    + pose proof (search _ _ n SR) as L. cbn [more_names type_handlers]. destruct (get_value_type_handlers (type_handlers s) (render (tokens n))) as [h|];
      (eexists _, _, _, o1, used; split; [reflexivity|]; split; [exact U|]; left; eexists _, _; split; [cbn [meaning known]; rewrite L; reflexivity|]; split; [reflexivity|apply free_more, S]).
  - cbn [tstep]. unfold umocktypes_are_equal.
    destruct n as [n|], l as [l|], r as [r|]; try (eexists _, _, _, o, []; split; [reflexivity|]; split; [reflexivity|]; left; eexists _, _; split; [cbn [meaning known]; destruct t; reflexivity|]; split; [reflexivity|exact S]).
    rewrite SI. destruct t as [tl|]; cbn [negb].
    2:{ eexists _, _, _, o, []. split; [reflexivity|]. split; [reflexivity|]. left. eexists _, _. split; [reflexivity|]. split; [reflexivity|exact S]. }
    unfold bind. destruct (normalize_at s n o K) as (x & o1 & used & E & U & [ [-> X]|[-> X] ]); rewrite E; cbn [fst snd].
    + eexists _, _, _, o1, used. split; [reflexivity|]. split; [exact U|]. destruct X as [X|X].
      * left. eexists _, _. split; [cbn [meaning known]; rewrite X, (lookup_nil _ _ SR); reflexivity|]. split; [reflexivity|exact S].
      * right. repeat split; try discriminate; auto.
    + pose proof (search _ _ n SR) as L. cbn [more_names type_handlers]. destruct (get_value_type_handlers (type_handlers s) (render (tokens n))) as [h|].
      2:{ eexists _, _, _, o1, used; split; [reflexivity|]; split; [exact U|]; left; eexists _, _; split; [cbn [meaning known]; rewrite L; reflexivity|]; split; [reflexivity|apply free_more, S]. }
      assert (Q : meaning (Some tl) (TAreEqual (Some n) (Some l) (Some r) a) = (true, if (l =? r)%nat then [] else [AreEqual (are_equal_func h) l r], Some tl)).
      { cbn [meaning known]. rewrite L. reflexivity. }
      assert (V : returns (TAreEqual (Some n) (Some l) (Some r) a) true (TZ (if (l =? r)%nat then 1 else if a =? 1 then 1 else if a =? 0 then 0 else -1))).
      { cbn [returns]. destruct (l =? r)%nat; [reflexivity|]. destruct (Z.eqb_spec a 1) as [->|]; [reflexivity|]. destruct (Z.eqb_spec a 0) as [->|]; reflexivity. }
      destruct (l =? r)%nat;
      (eexists _, _, _, o1, used; split; [reflexivity|]; split; [exact U|]; left; eexists _, _; split; [exact Q|]; split; [exact V|apply free_more, S]).
  - cbn [tstep]. unfold umocktypes_copy.
    destruct n as [n|], d as [d|], src as [src|]; try (eexists _, _, _, o, []; split; [reflexivity|]; split; [reflexivity|]; left; eexists _, _; split; [cbn [meaning known]; destruct t; reflexivity|]; split; [exists (-1); split; [reflexivity|lia]|exact S]).
    rewrite SI. destruct t as [tl|]; cbn [negb].
    2:{ eexists _, _, _, o, []. split; [reflexivity|]. split; [reflexivity|]. left. eexists _, _. split; [reflexivity|]. split; [exists (-1); split; [reflexivity|lia]|exact S]. }
    unfold bind. destruct (normalize_at s n o K) as (x & o1 & used & E & U & [ [-> X]|[-> X] ]); rewrite E; cbn [fst snd].
    + eexists _, _, _, o1, used. split; [reflexivity|]. split; [exact U|]. destruct X as [X|X].
      * left. eexists _, _. split; [cbn [meaning known]; rewrite X, (lookup_nil _ _ SR); reflexivity|]. split; [exists (-1); split; [reflexivity|lia]|exact S].
      * right. repeat split; try discriminate; auto. exists (-1). split; [reflexivity|lia].
    + pose proof (search _ _ n SR) as L. cbn [more_names type_handlers]. destruct (get_value_type_handlers (type_handlers s) (render (tokens n))) as [h|];
      (eexists _, _, _, o1, used; split; [reflexivity|]; split; [exact U|]; left; eexists _, _; split; [cbn [meaning known]; rewrite L; reflexivity|]; split;
       [first [reflexivity | exists 331; split; [reflexivity|lia] ]|apply free_more, S]).
  - cbn [tstep]. unfold umocktypes_free.
    destruct n as [n|], v as [v|]; try (eexists _, _, _, o, []; split; [reflexivity|]; split; [reflexivity|]; left; eexists _, _; split; [cbn [meaning known]; destruct t; reflexivity|]; split; [reflexivity|exact S]).
    rewrite SI. destruct t as [tl|]; cbn [negb].
    2:{ eexists _, _, _, o, []. split; [reflexivity|]. split; [reflexivity|]. left. eexists _, _. split; [reflexivity|]. split; [reflexivity|exact S]. }
    unfold bind. destruct (normalize_at s n o K) as (x & o1 & used & E & U & [ [-> X]|[-> X] ]); rewrite E; cbn [fst snd].
    + eexists _, _, _, o1, used. split; [reflexivity|]. split; [exact U|]. destruct X as [X|X].
      * left. eexists _, _. split; [cbn [meaning known]; rewrite X, (lookup_nil _ _ SR); reflexivity|]. split; [reflexivity|exact S].
      * right. repeat split; try discriminate; auto.
    + pose proof (search _ _ n SR) as L. cbn [more_names type_handlers]. destruct (get_value_type_handlers (type_handlers s) (render (tokens n))) as [h|];
      (eexists _, _, _, o1, used; split; [reflexivity|]; split; [exact U|]; left; eexists _, _; split; [cbn [meaning known]; rewrite L; reflexivity|]; split; [reflexivity|apply free_more, S]).
Qed.

Lemma thistory_at ops : forall s t o, shows s t -> Forall op_ok ops ->
  exists rs s' o' used t' m, thistory s ops o = Some ((rs, s'), o') /\ o = used ++ o' /\ explained t ops rs t' m /\ (m = true -> In false used) /\ shows s' t'.
Proof.
  induction ops as [|op ops IH]; intros s t o S K.
  - exists [], s, o, [], t, false. repeat split; auto; try discriminate; try apply S. constructor.
  - inversion K as [|? ? K1 K2]. subst. destruct (tstep_at s t op o S K1) as (r & c & s1 & o1 & u1 & E & U & D).
    cbn [thistory]. unfold bind. rewrite E. destruct D as [(ok & t1 & M & R & S1)|(A & B & R & C & S1 & F)].
    + destruct (IH s1 t1 o1 S1 K2) as (rs & s2 & o2 & u2 & t2 & m & E2 & U2 & X & F & S2). rewrite E2. cbn [fst snd].
      eexists _, s2, o2, (u1 ++ u2), t2, m. split; [reflexivity|]. split; [rewrite U, U2; apply app_assoc|]. split; [eapply ex_step; eauto|].
      split; [|exact S2]. intros H. apply in_or_app. auto.
    + destruct (IH s1 t o1 S1 K2) as (rs & s2 & o2 & u2 & t2 & m & E2 & U2 & X & F2 & S2). rewrite E2. cbn [fst snd]. subst c.
      eexists _, s2, o2, (u1 ++ u2), t2, true. split; [reflexivity|]. split; [rewrite U, U2; apply app_assoc|]. split; [eapply ex_memory; eauto|].
      split; [|exact S2]. intros _. apply in_or_app. auto.
Qed.
(* Every history of calls, with any memory: each call does what the table says, or fails and does nothing for want
   of memory, which happens only when malloc fails; the module holds one name for each row of the table and no
   other, so nothing at all once it is deinitialised. *)
Theorem types_spec ops o : Forall op_ok ops ->
  exists rs s o' t m, thistory types_start ops o = Some ((rs, s), o') /\ explained None ops rs t m /\ (m = true -> In false o) /\
   names s = match t with Some l => length l | None => 0%nat end.
Proof.
  intros K. destruct (thistory_at ops types_start None o) as (rs & s & o' & used & t & m & E & U & X & F & S); [constructor; cbn; auto|exact K|].
  exists rs, s, o', t, m. split; [exact E|]. split; [exact X|]. split; [intros H; rewrite U; apply in_or_app; auto|].
  rewrite (sh_names _ _ S). destruct t; reflexivity.
Qed.

(* The table of the specification: after deinit it is gone; two spellings of a type name are one type. *)
Theorem spelling_does_not_matter t a b : tokens a = tokens b -> known t (Some a) = known t (Some b).
Proof. intros E. unfold known. now rewrite E. Qed.
(* no table has two rows for a type *)
Lemma lookup_in l ts : lookup l ts = None -> ~ In ts (map fst l).
Proof.
  induction l as [|[n f] l IH]; cbn [lookup map fst]; [auto|]. destruct (same_type n ts) eqn:S; [discriminate|].
  intros H [<-|X]; [|now apply IH]. rewrite (proj2 (same_type_spec n n) eq_refl) in S. discriminate.
Qed.
Theorem types_unique t ops rs t' m : explained t ops rs t' m -> (forall l, t = Some l -> NoDup (map fst l)) -> forall l, t' = Some l -> NoDup (map fst l).
Proof.
  induction 1 as [t|t op r c t1 ops rs t2 m ok M R X IH|t op r ops rs t2 m A B R X IH]; intros H; [exact H| |now apply IH].
  apply IH. clear IH X R. intros l ->. destruct op; cbn [meaning] in M.
  - destruct t; injection M as <- <- E; [apply H; congruence|]. subst l. constructor.
  - discriminate M.
  - destruct t0 as [n|], st as [st|], eq as [eq|], cp as [cp|], fr as [fr|]; try (injection M as <- <- E; now apply H).
    destruct t as [l0|]; [|discriminate M]. specialize (H l0 eq_refl). destruct (lookup l0 (tokens n)) eqn:L; destruct (tokens n) as [|x ts]; injection M as <- <- E; subst; auto.
    rewrite map_app. cbn [map fst]. 
    apply lookup_in in L. apply NoDup_rev in H. rewrite <- (rev_involutive (map fst l0 ++ [x :: ts])). apply NoDup_rev. rewrite rev_app_distr. cbn [rev app].
    constructor; [rewrite <- in_rev; exact L|exact H].
  - destruct v; [destruct (known t t0)|]; injection M as <- <- E; now apply H.
  - destruct l0, r0; try destruct (known t t0); injection M as <- <- E; now apply H.
  - destruct d, s; try destruct (known t t0); injection M as <- <- E; now apply H.
  - destruct v; [destruct (known t t0)|]; injection M as <- <- E; now apply H.
Qed.

(* Registered under one spelling, found under another; the second registration with other functions fails. *)
Example types_case :
  match thistory types_start [TInit; TRegister (Some (str "char *")) (Some 1) (Some 2) (Some 3) (Some 4); TRegister (Some (str " char*")) (Some 1) (Some 2) (Some 3) (Some 4);
    TRegister (Some (str "char*")) (Some 1) (Some 2) (Some 3) (Some 5); TCopy (Some (str "char  *")) (Some 8) (Some 9) 0; TAreEqual (Some (str "int")) (Some 1) (Some 1) 1; TDeinit]%nat [] with
  | Some ((rs, s), _) => rs = [(TZ 0, []); (TZ 0, []); (TZ 0, []); (TZ 145, []); (TZ 0, [Copy 3 8 9]); (TZ (-1), []); (TU, [])]%nat /\ names s = 0%nat
  | None => False
  end.
Proof. vm_compute. auto. Qed.
