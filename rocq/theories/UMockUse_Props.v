(* What a test that compares the strings of expected and actual calls knows when they are equal. *)
From Coq Require Import Permutation.
From Verif Require Import Base Strings_Model UMockName_Spec UMockTypes_Model UMockTypes_Spec UMockTypes_Props UMock_Model UMock_Spec UMock_Props UMockUse_Spec.
Local Open Scope Z_scope.

Lemma one_call w t h m t1 : says w t (UActual (Some h) true) (UMatch 0 m) t1 false ->
  made t1 = made t /\ ready t1 = ready t /\
  ((exists e, answers w t e h /\ pending t = e :: pending t1 /\ met t1 = met t ++ [e] /\ unexpected t1 = unexpected t) \/
   (met t1 = met t /\ pending t1 = pending t /\ unexpected t1 = unexpected t ++ [h] /\ match pending t with [] => True | e :: _ => ~ answers w t e h end)).
Proof.
  intros H. inversion H; subst; try congruence.
  - cbn. split; [reflexivity|]. split; [reflexivity|]. left. exists e. split; [exists a, b; auto|auto].
  - cbn. split; [reflexivity|]. split; [reflexivity|]. right. repeat split; auto. match goal with P : pending t = _ |- _ => rewrite P end. intros (a' & b' & A & B & C). congruence.
  - cbn. split; [reflexivity|]. split; [reflexivity|]. right. repeat split; auto. match goal with P : pending t = _ |- _ => rewrite P end. exact Logic.I.
Qed.
Lemma answers_made w t t' e h : made t' = made t -> answers w t' e h -> answers w t e h.
Proof. unfold answers. now intros ->. Qed.

Lemma Forall2_imp {A B} (P Q : A -> B -> Prop) l m : (forall a b, P a b -> Q a b) -> Forall2 P l m -> Forall2 Q l m.
Proof. intros H. induction 1; constructor; auto. Qed.
(* where the calls go *)
Lemma where_calls w t hs t' : calls_made w t hs t' ->
  made t' = made t /\ exists ms es us, met t' = met t ++ es /\ pending t = es ++ pending t' /\ unexpected t' = unexpected t ++ us /\ Forall2 (answers w t) es ms /\ Permutation hs (ms ++ us).
Proof.
  induction 1 as [t|t h m t1 hs t2 Y C (M & ms & es & us & A & B & D & E & F)].
  - split; [reflexivity|]. exists [], [], []. cbn. rewrite !app_nil_r. auto.
  - destruct (one_call _ _ _ _ _ Y) as (M1 & _ & [(e & An & P & Me & Un)|(Me & P & Un & _)]).
    + split; [congruence|]. exists (h :: ms), (e :: es), us. rewrite A, P, B, D, Me, Un, <- app_assoc. repeat split; auto.
      * constructor; [exact An|]. eapply Forall2_imp; [|exact E]. intros. eapply answers_made; eauto.
      * cbn. now constructor.
    + split; [congruence|]. exists ms, es, (h :: us). rewrite A, <- P, B, D, Me, Un, <- app_assoc. repeat split; auto.
      * eapply Forall2_imp; [|exact E]. intros. eapply answers_made; eauto.
      * rewrite F. apply Permutation_middle.
Qed.
(* Nothing is pending and nothing was unexpected exactly when the calls made are the expected ones, one for one and
   in order. *)
Theorem in_order w t hs t' : calls_made w t hs t' -> unexpected t = [] ->
  (pending t' = [] /\ unexpected t' = [] <-> Forall2 (answers w t) (pending t) hs).
Proof.
  induction 1 as [t|t h m t1 hs t2 Y C IH]; intros U.
  - split; [intros [-> _]; constructor|]. intros F. inversion F. auto.
  - destruct (one_call _ _ _ _ _ Y) as (M1 & _ & [(e & An & P & Me & Un)|(Me & P & Un & No)]).
    + rewrite IH by congruence. rewrite P. split; intros F.
      * constructor; [exact An|]. eapply Forall2_imp; [|exact F]. intros. eapply answers_made; eauto.
      * inversion F. subst. eapply Forall2_imp; [|eassumption]. intros a b. apply answers_made. congruence.
    + split.
      * intros [_ X]. exfalso. destruct (where_calls _ _ _ _ C) as (_ & _ & _ & us & _ & _ & D & _). rewrite D, Un, U in X. discriminate X.
      * intros F. inversion F; subst; try congruence. match goal with P : _ = pending t |- _ => rewrite <- P in No end. contradiction.
Qed.
Lemma texts_none w t hs : texts w t hs = Some [] -> hs = [].
Proof.
  destruct hs as [|h hs]; [reflexivity|]. unfold texts. cbn [map texts_of]. destruct (nth_error (made t) h) as [c|]; [|discriminate].
  unfold text_of. destruct (str_of w (data_stringify c) (umockcall_data c)); [|discriminate]. destruct (texts_of w _); [|discriminate]. discriminate.
Qed.
(* So a test that finds both strings empty knows the expected calls were made in order and no other. *)
Theorem both_empty w t hs t' : calls_made w t hs t' -> unexpected t = [] ->
  (texts w t' (pending t') = Some [] /\ texts w t' (unexpected t') = Some [] <-> Forall2 (answers w t) (pending t) hs).
Proof.
  intros C U. rewrite <- (in_order w t hs t' C U). split; intros [A B].
  - split; eapply texts_none; eauto.
  - rewrite A, B. split; reflexivity.
Qed.

(* ---- equal strings ---- *)
Fixpoint joined (l : list (list N)) : list N := match l with [] => [] | x :: l => ([91%N] ++ x) ++ joined l end.
Lemma joined_inj a : forall b, Forall (fun x => ~ In 91%N x) a -> Forall (fun x => ~ In 91%N x) b -> joined a = joined b -> a = b.
Proof.
  induction a as [|x a IH]; intros [|y b] A B E; try discriminate; [reflexivity|]. inversion A as [|? ? X A']. inversion B as [|? ? Y B']. subst. cbn in E. injection E as E.
  assert (Q : x = y /\ joined a = joined b).
  { clear - E X Y. revert y E X Y. induction x as [|c x IHx]; intros [|d y] E X Y; cbn in E.
    - auto.
    - exfalso. destruct a as [|? a]; cbn in E; [discriminate E|]. injection E as <- _. apply Y. now left.
    - exfalso. destruct b as [|? b]; cbn in E; [discriminate E|]. injection E as -> _. apply X. now left.
    - injection E as -> E. destruct (IHx y E) as [-> Z]; [intros H; apply X; now right|intros H; apply Y; now right|auto]. }
  destruct Q as [-> Q]. f_equal. now apply IH.
Qed.
Definition tail_of (w : world) (c : call) : list N := match str_of w (data_stringify c) (umockcall_data c) with Some a => (function_name c ++ [40] ++ a ++ [41; 93])%N | None => [] end.
Lemma texts_joined w t hs x : plain w t -> texts w t hs = Some x ->
  exists cs, Forall2 (fun h c => nth_error (made t) h = Some c /\ exists y, text_of w c = Some y) hs cs /\ x = joined (map (tail_of w) cs) /\ Forall (fun y => ~ In 91%N y) (map (tail_of w) cs).
Proof.
  intros P. unfold texts. revert x. induction hs as [|h hs IH]; intros x; cbn [map texts_of].
  - intros E. injection E as <-. exists []. repeat constructor.
  - destruct (nth_error (made t) h) as [c|] eqn:C; [|discriminate]. destruct (text_of w c) as [y|] eqn:T; [|discriminate]. destruct (texts_of w _) as [z|]; [|discriminate]. intros E. injection E as <-.
    destruct (IH z eq_refl) as (cs & A & B & D). exists (c :: cs). split; [constructor; eauto|].
    unfold text_of in T. destruct (str_of w (data_stringify c) (umockcall_data c)) as [a|] eqn:Sa; [|discriminate T]. injection T as <-.
    cbn [map joined]. split; [rewrite B; f_equal; unfold tail_of; rewrite Sa; reflexivity|]. constructor; [|exact D]. unfold tail_of. rewrite Sa.
    unfold plain in P. rewrite Forall_forall in P. destruct (P c (nth_error_In _ _ C)) as [Q1 Q2]. specialize (Q2 a Sa). rewrite !in_app_iff. cbn. intuition; discriminate.
Qed.
Lemma same_tail w a b x y : text_of w a = Some x -> text_of w b = Some y -> tail_of w a = tail_of w b -> x = y.
Proof.
  unfold text_of, tail_of. destruct (str_of w (data_stringify a) (umockcall_data a)); [|discriminate]. destruct (str_of w (data_stringify b) (umockcall_data b)); [|discriminate].
  intros E F G. injection E as <-. injection F as <-. cbn in *. now rewrite G.
Qed.
(* When the strings are equal and easy to read back, the calls made are the expected ones up to their order: some
   came when they were expected, the others read like those still pending. *)
Theorem equal_strings_partial w t hs t' x : calls_made w t hs t' -> unexpected t = [] -> plain w t -> texts w t' (pending t') = Some x -> texts w t' (unexpected t') = Some x ->
  exists es ps ms us, pending t = es ++ ps /\ Permutation hs (ms ++ us) /\ Forall2 (answers w t) es ms /\ Forall2 (reads_alike w t) ps us.
Proof.
  intros C U P A B. destruct (where_calls _ _ _ _ C) as (M & ms & es & us & M1 & M2 & M3 & M4 & M5). rewrite U in M3. cbn in M3.
  assert (P' : plain w t') by (unfold plain in *; now rewrite M).
  exists es, (pending t'), ms, us. split; [exact M2|]. split; [exact M5|]. split; [exact M4|]. rewrite M3 in B.
  destruct (texts_joined _ _ _ _ P' A) as (ca & A1 & A2 & A3), (texts_joined _ _ _ _ P' B) as (cb & B1 & B2 & B3).
  assert (E : map (tail_of w) ca = map (tail_of w) cb) by (apply joined_inj; auto; congruence).
  clear - E A1 B1 M. revert cb us B1 E. induction A1 as [|h c hs ca [Hc [y Hy] ] F IH]; intros cb us B1 E.
  - destruct cb; [|discriminate E]. inversion B1. constructor.
  - destruct cb as [|d cb]; [discriminate E|]. cbn in E. injection E as E1 E2. inversion B1 as [|h' ? us' ? [Hd [z Hz] ] F']. subst. constructor; [|now apply (IH cb)].
    exists c, d, y. rewrite <- M. pose proof (same_tail w c d y z Hy Hz E1) as ->. auto.
Qed.

(* a world of calls without arguments, all equal when the names are *)
Definition quiet : world := {| str_of := fun _ _ => Some []; eq_of := fun _ _ _ => 1 |}.
Definition f_call : call := {| function_name := str "f"; umockcall_data := 1; data_free := 1; data_stringify := 2; data_are_equal := 3 |}.
Definition g_call : call := {| function_name := str "g"; umockcall_data := 2; data_free := 1; data_stringify := 2; data_are_equal := 3 |}.
Definition make (n : string) (d : nat) : uop := UCreate (Some (str n)) (Some d) (Some 1%nat) (Some 2%nat) (Some 3%nat).
Definition on_handle (r : uret) (k : nat -> user) : user := match r with UHandle (Some h) => k h | _ => Stop end.
Definition expecting (n : string) (d : nat) (next : user) : user := Do quiet (make n d) (fun r => on_handle r (fun h => Do quiet (UExpect (Some h)) (fun _ => next))).
Definition calling (n : string) (d : nat) (next : user) : user := Do quiet (make n d) (fun r => on_handle r (fun h => Do quiet (UActual (Some h) true) (fun r => next))).
Definition compare : user := Do quiet UExpected (fun _ => Do quiet UActuals (fun _ => Do quiet UDeinit (fun _ => Stop))).
Definition answers_of (p : user) (o : oracle) : option (list uret * list (nat * nat)) :=
  match play umock_start p o with Some ((tr, s), _) => Some (map snd tr, u_freed s) | None => None end.

(* expected f then g; called f then g: both strings are empty, and every call's data was freed once *)
Example compare_case : answers_of (Do quiet UInit (fun _ => expecting "f" 1 (expecting "g" 2 (calling "f" 3 (calling "g" 4 compare))))) [] =
  Some ([UInt 0; UHandle (Some 0%nat); UInt 0; UHandle (Some 1%nat); UInt 0; UHandle (Some 2%nat); UMatch 0 (Some (Some 0%nat)); UHandle (Some 3%nat); UMatch 0 (Some (Some 1%nat));
         UText (Some []); UText (Some []); UNone], [(1, 3); (1, 4); (1, 1); (1, 2)]%nat).
Proof. vm_compute. reflexivity. Qed.
(* Expected f then g, called g then f: the strings are equal, so a test that compares them passes. *)
Theorem equal_strings_refuted : answers_of (Do quiet UInit (fun _ => expecting "f" 1 (expecting "g" 2 (calling "g" 3 (calling "f" 4 compare))))) [] =
  Some ([UInt 0; UHandle (Some 0%nat); UInt 0; UHandle (Some 1%nat); UInt 0; UHandle (Some 2%nat); UMatch 0 (Some None); UHandle (Some 3%nat); UMatch 0 (Some (Some 0%nat));
         UText (Some (str "[g()]")); UText (Some (str "[g()]")); UNone], [(1, 4); (1, 1); (1, 2); (1, 3)]%nat) /\
  same quiet f_call g_call = 0.
Proof. vm_compute. auto. Qed.
(* those tests are careful *)
Lemma quiet_ok : world_ok quiet.
Proof. intros f d a E. injection E as <-. constructor. Qed.
Lemma made_mine w t n d r t' m : says w t (make n d) r t' m -> forall h, r = UHandle (Some h) -> In h (mine t').
Proof. intros Y h ->. inversion Y; subst. cbn. apply in_or_app. cbn. auto. Qed.
Lemma careful_compare t : careful t compare.
Proof. cbn. repeat split; auto using quiet_ok. Qed.
Lemma careful_expecting n d next t : cstr_ok (str n) -> (forall t, careful t next) -> careful t (expecting n d next).
Proof.
  intros K H. split; [apply quiet_ok|]. split; [exact K|]. intros r t1 m Y. destruct r as [| |[h|]| |]; cbn [on_handle]; try exact Logic.I.
  split; [apply quiet_ok|]. split; [exact (made_mine _ _ _ _ _ _ _ Y h eq_refl)|]. intros. apply H.
Qed.
Lemma careful_calling n d next t : cstr_ok (str n) -> (forall t, careful t next) -> careful t (calling n d next).
Proof.
  intros K H. split; [apply quiet_ok|]. split; [exact K|]. intros r t1 m Y. destruct r as [| |[h|]| |]; cbn [on_handle]; try exact Logic.I.
  split; [apply quiet_ok|]. split; [exact (made_mine _ _ _ _ _ _ _ Y h eq_refl)|]. intros. apply H.
Qed.
Example careful_case : careful test_start (Do quiet UInit (fun _ => expecting "f" 1 (expecting "g" 2 (calling "g" 3 (calling "f" 4 compare))))).
Proof.
  assert (cstr_ok (str "f") /\ cstr_ok (str "g")) as [F G] by (split; apply cstr_okb_ok; reflexivity).
  split; [apply quiet_ok|]. split; [exact Logic.I|]. intros. repeat (first [apply careful_expecting; [assumption|intros] | apply careful_calling; [assumption|intros] ]). apply careful_compare.
Qed.

(* ---- init ---- *)
(* Init succeeds on a library that is off, when there is memory; then the types of C are known under every spelling. *)
Theorem init_knows_c_types o s o' : umock_c_init umock_start o = Some ((0, s), o') ->
  exists tab, shows (u_types s) (Some tab) /\ forall name, In name c_types -> forall spelling, tokens spelling = tokens name -> known (Some tab) (Some spelling) <> None.
Proof.
  unfold umock_c_init. cbn [umock_start u_ready]. unfold umocktypes_init. cbn [u_types umock_start types_start initialized]. cbn [Z.eqb negb]. unfold bind, umocktypes_c_register_types.
  assert (S0 : shows {| type_handlers := []; initialized := true; names := names types_start |} (Some [])) by (constructor; cbn; auto).
  destruct c_types_ok as (N & K). destruct (register_types_at c_types _ 0 _ o S0 N) as (z & tt & tab & o1 & u1 & E & U & ST & F & G).
  { intros n H. destruct (K n H). auto. }
  rewrite E. destruct (Z.eqb_spec z 0) as [->|Z]; cbn [negb]; [|discriminate]. unfold umockcallrecorder_create, bind.
  destruct (alloc_spec o1) as (ok & o2 & u2 & A & _ & _). rewrite A. unfold ret at 1. destruct ok; [|discriminate]. intros X. injection X as <- <-. exists tab. split; [exact ST|].
  intros name H sp Q. cbn [known]. rewrite Q. intros L. apply lookup_in in L. apply L. rewrite (G eq_refl). apply in_or_app. right. now apply in_map.
Qed.
Theorem init_partial w t r t' m : says w t UInit r t' m -> ready t = false -> types_on t = false -> m = false -> r = UInt 0 /\ ready t' = true.
Proof. intros Y A B ->. inversion Y; subst; [auto|]. destruct H; congruence. Qed.
(* A failed init is for ever: the types stay initialised, deinit does nothing, and every later init fails. *)
Theorem init_failed_stays t tr t' m : explained t tr t' m -> ready t = false -> types_on t = true ->
  ready t' = false /\ types_on t' = true /\ forall w r, In (w, UInit, r) tr -> exists z, r = UInt z /\ z <> 0.
Proof.
  induction 1 as [t|t w op r t1 m1 tr t2 m2 Y X IH]; intros A B.
  - split; [exact A|]. split; [exact B|]. intros w r [].
  - assert (S1 : ready t1 = false /\ types_on t1 = true) by (inversion Y; subst; cbn; auto; try congruence).
    destruct S1 as (A1 & B1). destruct (IH A1 B1) as (A2 & B2 & C2). split; [exact A2|]. split; [exact B2|]. intros w' r' [E|I].
    + injection E as -> -> ->. inversion Y; subst; try congruence. eauto.
    + eauto.
Qed.
Theorem init_retry_refuted : answers_of (Do quiet UInit (fun _ => Do quiet UDeinit (fun _ => Do quiet UInit (fun _ => Stop)))) [false] = Some ([UInt 58; UNone; UInt 58], []).
Proof. vm_compute. reflexivity. Qed.
Example init_again_case : answers_of (Do quiet UInit (fun _ => Do quiet UDeinit (fun _ => Do quiet UInit (fun _ => Stop)))) [] = Some ([UInt 0; UNone; UInt 0], []).
Proof. vm_compute. reflexivity. Qed.
(* After deinit only what the test itself kept is left. *)
Theorem deinit_frees w t r t' m : says w t UDeinit r t' m -> ready t = true -> live t' = mine t /\ Permutation (gone t') (gone t ++ met t ++ pending t ++ unexpected t).
Proof. intros Y R. inversion Y; subst; [|congruence]. unfold live. cbn. rewrite app_nil_r. auto. Qed.
