(* Generic refinement between a model written in the monad M (allocation oracle,
   undefined behaviour) and a specification written as a function that is told,
   for each call, whether memory was available.

   - the model's step: [step s op : M (R * S)];
   - the specification's step: [sstep sp op m : option (R * Sp)], where m says
     whether the allocations needed by the call succeed and None means the call
     violates a documented precondition (then nothing is promised). *)
From Verif Require Import Base.

Section Runs.
  Context {S Sp Op R : Type}.
  Variable step : S -> Op -> M (R * S).
  Variable sstep : Sp -> Op -> bool -> option (R * Sp).

  (* A history of calls, with the list of results. *)
  Fixpoint run (s : S) (ops : list Op) : M (list R * S) :=
    match ops with
    | [] => ret ([], s)
    | op :: t =>
        (x <- step s op ;;
         y <- run (snd x) t ;;
         ret (fst x :: fst y, snd y))%m
    end.

  Fixpoint srun (sp : Sp) (ops : list Op) (ms : list bool) : option (list R * Sp) :=
    match ops, ms with
    | [], _ => Some ([], sp)
    | op :: t, m :: ms' =>
        match sstep sp op m with
        | None => None
        | Some (r, sp1) =>
            match srun sp1 t ms' with
            | None => None
            | Some (rs, sp2) => Some (r :: rs, sp2)
            end
        end
    | _ :: _, [] => None
    end.

  Variable abs : S -> Sp -> Prop.

  (* One call is simulated: for some availability m of memory (false only if an
     allocation fails), whatever the specification promises happens; m = false is
     blamed on the part of the oracle used by this very call. *)
  Definition simulates : Prop :=
    forall s sp op o, abs s sp ->
    exists m, (m = false -> In false o) /\
    forall r sp', sstep sp op m = Some (r, sp') ->
    exists s' o' used,
      step s op o = Some ((r, s'), o') /\ abs s' sp' /\
      o = used ++ o' /\ (m = false -> In false used).

  Lemma refinement : simulates ->
    forall ops s sp o, abs s sp ->
    exists ms, length ms = length ops /\ (In false ms -> In false o) /\
      forall rs sp', srun sp ops ms = Some (rs, sp') ->
      exists s' o', run s ops o = Some ((rs, s'), o') /\ abs s' sp'.
  Proof.
    intros Hsim. induction ops as [|op t IH]; intros s sp o Ha.
    - exists []. split; [reflexivity|]. split; [intros []|].
      intros rs sp' H. cbn in H. injection H as <- <-. exists s, o. split; [reflexivity|exact Ha].
    - destruct (Hsim s sp op o Ha) as (m & Hf0 & Hm).
      destruct (sstep sp op m) as [[r sp1]|] eqn:E.
      + destruct (Hm r sp1 eq_refl) as (s1 & o1 & used & Es & Ha1 & Ho & Hf).
        destruct (IH s1 sp1 o1 Ha1) as (ms & Hl & Hi & Hr).
        exists (m :: ms). split; [cbn; lia|]. split.
        * intros [->|Hin]; rewrite Ho; apply in_or_app; [left; apply Hf; reflexivity|right; auto].
        * intros rs sp' Hs. cbn in Hs. rewrite E in Hs.
          destruct (srun sp1 t ms) as [[rs1 sp2]|] eqn:E2; [|discriminate].
          injection Hs as <- <-. destruct (Hr rs1 sp2 eq_refl) as (s' & o' & Er & Ha').
          exists s', o'. split; [|exact Ha']. cbn. unfold bind. rewrite Es. cbn. rewrite Er. reflexivity.
      + (* the call is outside the specification: nothing is promised *)
        exists (m :: repeat true (length t)). split; [cbn; rewrite repeat_length; lia|]. split.
        * intros [H|H]; [auto|]. apply repeat_spec in H. discriminate.
        * intros rs sp' Hs. cbn in Hs. rewrite E in Hs. discriminate.
  Qed.
End Runs.

(* Building blocks for proving [simulates]. *)
Section Sim.
  Context {S Sp R : Type}.
  Variable abs : S -> Sp -> Prop.

  Definition sim1 (f : M (R * S)) (g : bool -> option (R * Sp)) (o : oracle) : Prop :=
    exists m, (m = false -> In false o) /\
    forall r sp', g m = Some (r, sp') ->
    exists s' o' used, f o = Some ((r, s'), o') /\ abs s' sp' /\
      o = used ++ o' /\ (m = false -> In false used).

  (* nothing promised *)
  Lemma sim1_none f g o : g true = None -> sim1 f g o.
  Proof.
    intros Hg. exists true. split; [discriminate|]. intros r sp' H. rewrite Hg in H. discriminate.
  Qed.

  (* no allocation *)
  Lemma sim1_ret f g o :
    (forall r sp', g true = Some (r, sp') -> exists s', f = ret (r, s') /\ abs s' sp') -> sim1 f g o.
  Proof.
    intros H. exists true. split; [discriminate|]. intros r sp' Hg.
    destruct (H r sp' Hg) as (s' & -> & Ha). exists s', o, [].
    split; [reflexivity|]. split; [exact Ha|]. split; [reflexivity|discriminate].
  Qed.

  Lemma sim1_allocs n (F : bool -> M (R * S)) g o :
    (forall m r sp', g m = Some (r, sp') -> exists s', F m = ret (r, s') /\ abs s' sp') ->
    sim1 (bind (allocs n) F) g o.
  Proof.
    intros H. destruct (allocs_spec n o) as (ok & o' & used & E & Ho & Hf).
    exists ok. split; [intros Hx; rewrite Ho; apply in_or_app; left; auto|].
    intros r sp' Hg. destruct (H ok r sp' Hg) as (s' & EF & Ha). exists s', o', used.
    unfold bind. rewrite E, EF. auto.
  Qed.

  Lemma sim1_alloc (F : bool -> M (R * S)) g o :
    (forall m r sp', g m = Some (r, sp') -> exists s', F m = ret (r, s') /\ abs s' sp') ->
    sim1 (bind alloc F) g o.
  Proof.
    intros H. destruct (alloc_spec o) as (ok & o' & used & E & Ho & Hf).
    exists ok. split; [intros Hx; rewrite Ho; apply in_or_app; left; auto|].
    intros r sp' Hg. destruct (H ok r sp' Hg) as (s' & EF & Ha). exists s', o', used.
    unfold bind. rewrite E, EF. auto.
  Qed.
End Sim.

Lemma bind_lift_some {A B} (x : A) (f : A -> M B) : bind (lift (Some x)) f = f x.
Proof. reflexivity. Qed.
Lemma bind_ret {A B} (x : A) (f : A -> M B) : bind (ret x) f = f x.
Proof. reflexivity. Qed.
Lemma bind_assoc {A B C} (m : M A) (f : A -> M B) (g : B -> M C) (o : oracle) :
  bind (bind m f) g o = bind m (fun x => bind (f x) g) o.
Proof. unfold bind. destruct (m o) as [[a o']|]; reflexivity. Qed.

(* Case analysis on everything a hypothesis about a run depends on, innermost first. *)
Ltac crunch H :=
  repeat (cbv beta iota in H;
  match type of H with
  | context [match ?x with _ => _ end] =>
      lazymatch x with
      | context [match _ with _ => _ end] => fail
      | _ => destruct x eqn:?; try discriminate H
      end
  end).

Ltac sret := apply sim1_ret; let r := fresh "r" in let sp' := fresh "sp'" in let H := fresh "Hg" in
  intros r sp' H; cbv beta in H.
Ltac snone := apply sim1_none.
(* a call that returns at once, leaving the state as it was *)
Ltac same R := apply sim1_ret; let r := fresh "r" in let sp' := fresh "sp'" in let H := fresh "Hg" in
  intros r sp' H; cbv beta in H; injection H as <- <-; eexists; (split; [reflexivity|exact R]).

(* re-associate the leading bind of the simulated program *)
Lemma sim1_assoc {S Sp R A B} (abs : S -> Sp -> Prop) (m : M A) (f : A -> M B) (g : B -> M (R * S)) h o :
  sim1 abs (bind m (fun x => bind (f x) g)) h o -> sim1 abs (bind (bind m f) g) h o.
Proof.
  intros (k & Hk & H). exists k. split; [exact Hk|]. intros r sp' E.
  rewrite bind_assoc. apply H, E.
Qed.

(* When no allocation fails, memory was available to every call. *)
Lemma no_failure_ms (ms : list bool) (o : oracle) :
  (In false ms -> In false o) -> ~ In false o -> ms = repeat true (length ms).
Proof.
  intros Hf Ho. induction ms as [|[|] ms IH]; cbn.
  - reflexivity.
  - f_equal. apply IH. intros H. apply Hf. right. exact H.
  - exfalso. apply Ho, Hf. left. reflexivity.
Qed.

(* What one simulated call did, when it did return. *)
Lemma simulates_use {S Sp Op R} (step : S -> Op -> M (R * S)) sstep (abs : S -> Sp -> Prop) :
  simulates step sstep abs -> forall st op o r st' o' sp,
  abs st sp -> step st op o = Some ((r, st'), o') ->
  exists m, (m = false -> In false o) /\
    forall r0 sp0, sstep sp op m = Some (r0, sp0) -> r0 = r /\ abs st' sp0.
Proof.
  intros Hs st op o r st' o' sp R0 H. destruct (Hs st sp op o R0) as (m & Hf & Hm). exists m.
  split; [exact Hf|]. intros r0 sp0 E. destruct (Hm r0 sp0 E) as (s' & o'' & used & Es & Ha & _).
  rewrite H in Es. injection Es as <- <- <-. auto.
Qed.

(** * Procedures that make several allocations *)

(* Under every oracle the computation is defined, and its result satisfies Q m for
   some m that is false only if one of the allocations it made failed. *)
Definition yields {A} (f : M A) (Q : bool -> A -> Prop) : Prop :=
  forall o, exists a o' used m,
    f o = Some (a, o') /\ o = used ++ o' /\ (m = false -> In false used) /\ Q m a.

Lemma yields_ret {A} (a : A) (Q : bool -> A -> Prop) : Q true a -> yields (ret a) Q.
Proof. intros H o. exists a, o, [], true. repeat split; auto. discriminate. Qed.

Lemma yields_alloc (Q : bool -> bool -> Prop) : (forall b, Q b b) -> yields alloc Q.
Proof.
  intros H o. destruct (alloc_spec o) as (ok & o' & used & E & Ho & Hf). exists ok, o', used, ok. auto.
Qed.

Lemma yields_weaken {A} (f : M A) (Q Q' : bool -> A -> Prop) :
  yields f Q -> (forall m a, Q m a -> Q' m a) -> yields f Q'.
Proof.
  intros H Hw o. destruct (H o) as (a & o' & used & m & E & Ho & Hf & HQ).
  exists a, o', used, m. auto.
Qed.

Lemma yields_bind {A B} (f : M A) (g : A -> M B) (Q1 : bool -> A -> Prop) (Q : bool -> B -> Prop) :
  yields f Q1 -> (forall m a, Q1 m a -> yields (g a) (fun m' => Q (m && m'))) -> yields (bind f g) Q.
Proof.
  intros H1 H2 o. destruct (H1 o) as (a & o1 & u1 & m1 & E1 & Ho1 & Hf1 & HQ1).
  destruct (H2 m1 a HQ1 o1) as (b & o2 & u2 & m2 & E2 & Ho2 & Hf2 & HQ2).
  exists b, o2, (u1 ++ u2), (m1 && m2). split; [unfold bind; rewrite E1; exact E2|].
  split; [rewrite Ho1, Ho2; apply app_assoc|]. split; [|exact HQ2].
  intros H. apply in_or_app. destruct m1; [right; apply Hf2, H|left; auto].
Qed.

(* a step that allocates once *)
Lemma yields_balloc {B} (g : bool -> M B) (Q : bool -> B -> Prop) :
  (forall b, yields (g b) (fun m' => Q (b && m'))) -> yields (bind alloc g) Q.
Proof. intros H. eapply yields_bind; [apply (yields_alloc (fun m a => m = a)); reflexivity|]. intros m a <-. apply H. Qed.

(* after a failure, the rest may report it whatever it does *)
Lemma yields_false {A} (f : M A) (Q : bool -> A -> Prop) :
  yields f (fun _ => Q false) -> yields f (fun m' => Q (false && m')).
Proof. intros H. exact H. Qed.

Lemma sim1_yields {S Sp R} (abs : S -> Sp -> Prop) (f : M (R * S)) g o :
  yields f (fun m x => forall r sp', g m = Some (r, sp') -> fst x = r /\ abs (snd x) sp') -> sim1 abs f g o.
Proof.
  intros H. destruct (H o) as ([r s] & o' & used & m & E & Ho & Hf & HQ). exists m.
  split; [intros Hm; rewrite Ho; apply in_or_app; left; auto|].
  intros r0 sp' Hg. destruct (HQ r0 sp' Hg) as [<- Ha]. exists s, o', used. auto.
Qed.

(* a simulated call used as a procedure *)
Lemma yields_sim {S Sp Op R} (step : S -> Op -> M (R * S)) sstep (abs : S -> Sp -> Prop) s sp op :
  simulates step sstep abs -> abs s sp -> (forall m, sstep sp op m <> None) ->
  yields (step s op) (fun m x => exists sp', sstep sp op m = Some (fst x, sp') /\ abs (snd x) sp').
Proof.
  intros Hs Ha Hn o. destruct (Hs s sp op o Ha) as (m & Hf & Hm).
  destruct (sstep sp op m) as [[r sp']|] eqn:E; [|destruct (Hn m E)].
  destruct (Hm r sp' eq_refl) as (s' & o' & used & Es & Ha' & Ho & Hf').
  exists (r, s'), o', used, m. split; [exact Es|]. split; [exact Ho|]. split; [exact Hf'|].
  exists sp'. split; [exact E|exact Ha'].
Qed.

(* what such a procedure did, when it returned *)
Lemma yields_use {A} (f : M A) (Q : bool -> A -> Prop) o a o' :
  yields f Q -> f o = Some (a, o') -> exists m, (m = false -> In false o) /\ Q m a.
Proof.
  intros H E. destruct (H o) as (a1 & o1 & used & m & E1 & Ho & Hf & HQ).
  rewrite E in E1. injection E1 as <- <-. exists m. split; [|exact HQ].
  intros Hm. rewrite Ho. apply in_or_app. left. auto.
Qed.
