(* Proofs about the model of src/map.c. *)
From Verif Require Import Base Refine Strings_Model Strings_Spec Strings_Proofs Strings_Props Map_Model Map_Spec Json_Spec.
Open Scope N_scope.

(** * Strings as procedures *)

Lemma y_construct ss sp t : represents ss sp -> cstr_ok t ->
  yields (STRING_construct ss (CText t)) (fun m x =>
    if m then fst x = RH (Some (length sp)) /\ represents (snd x) (sp ++ [Some t])
    else fst x = RH None /\ represents (snd x) sp).
Proof.
  intros R Ht. apply cstr_okb_ok in Ht.
  eapply yields_weaken; [apply (yields_sim sstep sp_step represents ss sp (SConstruct (CText t)) strings_simulate R)|].
  - intros m. cbn [sp_step denote]. rewrite Ht. destruct m; discriminate.
  - intros m x (sp' & E & R'). cbn [sp_step denote] in E. rewrite Ht in E. destruct m; cbn in E; injection E as -> <-; auto.
Qed.

Lemma y_json ss sp t : represents ss sp -> cstr_ok t ->
  yields (STRING_new_JSON ss (CText t)) (fun m x =>
    if m && ascii_text t then fst x = RH (Some (length sp)) /\ represents (snd x) (sp ++ [Some (json_literal t)])
    else fst x = RH None /\ represents (snd x) sp).
Proof.
  intros R Ht. apply cstr_okb_ok in Ht.
  eapply yields_weaken; [apply (yields_sim sstep sp_step represents ss sp (SJSON (CText t)) strings_simulate R)|].
  - intros m. cbn [sp_step denote]. rewrite Ht. destruct (ascii_text t), m; discriminate.
  - intros m x (sp' & E & R'). cbn [sp_step denote] in E. rewrite Ht in E.
    destruct (ascii_text t), m; cbn in E; injection E as <- <-; cbn [andb]; auto.
Qed.

Lemma y_concat ss sp h t1 t : represents ss sp -> live sp h = Some t1 -> cstr_ok t ->
  yields (STRING_concat ss (Some h) (CText t)) (fun m x =>
    succeeded (fst x) = m /\ represents (snd x) (if m then upd sp h (Some (t1 ++ t)) else sp)).
Proof.
  intros R L Ht. apply cstr_okb_ok in Ht.
  eapply yields_weaken; [apply (yields_sim sstep sp_step represents ss sp (SConcat (Some h) (CText t)) strings_simulate R)|].
  - intros m. cbn [sp_step denote aliases]. rewrite L, Ht. destruct m; discriminate.
  - intros m x (sp' & E & R'). cbn [sp_step denote aliases] in E. rewrite L, Ht in E.
    destruct m; cbn in E; injection E as <- <-; split; auto.
Qed.

Lemma y_concatS ss sp h h2 t1 t : represents ss sp -> live sp h = Some t1 -> live sp h2 = Some t -> h <> h2 ->
  yields (STRING_concat_with_STRING ss (Some h) (Some h2)) (fun m x =>
    succeeded (fst x) = m /\ represents (snd x) (if m then upd sp h (Some (t1 ++ t)) else sp)).
Proof.
  intros R L L2 Hn. apply Nat.eqb_neq in Hn.
  eapply yields_weaken; [apply (yields_sim sstep sp_step represents ss sp (SConcatS (Some h) (Some h2)) strings_simulate R)|].
  - intros m. cbn [sp_step]. rewrite L, L2, Hn. destruct m; discriminate.
  - intros m x (sp' & E & R'). cbn [sp_step] in E. rewrite L, L2, Hn in E.
    destruct m; cbn in E; injection E as <- <-; split; auto.
Qed.

Lemma delete_eq ss sp h t : represents ss sp -> live sp h = Some t ->
  STRING_delete ss (Some h) = ret (RI true, upd ss h None) /\ represents (upd ss h None) (upd sp h None).
Proof.
  intros R L. destruct (rep_get _ _ _ _ R L) as (b & E & W). split.
  - unfold STRING_delete. rewrite E. reflexivity.
  - apply Forall2_upd; [exact R|exact I].
Qed.

Lemma c_str_eval ss sp h t o : represents ss sp -> live sp h = Some t ->
  STRING_c_str ss (Some h) o = Some ((RT (Some t), ss), o).
Proof.
  intros R L. destruct (rep_get _ _ _ _ R L) as (b & E & W). unfold STRING_c_str.
  rewrite E, bind_lift_some, (wf_ctext _ _ W). reflexivity.
Qed.

(** * Map_ToJSON *)

Lemma live_head t l : live (Some t :: l) 0 = Some t.
Proof. reflexivity. Qed.
Lemma live_at l t r : live (l ++ Some t :: r) (length l) = Some t.
Proof. unfold live. rewrite nth_error_app2, Nat.sub_diag by lia. reflexivity. Qed.
Lemma upd_at {A} (l : list A) x y r : upd (l ++ x :: r) (length l) y = l ++ y :: r.
Proof. induction l as [|a l IH]; cbn; [reflexivity|]. f_equal. exact IH. Qed.
Lemma nones_snoc n : repeat (@None (list N)) n ++ [None] = repeat None (S n).
Proof. symmetry. apply (repeat_cons n). Qed.

Lemma y_member ss sp (fst_ : bool) acc kt vt n : represents ss sp ->
  sp = Some acc :: repeat None n ++ [Some kt; Some vt] ->
  yields (json_member ss fst_ 0 (S n) (S (S n))) (fun m x =>
    fst x = m /\ exists acc', represents (snd x) (Some acc' :: repeat None n ++ [Some kt; Some vt]) /\
      (m = true -> acc' = acc ++ (if fst_ then [] else str ",") ++ kt ++ str ":" ++ vt)).
Proof.
  intros R ->. unfold json_member.
  assert (Lk : forall a, live (Some a :: repeat None n ++ [Some kt; Some vt]) (S n) = Some kt).
  { intros a. pose proof (live_at (Some a :: repeat None n) kt [Some vt]) as H.
    cbn [length] in H. rewrite repeat_length in H. exact H. }
  assert (Lv : forall a, live (Some a :: repeat None n ++ [Some kt; Some vt]) (S (S n)) = Some vt).
  { intros a. pose proof (live_at (Some a :: repeat None n ++ [Some kt]) vt []) as H.
    cbn [length app] in H. rewrite app_length, repeat_length, <- app_assoc in H. cbn [length app] in H.
    replace (S (n + 1)) with (S (S n)) in H by lia. exact H. }
  eapply yields_bind with (Q1 := fun m x => succeeded (fst x) = m /\ exists acc',
     represents (snd x) (Some acc' :: repeat None n ++ [Some kt; Some vt]) /\
     (m = true -> acc' = acc ++ (if fst_ then [] else str ","))).
  { destruct fst_.
    - apply yields_ret. split; [reflexivity|]. exists acc. split; [exact R|]. intros _. symmetry. apply app_nil_r.
    - eapply yields_weaken; [eapply (y_concat ss _ 0 acc); [exact R|reflexivity|apply cstr_okb_ok; reflexivity]|].
      intros m x [E H]. split; [exact E|]. destruct m; [exists (acc ++ str ",")|exists acc]; split; auto. discriminate. }
  intros m1 x1 (E1 & acc1 & R1 & A1). rewrite E1. destruct m1; cbn [andb].
  2:{ apply yields_ret. split; [reflexivity|]. exists acc1. split; [exact R1|discriminate]. }
  specialize (A1 eq_refl).
  eapply yields_bind; [eapply (y_concatS (snd x1) _ 0 (S n) acc1 kt); [exact R1|reflexivity|apply Lk|discriminate]|].
  intros m2 x2 [E2 R2]. rewrite E2. destruct m2; cbn [andb upd] in *.
  2:{ apply yields_ret. split; [reflexivity|]. exists acc1. split; [exact R2|discriminate]. }
  eapply yields_bind; [eapply (y_concat (snd x2) _ 0 (acc1 ++ kt)); [exact R2|reflexivity|apply cstr_okb_ok; reflexivity]|].
  intros m3 x3 [E3 R3]. rewrite E3. destruct m3; cbn [andb upd] in *.
  2:{ apply yields_ret. split; [reflexivity|]. exists (acc1 ++ kt). split; [exact R3|discriminate]. }
  eapply yields_bind; [eapply (y_concatS (snd x3) _ 0 (S (S n)) _ vt); [exact R3|reflexivity|apply Lv|discriminate]|].
  intros m4 x4 [E4 R4]. apply yields_ret. cbn [fst snd]. rewrite andb_true_r. split; [exact E4|].
  destruct m4; cbn [upd] in *.
  - eexists. split; [exact R4|]. intros _. subst acc1. rewrite <- !app_assoc. reflexivity.
  - eexists. split; [exact R4|discriminate].
Qed.

Definition arr_strs (a : arr) (i : nat) (l : list text) : Prop :=
  forall j s, nth_error l j = Some s -> get_str a (i + j) = Some s.

Lemma arr_strs_cons a i s l : arr_strs a i (s :: l) -> get_str a i = Some s /\ arr_strs a (S i) l.
Proof.
  intros H. split.
  - specialize (H 0%nat s eq_refl). rewrite Nat.add_0_r in H. exact H.
  - intros j t E. specialize (H (S j) t E). rewrite Nat.add_succ_r in H. exact H.
Qed.

Lemma y_json_loop ks vs l : forall i ss n acc,
  arr_strs ks i (map fst l) -> arr_strs vs i (map snd l) ->
  Forall (fun p => cstr_ok (fst p) /\ cstr_ok (snd p)) l ->
  represents ss (Some acc :: repeat None n) ->
  yields (json_loop ks vs ss 0 i (length l)) (fun m x => exists n',
    if m && ascii_pairs l
    then fst x = true /\ represents (snd x) (Some (acc ++ json_members_text (i =? 0)%nat l) :: repeat None n')
    else fst x = false /\ represents (snd x) (repeat None n')).
Proof.
  induction l as [|[kt vt] l IH]; intros i ss n acc Hk Hv Hok R; cbn [length json_loop].
  - apply yields_ret. exists n. cbn. rewrite app_nil_r. auto.
  - cbn [map fst snd] in Hk, Hv. apply arr_strs_cons in Hk. destruct Hk as [Ek Hk].
    apply arr_strs_cons in Hv. destruct Hv as [Ev Hv]. inversion Hok as [|? ? [Ck Cv] Hok']; subst. cbn [fst snd] in *.
    rewrite Ek, bind_lift_some.
    eapply yields_bind; [eapply y_json; [exact R|exact Ck]|].
    intros m1 x1 H1. cbn [ascii_pairs forallb fst snd].
    revert H1; cbv beta; destruct (m1 && ascii_text kt) eqn:E1; intros [F1 R1]; rewrite F1; cbn [handle_of].
    2:{ (* key failed *)
      destruct (delete_eq _ _ 0 acc R1 eq_refl) as [-> R2]. rewrite bind_ret. apply yields_ret. exists (S n).
      match goal with |- if ?b then _ else _ => replace b with false end.
      { cbn [fst snd upd] in *. auto. }
      destruct m1, (ascii_text kt); try discriminate; cbn; rewrite ?andb_false_r; reflexivity. }
    apply andb_true_iff in E1. destruct E1 as [-> Ak]. rewrite Ev, bind_lift_some. cbn [andb].
    eapply yields_bind; [eapply y_json; [exact R1|exact Cv]|].
    intros m2 x2 H2. rewrite Ak. cbn [andb].
    cbn [length] in *. rewrite repeat_length in *.
    revert H2; cbv beta; destruct (m2 && ascii_text vt) eqn:E2; intros [F2 R2]; rewrite F2; cbn [handle_of].
    2:{ destruct (delete_eq _ _ 0 acc R2 eq_refl) as [-> R3]. rewrite bind_ret. cbn [upd app snd] in *.
      pose proof (live_at (None :: repeat None n) (json_literal kt) []) as H.
      cbn [length app] in H. rewrite repeat_length in H.
      destruct (delete_eq _ _ _ _ R3 H) as [-> R4]. rewrite bind_ret. apply yields_ret. exists (S (S n)).
      pose proof (upd_at (None :: repeat None n) (Some (json_literal kt)) None []) as U.
      cbn [length app] in U. rewrite repeat_length in U. rewrite U in R4.
      match goal with |- if ?b then _ else _ => replace b with false end.
      { cbn [fst snd] in *. split; [reflexivity|].
        change (None :: repeat None n ++ [None]) with ((None :: repeat (@None (list N)) n) ++ [None]) in R4.
        change (None :: repeat (@None (list N)) n) with (repeat (@None (list N)) (S n)) in R4.
        rewrite nones_snoc in R4. exact R4. }
      destruct m2, (ascii_text vt); try discriminate; cbn; rewrite ?andb_false_r; reflexivity. }
    apply andb_true_iff in E2. destruct E2 as [-> Av]. rewrite Av. cbn [andb].
    rewrite app_length in *. cbn [length] in *. rewrite repeat_length in *.
    replace (S n + 1)%nat with (S (S n)) in * by lia.
    assert (R2' : represents (snd x2) (Some acc :: repeat None n ++ [Some (json_literal kt); Some (json_literal vt)])).
    { rewrite <- app_assoc in R2. exact R2. }
    eapply yields_bind; [eapply y_member; [exact R2'|reflexivity]|].
    intros m3 x3 (E3 & acc' & R3 & A3).
    assert (Dvk : forall ss' (a : option (list N)), represents ss' (a :: repeat None n ++ [Some (json_literal kt); Some (json_literal vt)]) ->
       exists s, represents s (a :: repeat None (S (S n))) /\ forall (G : slots -> M (bool * slots)),
       bind (STRING_delete ss' (Some (S (S n)))) (fun d =>
         bind (STRING_delete (snd d) (Some (S n))) (fun e => G (snd e))) = G s).
    { intros ss' a Ra.
      pose proof (live_at (a :: repeat None n ++ [Some (json_literal kt)]) (json_literal vt) []) as H.
      pose proof (upd_at (a :: repeat None n ++ [Some (json_literal kt)]) (Some (json_literal vt)) None []) as U.
      cbn [length app] in H, U. rewrite app_length, repeat_length, <- app_assoc in H, U. cbn [length app] in H, U.
      replace (S (n + 1)) with (S (S n)) in H, U by lia.
      destruct (delete_eq _ _ _ _ Ra H) as [Ed R5]. rewrite U in R5.
      pose proof (live_at (a :: repeat None n) (json_literal kt) [None]) as H'.
      pose proof (upd_at (a :: repeat None n) (Some (json_literal kt)) None [None]) as U'.
      cbn [length app] in H', U'. rewrite repeat_length in H', U'. rewrite <- app_assoc in R5. cbn [app] in R5.
      destruct (delete_eq _ _ _ _ R5 H') as [Ed' R6]. rewrite U' in R6. eexists. split.
      - change [@None (list N); None] with (repeat (@None (list N)) 2) in R6. rewrite <- repeat_app in R6.
        replace (n + 2)%nat with (S (S n)) in R6 by lia. exact R6.
      - intros G. rewrite Ed, bind_ret. cbn [snd]. rewrite Ed', bind_ret. reflexivity. }
    rewrite E3. destruct m3.
    + specialize (A3 eq_refl). destruct (Dvk _ _ R3) as (s & Rs & Es).
      rewrite (Es (fun s => json_loop ks vs s 0 (S i) (length l))).
      eapply yields_weaken; [apply (IH (S i) s (S (S n)) acc' Hk Hv Hok' Rs)|].
      intros m' x (n' & Hx). exists n'. cbn [andb].
      fold (ascii_pairs l). destruct (m' && ascii_pairs l); [|exact Hx]. destruct Hx as [Hx Rx]. split; [exact Hx|].
      rewrite A3, <- !app_assoc in Rx. cbn [json_members_text]. rewrite <- ?app_assoc. exact Rx.
    + destruct (delete_eq _ _ 0 acc' R3 eq_refl) as [-> R4]. rewrite bind_ret. cbn [upd snd] in *.
      destruct (Dvk _ _ R4) as (s & Rs & Es). rewrite (Es (fun s => ret (false, s))).
      apply yields_ret. exists (S (S (S n))). cbn [andb fst snd]. auto.
Qed.

Lemma y_tojson m l : arr_strs (keys m) 0 (map fst l) -> arr_strs (values m) 0 (map snd l) ->
  Forall (fun p => cstr_ok (fst p) /\ cstr_ok (snd p)) l -> mcount m = length l ->
  yields (Map_ToJSON_strings m) (fun b x => exists n,
    if b && ascii_pairs l
    then fst x = Some 0%nat /\ represents (snd x) (Some (json_pairs l) :: repeat None n)
    else fst x = None /\ represents (snd x) (repeat None n)).
Proof.
  intros Hk Hv Hok Hc. unfold Map_ToJSON_strings.
  eapply yields_bind; [eapply (y_construct [] []); [constructor|apply cstr_okb_ok; reflexivity]|].
  intros m1 x1 H1. revert H1; cbv beta; destruct m1; intros [F1 R1]; rewrite F1; cbn [handle_of andb].
  2:{ apply yields_ret. exists 0%nat. auto. }
  cbn [length app] in *. rewrite Hc.
  eapply yields_bind; [apply (y_json_loop _ _ l 0 (snd x1) 0 (str "{") Hk Hv Hok R1)|].
  intros m2 x2 (n & H2). revert H2; cbv beta; destruct (m2 && ascii_pairs l) eqn:E2; intros [F2 R2]; rewrite F2.
  2:{ apply yields_ret. exists n. rewrite andb_true_r, E2. auto. }
  apply andb_true_iff in E2. destruct E2 as [-> ->].
  eapply yields_bind; [eapply (y_concat (snd x2) _ 0); [exact R2|reflexivity|apply cstr_okb_ok; reflexivity]|].
  intros m3 x3 [F3 R3]. rewrite F3. destruct m3; cbn [upd andb] in *.
  - apply yields_ret. exists n. cbn [andb fst snd]. split; [reflexivity|]. rewrite <- app_assoc in R3. exact R3.
  - destruct (delete_eq _ _ 0 _ R3 eq_refl) as [-> R4]. rewrite bind_ret. apply yields_ret. exists (S n).
    cbn [andb fst snd]. auto.
Qed.

(** * Arrays *)

Lemma holds_strs a l : holds a l -> arr_strs a 0 l.
Proof.
  intros H j s E. cbn [Nat.add]. destruct l as [|x l]; [destruct j; discriminate|].
  destruct H as (room & ->). cbn [get_str]. rewrite nth_error_app1.
  - rewrite nth_error_map, E. reflexivity.
  - rewrite map_length. apply nth_error_Some. congruence.
Qed.

Lemma read_strings_ok a l : forall i, arr_strs a i l -> read_strings a i (length l) = Some l.
Proof.
  induction l as [|s l IH]; intros i H; cbn [length read_strings]; [reflexivity|].
  apply arr_strs_cons in H. destruct H as [-> H]. rewrite (IH _ H). reflexivity.
Qed.

Lemma free_entry_other a i j a' : free_entry a i = Some a' -> i <> j -> get_str a' j = get_str a j.
Proof.
  unfold free_entry, get_str. destruct a as [l|]; [|discriminate]. intros H Hn.
  destruct (nth_error l i) as [[| | |]|]; try discriminate; injection H as <-; [reflexivity|].
  rewrite upd_other by exact Hn. reflexivity.
Qed.

Lemma free_entry_some a i s : get_str a i = Some s -> exists a', free_entry a i = Some a'.
Proof.
  unfold free_entry, get_str. destruct a as [l|]; [|discriminate].
  destruct (nth_error l i) as [[| | |]|]; try discriminate; eauto.
Qed.

Lemma free_all_ok lk lv : length lk = length lv -> forall ks vs i,
  arr_strs ks i lk -> arr_strs vs i lv -> free_all ks vs i (length lk) = Some tt.
Proof.
  revert lv; induction lk as [|k lk IH]; intros [|v lv] Hl ks vs i Hk Hv; try discriminate; [reflexivity|].
  cbn [length free_all]. apply arr_strs_cons in Hk. destruct Hk as [Ek Hk].
  apply arr_strs_cons in Hv. destruct Hv as [Ev Hv].
  destruct (free_entry_some _ _ _ Ek) as (ks' & E1). destruct (free_entry_some _ _ _ Ev) as (vs' & E2).
  rewrite E1, E2. injection Hl as Hl. apply (IH lv Hl).
  - intros j s E. rewrite (free_entry_other _ _ _ _ E1) by lia. apply Hk, E.
  - intros j s E. rewrite (free_entry_other _ _ _ _ E2) by lia. apply Hv, E.
Qed.

Lemma teq_eq a b : teq a b = true <-> a = b.
Proof. unfold teq. destruct (list_eq_dec N.eq_dec a b); split; congruence. Qed.
Lemma teq_refl a : teq a a = true.
Proof. apply teq_eq. reflexivity. Qed.
Lemma teq_neq a b : teq a b = false <-> a <> b.
Proof. unfold teq. destruct (list_eq_dec N.eq_dec a b); split; congruence. Qed.

Lemma strcmp_teq a b : (strcmp a b =? 0)%Z = teq a b.
Proof.
  destruct (teq a b) eqn:E.
  - apply teq_eq in E. apply Z.eqb_eq, strcmp_eq, E.
  - apply teq_neq in E. apply Z.eqb_neq. intros H. apply E, strcmp_eq, H.
Qed.

(* position of the first occurrence *)
Fixpoint pos (s : text) (l : list text) : option nat :=
  match l with
  | [] => None
  | x :: t => if teq x s then Some 0%nat else match pos s t with Some j => Some (S j) | None => None end
  end.

Lemma find_from_ok a s l : forall i, arr_strs a i l ->
  find_from a s i (length l) = Some (match pos s l with Some j => Some (i + j)%nat | None => None end).
Proof.
  induction l as [|x l IH]; intros i H; cbn [length find_from pos]; [reflexivity|].
  apply arr_strs_cons in H. destruct H as [-> H]. rewrite strcmp_teq.
  destruct (teq x s); [rewrite Nat.add_0_r; reflexivity|]. rewrite (IH _ H).
  destruct (pos s l); [|reflexivity]. do 2 f_equal. lia.
Qed.

Lemma find_arr a s l : holds a l ->
  match a with None => Some None | Some _ => find_from a s 0 (length l) end = Some (pos s l).
Proof.
  intros H. pose proof (find_from_ok a s l 0 (holds_strs _ _ H)) as E.
  destruct l as [|x l].
  - rewrite H. reflexivity.
  - destruct H as (room & Ha). rewrite Ha in *. rewrite E. destruct (pos s (x :: l)); reflexivity.
Qed.

Lemma lookup_pos k l : match lookup k l, pos k (map fst l) with
  | Some v, Some j => nth_error l j = Some (k, v)
  | None, None => True
  | _, _ => False
  end.
Proof.
  induction l as [|[k' v] l IH]; cbn; [exact I|]. destruct (teq k' k) eqn:E.
  - apply teq_eq in E. subst. reflexivity.
  - destruct (lookup k l), (pos k (map fst l)); auto.
Qed.

Lemma pos_split s l j : pos s l = Some j -> exists l1 l2, l = l1 ++ s :: l2 /\ length l1 = j /\ ~ In s l1.
Proof.
  revert j; induction l as [|x l IH]; intros j H; cbn in H; [discriminate|].
  destruct (teq x s) eqn:E.
  - injection H as <-. apply teq_eq in E. subst. exists [], l. auto.
  - destruct (pos s l) as [j'|]; [|discriminate]. injection H as <-. destruct (IH j' eq_refl) as (l1 & l2 & -> & Hl & Hn).
    exists (x :: l1), l2. split; [reflexivity|]. split; [cbn; lia|]. apply teq_neq in E. cbn. intuition congruence.
Qed.

Lemma pos_none s l : pos s l = None <-> ~ In s l.
Proof.
  induction l as [|x l IH]; cbn; [intuition|]. destruct (teq x s) eqn:E.
  - apply teq_eq in E. subst. split; [discriminate|]. intros H. exfalso. auto.
  - apply teq_neq in E. destruct (pos s l) as [j|].
    + split; [discriminate|]. intros H. assert (@None nat = Some j); [|discriminate].
      symmetry. apply IH. intros Hi. apply H. auto.
    + split; [|reflexivity]. intros _ [H|H]; [auto|]. apply IH in H; auto.
Qed.

Lemma has_value_pos v l : has_value v l = match pos v (map snd l) with Some _ => true | None => false end.
Proof.
  induction l as [|[k' v'] l IH]; cbn; [reflexivity|]. destruct (teq v' v); [reflexivity|].
  cbn [orb]. unfold has_value in IH. rewrite IH. destruct (pos v (map snd l)); reflexivity.
Qed.

Lemma remove_split l1 l2 (p : text * text) : NoDup (map fst (l1 ++ p :: l2)) -> remove (fst p) (l1 ++ p :: l2) = l1 ++ l2.
Proof.
  intros H. unfold remove. rewrite filter_app. cbn [filter]. rewrite teq_refl. cbn [negb].
  rewrite map_app in H. cbn [map] in H. apply NoDup_remove in H. destruct H as [_ H].
  rewrite in_app_iff in H.
  assert (F : forall l, ~ In (fst p) (map fst l) -> filter (fun q : text * text => negb (teq (fst q) (fst p))) l = l).
  { induction l as [|q l IH]; intros Hn; cbn; [reflexivity|]. cbn in Hn.
    replace (teq (fst q) (fst p)) with false.
    - cbn. f_equal. apply IH. auto.
    - symmetry. apply teq_neq. intros E. apply Hn. auto. }
  rewrite !F by tauto. reflexivity.
Qed.

Lemma replace_split l1 l2 (p : text * text) v : NoDup (map fst (l1 ++ p :: l2)) ->
  replace_value (fst p) v (l1 ++ p :: l2) = l1 ++ (fst p, v) :: l2.
Proof.
  intros H. unfold replace_value. rewrite map_app. cbn [map]. rewrite teq_refl.
  rewrite map_app in H. cbn [map] in H. apply NoDup_remove in H. destruct H as [_ H].
  rewrite in_app_iff in H.
  assert (F : forall l, ~ In (fst p) (map fst l) -> map (fun q : text * text => if teq (fst q) (fst p) then (fst q, v) else q) l = l).
  { induction l as [|q l IH]; intros Hn; cbn; [reflexivity|]. cbn in Hn.
    replace (teq (fst q) (fst p)) with false.
    - cbn. f_equal. apply IH. auto.
    - symmetry. apply teq_neq. intros E. apply Hn. auto. }
  rewrite !F by tauto. reflexivity.
Qed.

(* growing by one entry *)
Lemma grow_set a l e : holds a l ->
  set_entry (grow a (length l + 1)) (length l) e = Some (Some (map EStr l ++ [e])).
Proof.
  intros H. unfold grow.
  assert (G : exists x, firstn (length l + 1) (match a with Some l0 => l0 | None => [] end) ++
      repeat EUninit (length l + 1 - length (match a with Some l0 => l0 | None => [] end)) = map EStr l ++ [x]).
  { destruct l as [|y l].
    - rewrite H. exists EUninit. reflexivity.
    - destruct H as (room & ->). set (m := map EStr (y :: l)).
      assert (Hm : length m = length (y :: l)) by apply map_length. rewrite <- Hm.
      rewrite firstn_app, firstn_all2 by lia. rewrite app_length.
      replace (length m + 1 - length m)%nat with 1%nat by lia.
      destruct room as [|r room].
      + exists EUninit. cbn [firstn length]. rewrite app_nil_r. f_equal.
        replace (length m + 1 - (length m + 0))%nat with 1%nat by lia. reflexivity.
      + exists r. cbn [firstn length]. replace (length m + 1 - (length m + S (length room)))%nat with 0%nat by lia.
        cbn [repeat]. rewrite app_nil_r. reflexivity. }
  destruct G as (x & ->). unfold set_entry. rewrite app_length, map_length. cbn [length].
  replace (length l <? length l + 1)%nat with true by lia.
  rewrite <- (map_length EStr l), upd_at. reflexivity.
Qed.

Lemma set_last l x e : set_entry (Some (map EStr l ++ [x])) (length l) e = Some (Some (map EStr l ++ [e])).
Proof.
  unfold set_entry. rewrite app_length, map_length. cbn [length].
  replace (length l <? length l + 1)%nat with true by lia.
  rewrite <- (map_length EStr l), upd_at. reflexivity.
Qed.

(* shrinking *)
Lemma grow_shrink l room : l <> [] -> holds (grow (Some (map EStr l ++ room)) (length l)) l.
Proof.
  intros H. unfold grow. rewrite app_length, map_length.
  replace (length l - (length l + length room))%nat with 0%nat by lia. cbn [repeat]. rewrite app_nil_r.
  rewrite <- (map_length EStr l) at 1. rewrite firstn_app, firstn_all, Nat.sub_diag. cbn [firstn].
  rewrite app_nil_r. destruct l; [congruence|]. exists []. rewrite app_nil_r. reflexivity.
Qed.

Lemma holds_room l room : l <> [] -> holds (Some (map EStr l ++ room)) l.
Proof. intros H. destruct l; [congruence|]. exists room. reflexivity. Qed.

Lemma holds_inv a l : holds a l -> l <> [] -> exists room, a = Some (map EStr l ++ room).
Proof. intros H Hn. destruct l; [congruence|exact H]. Qed.

Lemma holds_exact l : l <> [] -> holds (Some (map EStr l)) l.
Proof. intros H. destruct l; [congruence|]. exists []. rewrite app_nil_r. reflexivity. Qed.

(** * The state *)

Lemma mrep_len st sp : mrepresents st sp -> length st = length sp.
Proof. induction 1; cbn; congruence. Qed.

Lemma mrep_get st sp h a : mrepresents st sp -> mlive sp h = Some a ->
  exists m, getmap st h = Some m /\ mwf m a.
Proof.
  intros R L. unfold mlive in L. destruct (nth_error sp h) as [[c'|]|] eqn:E; try discriminate.
  injection L as ->. destruct (Forall2_nth_error _ _ _ _ _ R E) as (x & Hx & Hp).
  destruct x as [m|]; [|contradiction]. exists m. unfold getmap. rewrite Hx. auto.
Qed.

Lemma mrep_set st sp h m a : mrepresents st sp -> mwf m a -> mrepresents (setmap st h m) (upd sp h (Some a)).
Proof. intros R W. apply Forall2_upd; [exact R|exact W]. Qed.

Lemma mrep_same st sp h m a : mrepresents st sp -> mlive sp h = Some a -> mwf m a -> mrepresents (setmap st h m) sp.
Proof.
  intros R L W. replace sp with (upd sp h (Some a)); [apply mrep_set; assumption|].
  apply nth_error_upd_self. unfold mlive in L. destruct (nth_error sp h) as [[c|]|]; congruence.
Qed.

Lemma mwf_strs m a : mwf m a -> arr_strs (keys m) 0 (map fst (a_pairs a)) /\ arr_strs (values m) 0 (map snd (a_pairs a)).
Proof. intros (_ & _ & Hk & Hv & _). split; apply holds_strs; assumption. Qed.

Lemma mwf_findKey m a k : mwf m a -> findKey m k = Some (pos k (map fst (a_pairs a))).
Proof.
  intros (Hc & _ & Hk & _). unfold findKey. rewrite Hc, <- (map_length fst). apply find_arr, Hk.
Qed.
Lemma mwf_findValue m a v : mwf m a -> findValue m v = Some (pos v (map snd (a_pairs a))).
Proof.
  intros (Hc & _ & _ & Hv & _). unfold findValue. rewrite Hc, <- (map_length snd). apply find_arr, Hv.
Qed.

Lemma mrep_dead st sp h : mrepresents st sp -> mlive sp h = None -> getmap st h = None.
Proof.
  intros R L. unfold mlive, getmap in *. revert h L. induction R as [|x y st sp H R IH]; intros [|h] L; cbn in *; auto.
  destruct x, y; try reflexivity; try contradiction. discriminate.
Qed.

(* an argument is valid exactly if it denotes a text *)
Lemma mrep_read st sp x : mrepresents st sp -> read_marg st x = mdenote sp x.
Proof.
  intros R. destruct x as [|s|h i|h i]; cbn [read_marg mdenote]; try reflexivity.
  - destruct (mlive sp h) as [a|] eqn:L; [|rewrite (mrep_dead _ _ _ R L); reflexivity].
    destruct (mrep_get _ _ _ _ R L) as (m & -> & W). destruct (mwf_strs _ _ W) as [Hk _].
    pose proof W as (Hc & _). rewrite Hc.
    destruct (nth_error (a_pairs a) i) as [p|] eqn:E.
    + assert (i < length (a_pairs a))%nat by (apply nth_error_Some; congruence).
      replace (i <? length (a_pairs a))%nat with true by lia.
      specialize (Hk i (fst p)). cbn [Nat.add] in Hk. rewrite Hk by (rewrite nth_error_map, E; reflexivity). reflexivity.
    + apply nth_error_None in E. replace (i <? length (a_pairs a))%nat with false by lia. reflexivity.
  - destruct (mlive sp h) as [a|] eqn:L; [|rewrite (mrep_dead _ _ _ R L); reflexivity].
    destruct (mrep_get _ _ _ _ R L) as (m & -> & W). destruct (mwf_strs _ _ W) as [_ Hv].
    pose proof W as (Hc & _). rewrite Hc.
    destruct (nth_error (a_pairs a) i) as [p|] eqn:E.
    + assert (i < length (a_pairs a))%nat by (apply nth_error_Some; congruence).
      replace (i <? length (a_pairs a))%nat with true by lia.
      specialize (Hv i (snd p)). cbn [Nat.add] in Hv. rewrite Hv by (rewrite nth_error_map, E; reflexivity). reflexivity.
    + apply nth_error_None in E. replace (i <? length (a_pairs a))%nat with false by lia. reflexivity.
Qed.

Lemma mrep_arg st sp x r : mrepresents st sp -> mdenote sp x = Some r ->
  read_marg st x = Some r /\ match r with Some t => cstr_ok t | None => x = MNull end.
Proof.
  intros R D. split; [rewrite (mrep_read _ _ _ R); exact D|].
  destruct x as [|s|h i|h i]; cbn in D.
  - injection D as <-. reflexivity.
  - destruct (cstr_okb s) eqn:E; [|discriminate]. injection D as <-. apply cstr_okb_ok, E.
  - destruct (mlive sp h) as [a|] eqn:L; [|discriminate]. destruct (nth_error (a_pairs a) i) as [p|] eqn:E; [|discriminate].
    injection D as <-. destruct (mrep_get _ _ _ _ R L) as (m & _ & W).
    destruct W as (_ & _ & _ & _ & _ & F). rewrite Forall_forall in F. apply F. eapply nth_error_In, E.
  - destruct (mlive sp h) as [a|] eqn:L; [|discriminate]. destruct (nth_error (a_pairs a) i) as [p|] eqn:E; [|discriminate].
    injection D as <-. destruct (mrep_get _ _ _ _ R L) as (m & _ & W).
    destruct W as (_ & _ & _ & _ & _ & F). rewrite Forall_forall in F. apply F. eapply nth_error_In, E.
Qed.

(* a non-empty list of pairs, arrays with exactly those entries *)
Lemma mwf_build m l ks vs n : n = length l -> holds ks (map fst l) -> holds vs (map snd l) ->
  NoDup (map fst l) -> Forall (fun p => cstr_ok (fst p) /\ cstr_ok (snd p)) l ->
  mwf (with_arrays m ks vs n) {| a_pairs := l; a_filter := mapFilterCallback m |}.
Proof. intros -> Hk Hv Hd Hf. repeat split; cbn; auto. Qed.

(* shrinking after the last entry is no longer needed; whether or not realloc works *)
Lemma y_decrease m l rk rv :
  mcount m = S (length l) -> keys m = Some (map EStr (map fst l) ++ rk) -> values m = Some (map EStr (map snd l) ++ rv) ->
  NoDup (map fst l) -> Forall (fun p => cstr_ok (fst p) /\ cstr_ok (snd p)) l ->
  yields (Map_DecreaseStorageKeysValues m) (fun _ m' =>
    mwf m' {| a_pairs := l; a_filter := match l with [] => None | _ => mapFilterCallback m end |}).
Proof.
  intros Hc Hk Hv Hd Hf. unfold Map_DecreaseStorageKeysValues. rewrite Hc, Hk, Hv.
  destruct l as [|p l].
  - apply yields_ret. repeat split; cbn; auto.
  - set (q := p :: l) in *. replace (S (length q) =? 1)%nat with false by (cbn; lia).
    replace (S (length q) - 1)%nat with (length q) by lia.
    apply yields_balloc. intros b1. apply yields_balloc. intros b2. apply yields_ret.
    apply mwf_build; auto.
    + destruct b1; [rewrite <- (map_length fst q); apply grow_shrink|apply holds_room]; discriminate.
    + destruct b2; [rewrite <- (map_length snd q); apply grow_shrink|apply holds_room]; discriminate.
Qed.

Lemma nodup_snoc l (k v : text) : NoDup (map fst l) -> ~ In k (map fst l) -> NoDup (map fst (l ++ [(k, v)])).
Proof.
  intros H Hn. rewrite map_app. cbn. apply NoDup_app_intro; [exact H|repeat constructor; auto|].
  intros x Hx [<-|[]]. auto.
Qed.

(* inserting a pair: done, or the content as before (the filter kept unless the map
   was empty) *)
Lemma y_insert m a k v : mwf m a -> ~ In k (map fst (a_pairs a)) -> cstr_ok k -> cstr_ok v ->
  yields (insertNewKeyValue m k v) (fun b x =>
    fst x = b /\
    if b then mwf (snd x) {| a_pairs := a_pairs a ++ [(k, v)]; a_filter := a_filter a |}
    else exists f, mwf (snd x) {| a_pairs := a_pairs a; a_filter := f |} /\
                   (f = a_filter a \/ a_pairs a = [] /\ f = None)).
Proof.
  intros W Hn Ck Cv. pose proof W as (Hc & Hf & Hk & Hv & Hd & Ho).
  unfold insertNewKeyValue, Map_IncreaseStorageKeysValues.
  set (l := a_pairs a) in *.
  set (lk := map fst l) in *. set (lv := map snd l) in *.
  assert (Elk : length lk = length l) by apply map_length.
  assert (Elv : length lv = length l) by apply map_length.
  eapply yields_bind with (Q1 := fun (b : bool) (x : bool * MAP) =>
    if b then x = (true, with_arrays m (Some (map EStr lk ++ [ENull])) (Some (map EStr lv ++ [ENull])) (S (length l)))
    else fst x = false /\ mwf (snd x) {| a_pairs := l; a_filter := a_filter a |}).
  { apply yields_balloc. intros [|]; cbn [negb].
    2:{ apply yields_ret. cbn. split; [reflexivity|]. unfold l. destruct a; exact W. }
    rewrite Hc, <- Elk. rewrite grow_set by exact Hk. rewrite bind_lift_some.
    apply yields_balloc. intros [|]; cbn [negb].
    - rewrite Elk, <- Elv, grow_set by exact Hv. rewrite bind_lift_some. apply yields_ret. cbn.
      do 2 f_equal. lia.
    - cbn [andb]. destruct (Nat.eqb_spec (length lk) 0) as [Hz|Hz].
      + apply yields_ret. cbn. split; [reflexivity|].
        rewrite <- Hf. apply mwf_build; auto; try lia.
        fold lk. destruct lk; [reflexivity|discriminate].
      + apply yields_balloc. intros b3. apply yields_ret. cbn. split; [reflexivity|].
        rewrite <- Hf. apply mwf_build; auto; try lia. fold lk.
        destruct b3; [apply grow_shrink|apply holds_room]; destruct lk; try discriminate; cbn in Hz; lia. }
  intros b1 x1 H1. destruct b1; cbv beta iota in H1.
  2:{ destruct H1 as [E1 W1]. rewrite E1. cbn [negb]. apply yields_ret. cbn [fst snd andb].
      split; [reflexivity|]. exists (a_filter a). auto. }
  subst x1. cbn [fst snd negb with_arrays keys values mcount andb].
  replace (S (length l) - 1)%nat with (length l) by lia.
  unfold store_copy.
  apply yields_bind with (Q1 := fun (b : bool) (y : bool * arr) => y = (b, Some (map EStr lk ++ [if b then EStr k else ENull]))).
  { apply yields_balloc. intros b. rewrite <- Elk, set_last, bind_lift_some. apply yields_ret.
    rewrite andb_true_r. reflexivity. }
  intros b2 y ->. cbn [fst snd]. destruct b2; cbn [negb].
  2:{ eapply yields_bind; [eapply (y_decrease _ l [ENull] [ENull]); cbn; auto|].
      intros b3 m3 W3. apply yields_ret. cbn [fst snd andb].
      split; [reflexivity|]. eexists. split; [exact W3|]. cbn [mapFilterCallback with_arrays].
      rewrite Hf. destruct l; [right; split; auto|left; reflexivity]. }
  cbn [mcount with_arrays keys values]. replace (S (length l) - 1)%nat with (length l) by lia.
  apply yields_bind with (Q1 := fun (b : bool) (y : bool * arr) => y = (b, Some (map EStr lv ++ [if b then EStr v else ENull]))).
  { apply yields_balloc. intros b. rewrite <- Elv, set_last, bind_lift_some. apply yields_ret.
    rewrite andb_true_r. reflexivity. }
  intros b3 z ->. cbn [fst snd]. destruct b3; cbn [negb].
  - apply yields_ret. cbn [fst snd andb]. split; [reflexivity|].
    rewrite <- Hf.
    match goal with |- mwf ?x _ => change (mapFilterCallback m) with (mapFilterCallback x) end.
    apply (mwf_build m (l ++ [(k, v)])).
    + rewrite app_length. cbn. lia.
    + rewrite map_app. cbn [map fst]. fold lk.
      replace (map EStr lk ++ [EStr k]) with (map EStr (lk ++ [k])) by apply map_app.
      apply holds_exact. destruct lk; discriminate.
    + rewrite map_app. cbn [map snd]. fold lv.
      replace (map EStr lv ++ [EStr v]) with (map EStr (lv ++ [v])) by apply map_app.
      apply holds_exact. destruct lv; discriminate.
    + apply nodup_snoc; assumption.
    + apply Forall_app. split; [exact Ho|]. repeat constructor; auto.
  - cbn [keys with_arrays mcount values]. replace (S (length l) - 1)%nat with (length l) by lia.
    unfold free_entry. rewrite nth_error_app2 by (rewrite map_length; lia).
    rewrite map_length, Elk, Nat.sub_diag. cbn [nth_error]. rewrite bind_lift_some.
    rewrite <- Elk, <- (map_length EStr lk), upd_at.
    eapply yields_bind; [eapply (y_decrease _ l [EDead] [ENull]); cbn; rewrite ?map_length; auto|].
    intros b4 m4 W4. apply yields_ret. cbn [fst snd andb].
    split; [reflexivity|]. eexists. split; [exact W4|]. cbn [mapFilterCallback with_arrays].
    rewrite Hf. destruct l; [right; split; auto|left; reflexivity].
Qed.

Lemma shift_ok l1 s l2 room :
  shift_down (Some (map EStr l1 ++ EDead :: map EStr l2 ++ room)) (length l1) (length (l1 ++ s :: l2 : list text)) =
  Some (Some (map EStr (l1 ++ l2) ++ skipn (length l1 + length l2) (map EStr l1 ++ EDead :: map EStr l2 ++ room))).
Proof.
  unfold shift_down. rewrite !app_length. cbn [length]. rewrite app_length, !map_length.
  match goal with |- context [(?x <=? ?y)%nat] => replace (x <=? y)%nat with true by lia end.
  f_equal. f_equal. rewrite map_app, <- app_assoc. f_equal; [|f_equal].
  - rewrite <- (map_length EStr l1) at 1. rewrite firstn_app, firstn_all, Nat.sub_diag. cbn [firstn]. apply app_nil_r.
  - replace (length l1 + S (length l2) - length l1 - 1)%nat with (length l2) by lia.
    rewrite skipn_app, skipn_all2 by (rewrite map_length; lia).
    rewrite map_length. replace (length l1 + 1 - length l1)%nat with 1%nat by lia. cbn [skipn app].
    rewrite <- (map_length EStr l2) at 1. rewrite firstn_app, firstn_all, Nat.sub_diag. cbn [firstn]. apply app_nil_r.
  - f_equal. lia.
Qed.

Lemma y_clone_strings a l : forall i, arr_strs a i l ->
  yields (clone_strings a i (length l)) (fun b r => r = if b then Some (map EStr l) else None).
Proof.
  induction l as [|s l IH]; intros i H; cbn [length clone_strings].
  - apply yields_ret. reflexivity.
  - apply arr_strs_cons in H. destruct H as [-> H]. rewrite bind_lift_some.
    apply yields_balloc. intros [|]; [|apply yields_ret; reflexivity].
    eapply yields_bind; [apply (IH _ H)|]. intros b r ->. apply yields_ret. destruct b; reflexivity.
Qed.

Lemma y_clonevector a l : holds a l ->
  yields (Map_CloneVector a (length l)) (fun b r => r = if b then Some (map EStr l) else None).
Proof.
  intros H. unfold Map_CloneVector. apply yields_balloc. intros [|]; [|apply yields_ret; reflexivity].
  eapply yields_weaken; [apply y_clone_strings, holds_strs, H|]. intros m r ->. reflexivity.
Qed.

Ltac sameR R := apply sim1_ret; let r := fresh "r" in let sp' := fresh "sp'" in let H := fresh "Hg" in
  intros r sp' H; cbv beta in H; injection H as <- <-; eexists; (split; [reflexivity|exact R]).
Ltac ysame := apply yields_ret; intros r sp' Hg; injection Hg as <- <-; auto.

Lemma map_simulate : simulates mstep msp_step mrepresents.
Proof.
  intros st sp op o R. change (sim1 mrepresents (mstep st op) (fun m => msp_step sp op m) o).
  destruct op as [f|h|h|h k v|h k v|h k|h k out|h v out|h k|h out|h]; cbn [mstep].
  - (* create *)
    apply sim1_alloc. intros m r sp' Hg. cbn [msp_step] in Hg. destruct m; injection Hg as <- <-; eexists;
      (split; [rewrite ?(mrep_len _ _ R); reflexivity|]); [|exact R].
    apply Forall2_app; [exact R|]. constructor; [|constructor]. repeat split; cbn; auto; constructor.
  - (* destroy *)
    destruct h as [h|]; cbn [msp_step Map_Destroy]; [|sameR R].
    destruct (mlive sp h) as [a|] eqn:L; [|snone; reflexivity].
    destruct (mrep_get _ _ _ _ R L) as (m & -> & W). rewrite bind_lift_some.
    destruct (mwf_strs _ _ W) as [Hk Hv]. pose proof W as (Hc & _).
    assert (E : free_all (keys m) (values m) 0 (mcount m) = Some tt).
    { rewrite Hc, <- (map_length fst). eapply free_all_ok; [|exact Hk|exact Hv]. rewrite !map_length. reflexivity. }
    rewrite E, bind_lift_some. sret. injection Hg as <- <-. eexists. split; [reflexivity|].
    apply Forall2_upd; [exact R|exact I].
  - (* clone *)
    destruct h as [h|]; cbn [msp_step Map_Clone]; [|sameR R].
    destruct (mlive sp h) as [a|] eqn:L; [|snone; reflexivity].
    destruct (mrep_get _ _ _ _ R L) as (m & -> & W). rewrite bind_lift_some.
    pose proof W as (Hc & Hf & Hk & Hv & Hd & Ho). rewrite (mrep_len _ _ R).
    apply sim1_yields. apply yields_balloc. intros [|].
    2:{ ysame. }
    rewrite Hc. destruct (a_pairs a) as [|p l] eqn:El.
    + apply yields_ret. intros r sp' Hg. injection Hg as <- <-. split; [reflexivity|].
      apply Forall2_app; [exact R|]. constructor; [|constructor]. repeat split; cbn; auto; constructor.
    + rewrite <- El in *. replace (length (a_pairs a) =? 0)%nat with false by (rewrite El; reflexivity).
      eapply yields_bind; [rewrite <- (map_length fst); apply y_clonevector, Hk|].
      intros b1 ks ->. destruct b1; [|ysame].
      eapply yields_bind; [rewrite <- (map_length snd); apply y_clonevector, Hv|].
      intros b2 vs ->. destruct b2; [|ysame].
      apply yields_ret. intros r sp' Hg. cbn [andb] in Hg. injection Hg as <- <-. split; [reflexivity|].
      apply Forall2_app; [exact R|]. constructor; [|constructor]. rewrite <- Hf.
      apply (mwf_build m); auto; apply holds_exact; rewrite El; discriminate.
  - (* add *)
    destruct h as [h|]; cbn [msp_step Map_Add]; [|sameR R].
    destruct (mnull k || mnull v) eqn:En; [sameR R|].
    destruct (mlive sp h) as [a|] eqn:L; [|snone; reflexivity].
    destruct (mdenote sp k) as [[kt|]|] eqn:Dk; [|snone; reflexivity|snone; reflexivity].
    destruct (mdenote sp v) as [[vt|]|] eqn:Dv; [|snone; reflexivity|snone; reflexivity].
    destruct (mrep_get _ _ _ _ R L) as (m & -> & W). rewrite bind_lift_some.
    destruct (mrep_arg _ _ _ _ R Dk) as [-> Ck]. destruct (mrep_arg _ _ _ _ R Dv) as [-> Cv].
    rewrite !bind_lift_some, (mwf_findKey m a kt W), bind_lift_some.
    pose proof (lookup_pos kt (a_pairs a)) as Hp.
    destruct (lookup kt (a_pairs a)) as [v0|], (pos kt (map fst (a_pairs a))) as [j|] eqn:Ep; try contradiction; [sameR R|].
    pose proof W as (Hc & Hf & Hk & Hv & Hd & Ho).
    unfold refused, rejects. rewrite Hf.
    destruct (match a_filter a with Some f => f kt vt | None => false end) eqn:Er; [sameR R|].
    apply pos_none in Ep. apply sim1_yields.
    eapply yields_bind; [apply (y_insert m a kt vt W Ep Ck Cv)|].
    intros b x [-> Hx]. apply yields_ret. rewrite andb_true_r. intros r sp' Hg. unfold minsert in Hg.
    destruct b; cbn [fst snd].
    + injection Hg as <- <-. split; [reflexivity|]. apply mrep_set; [exact R|exact Hx].
    + destruct Hx as (f & Wx & Hfx).
      assert (Hff : f = a_filter a \/ a_pairs a = [] /\ a_filter a <> None).
      { destruct Hfx as [->|[E ->]]; [auto|]. destruct (a_filter a); [right; split; congruence|auto]. }
      destruct Hff as [->|[E Hne]].
      * assert (Hg' : MRC MAP_ERROR = r /\ sp = sp').
        { destruct (a_pairs a), (a_filter a); try discriminate; injection Hg; auto. }
        destruct Hg' as [<- <-]. split; [reflexivity|].
        apply (mrep_same st sp h _ a R L). destruct a; exact Wx.
      * rewrite E in Hg. destruct (a_filter a); [discriminate|congruence].
  - (* add or update *)
    destruct h as [h|]; cbn [msp_step Map_AddOrUpdate]; [|sameR R].
    destruct (mnull k || mnull v) eqn:En; [sameR R|].
    destruct (mlive sp h) as [a|] eqn:L; [|snone; reflexivity].
    destruct (mdenote sp k) as [[kt|]|] eqn:Dk; [|snone; reflexivity|snone; reflexivity].
    destruct (mdenote sp v) as [[vt|]|] eqn:Dv; [|snone; reflexivity|snone; reflexivity].
    destruct (mrep_get _ _ _ _ R L) as (m & -> & W). rewrite bind_lift_some.
    destruct (mrep_arg _ _ _ _ R Dk) as [-> Ck]. destruct (mrep_arg _ _ _ _ R Dv) as [-> Cv].
    rewrite !bind_lift_some.
    pose proof W as (Hc & Hf & Hk & Hv & Hd & Ho).
    unfold refused, rejects. rewrite Hf.
    destruct (match a_filter a with Some f => f kt vt | None => false end) eqn:Er; [sameR R|].
    rewrite (mwf_findKey m a kt W), bind_lift_some.
    pose proof (lookup_pos kt (a_pairs a)) as Hp.
    destruct (lookup kt (a_pairs a)) as [v0|], (pos kt (map fst (a_pairs a))) as [j|] eqn:Ep; try contradiction.
    + (* update *)
      destruct (pos_split _ _ _ Ep) as (k1 & k2 & Hs & Hj & _).
      destruct (nth_error_split _ _ Hp) as (l1 & l2 & Hl & Hl1).
      destruct (mwf_strs _ _ W) as [_ Hvs]. pose proof (Hvs j v0) as Hvj. cbn [Nat.add] in Hvj.
      rewrite Hvj by (rewrite nth_error_map, Hp; reflexivity). rewrite bind_lift_some.
      assert (Hown : is_value_at v h j = own_value sp h kt v).
      { destruct v as [|s|h' i|h' i]; try reflexivity. cbn [is_value_at own_value].
        destruct (Nat.eqb_spec h' h) as [->|]; [|reflexivity]. cbn [andb]. rewrite L.
        cbn [mdenote] in Dv. rewrite L in Dv. destruct (nth_error (a_pairs a) i) as [p|] eqn:Ei; [|discriminate].
        destruct (Nat.eqb_spec i j) as [->|Hij].
        - rewrite Hp in Ei. injection Ei as <-. symmetry. apply teq_refl.
        - symmetry. apply teq_neq. intros E. apply Hij.
          rewrite NoDup_nth_error in Hd. apply Hd.
          + rewrite map_length. apply nth_error_Some. congruence.
          + rewrite !nth_error_map, Ei, Hp. cbn. congruence. }
      rewrite Hown. destruct (own_value sp h kt v) eqn:Eo; [snone; reflexivity|].
      apply sim1_alloc. intros b r sp' Hg. destruct b; injection Hg as <- <-.
      * assert (Est : exists room, values m = Some (map EStr (map snd (a_pairs a)) ++ room)).
        { rewrite Hl in Hv |- *. rewrite map_app in Hv |- *. cbn [map] in Hv |- *.
          destruct (map snd l1 ++ snd (kt, v0) :: map snd l2) eqn:E; [destruct (map snd l1); discriminate|]. exact Hv. }
        destruct Est as (room & Est). rewrite Est. unfold set_entry.
        assert (Hjl : (j < length (a_pairs a))%nat) by (apply nth_error_Some; congruence).
        rewrite app_length, !map_length. replace (j <? length (a_pairs a) + length room)%nat with true by lia.
        rewrite bind_lift_some. eexists. split; [reflexivity|]. apply mrep_set; [exact R|].
        assert (Erv : replace_value kt vt (a_pairs a) = l1 ++ (kt, vt) :: l2).
        { rewrite Hl in Hd |- *. apply (replace_split l1 l2 (kt, v0) vt Hd). }
        rewrite <- Hf, Erv. rewrite Hl in Hd, Ho, Hk, Hc |- *. rewrite map_app in Hd. cbn [map fst] in Hd.
        apply mwf_build.
        -- rewrite Hc, !app_length. reflexivity.
        -- rewrite map_app in Hk |- *. exact Hk.
        -- rewrite !map_app. cbn [map snd]. rewrite <- app_assoc. cbn [app].
           replace j with (length (map EStr (map snd l1))) by (rewrite !map_length; exact Hl1).
           rewrite upd_at. rewrite app_comm_cons, app_assoc.
           replace (map EStr (map snd l1) ++ EStr vt :: map EStr (map snd l2)) with (map EStr (map snd l1 ++ vt :: map snd l2))
             by (rewrite map_app; reflexivity).
           apply holds_room. destruct (map snd l1); discriminate.
        -- rewrite map_app. exact Hd.
        -- rewrite Forall_app in Ho |- *. destruct Ho as [H1 H2]. split; [exact H1|].
           inversion H2 as [|? ? [Hx _] H3]; subst. constructor; [split; [exact Ck|exact Cv]|exact H3].
      * eexists. split; [reflexivity|exact R].
    + (* insert *)
      apply pos_none in Ep. apply sim1_yields.
      eapply yields_bind; [apply (y_insert m a kt vt W Ep Ck Cv)|].
      intros b x [-> Hx]. apply yields_ret. rewrite andb_true_r. intros r sp' Hg. unfold minsert in Hg.
      destruct b; cbn [fst snd].
      * injection Hg as <- <-. split; [reflexivity|]. apply mrep_set; [exact R|exact Hx].
      * destruct Hx as (f & Wx & Hfx).
        assert (Hff : f = a_filter a \/ a_pairs a = [] /\ a_filter a <> None).
        { destruct Hfx as [->|[E ->]]; [auto|]. destruct (a_filter a); [right; split; congruence|auto]. }
        destruct Hff as [->|[E Hne]].
        -- assert (Hg' : MRC MAP_ERROR = r /\ sp = sp').
           { destruct (a_pairs a), (a_filter a); try discriminate; injection Hg; auto. }
           destruct Hg' as [<- <-]. split; [reflexivity|].
           apply (mrep_same st sp h _ a R L). destruct a; exact Wx.
        -- rewrite E in Hg. destruct (a_filter a); [discriminate|congruence].
  - (* delete *)
    destruct h as [h|]; cbn [msp_step Map_Delete]; [|sameR R].
    destruct (mnull k) eqn:En; [sameR R|].
    destruct (mlive sp h) as [a|] eqn:L; [|snone; reflexivity].
    destruct (mdenote sp k) as [[kt|]|] eqn:Dk; [|snone; reflexivity|snone; reflexivity].
    destruct (mrep_get _ _ _ _ R L) as (m & -> & W). rewrite bind_lift_some.
    destruct (mrep_arg _ _ _ _ R Dk) as [-> Ck]. rewrite bind_lift_some.
    pose proof W as (Hc & Hf & Hk & Hv & Hd & Ho).
    rewrite (mwf_findKey m a kt W), bind_lift_some.
    pose proof (lookup_pos kt (a_pairs a)) as Hp.
    destruct (lookup kt (a_pairs a)) as [v0|], (pos kt (map fst (a_pairs a))) as [j|] eqn:Ep; try contradiction; [|sameR R].
    destruct (nth_error_split _ _ Hp) as (l1 & l2 & Hl & Hl1).
    assert (Erm : remove kt (a_pairs a) = l1 ++ l2).
    { rewrite Hl in Hd |- *. apply (remove_split l1 l2 (kt, v0) Hd). }
    rewrite Erm. rewrite Hl in Hk, Hv, Hd, Ho, Hc. rewrite map_app in Hk, Hv, Hd. cbn [map fst snd] in Hk, Hv, Hd.
    assert (Ekk : exists rk, keys m = Some (map EStr (map fst l1) ++ EStr kt :: map EStr (map fst l2) ++ rk)).
    { destruct (holds_inv _ _ Hk) as (room & ->); [destruct (map fst l1); discriminate|]. exists room. rewrite map_app, <- app_assoc. reflexivity. }
    assert (Evv : exists rv, values m = Some (map EStr (map snd l1) ++ EStr v0 :: map EStr (map snd l2) ++ rv)).
    { destruct (holds_inv _ _ Hv) as (room & ->); [destruct (map snd l1); discriminate|]. exists room. rewrite map_app, <- app_assoc. reflexivity. }
    destruct Ekk as (rk & Ekk). destruct Evv as (rv & Evv). rewrite Ekk, Evv.
    assert (Fk : free_entry (Some (map EStr (map fst l1) ++ EStr kt :: map EStr (map fst l2) ++ rk)) j =
      Some (Some (map EStr (map fst l1) ++ EDead :: map EStr (map fst l2) ++ rk))).
    { unfold free_entry. replace j with (length (map EStr (map fst l1))) by (rewrite !map_length; exact Hl1).
      rewrite nth_error_app2, Nat.sub_diag by lia. cbn [nth_error]. rewrite upd_at. reflexivity. }
    assert (Fv : free_entry (Some (map EStr (map snd l1) ++ EStr v0 :: map EStr (map snd l2) ++ rv)) j =
      Some (Some (map EStr (map snd l1) ++ EDead :: map EStr (map snd l2) ++ rv))).
    { unfold free_entry. replace j with (length (map EStr (map snd l1))) by (rewrite !map_length; exact Hl1).
      rewrite nth_error_app2, Nat.sub_diag by lia. cbn [nth_error]. rewrite upd_at. reflexivity. }
    rewrite Fk, Fv, !bind_lift_some.
    assert (Sk : shift_down (Some (map EStr (map fst l1) ++ EDead :: map EStr (map fst l2) ++ rk)) j (mcount m) =
      Some (Some (map EStr (map fst (l1 ++ l2)) ++ skipn (length l1 + length l2) (map EStr (map fst l1) ++ EDead :: map EStr (map fst l2) ++ rk)))).
    { pose proof (shift_ok (map fst l1) kt (map fst l2) rk) as S. rewrite app_length in S. cbn [length] in S. rewrite !map_length in S.
      rewrite Hl1 in S. rewrite Hc, app_length. cbn [length]. rewrite Hl1, S, !map_app. reflexivity. }
    assert (Sv : shift_down (Some (map EStr (map snd l1) ++ EDead :: map EStr (map snd l2) ++ rv)) j (mcount m) =
      Some (Some (map EStr (map snd (l1 ++ l2)) ++ skipn (length l1 + length l2) (map EStr (map snd l1) ++ EDead :: map EStr (map snd l2) ++ rv)))).
    { pose proof (shift_ok (map snd l1) v0 (map snd l2) rv) as S. rewrite app_length in S. cbn [length] in S. rewrite !map_length in S.
      rewrite Hl1 in S. rewrite Hc, app_length. cbn [length]. rewrite Hl1, S, !map_app. reflexivity. }
    rewrite Sk, Sv, !bind_lift_some. apply sim1_yields.
    eapply yields_bind.
    { eapply (y_decrease _ (l1 ++ l2)); cbn [mcount keys values with_arrays]; try reflexivity.
      - rewrite Hc, !app_length. cbn. lia.
      - rewrite map_app. apply NoDup_remove_1 in Hd. exact Hd.
      - rewrite Forall_app in Ho |- *. destruct Ho as [H1 H2]. inversion H2; subst. auto. }
    intros b m' W'. apply yields_ret. intros r sp' Hg. injection Hg as <- <-. split; [reflexivity|].
    cbn [snd]. apply mrep_set; [exact R|]. rewrite <- Hf. exact W'.
  - (* contains key *)
    destruct h as [h|]; cbn [msp_step Map_ContainsKey]; [|sameR R].
    destruct (mnull k || negb out) eqn:En; [sameR R|].
    destruct (mlive sp h) as [a|] eqn:L; [|snone; reflexivity].
    destruct (mdenote sp k) as [[kt|]|] eqn:Dk; [|snone; reflexivity|snone; reflexivity].
    destruct (mrep_get _ _ _ _ R L) as (m & -> & W). rewrite bind_lift_some.
    destruct (mrep_arg _ _ _ _ R Dk) as [-> Ck]. rewrite bind_lift_some, (mwf_findKey m a kt W), bind_lift_some.
    pose proof (lookup_pos kt (a_pairs a)) as Hp.
    destruct (lookup kt (a_pairs a)) as [v0|], (pos kt (map fst (a_pairs a))) as [j|] eqn:Ep; try contradiction; sameR R.
  - (* contains value *)
    destruct h as [h|]; cbn [msp_step Map_ContainsValue]; [|sameR R].
    destruct (mnull v || negb out) eqn:En; [sameR R|].
    destruct (mlive sp h) as [a|] eqn:L; [|snone; reflexivity].
    destruct (mdenote sp v) as [[vt|]|] eqn:Dv; [|snone; reflexivity|snone; reflexivity].
    destruct (mrep_get _ _ _ _ R L) as (m & -> & W). rewrite bind_lift_some.
    destruct (mrep_arg _ _ _ _ R Dv) as [-> Cv]. rewrite bind_lift_some, (mwf_findValue m a vt W), bind_lift_some.
    rewrite has_value_pos. destruct (pos vt (map snd (a_pairs a))); sameR R.
  - (* get *)
    destruct h as [h|]; cbn [msp_step Map_GetValueFromKey]; [|sameR R].
    destruct (mnull k) eqn:En; [sameR R|].
    destruct (mlive sp h) as [a|] eqn:L; [|snone; reflexivity].
    destruct (mdenote sp k) as [[kt|]|] eqn:Dk; [|snone; reflexivity|snone; reflexivity].
    destruct (mrep_get _ _ _ _ R L) as (m & -> & W). rewrite bind_lift_some.
    destruct (mrep_arg _ _ _ _ R Dk) as [-> Ck]. rewrite bind_lift_some, (mwf_findKey m a kt W), bind_lift_some.
    pose proof (lookup_pos kt (a_pairs a)) as Hp.
    destruct (lookup kt (a_pairs a)) as [v0|], (pos kt (map fst (a_pairs a))) as [j|] eqn:Ep; try contradiction; [|sameR R].
    destruct (mwf_strs _ _ W) as [_ Hvs]. pose proof (Hvs j v0) as Hvj. cbn [Nat.add] in Hvj.
    rewrite Hvj by (rewrite nth_error_map, Hp; reflexivity). rewrite bind_lift_some. sameR R.
  - (* internals *)
    destruct h as [h|]; cbn [msp_step Map_GetInternals]; [|sameR R].
    destruct (negb out) eqn:En; [sameR R|].
    destruct (mlive sp h) as [a|] eqn:L; [|snone; reflexivity].
    destruct (mrep_get _ _ _ _ R L) as (m & -> & W). rewrite bind_lift_some.
    destruct (mwf_strs _ _ W) as [Hks Hvs]. pose proof W as (Hc & _). rewrite Hc.
    rewrite <- (map_length fst) at 1. rewrite (read_strings_ok _ _ _ Hks), bind_lift_some.
    rewrite <- (map_length snd) at 1. rewrite (read_strings_ok _ _ _ Hvs), bind_lift_some. sameR R.
  - (* json *)
    destruct h as [h|]; cbn [msp_step Map_ToJSON]; [|sameR R].
    destruct (mlive sp h) as [a|] eqn:L; [|snone; reflexivity].
    destruct (mrep_get _ _ _ _ R L) as (m & -> & W). rewrite bind_lift_some.
    destruct (mwf_strs _ _ W) as [Hks Hvs]. pose proof W as (Hc & Hf & Hk & Hv & Hd & Ho).
    apply sim1_yields. eapply yields_bind; [apply (y_tojson m (a_pairs a) Hks Hvs Ho Hc)|].
    intros b x (n & Hx). revert Hx. cbv beta. rewrite (andb_comm b). destruct (ascii_pairs (a_pairs a) && b) eqn:E; intros [-> Rx].
    + apply andb_true_iff in E. destruct E as [-> ->].
      intros o1. exists (MRS (Some (json_pairs (a_pairs a))), st), o1, [], true.
      split; [unfold bind; rewrite (c_str_eval (snd x) _ 0%nat (json_pairs (a_pairs a)) _ Rx eq_refl); reflexivity|].
      split; [reflexivity|]. split; [discriminate|]. intros r sp' Hg. injection Hg as <- <-. auto.
    + apply yields_ret. intros r sp' Hg. rewrite andb_true_r, E in Hg. injection Hg as <- <-. auto.
Qed.
