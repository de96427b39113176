(* Proofs about the model of src/strings.c. *)
From Verif Require Import Base Refine Strings_Model Strings_Spec Json_Spec.
Open Scope N_scope.

Definition wf (b : block) (t : list N) : Prop :=
  cstr_ok t /\ exists room, b = filled (t ++ [0]) ++ room.

Lemma wf_ctext b t : wf b t -> ctext b = Some t.
Proof.
  intros [Ht [room ->]]. induction Ht as [|c t Hc Ht IH]; [reflexivity|].
  cbn [app filled map ctext]. unfold char_ok in Hc.
  destruct (N.eqb_spec c 0) as [->|_]; [lia|].
  fold (filled (t ++ [0])). rewrite IH. reflexivity.
Qed.

Lemma wf_skipn b t k : wf b t -> (k <= length t)%nat -> wf (skipn k b) (skipn k t).
Proof.
  intros [Ht [room ->]] Hk. split.
  - unfold cstr_ok. apply Forall_forall. intros x Hx. unfold cstr_ok in Ht.
    rewrite Forall_forall in Ht. apply Ht. rewrite <- (firstn_skipn k t). apply in_or_app. auto.
  - exists room. rewrite skipn_app. unfold filled at 1. rewrite <- (firstn_skipn k t) at 1.
    rewrite <- app_assoc, map_app, skipn_app.
    rewrite skipn_all2 by (rewrite map_length, firstn_length; lia).
    replace (k - length (map Some (firstn k t)))%nat with 0%nat
      by (rewrite map_length, firstn_length; lia).
    replace (k - length (filled (t ++ [0%N])))%nat with 0%nat
      by (rewrite filled_length, app_length; cbn; lia).
    reflexivity.
Qed.

Lemma rep_get st sp h t : represents st sp -> live sp h = Some t ->
  exists b, getb st h = Some b /\ wf b t.
Proof.
  intros R L. unfold live in L. destruct (nth_error sp h) as [[t'|]|] eqn:E; try discriminate.
  injection L as ->. destruct (Forall2_nth_error _ _ _ _ _ R E) as (x & Hx & Hp).
  destruct x as [b|]; [|contradiction]. exists b. split; [|exact Hp].
  unfold getb. change (nth_error st h) with (@nth_error (option block) st h).
  assert (Hx' : @nth_error (option block) st h = Some (Some b)) by exact Hx.
  rewrite Hx'. reflexivity.
Qed.

Lemma rep_arg st sp a r : represents st sp -> denote sp a = Some r ->
  read_arg st a = Some r /\ match r with Some t => cstr_ok t | None => True end.
Proof.
  intros R D. destruct a as [|s|h k]; cbn in *.
  - injection D as <-. auto.
  - destruct (cstr_okb s) eqn:E; [|discriminate]. injection D as <-.
    split; [reflexivity|]. apply cstr_okb_ok, E.
  - destruct (live sp h) as [t|] eqn:L; [|discriminate].
    destruct (Nat.leb_spec k (length t)) as [Hk|Hk]; [|discriminate]. injection D as <-.
    destruct (rep_get _ _ _ _ R L) as (b & Hb & Hw). rewrite Hb.
    pose proof (wf_skipn b t k Hw Hk) as Hs. rewrite (wf_ctext _ _ Hs).
    split; [reflexivity|]. apply Hs.
Qed.

Lemma rep_push st sp b t : represents st sp -> wf b t -> represents (st ++ [Some b]) (sp ++ [Some t]).
Proof.
  intros R W. apply Forall2_app; [exact R|]. constructor; [exact W|constructor].
Qed.

Lemma rep_set st sp h b t : represents st sp -> wf b t -> represents (setb st h b) (upd sp h (Some t)).
Proof. intros R W. apply Forall2_upd; [exact R|exact W]. Qed.

Lemma rep_len st sp : represents st sp -> length st = length sp.
Proof. induction 1; cbn; congruence. Qed.

Lemma wf_exact t : cstr_ok t -> wf (filled (t ++ [0])) t.
Proof. intros H. split; [exact H|]. exists []. rewrite app_nil_r. reflexivity. Qed.

Lemma realloc_length b n : length (realloc b n) = n.
Proof. unfold realloc. rewrite app_length, firstn_length, fresh_length. lia. Qed.

Lemma realloc_keeps b t n : wf b t ->
  exists mid, realloc b (length t + n) = filled t ++ mid /\ length mid = n.
Proof.
  intros [Ht [room ->]].
  pose proof (realloc_length (filled (t ++ [0]) ++ room) (length t + n)) as L.
  assert (E : exists mid, realloc (filled (t ++ [0]) ++ room) (length t + n) = filled t ++ mid).
  { unfold realloc. exists (firstn n (filled [0] ++ room) ++
      fresh (length t + n - length (filled (t ++ [0%N]) ++ room))).
    rewrite app_assoc. f_equal. unfold filled at 1. rewrite map_app, <- app_assoc, firstn_app.
    rewrite firstn_all2 by (rewrite map_length; lia).
    rewrite map_length. replace (length t + n - length t)%nat with n by lia. reflexivity. }
  destruct E as [mid E]. exists mid. split; [exact E|].
  rewrite E, app_length, filled_length in L. lia.
Qed.

(* Writing a whole text with its terminator. *)
Lemma write_fresh t : store_all (fresh (length t + 1)) 0 (t ++ [0]) = Some (filled (t ++ [0])).
Proof. apply store_all_exact. rewrite fresh_length, app_length. reflexivity. Qed.

Lemma write_text_term b t n : length b = (length t + 1 + n)%nat ->
  exists room, (match store_all b 0 t with Some b1 => store b1 (length t) 0 | None => None end)
               = Some (filled (t ++ [0]) ++ room).
Proof.
  intros Hl. exists (skipn (length t + 1) b).
  pose proof (store_all_cat b 0 t [0]) as E. cbn [Nat.add] in E.
  rewrite store_all_prefix in E by (rewrite app_length; cbn; lia).
  destruct (store_all b 0 t) as [b1|]; [|discriminate].
  cbn in E. destruct (store b1 (length t) 0) as [b2|]; [|discriminate].
  injection E as E. rewrite <- E. rewrite app_length. reflexivity.
Qed.

Lemma write_quoted b t : length b = (length t + 3)%nat ->
  (match store b 0 34 with
   | Some b1 => match store_all b1 1 t with
                | Some b2 => match store b2 (length t + 1) 34 with
                             | Some b3 => store b3 (length t + 2) 0
                             | None => None end
                | None => None end
   | None => None end) = Some (filled (quoted t ++ [0])).
Proof.
  intros Hl.
  pose proof (store_all_exact (quoted t ++ [0]) b) as E.
  assert (Hq : length b = length (quoted t ++ [0])).
  { unfold quoted. cbn. rewrite !app_length. cbn. lia. }
  specialize (E Hq). unfold quoted in E at 1. cbn [app] in E. cbn [store_all] in E.
  change (ch """") with 34 in E.
  destruct (store b 0 34) as [b1|]; [|discriminate].
  rewrite <- app_assoc in E. rewrite store_all_cat in E.
  destruct (store_all b1 1 t) as [b2|]; [|discriminate].
  cbn [app store_all] in E. rewrite (Nat.add_comm (length t) 1).
  destruct (store b2 (1 + length t) 34) as [b3|]; [|discriminate].
  replace (length t + 2)%nat with (S (1 + length t)) by lia.
  destruct (store b3 (S (1 + length t)) 0) as [b4|]; [|discriminate]. exact E.
Qed.

(* memmove then the quotes: order of the writes differs from STRING_new_quoted. *)
Lemma store_comm b i j x y b1 b2 : i <> j ->
  store b i x = Some b1 -> store b1 j y = Some b2 ->
  exists b1', store b j y = Some b1' /\ store b1' i x = Some b2.
Proof.
  revert i j b1 b2; induction b as [|c t IH]; intros i j b1 b2 Hne H1 H2; [discriminate|].
  destruct i as [|i], j as [|j]; try congruence; cbn in *.
  - injection H1 as <-. cbn in H2. destruct (store t j y) as [t'|]; [|discriminate].
    injection H2 as <-. eexists. split; [reflexivity|]. reflexivity.
  - destruct (store t i x) as [t'|] eqn:E; [|discriminate]. injection H1 as <-. cbn in H2.
    injection H2 as <-. eexists. split; [reflexivity|]. cbn. rewrite E. reflexivity.
  - destruct (store t i x) as [t'|] eqn:E; [|discriminate]. injection H1 as <-. cbn in H2.
    destruct (store t' j y) as [t''|] eqn:E2; [|discriminate]. injection H2 as <-.
    destruct (IH i j t' t'' ltac:(congruence) E E2) as (t1 & F1 & F2).
    rewrite F1. eexists. split; [reflexivity|]. cbn. rewrite F2. reflexivity.
Qed.

Lemma store_all_comm vs : forall b i j x b1 b2, (j < i)%nat ->
  store b j x = Some b1 -> store_all b1 i vs = Some b2 ->
  exists b1', store_all b i vs = Some b1' /\ store b1' j x = Some b2.
Proof.
  induction vs as [|v vs IH]; intros b i j x b1 b2 Hlt H1 H2.
  - cbn in H2. injection H2 as <-. exists b. split; [reflexivity|exact H1].
  - cbn in H2. destruct (store b1 i v) as [b'|] eqn:E; [|discriminate].
    destruct (store_comm b j i x v b1 b' ltac:(lia) H1 E) as (c1 & C1 & C2).
    destruct (IH c1 (S i) j x b' b2 ltac:(lia) C2 H2) as (d & D1 & D2).
    exists d. split; [|exact D2]. cbn. rewrite C1. exact D1.
Qed.

Lemma write_quote_inplace b t : length b = (length t + 3)%nat ->
  (match store_all b 1 t with
   | Some b1 => match store b1 0 34 with
                | Some b2 => match store b2 (length t + 1) 34 with
                             | Some b3 => store b3 (length t + 2) 0
                             | None => None end
                | None => None end
   | None => None end) = Some (filled (quoted t ++ [0])).
Proof.
  intros Hl. pose proof (write_quoted b t Hl) as E.
  destruct (store b 0 34) as [b1|] eqn:E1; [|discriminate].
  destruct (store_all b1 1 t) as [b2|] eqn:E2; [|discriminate].
  destruct (store_all_comm t b 1 0 34 b1 b2 ltac:(lia) E1 E2) as (c & C1 & C2).
  rewrite C1, C2. exact E.
Qed.

Lemma quoted_ok t : cstr_ok t -> cstr_ok (quoted t).
Proof.
  intros H. unfold quoted. constructor; [unfold char_ok; vm_compute; auto|].
  apply Forall_app. split; [exact H|]. constructor; [unfold char_ok; vm_compute; auto|constructor].
Qed.

(* ------------------------------------------------------------------ *)
(** JSON *)

Lemma json_char_len c : c < 128 ->
  length (json_char c) = (1 + (if (c <=? 31)%N then 5 else 0)
    + (if (c <=? 31)%N then 0
       else if ((c =? 34) || (c =? 92) || (c =? 47))%N then 1 else 0))%nat.
Proof.
  intros _. unfold json_char. destruct (c <=? 31) eqn:E1; [reflexivity|].
  destruct (c =? 34) eqn:E2; [reflexivity|]. destruct (c =? 92) eqn:E3; [reflexivity|].
  destruct (c =? 47) eqn:E4; reflexivity.
Qed.

Lemma json_count_spec t :
  if ascii_text t
  then exists nc ne, json_count t = Some (nc, ne) /\
       (length t + 5 * nc + ne)%nat = length (flat_map json_char t)
  else json_count t = None.
Proof.
  induction t as [|c t IH]; cbn [ascii_text forallb].
  - exists 0%nat, 0%nat. split; reflexivity.
  - cbn [json_count]. destruct (N.ltb_spec c 128) as [Hc|Hc]; cbn [andb].
    + replace (128 <=? c) with false by lia. unfold ascii_text in IH.
      destruct (forallb (fun c => c <? 128) t) eqn:Ea.
      * destruct IH as (nc & ne & -> & Hl).
        cbn [flat_map]. rewrite app_length, json_char_len by assumption.
        destruct (c <=? 31).
        { exists (S nc), ne. split; [reflexivity|]. cbn [length]. lia. }
        destruct ((c =? 34) || (c =? 92) || (c =? 47)).
        { exists nc, (S ne). split; [reflexivity|]. cbn [length]. lia. }
        exists nc, ne. split; [reflexivity|]. cbn [length]. lia.
      * rewrite IH. reflexivity.
    + replace (128 <=? c) with true by lia. reflexivity.
Qed.

Lemma json_write_spec t : forall b pos,
  json_write t b pos = match store_all b pos (flat_map json_char t) with
                       | Some b' => Some (b', (pos + length (flat_map json_char t))%nat)
                       | None => None end.
Proof.
  induction t as [|c t IH]; intros b pos; cbn [json_write flat_map].
  - cbn. rewrite Nat.add_0_r. reflexivity.
  - rewrite store_all_cat. destruct (store_all b pos (json_char c)) as [b'|]; [|reflexivity].
    rewrite IH. rewrite app_length. destruct (store_all _ _ _); [|reflexivity].
    f_equal. f_equal. lia.
Qed.

Lemma json_char_spec c : c < 128 ->
  json_char c = if c <? 32 then str "\u00" ++ [nth (N.to_nat (c / 16)) (str "0123456789ABCDEF") 0;
                                   nth (N.to_nat (c mod 16)) (str "0123456789ABCDEF") 0]
    else if existsb (N.eqb c) [34; 92; 47] then [92; c] else [c].
Proof.
  intros H.
  assert (S : forall p : N -> bool, forallb p (map N.of_nat (seq 0 128)) = true -> p c = true).
  { intros p Hp. rewrite forallb_forall in Hp. apply Hp. apply in_map_iff.
    exists (N.to_nat c). split; [lia|]. apply in_seq. lia. }
  pose proof (S (fun c => if list_eq_dec N.eq_dec (json_char c)
    (if c <? 32 then str "\u00" ++ [nth (N.to_nat (c / 16)) (str "0123456789ABCDEF") 0;
                                   nth (N.to_nat (c mod 16)) (str "0123456789ABCDEF") 0]
     else if existsb (N.eqb c) [34; 92; 47] then [92; c] else [c]) then true else false) eq_refl) as E.
  cbn beta in E. destruct (list_eq_dec N.eq_dec _ _) as [e|]; [exact e|discriminate].
Qed.

Lemma json_literal_chars t : ascii_text t = true -> json_literal t = quoted (flat_map json_char t).
Proof.
  intros H. unfold json_literal. f_equal. unfold ascii_text in H.
  induction t as [|c t IH]; [reflexivity|]. cbn [forallb] in H.
  apply andb_true_iff in H. destruct H as [H1 H2]. cbn [flat_map].
  rewrite (json_char_spec c) by lia. rewrite IH by assumption. reflexivity.
Qed.

Lemma json_block t nc ne :
  json_count t = Some (nc, ne) ->
  (match store (fresh (length t + 5 * nc + ne + 3)) 0 34 with
   | None => None
   | Some b1 => match json_write t b1 1 with
                | None => None
                | Some (b2, pos) => match store b2 pos 34 with
                                    | None => None
                                    | Some b3 => store b3 (pos + 1) 0 end
                end
   end) = Some (filled (json_literal t ++ [0])).
Proof.
  intros Hc. pose proof (json_count_spec t) as S.
  destruct (ascii_text t) eqn:Ea; [|congruence].
  destruct S as (nc' & ne' & E & Hl). rewrite Hc in E. injection E as <- <-.
  rewrite json_literal_chars by assumption. rewrite Hl.
  pose proof (write_quoted (fresh (length (flat_map json_char t) + 3)) (flat_map json_char t)
                (fresh_length _)) as W.
  destruct (store (fresh (length (flat_map json_char t) + 3)) 0 34) as [b1|]; [|discriminate].
  rewrite json_write_spec.
  destruct (store_all b1 1 (flat_map json_char t)) as [b2|]; [|discriminate].
  rewrite (Nat.add_comm 1). 
  destruct (store b2 (length (flat_map json_char t) + 1) 34) as [b3|]; [|discriminate].
  rewrite <- Nat.add_assoc. exact W.
Qed.

Lemma json_char_ok c : 0 < c < 128 -> cstr_ok (json_char c).
Proof.
  intros H. rewrite json_char_spec by lia.
  destruct (N.ltb_spec c 32) as [H1|H1].
  - assert (X : forall v, v < 16 -> char_ok (nth (N.to_nat v) (str "0123456789ABCDEF") 0)).
    { intros v Hv.
      assert (S : forall p : N -> bool, forallb p (map N.of_nat (seq 0 16)) = true -> p v = true).
      { intros p Hp. rewrite forallb_forall in Hp. apply Hp. apply in_map_iff.
        exists (N.to_nat v). split; [lia|]. apply in_seq. lia. }
      pose proof (S (fun v => (0 <? nth (N.to_nat v) (str "0123456789ABCDEF") 0) &&
         (nth (N.to_nat v) (str "0123456789ABCDEF") 0 <? 256)) eq_refl) as E.
      cbn beta in E. unfold char_ok. lia. }
    cbn [str app]. repeat (constructor; [first [apply X; lia|unfold char_ok; vm_compute; auto]|]).
    constructor.
  - destruct (existsb (N.eqb c) [34; 92; 47]); repeat constructor; unfold char_ok; lia.
Qed.

Lemma json_literal_ok t : cstr_ok t -> ascii_text t = true -> cstr_ok (json_literal t).
Proof.
  intros Ht Ha. rewrite json_literal_chars by assumption. apply quoted_ok.
  unfold ascii_text in Ha. induction Ht as [|c t Hc Ht IH]; [constructor|].
  cbn [forallb] in Ha. apply andb_true_iff in Ha. destruct Ha as [H1 H2]. cbn [flat_map].
  apply Forall_app. split; [apply json_char_ok; unfold char_ok in Hc; lia|]. apply IH, H2.
Qed.

(* A JSON reader understands the literal. *)
Lemma json_chars_char c rest : 0 < c < 128 ->
  forall r k, json_chars rest = Some (r, k) -> json_chars (json_char c ++ rest) = Some (c :: r, k).
Proof.
  intros Hc r k Hr. rewrite json_char_spec by lia.
  destruct (N.ltb_spec c 32) as [H1|H1].
  - assert (X : forall v, v < 16 -> json_hex (nth (N.to_nat v) (str "0123456789ABCDEF") 0) = Some v).
    { intros v Hv.
      assert (S : forall p : N -> bool, forallb p (map N.of_nat (seq 0 16)) = true -> p v = true).
      { intros p Hp. rewrite forallb_forall in Hp. apply Hp. apply in_map_iff.
        exists (N.to_nat v). split; [lia|]. apply in_seq. lia. }
      pose proof (S (fun v => match json_hex (nth (N.to_nat v) (str "0123456789ABCDEF") 0) with
        Some w => w =? v | None => false end) eq_refl) as E.
      cbn beta in E. destruct (json_hex _) as [w|]; [|discriminate]. apply N.eqb_eq in E. congruence. }
    change (str "\u00") with [92; 117; 48; 48]. cbn [app json_chars].
    change (92 =? ch """") with false. change (92 =? ch "\") with true.
    change (117 =? ch """") with false. change (117 =? ch "\") with false.
    change (117 =? ch "/") with false. change (117 =? ch "b") with false.
    change (117 =? ch "f") with false. change (117 =? ch "n") with false.
    change (117 =? ch "r") with false. change (117 =? ch "t") with false.
    change (117 =? ch "u") with true. cbv iota zeta.
    change (json_hex 48) with (Some 0). rewrite !X by lia. rewrite Hr.
    f_equal. f_equal. f_equal. lia.
  - destruct (existsb (N.eqb c) [34; 92; 47]) eqn:E.
    + cbn [existsb] in E. cbn [app json_chars].
      change (92 =? ch """") with false. change (92 =? ch "\") with true. cbv iota zeta.
      rewrite Hr.
      destruct (N.eqb_spec c 34) as [->|_]; [reflexivity|].
      destruct (N.eqb_spec c 92) as [->|_]; [reflexivity|].
      destruct (N.eqb_spec c 47) as [->|_]; [reflexivity|]. discriminate.
    + cbn [existsb] in E. cbn [app json_chars]. change (ch """") with 34. change (ch "\") with 92.
      destruct (N.eqb_spec c 34) as [->|_]; [discriminate|].
      destruct (N.eqb_spec c 92) as [->|_]; [discriminate|].
      replace (c <? 32) with false by lia. rewrite Hr. reflexivity.
Qed.

Lemma json_literal_reads t k : cstr_ok t -> ascii_text t = true ->
  json_string (json_literal t ++ k) = Some (t, k).
Proof.
  intros Ht Ha. rewrite json_literal_chars by assumption. unfold quoted. cbn [app json_string].
  change (ch """" =? ch """") with true. cbv iota. rewrite <- app_assoc. unfold ascii_text in Ha.
  induction Ht as [|c t Hc Ht IH]; [reflexivity|].
  cbn [forallb] in Ha. apply andb_true_iff in Ha. destruct Ha as [H1 H2]. cbn [flat_map].
  rewrite <- app_assoc. apply json_chars_char; [unfold char_ok in Hc; lia|]. apply IH, H2.
Qed.

(* ------------------------------------------------------------------ *)
(** Simulation *)

Lemma sim_new st sp mk t o : represents st sp -> mk = Some (filled (t ++ [0])) -> cstr_ok t ->
  exists m, (m = false -> In false o) /\
  forall r sp', create sp m t = Some (r, sp') ->
  exists s' o' used, new_string st mk o = Some ((r, s'), o') /\ represents s' sp' /\
    o = used ++ o' /\ (m = false -> In false used).
Proof.
  intros R -> Ht. destruct (allocs_spec 2 o) as (ok & o' & used & E & Ho & Hf).
  exists ok. split; [intros H; rewrite Ho; apply in_or_app; left; auto|].
  intros r sp' Hc. unfold new_string, bind. rewrite E. unfold create in Hc.
  destruct ok.
  - injection Hc as <- <-. cbn. eexists _, _, used. unfold push. rewrite (rep_len _ _ R).
    split; [reflexivity|]. split; [|auto]. apply rep_push; [exact R|]. apply wf_exact, Ht.
  - injection Hc as <- <-. eexists _, _, used. split; [reflexivity|]. auto.
Qed.

Lemma sim_new' st sp mk b t o : represents st sp -> mk = Some b -> wf b t ->
  exists m, (m = false -> In false o) /\
  forall r sp', create sp m t = Some (r, sp') ->
  exists s' o' used, new_string st mk o = Some ((r, s'), o') /\ represents s' sp' /\
    o = used ++ o' /\ (m = false -> In false used).
Proof.
  intros R -> Ht. destruct (allocs_spec 2 o) as (ok & o' & used & E & Ho & Hf).
  exists ok. split; [intros H; rewrite Ho; apply in_or_app; left; auto|].
  intros r sp' Hc. unfold new_string, bind. rewrite E. unfold create in Hc.
  destruct ok.
  - injection Hc as <- <-. cbn. eexists _, _, used. unfold push. rewrite (rep_len _ _ R).
    split; [reflexivity|]. split; [|auto]. apply rep_push; [exact R|exact Ht].
  - injection Hc as <- <-. eexists _, _, used. split; [reflexivity|]. auto.
Qed.

Lemma sim_mutate st sp h mk b t o : represents st sp -> mk = Some b -> wf b t ->
  exists m, (m = false -> In false o) /\
  forall r sp', assign sp m h t = Some (r, sp') ->
  exists s' o' used, mutate st h mk o = Some ((r, s'), o') /\ represents s' sp' /\
    o = used ++ o' /\ (m = false -> In false used).
Proof.
  intros R -> W. destruct (alloc_spec o) as (ok & o' & used & E & Ho & Hf).
  exists ok. split; [intros H; rewrite Ho; apply in_or_app; left; auto|].
  intros r sp' Hc. unfold mutate, bind. rewrite E. unfold assign in Hc.
  destruct ok.
  - injection Hc as <- <-. cbn. eexists _, _, used. split; [reflexivity|]. split; [|auto].
    apply rep_set; assumption.
  - injection Hc as <- <-. eexists _, _, used. split; [reflexivity|]. auto.
Qed.

(* A call that neither allocates nor changes anything. *)
Lemma sim_same r0 st0 sp0 o (R : represents st0 sp0)
      (f : M (sret * slots)) (g : bool -> option (sret * texts)) :
  f = ret (r0, st0) -> g true = Some (r0, sp0) ->
  exists m, (m = false -> In false o) /\
  forall r sp', g m = Some (r, sp') ->
  exists s' o' used, f o = Some ((r, s'), o') /\ represents s' sp' /\
    o = used ++ o' /\ (m = false -> In false used).
Proof.
  intros -> Hg. exists true. split; [discriminate|]. intros r sp' H. rewrite Hg in H.
  injection H as <- <-. eexists _, _, []. split; [reflexivity|]. split; [exact R|].
  split; [reflexivity|discriminate].
Qed.

(* Nothing promised. *)
Lemma sim_none o (f : M (sret * slots)) (g : bool -> option (sret * texts)) :
  g true = None ->
  exists m, (m = false -> In false o) /\
  forall r sp', g m = Some (r, sp') ->
  exists s' o' used, f o = Some ((r, s'), o') /\ represents s' sp' /\
    o = used ++ o' /\ (m = false -> In false used).
Proof.
  intros Hg. exists true. split; [discriminate|]. intros r sp' H. rewrite Hg in H. discriminate.
Qed.

Lemma bind_lift {A B} (x : A) (f : A -> M B) : bind (lift (Some x)) f = f x.
Proof. reflexivity. Qed.

Lemma concat_block b t1 t2 : wf b t1 -> cstr_ok t2 ->
  exists b', store_all (realloc b (length t1 + length t2 + 1)) (length t1) (t2 ++ [0]) = Some b'
             /\ wf b' (t1 ++ t2).
Proof.
  intros W H2. rewrite <- Nat.add_assoc.
  destruct (realloc_keeps b t1 (length t2 + 1) W) as (mid & E & Hl). rewrite E.
  pose proof (store_all_app_gen (t2 ++ [0]) (filled t1) mid []) as S.
  rewrite !app_nil_r in S. rewrite filled_length in S. rewrite S by (rewrite app_length; cbn; lia).
  eexists. split; [reflexivity|]. split.
  - apply Forall_app. split; [apply W|exact H2].
  - exists []. rewrite app_nil_r. unfold filled. rewrite <- map_app, app_assoc. reflexivity.
Qed.

Lemma copyn_len n (t : list N) :
  firstn (if (n <? length t)%nat then n else length t) t = firstn n t
  /\ length (firstn (if (n <? length t)%nat then n else length t) t)
     = (if (n <? length t)%nat then n else length t).
Proof.
  destruct (Nat.ltb_spec n (length t)) as [H|H].
  - split; [reflexivity|]. rewrite firstn_length. lia.
  - rewrite firstn_all. split; [rewrite firstn_all2 by lia; reflexivity|reflexivity].
Qed.

Lemma cstr_firstn n t : cstr_ok t -> cstr_ok (firstn n t).
Proof.
  intros H. unfold cstr_ok in *. rewrite Forall_forall in *. intros x Hx. apply H.
  rewrite <- (firstn_skipn n t). apply in_or_app. auto.
Qed.

Lemma copy_block b t : cstr_ok t ->
  exists b', store_all (realloc b (length t + 1)) 0 (t ++ [0]) = Some b' /\ wf b' t.
Proof.
  intros H. rewrite store_all_exact by (rewrite realloc_length, app_length; reflexivity).
  eexists. split; [reflexivity|apply wf_exact, H].
Qed.

Lemma copyn_block b n t : cstr_ok t ->
  exists b', (match store_all (realloc b ((if (n <? length t)%nat then n else length t) + 1)) 0
                     (firstn (if (n <? length t)%nat then n else length t) t) with
              | Some b1 => store b1 (if (n <? length t)%nat then n else length t) 0
              | None => None end) = Some b' /\ wf b' (firstn n t).
Proof.
  intros H. destruct (copyn_len n t) as [E1 E2]. set (len := if (n <? length t)%nat then n else length t) in *.
  destruct (write_text_term (realloc b (len + 1)) (firstn len t) 0) as [room W].
  { rewrite realloc_length, E2. lia. }
  rewrite E2 in W. rewrite W. eexists. split; [reflexivity|]. rewrite E1.
  split; [apply cstr_firstn, H|]. exists room. reflexivity.
Qed.

Lemma ctext_wf b t : ctext b = Some t -> exists room, b = filled (t ++ [0]) ++ room.
Proof.
  revert t; induction b as [|c b IH]; intros t H; cbn in H; [discriminate|].
  destruct c as [c|]; [|discriminate]. destruct (N.eqb_spec c 0) as [->|Hc].
  - injection H as <-. exists b. reflexivity.
  - destruct (ctext b) as [r|]; [|discriminate]. injection H as <-.
    destruct (IH r eq_refl) as [room ->]. exists room. reflexivity.
Qed.

Ltac same := eapply sim_same; [eassumption|reflexivity|reflexivity].
Ltac nolive L := apply sim_none; cbn; rewrite ?L; reflexivity.

(* Mutators that take a handle and a text. *)
Lemma sim_concat st sp h a o : represents st sp ->
  exists m, (m = false -> In false o) /\
  forall r sp', sp_step sp (SConcat h a) m = Some (r, sp') ->
  exists s' o' used, STRING_concat st h a o = Some ((r, s'), o') /\ represents s' sp' /\
    o = used ++ o' /\ (m = false -> In false used).
Proof.
  intros R. destruct h as [i|]; [|same].
  destruct (live sp i) as [t1|] eqn:L.
  - destruct (rep_get _ _ _ _ R L) as (b & Hb & W).
    assert (X : a = CNull \/ (exists t2, denote sp a = Some (Some t2) /\ aliases a i = false)
                \/ (a <> CNull /\ (forall t2, denote sp a = Some (Some t2) -> aliases a i = true))).
    { destruct a as [|s|h k]; [left; reflexivity| |]; right.
      - destruct (denote sp (CText s)) as [[t2|]|] eqn:D.
        + left. exists t2. auto.
        + right. split; [discriminate|]. intros t2 H. discriminate.
        + right. split; [discriminate|]. intros t2 H. discriminate.
      - destruct (aliases (COf h k) i) eqn:A.
        + right. split; [discriminate|auto].
        + destruct (denote sp (COf h k)) as [[t2|]|] eqn:D.
          * left. exists t2. auto.
          * right. split; [discriminate|]. intros t2 H. discriminate.
          * right. split; [discriminate|]. intros t2 H. discriminate. }
    destruct X as [->|[(t2 & D & A)|[Hn X]]]; [same| |].
    + destruct (rep_arg _ _ _ _ R D) as [Ra H2].
      destruct (concat_block b t1 t2 W H2) as (b' & Eb & W').
      assert (E : STRING_concat st (Some i) a = mutate st i (Some b')).
      { unfold STRING_concat. destruct a as [|s|h k]; [cbn in D; discriminate| |];
        rewrite Hb, bind_lift, (wf_ctext _ _ W), bind_lift, Ra, bind_lift, A, Eb; reflexivity. }
      rewrite E.
      assert (Es : forall m, sp_step sp (SConcat (Some i) a) m = assign sp m i (t1 ++ t2)).
      { intros m. cbn -[lies_inside]. change lies_inside with aliases. destruct a as [|s|h k]; [cbn in D; discriminate| |];
        rewrite L, D, A; reflexivity. }
      destruct (sim_mutate st sp i (Some b') b' (t1 ++ t2) o R eq_refl W') as (m & Hm & H).
      exists m. split; [exact Hm|]. intros r sp'. rewrite Es. apply H.
    + apply sim_none. cbn -[lies_inside]. change lies_inside with aliases. destruct a as [|s|h k]; [congruence| |]; rewrite L;
      (destruct (denote sp _) as [[t2|]|] eqn:D; [|reflexivity|reflexivity]);
      rewrite (X t2 eq_refl); reflexivity.
  - destruct a as [|s|h k]; [same| |]; apply sim_none; cbn; rewrite L; reflexivity.
Qed.

Lemma sim_copyn st sp h a n o : represents st sp ->
  exists m, (m = false -> In false o) /\
  forall r sp', sp_step sp (SCopyN h a n) m = Some (r, sp') ->
  exists s' o' used, STRING_copy_n st h a n o = Some ((r, s'), o') /\ represents s' sp' /\
    o = used ++ o' /\ (m = false -> In false used).
Proof.
  intros R. destruct h as [i|]; [|same].
  destruct (live sp i) as [t1|] eqn:L.
  - destruct (rep_get _ _ _ _ R L) as (b & Hb & W).
    destruct (denote sp a) as [[t2|]|] eqn:D.
    + destruct (aliases a i) eqn:A.
      { apply sim_none. cbn -[lies_inside]. change lies_inside with aliases. destruct a as [|s|h k]; [cbn in D; discriminate| |];
        rewrite L, D, A; reflexivity. }
      destruct (rep_arg _ _ _ _ R D) as [Ra H2].
      destruct (copyn_block b n t2 H2) as (b' & Eb & W').
      assert (E : STRING_copy_n st (Some i) a n = mutate st i (Some b')).
      { unfold STRING_copy_n. destruct a as [|s|h k]; [cbn in D; discriminate| |];
        rewrite Hb, bind_lift, Ra, bind_lift, A; cbv zeta; rewrite Eb; reflexivity. }
      rewrite E.
      assert (Es : forall m, sp_step sp (SCopyN (Some i) a n) m = assign sp m i (firstn n t2)).
      { intros m. cbn -[lies_inside]. change lies_inside with aliases. destruct a as [|s|h k]; [cbn in D; discriminate| |];
        rewrite L, D, A; reflexivity. }
      destruct (sim_mutate st sp i (Some b') b' (firstn n t2) o R eq_refl W') as (m & Hm & H).
      exists m. split; [exact Hm|]. intros r sp'. rewrite Es. apply H.
    + destruct a as [|s|h k]; [same| |]; apply sim_none; cbn [sp_step]; change lies_inside with aliases; rewrite L, D; reflexivity.
    + destruct a as [|s|h k]; [same| |]; apply sim_none; cbn [sp_step]; change lies_inside with aliases; rewrite L, D; reflexivity.
  - destruct a as [|s|h k]; [same| |]; apply sim_none; cbn [sp_step]; change lies_inside with aliases; rewrite L; reflexivity.
Qed.

Lemma sim_copy st sp h a o : represents st sp ->
  exists m, (m = false -> In false o) /\
  forall r sp', sp_step sp (SCopy h a) m = Some (r, sp') ->
  exists s' o' used, STRING_copy st h a o = Some ((r, s'), o') /\ represents s' sp' /\
    o = used ++ o' /\ (m = false -> In false used).
Proof.
  intros R. destruct h as [i|]; [|same].
  destruct a as [|s|h k]; [same| |].
  - destruct (live sp i) as [t1|] eqn:L; [|apply sim_none; cbn [sp_step]; change lies_inside with aliases; rewrite L; reflexivity].
    destruct (denote sp (CText s)) as [[t2|]|] eqn:D;
      [|apply sim_none; cbn [sp_step]; change lies_inside with aliases; rewrite L, D; reflexivity
       |apply sim_none; cbn [sp_step]; change lies_inside with aliases; rewrite L, D; reflexivity].
    destruct (rep_get _ _ _ _ R L) as (b & Hb & W).
    destruct (rep_arg _ _ _ _ R D) as [Ra H2].
    destruct (copy_block b t2 H2) as (b' & Eb & W').
    assert (E : STRING_copy st (Some i) (CText s) = mutate st i (Some b')).
    { unfold STRING_copy. rewrite Hb, bind_lift, Ra, bind_lift. cbn [aliases]. rewrite Eb. reflexivity. }
    rewrite E. destruct (sim_mutate st sp i (Some b') b' t2 o R eq_refl W') as (m & Hm & H).
    exists m. split; [exact Hm|]. intros r sp'. cbn [sp_step]. change lies_inside with aliases. rewrite L, D. cbn [aliases]. apply H.
  - destruct (live sp i) as [t1|] eqn:L; [|apply sim_none; cbn [sp_step]; change lies_inside with aliases; rewrite L; reflexivity].
    destruct (rep_get _ _ _ _ R L) as (b & Hb & W).
    destruct (denote sp (COf h k)) as [[t2|]|] eqn:D;
      [|apply sim_none; cbn [sp_step]; change lies_inside with aliases; rewrite L, D; reflexivity
       |apply sim_none; cbn [sp_step]; change lies_inside with aliases; rewrite L, D; reflexivity].
    destruct (rep_arg _ _ _ _ R D) as [Ra H2].
    destruct (copy_block b t2 H2) as (b' & Eb & W').
    destruct (Nat.eqb_spec h i) as [->|Hne].
    + destruct k as [|k].
      * eapply sim_same; [exact R| |].
        -- unfold STRING_copy. rewrite Hb, bind_lift, Nat.eqb_refl. reflexivity.
        -- cbn [sp_step]. change lies_inside with aliases. rewrite L, D, Nat.eqb_refl. reflexivity.
      * apply sim_none. cbn [sp_step]. change lies_inside with aliases. rewrite L, D. cbn [aliases]. rewrite Nat.eqb_refl. reflexivity.
    + assert (Hf : (h =? i)%nat = false) by (apply Nat.eqb_neq; exact Hne).
      assert (E : STRING_copy st (Some i) (COf h k) = mutate st i (Some b')).
      { unfold STRING_copy. rewrite Hb, bind_lift.
        destruct k; rewrite ?Hf, Ra, bind_lift; cbn [aliases]; rewrite Hf, Eb; reflexivity. }
      rewrite E. destruct (sim_mutate st sp i (Some b') b' t2 o R eq_refl W') as (m & Hm & H).
      exists m. split; [exact Hm|]. intros r sp'. cbn [sp_step]. change lies_inside with aliases. rewrite L, D.
      destruct k; cbn [aliases]; rewrite Hf; apply H.
Qed.

Lemma strings_simulate : simulates sstep sp_step represents.
Proof.
  intros st sp op o R. destruct op; cbn [sstep].
  - (* new *) apply sim_new; [exact R|reflexivity|constructor].
  - (* clone *)
    destruct h as [i|]; [|same]. destruct (live sp i) as [t|] eqn:L; [|nolive L].
    destruct (rep_get _ _ _ _ R L) as (b & Hb & W). cbn [sp_step]. change lies_inside with aliases. rewrite L.
    unfold STRING_clone. rewrite Hb, bind_lift, (wf_ctext _ _ W).
    apply sim_new; [exact R|apply write_fresh|apply W].
  - (* construct *)
    cbn [sp_step]. change lies_inside with aliases. unfold STRING_construct.
    destruct (denote sp a) as [[t|]|] eqn:D; [| |apply sim_none; reflexivity].
    + destruct (rep_arg _ _ _ _ R D) as [Ra Ht]. rewrite Ra, bind_lift.
      apply sim_new; [exact R|apply write_fresh|exact Ht].
    + destruct (rep_arg _ _ _ _ R D) as [Ra _]. rewrite Ra, bind_lift. same.
  - (* construct_n *)
    cbn [sp_step]. change lies_inside with aliases. unfold STRING_construct_n.
    destruct (denote sp a) as [[t|]|] eqn:D; [| |apply sim_none; reflexivity].
    + destruct (rep_arg _ _ _ _ R D) as [Ra Ht]. rewrite Ra, bind_lift.
      destruct (Nat.leb_spec n (length t)) as [Hn|Hn].
      * replace (length t <? n)%nat with false by lia.
        destruct (write_text_term (fresh (length t + 1)) (firstn n t) (length t - n)) as [room E].
        { rewrite fresh_length, firstn_length. lia. }
        rewrite firstn_length, Nat.min_l in E by lia.
        eapply sim_new'; [exact R|exact E|]. split; [apply cstr_firstn, Ht|exists room; reflexivity].
      * replace (length t <? n)%nat with true by lia. same.
    + destruct (rep_arg _ _ _ _ R D) as [Ra _]. rewrite Ra, bind_lift. same.
  - (* new_with_memory *)
    destruct m as [b|]; [|same]. cbn [sp_step]. change lies_inside with aliases.
    destruct (ctext b) as [t|] eqn:E; [|apply sim_none; reflexivity].
    destruct (cstr_okb t) eqn:Eo; [|apply sim_none; reflexivity].
    destruct (alloc_spec o) as (ok & o' & used & Ea & Ho & Hf).
    exists ok. split; [intros H; rewrite Ho; apply in_or_app; left; auto|].
    intros r sp' H. unfold STRING_new_with_memory, bind. rewrite Ea. destruct ok; cbn in H.
    + injection H as <- <-. eexists _, _, used. unfold push, ret. rewrite (rep_len _ _ R).
      split; [reflexivity|]. split; [|auto]. apply rep_push; [exact R|].
      split; [apply cstr_okb_ok, Eo|apply ctext_wf, E].
    + injection H as <- <-. eexists _, _, used. split; [reflexivity|]. auto.
  - (* quoted *)
    cbn [sp_step]. change lies_inside with aliases. unfold STRING_new_quoted.
    destruct (denote sp a) as [[t|]|] eqn:D; [| |apply sim_none; reflexivity].
    + destruct (rep_arg _ _ _ _ R D) as [Ra Ht]. rewrite Ra, bind_lift.
      apply sim_new; [exact R|apply write_quoted, fresh_length|apply quoted_ok, Ht].
    + destruct (rep_arg _ _ _ _ R D) as [Ra _]. rewrite Ra, bind_lift. same.
  - (* JSON *)
    cbn [sp_step]. change lies_inside with aliases. unfold STRING_new_JSON.
    destruct (denote sp a) as [[t|]|] eqn:D; [| |apply sim_none; reflexivity].
    + destruct (rep_arg _ _ _ _ R D) as [Ra Ht]. rewrite Ra, bind_lift.
      pose proof (json_count_spec t) as J. destruct (ascii_text t) eqn:Ea.
      * destruct J as (nc & ne & J & _). rewrite J.
        apply sim_new; [exact R|apply json_block, J|apply json_literal_ok; assumption].
      * rewrite J. same.
    + destruct (rep_arg _ _ _ _ R D) as [Ra _]. rewrite Ra, bind_lift. same.
  - apply sim_concat, R.
  - (* concat_with_STRING *)
    destruct h1 as [i|]; [|same]. destruct h2 as [j|]; [|same].
    destruct (live sp i) as [t1|] eqn:L1; [|apply sim_none; cbn [sp_step]; change lies_inside with aliases; rewrite L1; reflexivity].
    destruct (live sp j) as [t2|] eqn:L2; [|apply sim_none; cbn [sp_step]; change lies_inside with aliases; rewrite L1, L2; reflexivity].
    destruct (Nat.eqb_spec i j) as [->|Hne].
    { apply sim_none. cbn [sp_step]. change lies_inside with aliases. rewrite L1, Nat.eqb_refl. reflexivity. }
    destruct (rep_get _ _ _ _ R L1) as (b1 & Hb1 & W1).
    destruct (rep_get _ _ _ _ R L2) as (b2 & Hb2 & W2).
    assert (Hf : (i =? j)%nat = false) by (apply Nat.eqb_neq; exact Hne).
    destruct (concat_block b1 t1 t2 W1 (proj1 W2)) as (b' & Eb & W').
    cbn [sp_step]. change lies_inside with aliases. rewrite L1, L2, Hf. unfold STRING_concat_with_STRING.
    rewrite Hb1, bind_lift, (wf_ctext _ _ W1), bind_lift, Hb2, bind_lift, (wf_ctext _ _ W2), bind_lift, Hf.
    eapply sim_mutate; [exact R|exact Eb|exact W'].
  - apply sim_copy, R.
  - apply sim_copyn, R.
  - (* quote *)
    destruct h as [i|]; [|same]. destruct (live sp i) as [t|] eqn:L; [|nolive L].
    destruct (rep_get _ _ _ _ R L) as (b & Hb & W). cbn [sp_step]. change lies_inside with aliases. rewrite L.
    unfold STRING_quote. rewrite Hb, bind_lift, (wf_ctext _ _ W), bind_lift.
    eapply sim_mutate; [exact R|apply write_quote_inplace; rewrite realloc_length; lia|].
    apply wf_exact, quoted_ok, W.
  - (* empty *)
    destruct h as [i|]; [|same]. destruct (live sp i) as [t|] eqn:L; [|nolive L].
    destruct (rep_get _ _ _ _ R L) as (b & Hb & W). cbn [sp_step]. change lies_inside with aliases. rewrite L.
    unfold STRING_empty. rewrite Hb, bind_lift.
    pose proof (store_all_exact [0] (realloc b 1) (realloc_length b 1)) as E.
    cbn [store_all] in E.
    destruct (store (realloc b 1) 0 0) as [b'|] eqn:Eb; [|discriminate].
    assert (Eb' : b' = filled [0]) by congruence.
    eapply sim_mutate; [exact R|reflexivity|]. rewrite Eb'. apply (wf_exact []). constructor.
  - (* delete *)
    destruct h as [i|]; [|same]. destruct (live sp i) as [t|] eqn:L; [|nolive L].
    destruct (rep_get _ _ _ _ R L) as (b & Hb & W). cbn [sp_step]. change lies_inside with aliases. rewrite L.
    unfold STRING_delete. rewrite Hb, bind_lift.
    apply (sim_same (RI true) (upd st i None) (upd sp i None) o);
      [apply Forall2_upd; [exact R|exact I]|reflexivity|reflexivity].
  - (* c_str *)
    destruct h as [i|]; [|same]. destruct (live sp i) as [t|] eqn:L; [|nolive L].
    destruct (rep_get _ _ _ _ R L) as (b & Hb & W). cbn [sp_step]. change lies_inside with aliases. rewrite L.
    unfold STRING_c_str. rewrite Hb, bind_lift, (wf_ctext _ _ W), bind_lift. same.
  - (* length *)
    destruct h as [i|]; [|same]. destruct (live sp i) as [t|] eqn:L; [|nolive L].
    destruct (rep_get _ _ _ _ R L) as (b & Hb & W). cbn [sp_step]. change lies_inside with aliases. rewrite L.
    unfold STRING_length. rewrite Hb, bind_lift, (wf_ctext _ _ W), bind_lift. same.
  - (* compare *)
    destruct h1 as [i|], h2 as [j|]; try same.
    destruct (live sp i) as [t1|] eqn:L1; [|apply sim_none; cbn [sp_step]; change lies_inside with aliases; rewrite L1; reflexivity].
    destruct (live sp j) as [t2|] eqn:L2; [|apply sim_none; cbn [sp_step]; change lies_inside with aliases; rewrite L1, L2; reflexivity].
    destruct (rep_get _ _ _ _ R L1) as (b1 & Hb1 & W1).
    destruct (rep_get _ _ _ _ R L2) as (b2 & Hb2 & W2).
    cbn [sp_step]. change lies_inside with aliases. rewrite L1, L2. unfold STRING_compare.
    rewrite Hb1, bind_lift, (wf_ctext _ _ W1), bind_lift, Hb2, bind_lift, (wf_ctext _ _ W2), bind_lift.
    same.
Qed.
