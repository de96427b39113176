(* Proofs for the texts of calls: umock_c_internal.h. *)
From Verif Require Import Base Strings_Model UMockTypes_Model UMockTypes_Props MockFn_Model MockFn_Spec.
Local Open Scope Z_scope.

Lemma hexdigit_hex d : (d < 16)%N -> hexdigit d = hex d.
Proof.
  intros H. assert (X : exists n, (n < 16)%nat /\ d = N.of_nat n) by (exists (N.to_nat d); lia). destruct X as (n & L & ->).
  do 16 (destruct n as [|n]; [reflexivity|]). lia.
Qed.
Lemma hex_ok d : (d < 16)%N -> char_ok (hex d).
Proof. intros H. unfold hex, char_ok. destruct (N.ltb_spec d 10); lia. Qed.
Lemma sprintf_at b : byte_ok b -> sprintf_byte b = byte_text b ++ [32; 0]%N.
Proof. intros H. unfold byte_ok in H. unfold sprintf_byte, byte_text. rewrite !hexdigit_hex by lia. reflexivity. Qed.
Lemma byte_text_ok b : byte_ok b -> cstr_ok (byte_text b).
Proof. intros H. unfold byte_ok in H. unfold byte_text. apply Forall_forall. intros c [<-|[<-|[<-|[<-|[] ] ] ] ]; try (unfold char_ok; lia); apply hex_ok; lia. Qed.
Lemma join_ok sep l : char_ok sep -> Forall cstr_ok l -> cstr_ok (join sep l).
Proof.
  intros S. induction l as [|t l IH]; intros F; [constructor|]. inversion F as [|? ? K F']. subst. destruct l as [|u l]; [exact K|].
  change (cstr_ok (t ++ [sep] ++ join sep (u :: l))). apply Forall_app. split; [exact K|]. apply Forall_app. split; [constructor; [exact S|constructor]|apply IH; exact F'].
Qed.
Lemma buffer_text_ok bytes : bytes_ok bytes -> cstr_ok (buffer_text bytes).
Proof.
  intros H. unfold buffer_text. apply Forall_app. split; [constructor; [unfold char_ok; lia|constructor]|]. apply Forall_app. split; [|constructor; [unfold char_ok; lia|constructor] ].
  apply join_ok; [unfold char_ok; lia|]. apply Forall_map. eapply Forall_impl; [|exact H]. exact byte_text_ok.
Qed.
Lemma words_join bytes : bytes <> [] -> concat (map (fun b => byte_text b ++ [32%N]) bytes) = join 32 (map byte_text bytes) ++ [32%N].
Proof.
  induction bytes as [|b l IH]; intros H; [congruence|]. destruct l as [|c l]; [reflexivity|].
  change (concat (map (fun b => byte_text b ++ [32%N]) (b :: c :: l))) with ((byte_text b ++ [32%N]) ++ concat (map (fun b => byte_text b ++ [32%N]) (c :: l))).
  rewrite IH by discriminate. change (join 32 (map byte_text (b :: c :: l))) with (byte_text b ++ [32%N] ++ join 32 (map byte_text (c :: l))). now rewrite <- !app_assoc.
Qed.
Lemma words_length bytes : length (concat (map (fun b => byte_text b ++ [32%N]) bytes)) = (5 * length bytes)%nat.
Proof. induction bytes as [|b l IH]; [reflexivity|]. cbn [map concat length]. rewrite !app_length, IH. cbn. lia. Qed.
Lemma put_bytes_at bytes : forall pre rest i, bytes_ok bytes -> length pre = (1 + i * 5)%nat -> (5 * length bytes + 1 <= length rest)%nat ->
  exists rest', put_bytes bytes i (pre ++ rest) = Some (pre ++ filled (concat (map (fun b => byte_text b ++ [32%N]) bytes)) ++ rest') /\ (length rest' + 5 * length bytes = length rest)%nat.
Proof.
  induction bytes as [|b bytes IH]; intros pre rest i K L R; cbn [put_bytes].
  - exists rest. split; [reflexivity|]. cbn. lia.
  - inversion K as [|? ? B K']. subst. rewrite sprintf_at by exact B. rewrite <- L.
    assert (X : exists r6 rest1, rest = r6 ++ rest1 /\ length r6 = 6%nat).
    { exists (firstn 6 rest), (skipn 6 rest). rewrite firstn_skipn. split; [reflexivity|]. rewrite firstn_length. cbn [length] in R. lia. }
    destruct X as (r6 & rest1 & -> & L6). rewrite store_all_app_gen by (rewrite L6; reflexivity).
    assert (Y : pre ++ filled (byte_text b ++ [32; 0]%N) ++ rest1 = (pre ++ filled (byte_text b ++ [32%N])) ++ Some 0%N :: rest1).
    { unfold filled. rewrite !map_app, <- !app_assoc. reflexivity. }
    rewrite Y. rewrite app_length in R. cbn [length] in R.
    destruct (IH (pre ++ filled (byte_text b ++ [32%N])) (Some 0%N :: rest1) (S i) K') as (rest' & E & L').
    + rewrite app_length, filled_length, app_length, L. cbn. lia.
    + cbn [length]. lia.
    + exists rest'. rewrite E. cbn [map concat]. unfold filled. rewrite !map_app, <- !app_assoc. split; [reflexivity|]. rewrite app_length. cbn [length] in *. lia.
Qed.

(* The text of a buffer fills its block exactly; NULL only without memory. *)
Theorem stringify_buffer_spec bytes o : bytes_ok bytes ->
  exists r o' used, stringify_buffer bytes o = Some (r, o') /\ o = used ++ o' /\ ((r = None /\ In false used) \/ r = Some (filled (buffer_text bytes ++ [0%N]))).
Proof.
  intros K. unfold stringify_buffer, bind at 1. destruct (alloc_spec o) as (ok & o1 & u & A & U & F). rewrite A. destruct ok; cbn [negb].
  2:{ eexists _, o1, u. split; [reflexivity|]. split; [exact U|]. left. auto. }
  eexists _, o1, u. split; [|split; [exact U|right; reflexivity] ].
  destruct bytes as [|b bytes]; [reflexivity|].
  set (n := length (b :: bytes)). assert (Len : length (b :: bytes) = n) by reflexivity. assert (N1 : (1 <= n)%nat) by (unfold n; cbn [length]; lia).
  replace (2 + 4 * n + (if (1 <? n)%nat then n - 1 else 0))%nat with (5 * n + 1)%nat by (destruct (Nat.ltb_spec 1 n); lia). clearbody n.
  unfold bind at 1, lift at 1. replace (5 * n + 1 + 1)%nat with (S (5 * n + 1)) by lia. cbn [fresh repeat store].
  unfold bind at 1, lift at 1. destruct (put_bytes_at (b :: bytes) [Some 91%N] (repeat None (5 * n + 1)) 0 K) as (rest' & E & L); [reflexivity|rewrite Len, repeat_length; lia|].
  change (Some 91%N :: repeat None (5 * n + 1)) with ([Some 91%N] ++ repeat None (5 * n + 1)). rewrite E. rewrite words_join by discriminate. rewrite Len, repeat_length in L.
  destruct rest' as [|x [|y rest'] ]; cbn [length] in L; try (exfalso; lia).
  set (j := join 32 (map byte_text (b :: bytes))). assert (J : (length j + 1 = 5 * n)%nat).
  { pose proof (words_length (b :: bytes)) as W. rewrite words_join in W by discriminate. rewrite app_length in W. fold j in W. cbn [length] in W, Len. lia. }
  unfold bind at 1, lift at 1.
  assert (Y : [Some 91%N] ++ filled (j ++ [32%N]) ++ [x] = ([Some 91%N] ++ filled j) ++ Some 32%N :: [x]) by (unfold filled; rewrite map_app, <- !app_assoc; reflexivity).
  rewrite Y. replace (5 * n + 1 - 1)%nat with (length ([Some 91%N] ++ filled j)) by (rewrite app_length, filled_length; cbn [length]; lia). rewrite store_app.
  unfold bind at 1, lift at 1. replace (([Some 91%N] ++ filled j) ++ Some 93%N :: [x]) with (([Some 91%N] ++ filled j ++ [Some 93%N]) ++ x :: []) by (rewrite <- !app_assoc; reflexivity).
  replace (5 * n + 1)%nat with (length ([Some 91%N] ++ filled j ++ [Some 93%N])) by (rewrite !app_length, filled_length; cbn [length]; lia). rewrite store_app.
  unfold ret. f_equal. f_equal. f_equal. unfold buffer_text. fold j. unfold filled. rewrite !map_app, <- !app_assoc. reflexivity.
Qed.

Lemma string_in_more s rest : cstr_ok s -> string_in (filled (s ++ [0%N]) ++ rest) = Some s.
Proof.
  induction s as [|c s IH]; intros K; [reflexivity|]. inversion K as [|? ? C K2]. subst. change (filled ((c :: s) ++ [0%N]) ++ rest) with (Some c :: (filled (s ++ [0%N]) ++ rest)).
  cbn [string_in]. rewrite IH by exact K2. unfold char_ok in C. destruct (N.eqb_spec c 0) as [->|]; [|reflexivity]. exfalso. lia.
Qed.
Definition arg_ok (a : arg) : Prop := forall b, validate_arg_buffer a = Some b -> bytes_ok b.
Lemma stringify_arg_at v f i a o : outside_ok v -> arg_ok a ->
  exists r o' used, stringify_arg v f i a o = Some (r, o') /\ o = used ++ o' /\ (r = arg_text v f i (value a) (validate_arg_buffer a) \/ (r = None /\ In false used)) /\
   (forall t, r = Some t -> cstr_ok t).
Proof.
  intros V K. unfold stringify_arg, arg_text. destruct (validate_arg_buffer a) as [b|] eqn:B.
  - unfold bind at 1. pose proof (K _ B) as KB. destruct (stringify_buffer_spec b o KB) as (r & o1 & u & E & U & [ (-> & X)| ->]); rewrite E.
    + eexists _, o1, u. split; [reflexivity|]. split; [exact U|]. split; [right; auto|discriminate].
    + unfold bind, lift. pose proof (buffer_text_ok b KB) as T. rewrite string_in_filled by exact T. eexists _, o1, u. split; [reflexivity|]. split; [exact U|]. split; [left; reflexivity|congruence].
  - eexists _, o, []. split; [reflexivity|]. split; [reflexivity|]. split; [left; reflexivity|]. intros t H. eapply V. exact H.
Qed.
Definition told (a : arg) : nat * option (list N) := (value a, validate_arg_buffer a).
Lemma stringify_args_at v f l : outside_ok v -> Forall arg_ok l -> forall i o,
  exists rs o' used, stringify_args v f i l o = Some (rs, o') /\ o = used ++ o' /\ (no_null rs = arg_texts v f i (map told l) \/ (no_null rs = None /\ In false used)) /\
   (forall ts, no_null rs = Some ts -> Forall cstr_ok ts /\ length ts = length l).
Proof.
  intros V. induction l as [|a l IH]; intros K i o; cbn [stringify_args map arg_texts].
  - eexists _, o, []. split; [reflexivity|]. split; [reflexivity|]. split; [left; reflexivity|]. intros ts H. injection H as <-. auto.
  - inversion K as [|? ? KA KL]. subst. unfold bind at 1. destruct (stringify_arg_at v f i a o V KA) as (r & o1 & u1 & E & U & X & Y). rewrite E.
    unfold bind at 1. destruct (IH KL (S i) o1) as (rs & o2 & u2 & E2 & U2 & X2 & Y2). rewrite E2.
    eexists _, o2, (u1 ++ u2). split; [reflexivity|]. split; [rewrite U, U2; apply app_assoc|]. cbn [no_null told fst snd map]. unfold told at 1. split.
    + destruct X as [->|(-> & X)]; [|right; split; [reflexivity|apply in_or_app; auto] ].
      destruct (arg_text v f i (value a) (validate_arg_buffer a)) as [t|]; [|left; reflexivity].
      destruct X2 as [->|(-> & X2)]; [left; reflexivity|right; split; [reflexivity|apply in_or_app; auto] ].
    + intros ts H. destruct r as [t|]; [|discriminate H]. destruct (no_null rs) as [ts'|]; [|discriminate H]. injection H as <-. destruct (Y2 _ eq_refl) as (P & Q).
      split; [constructor; auto|cbn; congruence].
Qed.
Lemma copy_args_at l : l <> [] -> forall pre rest k, (fold_right (fun t n => length t + n) 0 l + length l + 1 <= length rest)%nat ->
  exists rest', copy_args l (filled pre ++ rest) (length pre) k = Some (filled (pre ++ (if (0 <? k)%nat then [44%N] else []) ++ join 44 l ++ [0%N]) ++ rest').
Proof.
  induction l as [|t l IH]; intros N pre rest k R; [congruence|]. cbn [copy_args]. clear N. cbn [fold_right length] in R.
  set (c := if (0 <? k)%nat then [44%N] else []).
  assert (X : exists rest1, (if (0 <? k)%nat then match store (filled pre ++ rest) (length pre) 44 with Some r => Some (r, S (length pre)) | None => None end else Some (filled pre ++ rest, length pre)) =
      Some (filled (pre ++ c) ++ rest1, length (pre ++ c)) /\ (length t + fold_right (fun t n => length t + n) 0 l + length l + 1 <= length rest1)%nat).
  { unfold c. destruct (0 <? k)%nat.
    - destruct rest as [|x rest]; [cbn in R; lia|]. pose proof (store_app (filled pre) x rest 44%N) as SE. rewrite filled_length in SE. rewrite SE. exists rest. split; [|cbn in R; lia].
      f_equal. f_equal; [unfold filled; rewrite map_app, <- app_assoc; reflexivity|]. rewrite app_length. cbn. lia.
    - exists rest. rewrite app_nil_r. split; [reflexivity|lia]. }
  destruct X as (rest1 & -> & R1). set (pc := pre ++ c) in *.
  assert (Y : exists m r2, rest1 = m ++ r2 /\ length m = length (t ++ [0%N])).
  { exists (firstn (length t + 1) rest1), (skipn (length t + 1) rest1). rewrite firstn_skipn. split; [reflexivity|]. rewrite firstn_length, app_length. cbn. lia. }
  destruct Y as (m & r2 & -> & Lm). pose proof (store_all_app_gen (t ++ [0%N]) (filled pc) m r2 Lm) as SE. rewrite filled_length in SE. rewrite SE. clear SE. rewrite app_length, Lm, app_length in R1. cbn [length] in R1.
  destruct l as [|u l].
  - cbn [copy_args join]. exists r2. f_equal. unfold pc, filled. rewrite !map_app, <- !app_assoc. reflexivity.
  - assert (Z : filled pc ++ filled (t ++ [0%N]) ++ r2 = filled (pc ++ t) ++ Some 0%N :: r2) by (unfold filled; rewrite !map_app, <- !app_assoc; reflexivity). rewrite Z.
    rewrite <- app_length. destruct (IH ltac:(discriminate) (pc ++ t) (Some 0%N :: r2) (S k)) as (rest' & ->); [cbn [length] in *; lia|].
    exists rest'. f_equal. f_equal. f_equal. cbn [Nat.ltb Nat.leb]. unfold pc. change (join 44 (t :: u :: l)) with (t ++ [44%N] ++ join 44 (u :: l)). now rewrite <- !app_assoc.
Qed.

(* The text of a call's arguments: joined by commas, inside its block, NULL only when a type has no text for its
   value or without memory. *)
Theorem args_text_spec v c o : outside_ok v -> Forall arg_ok (c_args c) ->
  exists r o' used, mock_call_data_stringify v c o = Some (r, o') /\ o = used ++ o' /\
   ((exists b ts, r = Some b /\ arg_texts v (of_mock c) 0 (map told (c_args c)) = Some ts /\ string_in b = Some (join 44 ts)) \/
    (r = None /\ (arg_texts v (of_mock c) 0 (map told (c_args c)) = None \/ In false used))).
Proof.
  intros V K. unfold mock_call_data_stringify, bind at 1. destruct (stringify_args_at v (of_mock c) (c_args c) V K 0 o) as (rs & o1 & u1 & E & U & X & Y). rewrite E.
  destruct (no_null rs) as [ts|] eqn:T.
  2:{ eexists _, o1, u1. split; [reflexivity|]. split; [exact U|]. right. split; [reflexivity|]. destruct X as [<-|(_ & X)]; auto. }
  destruct X as [X|(X & _)]; [|discriminate X]. destruct (Y ts eq_refl) as (KT & LT). unfold bind at 1. destruct (alloc_spec o1) as (ok & o2 & u2 & A & U2 & F). rewrite A. destruct ok; cbn [negb].
  2:{ eexists _, o2, (u1 ++ u2). split; [reflexivity|]. split; [rewrite U, U2; apply app_assoc|]. right. split; [reflexivity|]. right. apply in_or_app. auto. }
  destruct (c_args c) as [|a l] eqn:C.
  - destruct ts; [|discriminate LT]. eexists _, o2, (u1 ++ u2). split; [reflexivity|]. split; [rewrite U, U2; apply app_assoc|]. left. eexists _, []. split; [reflexivity|]. split; [now rewrite <- X|reflexivity].
  - set (n := length (a :: l)) in *. assert (N1 : (1 <= n)%nat) by (unfold n; cbn; lia). destruct (Nat.ltb_spec 0 n); [|lia].
    set (len := (fold_right (fun t k => length t + k) 0 ts + (2 * n - 1))%nat). destruct (Nat.eqb_spec len 0) as [Z|Z]; [unfold len in Z; lia|].
    destruct (copy_args_at ts ltac:(destruct ts; [cbn in LT; lia|discriminate]) [] (fresh (len + 1)) 0) as (rest' & EC); [rewrite fresh_length; unfold len; lia|].
    cbn [filled map app length Nat.ltb Nat.leb] in EC. unfold bind, lift. rewrite EC. eexists _, o2, (u1 ++ u2). split; [reflexivity|]. split; [rewrite U, U2; apply app_assoc|]. left.
    eexists _, ts. split; [reflexivity|]. split; [now rewrite <- X|]. apply string_in_more. apply join_ok; [unfold char_ok; lia|exact KT].
Qed.

(* an int and a buffer of two bytes *)
Definition shown_data := {| of_mock := 0; c_args := [{| value := 7; is_ignored := false; out_arg_buffer := None; validate_arg_buffer := None |};
   {| value := 100; is_ignored := true; out_arg_buffer := None; validate_arg_buffer := Some [10; 255]%N |}]; return_value := None; return_value_set := false; fail_return_value := None; fail_return_value_set := false |}.
Definition shown_outside := {| type_equal := fun _ _ a b => if (a =? b)%nat then 1 else 0; type_text := fun _ _ x => Some [N.of_nat (48 + x)]; bytes_at := fun _ => None |}.
Example args_text_example : match mock_call_data_stringify shown_outside shown_data [] with Some (Some b, _) => string_in b | _ => None end = Some (str "7,[0x0A 0xFF]").
Proof. reflexivity. Qed.
