(* C109: the life of a handle.  C110: connecting again. *)
From Verif Require Import Base Map_Model HttpHeaders_Spec HttpApiMbed_Model HttpApiMbed_Spec HttpApiMbed_Read HttpApiMbed_Scan HttpApiMbed_Reply HttpApiMbed_Props HttpApiMbed_Any HttpApiMbed_Sound HttpApiMbed_Body HttpApiMbed_Safety.
Local Open Scope Z_scope.

(** * Histories *)

Inductive op := Execute (r : request) | Option (name value : option text).
(* None: a call had undefined behaviour (C107). *)
Fixpoint use (ops : list op) (h : HTTP_HANDLE_DATA) (w : world) : option (HTTP_HANDLE_DATA * world) :=
  match ops with
  | [] => Some (h, w)
  | Execute r :: ops =>
    match HTTPAPI_ExecuteRequest (Some h) r w with Returns _ w => use ops h w | _ => None end
  | Option n v :: ops =>
    match HTTPAPI_SetOption (Some h) n v with (_, Some h) => use ops h w | (_, None) => None end
  end.

(* What the handle has of the TLS library and the network. *)
Definition sound (c : con) : Prop :=
  (c_ctx c = true /\ c_refs c = S (c_ssls c) \/ c_ctx c = false /\ c_refs c = 0%nat /\ c_ssls c = 0%nat) /\
  (c_ssls c = 0%nat /\ c_connected c = false \/ c_ssls c = 1%nat /\ c_open c = true).

Lemma succeeds_con w : exists b w1, succeeds w = Ret b w1 /\ w_con w1 = w_con w.
Proof. unfold succeeds. destruct (w_lib w); do 2 eexists; (split; [reflexivity|reflexivity]). Qed.

Definition good (w : world) : Prop := sound (w_con w).

(* a connection attempt *)
Lemma connect_con w : c_connected (w_con w) = false -> good w ->
  exists b w1, con_connect w = Ret b w1 /\ good w1 /\ c_connected (w_con w1) = b /\
    (c_open (w_con w) = true -> b = false /\ w1 = w) /\
    (c_ssls (w_con w1) = 1%nat -> c_ctx (w_con w1) = true).
Proof.
  intros C G. unfold con_connect, bind, get. unfold good, sound in G.
  destruct (c_ctx (w_con w)) eqn:CT; cbn [negb].
  2:{ exists false, w. split; [reflexivity|]. unfold good, sound. rewrite CT. intuition lia. }
  destruct G as ([(_ & RF)|(X & _)] & G); [|discriminate X].
  destruct (c_open (w_con w)) eqn:OP.
  { exists false, w. split; [reflexivity|]. unfold good, sound. rewrite CT, OP. intuition lia. }
  destruct G as [(S0 & _)|(_ & X)]; [|discriminate X].
  destruct (succeeds_con w) as (b1 & w1 & -> & C1). destruct b1; cbn [negb].
  2:{ exists false, w1. split; [reflexivity|]. unfold good, sound. rewrite C1, CT, OP. intuition lia. }
  unfold on_con, change.
  destruct (succeeds_con (set_con (con_open true (w_con w1)) w1)) as (b2 & w2 & -> & C2). cbn [w_con set_con] in C2.
  assert (sound (con_open true (w_con w)) /\ c_connected (con_open true (w_con w)) = false) as (S2 & N2).
  { unfold sound. cbn. rewrite CT, RF, S0, C. auto. }
  destruct b2; cbn [negb].
  2:{ exists false, w2. split; [reflexivity|]. unfold good. rewrite C2, C1. split; [exact S2|]. split; [exact N2|]. split; [intros X; discriminate X|].
      cbn. rewrite S0. discriminate. }
  destruct (succeeds_con w2) as (b3 & w3 & -> & C3). destruct b3; cbn [negb].
  2:{ unfold con_close, bind, get. rewrite C3, C2, C1. cbn [c_connected con_open]. rewrite C. cbn [negb]. exists false, w3. split; [reflexivity|].
      unfold good. rewrite C3, C2, C1. split; [exact S2|]. split; [exact N2|]. split; [intros X; discriminate X|]. cbn. rewrite S0. discriminate. }
  destruct (succeeds_con w3) as (b4 & w4 & -> & C4). destruct b4; cbn [negb].
  2:{ exists false, w4. split; [reflexivity|]. unfold good. rewrite C4, C3, C2, C1. split; [exact S2|]. split; [exact N2|]. split; [intros X; discriminate X|].
      cbn. rewrite S0. discriminate. }
  destruct (succeeds_con (set_con (con_ssl (S (c_ssls (w_con w4))) (w_con w4)) w4)) as (b5 & w5 & -> & C5). cbn [w_con set_con] in C5.
  destruct b5; cbn [negb].
  - eexists true, _. split; [reflexivity|]. unfold good, sound. cbn [w_con set_con con_connected c_ctx c_refs c_ssls c_open c_connected].
    rewrite C5. cbn [con_ssl c_ctx c_refs c_ssls c_open c_connected]. rewrite C4, C3, C2, C1. cbn. rewrite CT, RF, S0.
    split; [split; [left; auto|right; auto]|]. split; [reflexivity|]. split; [intros X; discriminate X|reflexivity].
  - exists false, w5. split; [reflexivity|]. unfold good, sound. rewrite C5. cbn [con_ssl c_ctx c_refs c_ssls c_open c_connected].
    rewrite C4, C3, C2, C1. cbn. rewrite CT, RF, S0, C.
    split; [split; [left; auto|right; auto]|]. split; [reflexivity|]. split; [intros X; discriminate X|reflexivity].
Qed.

Definition same_con (a b : world) : Prop := w_con b = w_con a.
Lemma same_con_refl w : same_con w w. Proof. reflexivity. Qed.
Lemma same_con_trans a b c : same_con a b -> same_con b c -> same_con a c. Proof. unfold same_con. congruence. Qed.
Lemma send_all_con bs : keeps same_con (send_all bs).
Proof. intros w. unfold send_all. destruct (_ <=? _); [reflexivity|]. destruct (w_sends w); [reflexivity|]. destruct (_ <? 0); reflexivity. Qed.
Lemma allocates_con : keeps same_con allocates.
Proof. intros w. unfold allocates. destruct (w_alloc w); reflexivity. Qed.
Ltac con_tac := repeat first [apply send_all_con | apply allocates_con | apply keeps_change; intros ?; reflexivity | frame_step same_con_refl same_con_trans].
Lemma send_headers_con l : keeps same_con (send_headers l).
Proof. induction l as [|(n, v) l IH]; cbn [send_headers]; [con_tac|]. unfold sending. con_tac. exact IH. Qed.
Lemma send_request_con m p hs c n : keeps same_con (send_request m p hs c n).
Proof.
  unfold send_request. destruct (_ <=? _); [con_tac|]. unfold sending.
  apply (keeps_bind _ same_con_trans); [con_tac|intros _]. apply (keeps_bind _ same_con_trans); [con_tac|intros _].
  apply (keeps_bind _ same_con_trans); [apply send_headers_con|intros _]. con_tac.
Qed.

Lemma load_con w : exists b w1, con_load_certificate w = Ret b w1 /\ w_con w1 = w_con w.
Proof.
  unfold con_load_certificate, bind, get. destruct (negb _); [do 2 eexists; split; reflexivity|]. apply succeeds_con.
Qed.

(* what follows connecting leaves the connection as it is *)
Lemma execute_con h r w res w' : good w -> HTTPAPI_ExecuteRequest h r w = Returns res w' ->
  good w' /\
  (c_connected (w_con w) = true -> w_con w' = w_con w) /\
  (c_connected (w_con w) = false -> c_open (w_con w) = true -> w_con w' = w_con w /\ w_out w' = w_out w /\ w_in w' = w_in w /\
      (res = HTTPAPI_ERROR \/ res = HTTPAPI_INVALID_ARG)).
Proof.
  intros G E. unfold HTTPAPI_ExecuteRequest, execute in E. unfold bind at 1, change in E. fold (fresh w) in E.
  assert (forall c, Returns c (fresh w) = Returns res w' -> c = HTTPAPI_INVALID_ARG -> good w' /\ (c_connected (w_con w) = true -> w_con w' = w_con w) /\
    (c_connected (w_con w) = false -> c_open (w_con w) = true -> w_con w' = w_con w /\ w_out w' = w_out w /\ w_in w' = w_in w /\ (res = HTTPAPI_ERROR \/ res = HTTPAPI_INVALID_ARG))) as NO.
  { intros c X ->. injection X as <- <-. split; [exact G|]. split; [reflexivity|]. auto 6. }
  destruct h as [h|]; [|eapply NO; [exact E|reflexivity]].
  destruct (r_path r) as [p|] eqn:Ep; [|eapply NO; [exact E|reflexivity]].
  destruct (r_headers r) as [hs|] eqn:Eh; [|eapply NO; [exact E|reflexivity]].
  destruct (method_of (r_type r)) as [m|] eqn:Em; [|eapply NO; [exact E|reflexivity]]. clear NO.
  assert (forall w1, match (send_request m p hs (r_content r) (r_length r);; read_response r) w1 with Ret _ w2 => w_con w2 = w_con w1 | Fail _ w2 => w_con w2 = w_con w1 | _ => True end) as REST.
  { intros w1. unfold bind. pose proof (send_request_con m p hs (r_content r) (r_length r) w1) as K.
    destruct (send_request m p hs (r_content r) (r_length r) w1) as [u w2|c w2|w2|]; auto.
    pose proof (read_response_steady r w2) as K2. destruct (read_response r w2); auto; destruct K2 as (_ & _ & _ & _ & K2); rewrite K2; exact K. }
  unfold connecting in E. unfold bind at 1 in E. unfold bind at 1 in E. unfold get in E.
  change (c_connected (w_con (fresh w))) with (c_connected (w_con w)) in E.
  destruct (c_connected (w_con w)) eqn:C.
  - cbn [ret] in E. unfold ret in E. specialize (REST (fresh w)).
    destruct ((send_request m p hs (r_content r) (r_length r);; read_response r) (fresh w)) as [a w1|a w1|w1|]; try discriminate E;
      (injection E as <- <-; change (w_con (fresh w)) with (w_con w) in REST;
       split; [unfold good; rewrite REST; exact G|]; split; [intros _; exact REST|discriminate]).
  - assert (exists b w1, (match h_certificate h with Some _ => con_load_certificate | None => ret true end) (fresh w) = Ret b w1 /\ w_con w1 = w_con w) as (b & w1 & E1 & C1).
    { destruct (h_certificate h); [|do 2 eexists; split; reflexivity]. destruct (load_con (fresh w)) as (b & w1 & X & Y). exists b, w1. split; [exact X|exact Y]. }
    unfold bind at 1 in E. rewrite E1 in E.
    assert (w_out w1 = w_out w /\ w_in w1 = w_in w) as (O1 & I1).
    { clear - E1. destruct (h_certificate h); [|injection E1 as _ <-; auto].
      unfold con_load_certificate, bind, get, succeeds in E1. destruct (negb _); [injection E1 as _ <-; auto|]. destruct (w_lib (fresh w)); injection E1 as _ <-; auto. }
    destruct b; cbn [negb] in E.
    2:{ injection E as <- <-. split; [unfold good; rewrite C1; exact G|]. split; [discriminate|]. auto 6. }
    destruct (connect_con w1) as (b & w2 & E2 & G2 & B2 & K2 & _); [rewrite C1; exact C|unfold good; rewrite C1; exact G|].
    unfold bind at 1 in E. rewrite E2 in E. destruct b; cbn [negb] in E.
    + unfold ret in E. specialize (REST w2).
      destruct ((send_request m p hs (r_content r) (r_length r);; read_response r) w2) as [a w3|a w3|w3|]; try discriminate E;
      (injection E as <- <-; split; [unfold good; rewrite REST; exact G2|]; split; [discriminate|]; intros _ OP; rewrite C1 in K2; destruct (K2 OP) as (X & _); discriminate X).
    + injection E as <- <-. split; [exact G2|]. split; [discriminate|]. intros _ OP. rewrite C1 in K2. destruct (K2 OP) as (_ & ->). auto 6.
Qed.

Lemma use_good ops : forall h w h' w', good w -> use ops h w = Some (h', w') -> good w'.
Proof.
  induction ops as [|o ops IH]; intros h w h' w' G E; cbn [use] in E; [injection E as _ <-; exact G|].
  destruct o as [r|n v].
  - destruct (HTTPAPI_ExecuteRequest (Some h) r w) as [res w1| |] eqn:X; try discriminate E. eapply IH; [|exact E]. eapply execute_con; eassumption.
  - destruct (HTTPAPI_SetOption (Some h) n v) as (res & [h1|]); [|discriminate E]. eapply IH; eassumption.
Qed.

Lemma create_good t w h w' : HTTPAPI_CreateConnection (Some t) w = Ret (Some h) w' -> good w' /\ c_connected (w_con w') = false /\ c_ssls (w_con w') = 0%nat /\ c_open (w_con w') = false.
Proof.
  unfold HTTPAPI_CreateConnection, con_construct. unfold bind at 1. unfold bind at 1, on_con, change.
  unfold bind at 1. destruct (succeeds_con (set_con new_con w)) as (b & w1 & -> & C1). cbn [w_con set_con] in C1.
  assert (good w1 /\ c_connected (w_con w1) = false /\ c_ssls (w_con w1) = 0%nat /\ c_open (w_con w1) = false) as G1.
  { unfold good, sound. rewrite C1. cbn. auto 8. }
  destruct b.
  - unfold bind at 1. destruct (succeeds_con w1) as (b2 & w2 & -> & C2).
    destruct b2.
    + set (w3 := set_con _ w2). assert (w_con w3 = con_ctx true 1 new_con) as C3 by (subst w3; cbn [w_con set_con]; rewrite C2, C1; reflexivity).
      clearbody w3. destruct (_ <=? _).
      * unfold bind. destruct (con_destruct w3); discriminate.
      * intros [= _ <-]. unfold good, sound. rewrite C3. cbn. auto 8.
    + unfold ret. destruct (_ <=? _); [unfold bind; destruct (con_destruct w2); discriminate|]. intros [= _ <-]. unfold good. rewrite C2. exact G1.
  - unfold ret. destruct (_ <=? _); [unfold bind; destruct (con_destruct w1); discriminate|]. intros [= _ <-]. exact G1.
Qed.

(** * C109 *)

(* Any history of one handle: closing it is defined, closes the socket, and gives back the
   context as often as it must.  The TLS session, if there is one, is not given back. *)
Theorem handle_life_partial : forall t ops w h w1 h' w2,
  HTTPAPI_CreateConnection (Some t) w = Ret (Some h) w1 -> use ops h w1 = Some (h', w2) ->
  exists w3, HTTPAPI_CloseConnection (Some h') w2 = Ret tt w3 /\
    c_open (w_con w3) = false /\
    c_ssls (w_con w3) = c_ssls (w_con w2) /\
    (c_ssls (w_con w2) = 0%nat -> c_refs (w_con w3) = 0%nat) /\
    (connected w2 -> c_refs (w_con w3) = 0%nat).
Proof.
  intros t ops w h w1 h' w2 EC EU. apply create_good in EC. destruct EC as (G1 & _).
  pose proof (use_good _ _ _ _ _ G1 EU) as G. clear - G. unfold good, sound in G.
  unfold HTTPAPI_CloseConnection. unfold bind at 1, get. unfold connected.
  destruct (c_connected (w_con w2)) eqn:C.
  - destruct G as ([(CT & RF)|(_ & _ & S0)] & [(_ & X)|(S1 & OP)]); try discriminate X; [|congruence].
    unfold bind at 1, con_close, get. unfold bind at 1. rewrite C. cbn [negb]. unfold bind at 1, on_con, change. unfold bind at 1, ctx_free. cbn [w_con set_con con_connected c_refs].
    rewrite RF, S1. cbn [w_con set_con]. unfold con_destruct. unfold bind at 1, get. cbn [w_con set_con con_open con_refs con_connected c_ctx]. rewrite CT.
    unfold bind at 1. unfold bind at 1, ctx_free. cbn [w_con set_con con_open con_refs con_connected c_refs].
    unfold on_con, change. eexists. split; [reflexivity|]. cbn. auto.
  - unfold bind at 1, ret. unfold con_destruct. unfold bind at 1, get. destruct (c_ctx (w_con w2)) eqn:CT.
    + destruct G as ([(_ & RF)|(X & _)] & _); [|discriminate X].
      unfold bind at 1. unfold bind at 1, ctx_free. rewrite RF. unfold on_con, change. eexists. split; [reflexivity|]. cbn. split; [reflexivity|]. split; [reflexivity|]. split; [auto|discriminate].
    + destruct G as ([(X & _)|(_ & RF & S0)] & _); [discriminate X|].
      unfold bind at 1. unfold on_con, change, ret. eexists. split; [reflexivity|]. cbn. split; [reflexivity|]. split; [reflexivity|]. split; [auto|discriminate].
Qed.

(* Every handle that was connected when it is closed leaves a TLS session behind. *)
Theorem session_leak_refuted : forall t ops w h w1 h' w2 w3,
  HTTPAPI_CreateConnection (Some t) w = Ret (Some h) w1 -> use ops h w1 = Some (h', w2) -> connected w2 ->
  HTTPAPI_CloseConnection (Some h') w2 = Ret tt w3 -> c_ssls (w_con w3) = 1%nat.
Proof.
  intros t ops w h w1 h' w2 w3 EC EU C E. destruct (handle_life_partial _ _ _ _ _ _ _ EC EU) as (w3' & E' & _ & S3 & _).
  rewrite E in E'. injection E' as <-. rewrite S3. apply create_good in EC. pose proof (use_good _ _ _ _ _ (proj1 EC) EU) as (_ & G).
  unfold connected in C. rewrite C in G. destruct G as [(_ & X)|(X & _)]; [discriminate X|exact X].
Qed.

(** * C110 *)

(* While the connection stands, requests use it; no request closes it. *)
Theorem connection_kept : forall h r w res w', good w -> connected w ->
  HTTPAPI_ExecuteRequest h r w = Returns res w' -> connected w' /\ w_con w' = w_con w.
Proof.
  intros h r w res w' G C E. apply execute_con in E; [|exact G]. destruct E as (_ & K & _). unfold connected in *.
  rewrite (K C). auto.
Qed.

(* An attempt to connect that fails after the socket was made leaves a handle that never connects
   again: whatever is asked and whatever the network would do, nothing is sent. *)
Theorem never_again_refuted : forall ops h w h' w',
  good w -> c_connected (w_con w) = false -> c_open (w_con w) = true ->
  use ops h w = Some (h', w') -> w_con w' = w_con w /\ w_out w' = w_out w /\ w_in w' = w_in w.
Proof.
  induction ops as [|o ops IH]; intros h w h' w' G C OP E; cbn [use] in E; [injection E as _ <-; auto|].
  destruct o as [r|n v].
  - destruct (HTTPAPI_ExecuteRequest (Some h) r w) as [res w1| |] eqn:X; try discriminate E.
    apply execute_con in X; [|exact G]. destruct X as (G1 & _ & K). destruct (K C OP) as (C1 & O1 & I1 & _).
    destruct (IH h w1 h' w' G1) as (? & ? & ?); [rewrite C1; exact C|rewrite C1; exact OP|exact E|]. repeat split; congruence.
  - destruct (HTTPAPI_SetOption (Some h) n v) as (res & [h1|]); [|discriminate E]. eapply IH; eassumption.
Qed.
(* One that fails before that does not. *)
Theorem try_again_partial : forall h r w res w', good w -> c_connected (w_con w) = false -> c_open (w_con w) = false -> c_ctx (w_con w) = true ->
  h_certificate h = None -> sendable r -> w_lib w = [] ->
  HTTPAPI_ExecuteRequest (Some h) r w = Returns res w' -> connected w' /\ c_ssls (w_con w') = 1%nat.
Proof.
  intros h r w res w' G C OP CT HC (T & Pp & Ph) L E. unfold HTTPAPI_ExecuteRequest, execute in E. unfold bind at 1, change in E. fold (fresh w) in E.
  destruct (r_path r) as [p|]; [|congruence]. destruct (r_headers r) as [hs|]; [|congruence].
  destruct (method_of (r_type r)) as [m|] eqn:Em; [|destruct (r_type r); cbn in Em; congruence].
  assert (forall w1, match (send_request m p hs (r_content r) (r_length r);; read_response r) w1 with Ret _ w2 => w_con w2 = w_con w1 | Fail _ w2 => w_con w2 = w_con w1 | _ => True end) as REST.
  { intros w1. unfold bind. pose proof (send_request_con m p hs (r_content r) (r_length r) w1) as K.
    destruct (send_request m p hs (r_content r) (r_length r) w1) as [u w2|c w2|w2|]; auto.
    pose proof (read_response_steady r w2) as K2. destruct (read_response r w2); auto; destruct K2 as (_ & _ & _ & _ & K2); rewrite K2; exact K. }
  assert (exists w1, connecting h (fresh w) = Ret tt w1 /\ c_connected (w_con w1) = true /\ c_ssls (w_con w1) = S (c_ssls (w_con w))) as (w1 & E1 & C1 & S1).
  { clear - C HC CT OP L. destruct w as [a b c d e l f g i j k m n co]. cbn in C, CT, OP, L. subst l. destruct co as [x1 x2 x3 x4 x5]. cbn in C, CT, OP. subst.
    unfold connecting. rewrite HC. eexists. split; [reflexivity|]. cbn. auto. }
  rewrite (bind_ret _ _ _ _ _ E1) in E. specialize (REST w1).
  assert (c_ssls (w_con w) = 0%nat) as S0. { destruct G as (_ & [(X & _)|(_ & X)]); [exact X|congruence]. }
  unfold connected. destruct ((send_request m p hs (r_content r) (r_length r);; read_response r) w1) as [a w3|a w3|w3|]; try discriminate E;
    injection E as _ <-; rewrite REST, C1, S1, S0; auto.
Qed.

(** * Options *)

Theorem option_stored : forall h v, exists h',
  HTTPAPI_SetOption (Some h) (Some (str "TrustedCerts")) (Some v) = (HTTPAPI_OK, Some h') /\ h_certificate h' = Some v /\ h_host h' = h_host h.
Proof. intros h v. eexists. split; [reflexivity|]. split; reflexivity. Qed.
Theorem option_refused : forall h name v, name <> Some (str "TrustedCerts") ->
  HTTPAPI_SetOption h name v = (HTTPAPI_INVALID_ARG, h).
Proof.
  intros h name v N. unfold HTTPAPI_SetOption. destruct h as [h|]; [|reflexivity]. destruct name as [n|]; [|reflexivity]. destruct v as [v|]; [|reflexivity].
  destruct (text_eqb n (str "TrustedCerts")) eqn:E; [|reflexivity]. apply text_eqb_iff in E. congruence.
Qed.
Theorem option_copied : forall v w, memory w -> exists w',
  HTTPAPI_CloneOption (Some (str "TrustedCerts")) (Some v) true w = Ret (HTTPAPI_OK, Some v) w'.
Proof.
  intros v w M. unfold HTTPAPI_CloneOption. change (text_eqb (str "TrustedCerts") (str "TrustedCerts")) with true. cbn iota.
  destruct (allocates_ok w M) as (l & E & _). erewrite bind_ret by exact E. eexists. reflexivity.
Qed.
(* A certificate set after the connection was made is not used: nothing is loaded. *)
Theorem late_certificate_unused : forall h v r w, connected w ->
  HTTPAPI_ExecuteRequest (Some {| h_host := h_host h; h_certificate := v |}) r w = HTTPAPI_ExecuteRequest (Some h) r w.
Proof.
  intros h v r w C. unfold HTTPAPI_ExecuteRequest.
  assert (forall g, r_path r = None \/ r_headers r = None \/ method_of (r_type r) = None -> execute (Some g) r w = Fail HTTPAPI_INVALID_ARG (fresh w)) as NO.
  { intros g N. unfold execute. unfold bind at 1, change. fold (fresh w).
    destruct N as [-> | [-> | ->] ]; [reflexivity|destruct (r_path r); reflexivity|destruct (r_path r), (r_headers r); reflexivity]. }
  destruct (r_path r) as [p|] eqn:Ep; [|rewrite !NO by auto; reflexivity]. destruct (r_headers r) as [hs|] eqn:Eh; [|rewrite !NO by auto; reflexivity].
  destruct (method_of (r_type r)) as [m|] eqn:Em; [|rewrite !NO by auto; reflexivity].
  rewrite !(execute_connected _ r m p hs w C Ep Eh Em). reflexivity.
Qed.
