(* C107: whatever the peer sends, the adapter returns, and does so without undefined behaviour as
   far as it does; what success means.  C108: responses that were cut short. *)
From Verif Require Import Base Map_Model HttpHeaders_Spec HttpApiMbed_Model HttpApiMbed_Spec HttpApiMbed_Read HttpApiMbed_Scan HttpApiMbed_Reply HttpApiMbed_Props HttpApiMbed_Any HttpApiMbed_Sound HttpApiMbed_Body.
Local Open Scope Z_scope.

(** * It returns *)

Definition ends {A} (m : H A) : Prop := forall w, m w <> NoFuel.
Lemma ends_bind {A B} (m : H A) (f : A -> H B) : ends m -> (forall a, ends (f a)) -> ends (bind m f).
Proof. intros P Q w. unfold bind. specialize (P w). destruct (m w) as [a w1|c w1|w1|]; [apply Q|discriminate|discriminate|congruence]. Qed.
Lemma ends_ret {A} (a : A) : ends (ret a). Proof. intros w. discriminate. Qed.
Lemma ends_fail {A} c : ends (@fail A c). Proof. intros w. discriminate. Qed.
Lemma ends_undef {A} : ends (@undef A). Proof. intros w. discriminate. Qed.
Lemma ends_get : ends get. Proof. intros w. discriminate. Qed.
Lemma ends_change f : ends (change f). Proof. intros w. discriminate. Qed.
Lemma ends_receive n : ends (receive n).
Proof. intros w. unfold receive. destruct (w_sched w); [discriminate|]. destruct (n <? 0); [discriminate|]. destruct (_ <? 0); [discriminate|]. cbn zeta. destruct (_ =? 0); discriminate. Qed.
Lemma ends_store d o bs : ends (store d o bs).
Proof.
  intros w. unfold store. destruct bs; [discriminate|]. destruct d; [destruct (_ <=? _); discriminate|].
  destruct (w_body w); [|discriminate]. cbn zeta. destruct (_ <=? _); discriminate.
Qed.
Lemma ends_allocates : ends allocates. Proof. intros w. unfold allocates. destruct (w_alloc w); discriminate. Qed.
Lemma ends_succeeds : ends succeeds. Proof. intros w. unfold succeeds. destruct (w_lib w); discriminate. Qed.
Lemma ends_buf_text : ends buf_text. Proof. intros w. unfold buf_text. destruct (c_string_of _); discriminate. Qed.
Lemma ends_ctx_free : ends ctx_free. Proof. intros w. unfold ctx_free. destruct (c_refs _); discriminate. Qed.
Lemma ends_send_all bs : ends (send_all bs).
Proof. intros w. unfold send_all. destruct (_ <=? _); [discriminate|]. destruct (w_sends w); [discriminate|]. destruct (_ <? 0); discriminate. Qed.
Ltac ends_tac := repeat first
  [ apply ends_ret | apply ends_fail | apply ends_undef | apply ends_get | apply ends_change | apply ends_receive | apply ends_store
  | apply ends_allocates | apply ends_succeeds | apply ends_buf_text | apply ends_ctx_free | apply ends_send_all
  | apply ends_bind; [|intros ?]
  | match goal with |- ends (if ?b then _ else _) => destruct b end
  | match goal with |- ends (match ?b with _ => _ end) => destruct b end ].
Lemma ends_line_loop room : forall line c, ends (line_loop room line c).
Proof. induction room as [|room IH]; intros line c; cbn [line_loop]; destruct (c =? 13)%N; ends_tac; try apply IH. Qed.
Lemma ends_a_line : ends a_line.
Proof. unfold a_line, readLine. ends_tac. apply ends_line_loop. Qed.

(* receive uses up an answer, and what is taken from the input is gone *)
Lemma receive_uses n w p w' : receive n w = Ret p w' ->
  (w_sched w = [] /\ p = (0, []) /\ w' = w) \/ (length (w_sched w') < length (w_sched w))%nat.
Proof.
  unfold receive. destruct (w_sched w) as [|k ks] eqn:SC; [intros [= <- <-]; auto|].
  destruct (n <? 0); [intros [= <- <-]; right; cbn; lia|]. destruct (k <? 0); [intros [= <- <-]; right; cbn; lia|].
  cbn zeta. destruct (_ =? 0); intros [= <- <-]; right; cbn; lia.
Qed.
Lemma store_sched d o bs w u w' : store d o bs w = Ret u w' -> w_sched w' = w_sched w.
Proof.
  unfold store. destruct bs; [now intros [= _ <-]|]. destruct d.
  - destruct (_ <=? _); [now intros [= _ <-]|discriminate].
  - destruct (w_body w); [|discriminate]. cbn zeta. destruct (_ <=? _); [now intros [= _ <-]|discriminate].
Qed.
Lemma chunk_loop_ends fuel : forall d s o w, (length (w_sched w) < fuel)%nat -> chunk_loop fuel d s o w <> NoFuel.
Proof.
  induction fuel as [|fuel IH]; intros d s o w L; [lia|]. cbn [chunk_loop]. destruct (s =? 0); [discriminate|].
  unfold bind at 1. pose proof (ends_receive (int32 s) w) as NR. destruct (receive (int32 s) w) as [p w1|c w1|w1|] eqn:ER; try discriminate; [|congruence].
  apply receive_uses in ER. unfold bind at 1. pose proof (ends_store d o (snd p) w1) as NS.
  destruct (store d o (snd p) w1) as [u w2|c w2|w2|] eqn:ES; try discriminate; [|congruence].
  apply store_sched in ES. cbn zeta. destruct ER as [(SC & -> & ->)|ER]; [discriminate|].
  destruct (_ =? 0); [discriminate|]. apply IH. rewrite ES. lia.
Qed.
Lemma ends_readChunk d n : ends (readChunk d n).
Proof. intros w. apply chunk_loop_ends. lia. Qed.
Lemma ends_skip fuel : forall o n, n / 4096 < Z.of_nat (S fuel) -> ends (skip_loop (S fuel) o n).
Proof.
  induction fuel as [|fuel IH]; intros o n L; cbn [skip_loop]; destruct (Z.ltb_spec 4096 n) as [G|G].
  - exfalso. assert (1 <= n / 4096) by (apply Z.div_le_lower_bound; lia). lia.
  - apply ends_bind; [apply ends_readChunk|intros ?]. ends_tac.
  - apply ends_bind; [apply ends_readChunk|intros ?]. destruct (_ <? 0); [ends_tac|]. apply IH.
    replace n with ((n - 4096) + 1 * 4096) in L by lia. rewrite Z.div_add in L by lia. lia.
  - apply ends_bind; [apply ends_readChunk|intros ?]. ends_tac.
Qed.
Lemma ends_skipN n : ends (skipN n).
Proof. unfold skipN. apply ends_skip. destruct (Z_le_dec 0 (n / 4096)); lia. Qed.

(* the input only gets shorter *)
Definition shorter (w w' : world) : Prop := (length (w_in w') <= length (w_in w))%nat.
Lemma shorter_refl w : shorter w w. Proof. unfold shorter. lia. Qed.
Lemma shorter_trans a b c : shorter a b -> shorter b c -> shorter a c. Proof. unfold shorter. lia. Qed.
Lemma shorter_same w w' : w_in w' = w_in w -> shorter w w'. Proof. unfold shorter. intros ->. lia. Qed.
Lemma receive_shorter n : keeps shorter (receive n).
Proof.
  intros w. unfold receive. destruct (w_sched w); [apply shorter_refl|].
  destruct (n <? 0); [now apply shorter_same|]. destruct (_ <? 0); [now apply shorter_same|]. cbn zeta.
  destruct (_ =? 0); [now apply shorter_same|]. unfold shorter. cbn [w_in set_in]. rewrite skipn_length. lia.
Qed.
Lemma store_shorter d o bs : keeps shorter (store d o bs).
Proof.
  intros w. unfold store. destruct bs; [apply shorter_refl|]. destruct d.
  - destruct (_ <=? _); now apply shorter_same.
  - destruct (w_body w); [|now apply shorter_same]. cbn zeta. destruct (_ <=? _); now apply shorter_same.
Qed.
Lemma allocates_shorter : keeps shorter allocates.
Proof. intros w. unfold allocates. destruct (w_alloc w); now apply shorter_same. Qed.
Lemma chunk_loop_shorter fuel : forall d s o, keeps shorter (chunk_loop fuel d s o).
Proof.
  induction fuel as [|fuel IH]; intros d s o; cbn [chunk_loop]; [apply keeps_nofuel|].
  destruct (s =? 0); [apply (keeps_ret _ shorter_refl)|]. apply (keeps_bind _ shorter_trans); [apply receive_shorter|intros p].
  apply (keeps_bind _ shorter_trans); [apply store_shorter|intros _]. cbn zeta. destruct (_ =? 0); [apply (keeps_ret _ shorter_refl)|apply IH].
Qed.
Lemma readChunk_shorter d n : keeps shorter (readChunk d n).
Proof. intros w. apply chunk_loop_shorter. Qed.
Ltac shorter_tac := repeat first [apply readChunk_shorter | apply allocates_shorter
  | apply keeps_change; intros ?; apply shorter_same; reflexivity | frame_step shorter_refl shorter_trans].
Lemma skip_loop_shorter fuel : forall o n, keeps shorter (skip_loop fuel o n).
Proof.
  induction fuel as [|fuel IH]; intros o n; cbn [skip_loop]; [apply keeps_nofuel|].
  destruct (_ <? n); (apply (keeps_bind _ shorter_trans); [apply readChunk_shorter|intros ?]); shorter_tac; apply IH.
Qed.
Lemma crlf_missing_shorter : keeps shorter crlf_missing.
Proof. unfold crlf_missing. shorter_tac. Qed.

Lemma a_line_takes w u w' : a_line w = Ret u w' -> (length (w_in w') + 2 <= length (w_in w))%nat.
Proof.
  intros E. destruct (a_line_any w) as [(w1 & F)|(x & rest & I & _ & F)]; rewrite F in E; [discriminate|].
  injection E as _ <-. rewrite I, !app_length. cbn. lia.
Qed.

Lemma framing_in s l c w f w' : framing s l c w = Ret f w' -> w_in w' = w_in w.
Proof.
  unfold framing. destruct (prefix_ci _ s).
  - destruct (scan_d _) as [(v, t)|]; [|discriminate]. now intros [= _ <-].
  - destruct (prefix_ci _ s); [destruct (text_eqb _ _)|]; now intros [= _ <-].
Qed.
Lemma add_header_in r s w u w' : add_header r s w = Ret u w' -> w_in w' = w_in w.
Proof.
  unfold add_header. destruct (colon s) as [(n, v)|]; [|now intros [= _ <-]]. destruct (r_response r); [|now intros [= _ <-]].
  unfold bind, allocates. destruct (w_alloc w); now intros [= _ <-].
Qed.
Lemma headers_loop_ends fuel r : forall l c w, (length (w_in w) < fuel)%nat -> headers_loop fuel r l c w <> NoFuel.
Proof.
  induction fuel as [|fuel IH]; intros l c w L; [lia|]. cbn [headers_loop].
  unfold bind at 1, buf_text. destruct (c_string_of (w_buf w)) as [ [|x t]|]; try discriminate.
  unfold bind at 1. assert (ends (framing (x :: t) l c)) as NF by (unfold framing; ends_tac). specialize (NF w).
  destruct (framing (x :: t) l c w) as [f w1|? ?|?|] eqn:EF; try discriminate; [|congruence]. apply framing_in in EF.
  unfold bind at 1. assert (ends (add_header r (x :: t))) as NA by (unfold add_header; ends_tac). specialize (NA w1).
  destruct (add_header r (x :: t) w1) as [u w2|? ?|?|] eqn:EA; try discriminate; [|congruence]. apply add_header_in in EA.
  unfold bind at 1. pose proof (ends_a_line w2) as NL. destruct (a_line w2) as [u' w3|? ?|?|] eqn:EL; try discriminate; [|congruence].
  apply a_line_takes in EL. apply IH. rewrite EA, EF in EL. lia.
Qed.

Lemma chunks_loop_ends fuel r : forall s c w, (length (w_in w) < fuel)%nat -> chunks_loop fuel r s c w <> NoFuel.
Proof.
  induction fuel as [|fuel IH]; intros s c w L; [lia|]. cbn [chunks_loop].
  unfold bind at 1. pose proof (ends_a_line w) as NL. destruct (a_line w) as [u w1|? ?|?|] eqn:EL; try discriminate; [|congruence].
  apply a_line_takes in EL. unfold bind at 1, buf_text. destruct (c_string_of (w_buf w1)) as [t|]; [|discriminate].
  destruct (scan_x t) as [n|]; [|discriminate]. unfold bind at 1, change.
  set (w2 := set_lens _ w1). assert (w_in w2 = w_in w1) as I2 by reflexivity. clearbody w2.
  assert (ends crlf_missing) as NC by (unfold crlf_missing; apply ends_bind; [apply ends_readChunk|intros ?]; ends_tac).
  destruct (n =? 0).
  - unfold bind at 1. specialize (NC w2). destruct (crlf_missing w2) as [e w3|? ?|?|]; try discriminate; [|congruence].
    destruct e; [|discriminate]. destruct (r_body r); discriminate.
  - unfold bind at 1.
    match goal with |- context [match ?m w2 with _ => _ end] => assert (ends m) as NB; [|assert (keeps shorter m) as KB] end.
    { unfold enlarge, use_ptr. repeat first [apply ends_readChunk | apply ends_skipN | ends_tac]. }
    { unfold enlarge, use_ptr. repeat first [apply skip_loop_shorter | shorter_tac]. }
    specialize (NB w2). specialize (KB w2).
    match goal with |- context [match ?m w2 with _ => _ end] => destruct (m w2) as [res w3|? ?|?|]; try discriminate; [|congruence] end.
    unfold bind at 1. pose proof (crlf_missing_shorter w3) as KC. specialize (NC w3).
    destruct (crlf_missing w3) as [e w4|? ?|?|]; try discriminate; [|congruence].
    destruct e; [discriminate|]. apply IH. unfold shorter in KB, KC. rewrite I2 in KB. lia.
Qed.

Lemma ends_read_response r : ends (read_response r).
Proof.
  unfold read_response. apply ends_bind; [|intros _; apply ends_bind; [|intros (l, c)] ].
  - unfold read_status. apply ends_bind; [apply ends_a_line|intros _]. ends_tac.
  - unfold read_headers. apply ends_bind; [apply ends_a_line|intros _]. intros w. unfold bind, get. apply headers_loop_ends. lia.
  - cbn [fst snd]. destruct c.
    + intros w. unfold read_chunked_body, bind, get. apply chunks_loop_ends. lia.
    + unfold read_sized_body, pre_build, use_ptr. repeat first [apply ends_readChunk | apply ends_skipN | ends_tac].
Qed.
Lemma ends_send_headers l : ends (send_headers l).
Proof. induction l as [|(n, v) l IH]; cbn [send_headers]; [ends_tac|]. unfold sending. ends_tac. exact IH. Qed.

(* Whatever the peer, the TLS library and the allocator do: HTTPAPI_ExecuteRequest comes to an
   end. *)
Theorem request_ends : forall h r w, HTTPAPI_ExecuteRequest h r w <> Never.
Proof.
  intros h r w. unfold HTTPAPI_ExecuteRequest.
  assert (ends (execute h r)) as E.
  { unfold execute. apply ends_bind; [apply ends_change|intros _].
    destruct h as [h|]; [|apply ends_fail]. destruct (r_path r); [|apply ends_fail]. destruct (r_headers r); [|apply ends_fail].
    destruct (method_of (r_type r)); [|apply ends_fail].
    apply ends_bind; [unfold connecting, con_load_certificate, con_connect, con_close, on_con; ends_tac|intros _].
    apply ends_bind; [|intros _; apply ends_read_response].
    unfold send_request. destruct (_ <=? _); [apply ends_fail|]. apply ends_bind; [apply ends_change|intros _].
    unfold sending. apply ends_bind; [ends_tac|intros _]. apply ends_bind; [apply ends_send_headers|intros _]. ends_tac. }
  specialize (E w). destruct (execute h r w); try discriminate. congruence.
Qed.

(** * What comes before the response *)

Definition before_reading (a b : world) : Prop :=
  w_in b = w_in a /\ w_sched b = w_sched a /\ w_resp b = w_resp a /\ w_body b = w_body a /\ w_status b = w_status a /\ w_lens b = w_lens a /\
  (memory a -> memory b).
Lemma br_refl w : before_reading w w. Proof. repeat split; auto. Qed.
Lemma br_trans a b c : before_reading a b -> before_reading b c -> before_reading a c.
Proof. intros (?&?&?&?&?&?&?) (?&?&?&?&?&?&?). repeat split; try congruence. auto. Qed.
Lemma succeeds_br : keeps before_reading succeeds.
Proof. intros w. unfold succeeds. destruct (w_lib w); repeat split; auto. Qed.
Lemma ctx_free_br : keeps before_reading ctx_free.
Proof. intros w. unfold ctx_free. destruct (c_refs _); repeat split; auto. Qed.
Lemma allocates_br : keeps before_reading allocates.
Proof. intros w. unfold allocates. destruct (w_alloc w) eqn:E; repeat split; auto. unfold memory. rewrite E. intros M. cbn. now inversion M. Qed.
Lemma send_all_br bs : keeps before_reading (send_all bs).
Proof. intros w. unfold send_all. destruct (_ <=? _); [apply br_refl|]. destruct (w_sends w); [repeat split; auto|]. destruct (_ <? 0); repeat split; auto. Qed.
Ltac br_tac := repeat first [apply succeeds_br | apply ctx_free_br | apply allocates_br | apply send_all_br
  | apply keeps_change; intros ?; solve [repeat split; auto] | frame_step br_refl br_trans].
Lemma connecting_br h : keeps before_reading (connecting h).
Proof. unfold connecting, con_load_certificate, con_connect, con_close, on_con. br_tac. Qed.
Lemma send_headers_br l : keeps before_reading (send_headers l).
Proof. induction l as [|(n, v) l IH]; cbn [send_headers]; [br_tac|]. unfold sending. br_tac. exact IH. Qed.
Lemma send_request_br m p hs c n : keeps before_reading (send_request m p hs c n).
Proof.
  unfold send_request. destruct (_ <=? _); [br_tac|]. unfold sending.
  apply (keeps_bind _ br_trans); [br_tac|intros _]. apply (keeps_bind _ br_trans); [br_tac|intros _].
  apply (keeps_bind _ br_trans); [apply send_headers_br|intros _]. br_tac.
Qed.

(* No undefined behaviour there. *)
Definition defined {A} (m : H A) : Prop := forall w w', m w <> Undef w'.
Lemma defined_bind {A B} (m : H A) (f : A -> H B) : defined m -> (forall a, defined (f a)) -> defined (bind m f).
Proof. intros P Q w w'. unfold bind. specialize (P w). destruct (m w) as [a w1|c w1|w1|]; try discriminate; [apply Q|]. intros _. now apply (P w1). Qed.
Lemma defined_ret {A} (a : A) : defined (ret a). Proof. intros w w'. discriminate. Qed.
Lemma defined_fail {A} c : defined (@fail A c). Proof. intros w w'. discriminate. Qed.
Lemma defined_get : defined get. Proof. intros w w'. discriminate. Qed.
Lemma defined_change f : defined (change f). Proof. intros w w'. discriminate. Qed.
Lemma defined_allocates : defined allocates. Proof. intros w w'. unfold allocates. destruct (w_alloc w); discriminate. Qed.
Lemma defined_succeeds : defined succeeds. Proof. intros w w'. unfold succeeds. destruct (w_lib w); discriminate. Qed.
Lemma defined_send_all bs : defined (send_all bs).
Proof. intros w w'. unfold send_all. destruct (_ <=? _); [discriminate|]. destruct (w_sends w); [discriminate|]. destruct (_ <? 0); discriminate. Qed.
Ltac defined_tac := repeat first
  [ apply defined_ret | apply defined_fail | apply defined_get | apply defined_change | apply defined_allocates | apply defined_succeeds | apply defined_send_all
  | apply defined_bind; [|intros ?]
  | match goal with |- defined (if ?b then _ else _) => destruct b end
  | match goal with |- defined (match ?b with _ => _ end) => destruct b end ].
Lemma send_headers_defined l : defined (send_headers l).
Proof. induction l as [|(n, v) l IH]; cbn [send_headers]; [defined_tac|]. unfold sending. defined_tac. exact IH. Qed.
Lemma send_request_defined m p hs c n : defined (send_request m p hs c n).
Proof.
  unfold send_request. destruct (_ <=? _); [defined_tac|]. unfold sending.
  apply defined_bind; [defined_tac|intros _]. apply defined_bind; [defined_tac|intros _].
  apply defined_bind; [apply send_headers_defined|intros _]. defined_tac.
Qed.
(* close is called by connect on a connection that is not connected, and then does nothing *)
Definition idle (w w' : world) : Prop := c_connected (w_con w) = false -> c_connected (w_con w') = false.
Lemma connect_defined w w' : c_connected (w_con w) = false -> con_connect w <> Undef w'.
Proof.
  intros C. unfold con_connect, bind, get. destruct (c_ctx (w_con w)); cbn [negb]; [|discriminate].
  destruct (c_open (w_con w)); [discriminate|].
  assert (forall w, exists b w1, succeeds w = Ret b w1 /\ w_con w1 = w_con w) as SU.
  { intros v. unfold succeeds. destruct (w_lib v); do 2 eexists; (split; [reflexivity|reflexivity]). }
  destruct (SU w) as (b1 & w1 & -> & C1). destruct b1; cbn [negb]; [|discriminate]. unfold on_con, change.
  destruct (SU (set_con (con_open true (w_con w1)) w1)) as (b2 & w2 & -> & C2). destruct b2; cbn [negb]; [|discriminate].
  destruct (SU w2) as (b3 & w3 & -> & C3). destruct b3; cbn [negb].
  - destruct (SU w3) as (b4 & w4 & -> & C4). destruct b4; cbn [negb]; [|discriminate].
    destruct (SU (set_con (con_ssl (S (c_ssls (w_con w4))) (w_con w4)) w4)) as (b5 & w5 & -> & C5). destruct b5; discriminate.
  - unfold con_close, bind, get. rewrite C3, C2. cbn [w_con set_con con_open c_connected]. rewrite C1, C. discriminate.
Qed.
Lemma connecting_defined h : defined (connecting h).
Proof.
  intros w w'. unfold connecting, bind, get. destruct (c_connected (w_con w)) eqn:C; [discriminate|].
  assert (exists b w1, (match h_certificate h with Some _ => con_load_certificate | None => ret true end) w = Ret b w1 /\ w_con w1 = w_con w) as (b & w1 & E & C1).
  { destruct (h_certificate h); [|do 2 eexists; split; reflexivity]. unfold con_load_certificate, bind, get, succeeds.
    destruct (negb _); [do 2 eexists; split; reflexivity|]. destruct (w_lib w); do 2 eexists; split; reflexivity. }
  rewrite E. destruct b; cbn [negb]; [|discriminate].
  pose proof (connect_defined w1) as D. rewrite C1 in D. destruct (con_connect w1) as [b2 w2|? ?|w2|]; try discriminate.
  - destruct b2; discriminate.
  - exfalso. eapply D; [exact C|reflexivity].
Qed.

(* From a call to the reading of the response. *)
Lemma call_splits h r w : 
  (exists c w1, execute h r w = Fail c w1) \/
  exists w1, execute h r w = read_response r w1 /\ before_reading (fresh w) w1.
Proof.
  assert (forall o, o = execute h r w -> (exists c w1, o = Fail c w1) \/ exists w1, o = read_response r w1 /\ before_reading (fresh w) w1) as G; [|now apply G].
  intros o EO. unfold execute in EO. unfold bind at 1, change in EO. fold (fresh w) in EO.
  destruct h as [h|]; [|left; do 2 eexists; exact EO]. destruct (r_path r) as [p|]; [|left; do 2 eexists; exact EO].
  destruct (r_headers r) as [hs|]; [|left; do 2 eexists; exact EO]. destruct (method_of (r_type r)) as [m|]; [|left; do 2 eexists; exact EO].
  pose proof (connecting_br h (fresh w)) as K1. pose proof (connecting_defined h (fresh w)) as D1.
  assert (ends (connecting h)) as N1 by (unfold connecting, con_load_certificate, con_connect, con_close, on_con; ends_tac). specialize (N1 (fresh w)).
  unfold bind at 1 in EO. destruct (connecting h (fresh w)) as [u w1|c w1|w1|]; [|left; do 2 eexists; exact EO|exfalso; now apply (D1 w1)|congruence].
  pose proof (send_request_br m p hs (r_content r) (r_length r) w1) as K2. pose proof (send_request_defined m p hs (r_content r) (r_length r) w1) as D2.
  assert (ends (send_request m p hs (r_content r) (r_length r))) as N2.
  { unfold send_request. destruct (_ <=? _); [apply ends_fail|]. apply ends_bind; [apply ends_change|intros _].
    unfold sending. apply ends_bind; [ends_tac|intros _]. apply ends_bind; [apply ends_send_headers|intros _]. ends_tac. }
  specialize (N2 w1).
  unfold bind at 1 in EO. destruct (send_request m p hs (r_content r) (r_length r) w1) as [u2 w2|c w2|w2|]; [|left; do 2 eexists; exact EO|exfalso; now apply (D2 w2)|congruence].
  right. exists w2. split; [exact EO|]. eapply br_trans; eassumption.
Qed.

(** * C107 *)

Lemma executed h r w : no_errors w -> memory w -> (r_body r = true -> w_body w = None) ->
  match execute h r w with
  | Ret res w' => lengths_ok w' -> res = HTTPAPI_OK /\ exists bytes code fs content cut, w_in w = bytes ++ w_in w' /\ response bytes code fs content cut /\
           w_status w' = (if r_status r then Some code else None) /\
           w_resp w' = (if r_response r then headers_after fs (w_resp w) else w_resp w) /\
           if r_body r then filled content (w_body w') else w_body w' = w_body w
  | Undef w' => ~ lengths_ok w'
  | _ => True
  end.
Proof.
  intros NE M B. destruct (call_splits h r w) as [(c & w1 & ->)|(w1 & -> & (I & SC & R & BO & ST & LE & M1))]; [exact Logic.I|].
  pose proof (response_any r w1) as G. unfold no_errors in *. rewrite SC, LE, BO in G. specialize (G NE (M1 M) eq_refl B).
  unfold means in G. destruct (read_response r w1) as [res w'|? ?|w'|]; auto.
  intros LO. destruct (G LO) as (-> & bytes & code & fs & content & cut & IN & RS & S' & R' & B'). split; [reflexivity|].
  exists bytes, code, fs, content, cut. split; [rewrite <- IN, I; reflexivity|]. split; [exact RS|].
  split; [rewrite S', ST; reflexivity|]. split; [rewrite R', R; reflexivity|]. destruct (r_body r); [exact B'|rewrite B', ?BO; first [reflexivity | exact BO]].
Qed.

(* Undefined behaviour needs a receive that fails, an allocation that fails, a response buffer
   that is not empty, or announced lengths that are too big.  (Each of the four is enough: below.) *)
Theorem no_undefined_partial : forall h r w w',
  no_errors w -> memory w -> (r_body r = true -> w_body w = None) ->
  HTTPAPI_ExecuteRequest h r w = Undefined w' -> ~ lengths_ok w'.
Proof.
  intros h r w w' NE M B E. pose proof (executed h r w NE M B) as G. unfold HTTPAPI_ExecuteRequest in E.
  destruct (execute h r w); try discriminate E. injection E as <-. exact G.
Qed.

(* No failure has the code of success. *)
Ltac nf := repeat first
  [ progress auto | discriminate
  | match goal with FB : context [bind] |- forall v v1, bind _ _ v <> _ => apply FB; [|intros ?] end
  | match goal with |- forall v v1, (if ?b then _ else _) v <> _ => destruct b end
  | match goal with |- forall v v1, (match ?b with _ => _ end) v <> _ => destruct b end ].
Lemma fail_code h r : forall v v1, execute h r v <> Fail HTTPAPI_OK v1.
Proof.
  assert (forall A B (m : H A) (f : A -> H B), (forall v v1, m v <> Fail HTTPAPI_OK v1) -> (forall a v v1, f a v <> Fail HTTPAPI_OK v1) -> forall v v1, bind m f v <> Fail HTTPAPI_OK v1) as FB.
  { intros A B m f P Q v v1. unfold bind. specialize (P v). destruct (m v); try discriminate; [apply Q|]. intros [= -> ->]. now apply (P v1). }
  assert (forall n v v1, receive n v <> Fail HTTPAPI_OK v1) as F1.
  { intros n v v1. unfold receive. destruct (w_sched v); [discriminate|]. destruct (n <? 0); [discriminate|]. destruct (_ <? 0); [discriminate|]. cbn zeta. destruct (_ =? 0); discriminate. }
  assert (forall d o bs v v1, store d o bs v <> Fail HTTPAPI_OK v1) as F2.
  { intros d o bs v v1. unfold store. destruct bs; [discriminate|]. destruct d; [destruct (_ <=? _); discriminate|]. destruct (w_body v); [|discriminate]. cbn zeta. destruct (_ <=? _); discriminate. }
  assert (forall v v1, allocates v <> Fail HTTPAPI_OK v1) as F3 by (intros v v1; unfold allocates; destruct (w_alloc v); discriminate).
  assert (forall v v1, succeeds v <> Fail HTTPAPI_OK v1) as F4 by (intros v v1; unfold succeeds; destruct (w_lib v); discriminate).
  assert (forall v v1, buf_text v <> Fail HTTPAPI_OK v1) as F5 by (intros v v1; unfold buf_text; destruct (c_string_of _); discriminate).
  assert (forall v v1, ctx_free v <> Fail HTTPAPI_OK v1) as F6 by (intros v v1; unfold ctx_free; destruct (c_refs _); discriminate).
  assert (forall bs v v1, send_all bs v <> Fail HTTPAPI_OK v1) as F7.
  { intros bs v v1. unfold send_all. destruct (_ <=? _); [discriminate|]. destruct (w_sends v); [discriminate|]. destruct (_ <? 0); discriminate. }
  assert (forall room line c v v1, line_loop room line c v <> Fail HTTPAPI_OK v1) as L1.
  { induction room as [|room IH]; intros line c; cbn [line_loop]; destruct (c =? 13)%N; nf. }
  assert (forall v v1, a_line v <> Fail HTTPAPI_OK v1) as L2 by (unfold a_line, readLine; nf).
  assert (forall d n v v1, readChunk d n v <> Fail HTTPAPI_OK v1) as L3.
  { intros d n v v1. unfold readChunk. revert v1. generalize (S (length (w_sched v))). intros fuel v1. generalize 0. revert v v1 n.
    induction fuel as [|fuel IH]; intros v v1 n o; [discriminate|]. cbn [chunk_loop]. destruct (n =? 0); [discriminate|].
    revert v v1. apply FB; [apply F1|intros p]. apply FB; [apply F2|intros _]. cbn zeta. destruct (_ =? 0); [discriminate|].
    intros v v1. apply IH. }
  assert (forall fuel o n v v1, skip_loop fuel o n v <> Fail HTTPAPI_OK v1) as L4.
  { induction fuel as [|fuel IH]; intros o n; [discriminate|]. cbn [skip_loop]. nf. }
  assert (forall n v v1, skipN n v <> Fail HTTPAPI_OK v1) as L4' by (unfold skipN; auto).
  assert (forall v v1, crlf_missing v <> Fail HTTPAPI_OK v1) as L5 by (unfold crlf_missing; nf).
  assert (forall s l c v v1, framing s l c v <> Fail HTTPAPI_OK v1) as L6 by (unfold framing; intros s l c; nf).
  assert (forall s v v1, add_header r s v <> Fail HTTPAPI_OK v1) as L7 by (unfold add_header; intros s; nf).
  assert (forall fuel l c v v1, headers_loop fuel r l c v <> Fail HTTPAPI_OK v1) as L8.
  { induction fuel as [|fuel IH]; intros l c; [discriminate|]. cbn [headers_loop]. nf. }
  assert (forall fuel s c v v1, chunks_loop fuel r s c v <> Fail HTTPAPI_OK v1) as L9.
  { induction fuel as [|fuel IH]; intros s c; [discriminate|]. cbn [chunks_loop]. unfold enlarge, use_ptr. nf. }
  assert (forall l v v1, send_headers l v <> Fail HTTPAPI_OK v1) as L10.
  { induction l as [|(n, x) l IH]; cbn [send_headers]; unfold sending; nf. }
  unfold execute, connecting, con_load_certificate, con_connect, con_close, on_con, send_request, sending, read_response, read_status, read_headers, read_chunked_body, read_sized_body, pre_build, use_ptr.
  nf.
Qed.

(* HTTPAPI_OK: the bytes received were a response, and what was stored is what it says; nothing
   beyond it was received.  (If it was cut, see C108.) *)
Theorem ok_means_partial : forall h r w w',
  no_errors w -> memory w -> (r_body r = true -> w_body w = None) ->
  HTTPAPI_ExecuteRequest h r w = Returns HTTPAPI_OK w' -> lengths_ok w' ->
  exists bytes code fs content cut, w_in w = bytes ++ w_in w' /\ response bytes code fs content cut /\
    w_status w' = (if r_status r then Some code else None) /\
    w_resp w' = (if r_response r then headers_after fs (w_resp w) else w_resp w) /\
    (if r_body r then filled content (w_body w') else w_body w' = w_body w).
Proof.
  intros h r w w' NE M B E LO. pose proof (executed h r w NE M B) as G. unfold HTTPAPI_ExecuteRequest in E.
  destruct (execute h r w) as [res w1|c w1|w1|] eqn:X; try discriminate E.
  - injection E as -> <-. apply (G LO).
  - injection E as -> <-. exfalso. now apply fail_code in X.
Qed.
