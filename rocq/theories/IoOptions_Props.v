From Verif Require Import Base Strings_Model Strings_Props IoOptions_Model IoOptions_Spec.
Local Open Scope Z_scope.

Lemma named n : (strcmp (str "TrustedCerts") n =? 0) = true <-> n = trusted_certs_option.
Proof. rewrite Z.eqb_eq, strcmp_eq. unfold trusted_certs_option. split; congruence. Qed.
Lemma not_named n : n <> trusted_certs_option -> (strcmp (str "TrustedCerts") n =? 0) = false.
Proof. intros H. apply not_true_iff_false. now rewrite named. Qed.

Section Any.
Variable pem : list N -> list cert.

(** * Any other option goes to the io at the bottom, unchanged, and its answer comes back (C150) *)
Theorem option_passed s n v a w : n <> trusted_certs_option ->
  xio_setoption pem (Some s) (Some n) v a w =
    match below s with
    | SocketIo => Some (532, Some s, w)
    | Own f l => Some (f n v, Some {| layers := layers s; below := Own f (l ++ [(n, v)]) |}, w)
    end.
Proof.
  intros H. destruct s as [ls b]. unfold xio_setoption. cbn [layers below].
  assert (L : layers_setoption pem ls b n v a w =
    match b with SocketIo => Some (532, {| layers := ls; below := b |}, w)
    | Own f l => Some (f n v, {| layers := ls; below := Own f (l ++ [(n, v)]) |}, w) end).
  { induction ls as [|l ls IH]; cbn [layers_setoption]; [destruct b; reflexivity|].
    rewrite (not_named n H), IH. destruct l, b; reflexivity. }
  rewrite L. destruct b; reflexivity.
Qed.
(* a stack over a socket refuses it, and stays as it is *)
Corollary option_unknown_refused s n v a w : n <> trusted_certs_option -> below s = SocketIo ->
  exists r, r <> 0 /\ xio_setoption pem (Some s) (Some n) v a w = Some (r, Some s, w).
Proof. intros H B. rewrite option_passed by auto. rewrite B. now exists 532. Qed.
Theorem option_null x n v a w : x = None \/ n = None -> exists r, r <> 0 /\ xio_setoption pem x n v a w = Some (r, x, w).
Proof. intros [->| ->]; exists 174; (split; [lia|]); cbn; [auto|]. destruct x; auto. Qed.

(** * TrustedCerts goes to the first io that knows it (C151) *)
Lemma through_schannel k ls b n v a w : layers_setoption pem (repeat Schannel k ++ ls) b n v a w =
  match layers_setoption pem ls b n v a w with
  | Some (r, s, w) => Some (r, {| layers := repeat Schannel k ++ layers s; below := below s |}, w)
  | None => None
  end.
Proof.
  induction k as [|k IH]; cbn [repeat app layers_setoption].
  - destruct (layers_setoption pem ls b n v a w) as [ [ [r s] w']|]; auto. destruct s; auto.
  - rewrite IH. destruct (layers_setoption pem ls b n v a w) as [ [ [r s] w']|]; auto.
Qed.
(* an OpenSSL io: one certificate more when 0 is returned, none otherwise; nothing else changes *)
Theorem trusted_certs_openssl k t ls b v a w r x w' :
  xio_setoption pem (Some {| layers := repeat Schannel k ++ OpenSsl t :: ls; below := b |}) (Some trusted_certs_option) v a w = Some (r, x, w') ->
  exists t', x = Some {| layers := repeat Schannel k ++ OpenSsl t' :: ls; below := b |} /\
    (r = 0 -> exists s c more, v = VText s /\ pem s = c :: more /\ t' = t ++ [c]) /\ (r <> 0 -> t' = t).
Proof.
  unfold xio_setoption. cbn [layers below]. rewrite through_schannel. cbn [layers_setoption].
  rewrite (proj2 (named _) eq_refl). unfold openssl_trusted_certs.
  destruct (a_store a); cbn [negb]; [destruct v as [|s|p]; [| |discriminate]; [|destruct (a_bio a); cbn [negb]; [cbn [take_id]; destruct (pem s) as [|c more] eqn:P; [|destruct (a_add a); cbn [negb] ]|] ]|];
    intros E; injection E as <- <- <-; eexists; (split; [reflexivity|split; intros R; try lia; auto]); try discriminate.
  exists s, c, more. auto.
Qed.
(* it is taken when the libraries succeed *)
Theorem trusted_certs_openssl_taken k t ls b s c more a w : pem s = c :: more ->
  a_store a = true -> a_bio a = true -> a_add a = true -> exists x w',
  xio_setoption pem (Some {| layers := repeat Schannel k ++ OpenSsl t :: ls; below := b |}) (Some trusted_certs_option) (VText s) a w = Some (0, x, w').
Proof.
  intros P A1 A2 A3. unfold xio_setoption. cbn [layers below]. rewrite through_schannel. cbn [layers_setoption].
  rewrite (proj2 (named _) eq_refl). unfold openssl_trusted_certs. rewrite A1, A2, A3, P. cbn. eauto.
Qed.
(* a wolfSSL io: what the library took, and 0 exactly when it reports success *)
Theorem trusted_certs_wolfssl k t ls b v a w r x w' :
  xio_setoption pem (Some {| layers := repeat Schannel k ++ Wolf t :: ls; below := b |}) (Some trusted_certs_option) v a w = Some (r, x, w') ->
  (r = 0 <-> a_wolf a = true) /\ w' = w /\
  x = Some {| layers := repeat Schannel k ++ Wolf (t ++ firstn (a_loaded a) (offered pem v)) :: ls; below := b |}.
Proof.
  unfold xio_setoption. cbn [layers below]. rewrite through_schannel. cbn [layers_setoption].
  rewrite (proj2 (named _) eq_refl). unfold wolfssl_trusted_certs. destruct v as [|s|p]; try discriminate.
  destruct (a_wolf a); cbn [negb]; intros E; injection E as <- <- <-; (split; [split; [intros; try lia; auto|intros; try discriminate; auto]|split; auto]).
Qed.
(* Schannel ios over a socket have no such option *)
Theorem trusted_certs_schannel_refused k v a w : let s := {| layers := repeat Schannel k; below := SocketIo |} in
  exists r, r <> 0 /\ xio_setoption pem (Some s) (Some trusted_certs_option) v a w = Some (r, Some s, w).
Proof.
  exists 532. split; [lia|]. unfold xio_setoption. cbn [layers below].
  pose proof (through_schannel k [] SocketIo trusted_certs_option v a w) as T. rewrite app_nil_r in T. rewrite T. cbn. now rewrite app_nil_r.
Qed.

(* All histories: what an OpenSSL io trusts in the end is what it trusted before and the first certificate of
   each call that returned 0; the ios it stands on are as they were. *)
Theorem trusted_certs_history calls : forall s t ls b w rs x w', s = {| layers := OpenSsl t :: ls; below := b |} ->
  set_all pem calls (Some s) w = Some (rs, x, w') ->
  trusts x = t ++ firsts pem calls rs /\ length rs = length calls /\
  exists b', x = Some {| layers := OpenSsl (trusts x) :: ls; below := b' |} /\ (b = SocketIo -> b' = SocketIo).
Proof.
  induction calls as [|[ [n v] a] calls IH]; intros s t ls b w rs x w' -> E; cbn [set_all] in E.
  - injection E as <- <- <-. cbn. rewrite app_nil_r. split; [auto|split; auto]. exists b. auto.
  - destruct (xio_setoption pem _ n v a w) as [ [ [r y] w1]|] eqn:X; [|discriminate].
    destruct (set_all pem calls y w1) as [ [ [rs1 z] w2]|] eqn:R; [|discriminate]. injection E as <- <- <-.
    destruct n as [n|].
    2:{ cbn in X. injection X as <- <- <-. destruct (IH _ t ls b _ rs1 z w2 eq_refl R) as (T & L & b' & Z & B).
        cbn [firsts length]. split; [exact T|split; [lia|eauto] ]. }
    cbn [firsts length]. destruct (list_eq_dec N.eq_dec n trusted_certs_option) as [->|D].
    + destruct (trusted_certs_openssl 0 t ls b v a w r y w1 X) as (t' & -> & T1 & T2). cbn [repeat app] in R.
      destruct (IH _ t' ls b w1 rs1 z w2 eq_refl R) as (T & L & b' & Z & B). split; [|split; [lia|eauto] ].
      rewrite T. destruct (Z.eqb_spec r 0) as [E|E]; cbn [andb].
      * destruct (T1 E) as (s & c & more & -> & P & ->). cbn [offered]. rewrite P. cbn. now rewrite <- app_assoc.
      * rewrite (T2 E). reflexivity.
    + rewrite option_passed in X by auto. cbn [below layers] in X. rewrite andb_false_r. cbn [app].
      destruct b as [|f l]; injection X as <- <- <-; destruct (IH _ t ls _ _ rs1 z w2 eq_refl R) as (T & L & b' & Z & B); (split; [exact T|split; [lia|] ]); exists b'; split; auto.
      discriminate.
Qed.

(** * BIOs and certificates (C152) *)
Lemma count_app f a b : count f (a ++ b) = (count f a + count f b)%nat.
Proof. unfold count. now rewrite filter_app, app_length. Qed.
(* what one call adds *)
Lemma call_uses ls b n v a w r s w' : layers_setoption pem ls b n v a w = Some (r, s, w') ->
  exists l, uses w' = uses w ++ l /\
   (l = [] \/ (exists i, l = [BioNew i; BioFree i]) \/ (r <> 0 /\ exists i x, l = [BioNew i; X509New x; X509Free x; BioFree i])
    \/ (r = 0 /\ exists i x, l = [BioNew i; X509New x; X509UpRef x; BioFree i])).
Proof.
  revert r s w'. induction ls as [|y ls IH]; intros r s w'; cbn [layers_setoption].
  { destruct (bottom_setoption b n v). intros E. injection E as <- <- <-. exists []. rewrite app_nil_r. auto. }
  assert (P : match layers_setoption pem ls b n v a w with Some (r, s, w) => Some (r, {| layers := y :: layers s; below := below s |}, w) | None => None end = Some (r, s, w') ->
    exists l, uses w' = uses w ++ l /\
   (l = [] \/ (exists i, l = [BioNew i; BioFree i]) \/ (r <> 0 /\ exists i x, l = [BioNew i; X509New x; X509Free x; BioFree i])
    \/ (r = 0 /\ exists i x, l = [BioNew i; X509New x; X509UpRef x; BioFree i]))).
  { destruct (layers_setoption pem ls b n v a w) as [ [ [r1 s1] w1]|]; [|discriminate]. intros E. injection E as <- <- <-. eauto. }
  destruct y as [t|t|]; auto; destruct (strcmp _ _ =? 0); auto.
  - unfold openssl_trusted_certs.
    destruct (a_store a); cbn [negb]; [destruct v as [|p|p]; [| |discriminate]; [|destruct (a_bio a); cbn [negb]; [cbn [take_id]; destruct (pem p) as [|c more]; [|destruct (a_add a); cbn [negb] ]|] ]|];
    intros E; injection E as <- <- <-; cbn [note uses]; rewrite <- ?app_assoc; cbn [app]; eexists; (split; [try reflexivity; symmetry; apply app_nil_r|]); auto.
    + right. left. eauto.
    + right. right. right. eauto.
    + right. right. left. split; [lia|eauto].
  - unfold wolfssl_trusted_certs. destruct v; try discriminate. destruct (negb _); intros E; injection E as <- <- <-; exists []; rewrite app_nil_r; auto.
Qed.
Lemma xio_uses x n v a w r y w' : xio_setoption pem x n v a w = Some (r, y, w') ->
  exists l, uses w' = uses w ++ l /\
   (l = [] \/ (exists i, l = [BioNew i; BioFree i]) \/ (r <> 0 /\ exists i x, l = [BioNew i; X509New x; X509Free x; BioFree i])
    \/ (r = 0 /\ exists i x, l = [BioNew i; X509New x; X509UpRef x; BioFree i])).
Proof.
  unfold xio_setoption. destruct x as [s|]; [destruct n as [n|]|].
  - destruct (layers_setoption _ _ _ _ _ _ _) as [ [ [r1 s1] w1]|] eqn:E; [|discriminate]. intros X. injection X as <- <- <-. eapply call_uses; eauto.
  - intros X. injection X as <- <- <-. exists []. rewrite app_nil_r. auto.
  - intros X. injection X as <- <- <-. exists []. rewrite app_nil_r. auto.
Qed.
(* every BIO made is freed, whatever fails *)
Theorem options_bios_freed calls : forall x w rs y w', tidy w -> set_all pem calls x w = Some (rs, y, w') -> tidy w'.
Proof.
  induction calls as [|[ [n v] a] calls IH]; intros x w rs y w' T E; cbn [set_all] in E; [injection E as <- <- <-; auto|].
  destruct (xio_setoption pem x n v a w) as [ [ [r z] w1]|] eqn:X; [|discriminate].
  destruct (set_all pem calls z w1) as [ [ [rs1 z1] w2]|] eqn:R; [|discriminate]. injection E as <- <- <-.
  eapply IH; [|exact R].
  destruct (xio_uses _ _ _ _ _ _ _ _ X) as (l & U & H). intros b. unfold tidy, bios_made, bios_freed in *. rewrite U, !count_app, (T b).
  destruct H as [-> | [ (i & ->) | [ (_ & i & c & ->) | (_ & i & c & ->) ] ] ]; cbn; auto; unfold count; cbn; destruct (i =? b)%nat; auto.
Qed.
(* A call that returns an error gives back every certificate it made. *)
Theorem options_certs_freed_partial x n v a w r y w' : xio_setoption pem x n v a w = Some (r, y, w') -> r <> 0 ->
  forall c, refs c (uses w') - held c (uses w') = refs c (uses w) - held c (uses w).
Proof.
  intros X R c. destruct (xio_uses _ _ _ _ _ _ _ _ X) as (l & U & H). unfold refs, held. rewrite U, !count_app.
  destruct H as [-> | [ (i & ->) | [ (_ & i & d & ->) | (Z & i & d & ->) ] ] ]; try contradiction; unfold count; cbn; try lia. destruct (d =? c)%nat; cbn; lia.
Qed.
(* A call that succeeds does not: beside the store's there is a reference nobody holds. *)
Theorem options_cert_leak_refuted t ls b v a w x w' :
  xio_setoption pem (Some {| layers := OpenSsl t :: ls; below := b |}) (Some trusted_certs_option) v a w = Some (0, x, w') ->
  exists c, refs c (uses w') - held c (uses w') = refs c (uses w) - held c (uses w) + 1.
Proof.
  intros X. unfold xio_setoption in X. cbn [layers below layers_setoption] in X. rewrite (proj2 (named _) eq_refl) in X. unfold openssl_trusted_certs in X.
  destruct (a_store a); cbn [negb] in X; [|discriminate]. destruct v as [|p|p]; try discriminate. destruct (a_bio a); cbn [negb] in X; [|discriminate].
  cbn [take_id] in X. destruct (pem p); [discriminate|]. destruct (a_add a); cbn [negb] in X; [|discriminate]. injection X as <- <-.
  exists (S (fresh_id w)). cbn [note uses fresh_id]. rewrite <- !app_assoc. cbn [app]. unfold refs, held. rewrite !count_app. unfold count. cbn.
  rewrite Nat.eqb_refl. cbn. lia.
Qed.
(* Of a bundle only the first certificate is trusted, though 0 is returned. *)
Theorem trusted_bundle_refuted t ls b s c d more a w x w' : pem s = c :: d :: more -> d <> c -> ~ In d t ->
  xio_setoption pem (Some {| layers := OpenSsl t :: ls; below := b |}) (Some trusted_certs_option) (VText s) a w = Some (0, x, w') ->
  ~ In d (trusts x).
Proof.
  intros P D N X. destruct (trusted_certs_openssl 0 t ls b _ a w 0 x w' X) as (t' & -> & T & _). cbn.
  destruct (T eq_refl) as (s' & c' & more' & E & P' & ->). injection E as <-. rewrite P in P'. injection P' as <- _.
  rewrite in_app_iff. cbn. intuition congruence.
Qed.
End Any.

(* A client sets the trusted certificates twice, an option of its own io and one unknown *)
Definition some_pem (t : list N) : list cert := map N.to_nat t.
Definition fine := {| a_store := true; a_bio := true; a_add := true; a_wolf := true; a_loaded := 1 |}.
Definition tries : list call :=
  [(Some trusted_certs_option, VText [7; 8]%N, fine); (None, VNull, fine); (Some (str "x"), VOther 3, fine);
   (Some trusted_certs_option, VText [], fine); (Some trusted_certs_option, VText [9]%N, fine)].
Example options_case : exists w, set_all some_pem tries (Some {| layers := [OpenSsl [1%nat]; Schannel]; below := Own (fun _ _ => 0) [] |}) {| fresh_id := 0; uses := [] |}
  = Some ([0; 174; 0; 674; 0], Some {| layers := [OpenSsl [1; 7; 9]%nat; Schannel]; below := Own (fun _ _ => 0) [(str "x", VOther 3)] |}, w) /\
  tidy w /\ refs 1 (uses w) = 2 /\ held 1 (uses w) = 1.
Proof.
  match goal with |- exists _, ?l = _ /\ _ => let l' := eval vm_compute in l in
    match l' with Some (_, _, ?w) => exists w; assert (E : l = l') by (vm_compute; reflexivity); rewrite E end end.
  split; [reflexivity|split; [|split; reflexivity] ]. eapply (options_bios_freed some_pem tries); [|exact E]. intros b. reflexivity.
Qed.
Example wolf_case : exists w, set_all some_pem tries (Some {| layers := [Schannel; Wolf []; OpenSsl []]; below := Own (fun _ _ => 5) [] |}) {| fresh_id := 0; uses := [] |}
  = Some ([0; 174; 5; 0; 0], Some {| layers := [Schannel; Wolf [7; 9]%nat; OpenSsl []]; below := Own (fun _ _ => 5) [(str "x", VOther 3)] |}, w).
Proof. eexists. reflexivity. Qed.
