(* What a user of the Windows CE HTTP adapter (adapters/httpapi_wince.c) can rely on. *)
From Verif Require Import Base Map_Model HttpHeaders_Spec HttpApiMbed_Model HttpApiMbed_Spec HttpApiMbed_Scan HttpApiMbed_Props.
From Verif Require Import HttpCe_Model.
Local Open Scope Z_scope.

(* ------------------------------------------------------------------ *)
(** * Certificates *)

Lemma text_eqb_iff a b : text_eqb a b = true <-> a = b.
Proof. apply HttpApiMbed_Scan.text_eqb_iff. Qed.
Lemma cert_eqb_iff a b : cert_eqb a b = true <-> a = b.
Proof.
  unfold cert_eqb. rewrite !Bool.andb_true_iff, !text_eqb_iff, Bool.eqb_true_iff. destruct a, b; cbn. split.
  - intros (((-> & ->) & ->) & ->). reflexivity.
  - intros E. injection E as -> -> -> ->. repeat split.
Qed.

(* the certificate [c] is a reason to accept [passed] *)
Definition vouches (options : Z) (passed c : certificate) : Prop :=
  c_issuer c = c_issuer passed /\ (options = SSL_OPT_ISSUER_CHECK \/ (options = SSL_OPT_STRICT_CHECK /\ c = passed)).

Lemma search_spec options passed : forall store (prev : bool) n, (prev = true -> 1 <= n)%nat ->
  (fst (search options passed store prev n) = true <-> exists c, In c store /\ vouches options passed c) /\
  snd (search options passed store prev n) =
    (n - (if prev then 1 else 0) + (if fst (search options passed store prev n) then 1 else 0))%nat.
Proof.
  induction store as [|c store IH]; intros prev n P.
  - cbn. split; [|destruct prev; lia]. split; [discriminate|intros (c & [] & _)].
  - assert (Skip : ~ vouches options passed c ->
      ((exists d, In d (c :: store) /\ vouches options passed d) <-> exists d, In d store /\ vouches options passed d)).
    { intros NV. split; intros (d & I & V).
      - destruct I as [-> | I]; [contradiction|]. exists d. auto.
      - exists d. split; [right|]; assumption. }
    cbn [search]. destruct (text_eqb (c_issuer c) (c_issuer passed)) eqn:Ei.
    + apply text_eqb_iff in Ei. set (n' := if prev then n else S n).
      assert (N1 : (1 <= n')%nat) by (unfold n'; destruct prev; [auto|lia]).
      assert (N2 : (n' - 1 = n - (if prev then 1 else 0))%nat) by (unfold n'; destruct prev; lia).
      destruct (Z.eqb_spec options SSL_OPT_ISSUER_CHECK) as [O|O].
      * cbn [fst snd]. split; [|destruct prev; lia]. split; [intros _|reflexivity].
        exists c. split; [left; reflexivity|]. split; [exact Ei|left; exact O].
      * destruct (Z.eqb_spec options SSL_OPT_STRICT_CHECK) as [O2|O2].
        -- destruct (cert_eqb c passed) eqn:Ec.
           ++ apply cert_eqb_iff in Ec. cbn [fst snd]. split; [|destruct prev; lia]. split; [intros _|reflexivity].
              exists c. split; [left; reflexivity|]. split; [exact Ei|right; split; assumption].
           ++ assert (NV : ~ vouches options passed c).
              { intros (_ & [X | (_ & X)]); [contradiction|]. apply cert_eqb_iff in X. congruence. }
              destruct (IH true n' (fun _ => N1)) as (A & B). split; [rewrite A; symmetry; apply Skip; exact NV|].
              rewrite B. lia.
        -- assert (NV : ~ vouches options passed c) by (intros (_ & [X | (X & _)]); contradiction).
           destruct (IH true n' (fun _ => N1)) as (A & B). split; [rewrite A; symmetry; apply Skip; exact NV|].
           rewrite B. lia.
    + assert (NV : ~ vouches options passed c).
      { intros (X & _). apply text_eqb_iff in X. congruence. }
      destruct (IH prev n P) as (A & B). split; [rewrite A; symmetry; apply Skip; exact NV|exact B].
Qed.

Lemma in_stores_spec options passed : forall stores n opened,
  (fst (fst (in_stores options passed stores n opened)) = true <->
     exists store c, In (Some store) stores /\ In c store /\ vouches options passed c) /\
  snd (fst (in_stores options passed stores n opened)) =
    (n + (if fst (fst (in_stores options passed stores n opened)) then 1 else 0))%nat /\
  snd (in_stores options passed stores n opened) = opened.
Proof.
  induction stores as [|[store|] stores IH]; intros n opened.
  - cbn. split; [|lia]. split; [discriminate|intros (s & c & [] & _)].
  - cbn [in_stores]. destruct (search_spec options passed store false n ltac:(discriminate)) as (A & B).
    destruct (search options passed store false n) as [found n'] eqn:E. cbn [fst snd] in A, B.
    destruct found.
    + cbn [fst snd]. repeat split; try lia.
      intros _. destruct A as (A & _). destruct (A eq_refl) as (c & I & V). exists store, c. split; [left; reflexivity|]. auto.
    + destruct (IH n' (S opened - 1)%nat) as (A2 & B2 & C2). split; [|split; lia]. rewrite A2. split.
      * intros (s & c & I & J). exists s, c. split; [right; exact I|exact J].
      * intros (s & c & [I | I] & J & V).
        -- injection I as <-. assert (X : exists c, In c store /\ vouches options passed c) by (exists c; auto).
           apply A in X. discriminate.
        -- exists s, c. auto.
  - cbn [in_stores]. destruct (IH n opened) as (A & B). split; [|exact B]. rewrite A. split; intros (s & c & I & J).
    + exists s, c. split; [right; exact I|exact J].
    + destruct I as [I | I]; [discriminate|]. exists s, c. auto.
Qed.

(* Under the options every connection of the library uses, a certificate is accepted exactly if it
   is an X.509 certificate that is itself in a store that can be opened. *)
Theorem ce_certificate_accepted : forall parsed x509 stores n opened,
  fst (fst (SSLValidateCertHook SSL_OPT_DEFAULT x509 parsed stores n opened)) = SSL_ERR_OKAY <->
  x509 = true /\ exists c store, parsed = Some c /\ In (Some store) stores /\ In c store.
Proof.
  intros parsed x509 stores n opened. unfold SSLValidateCertHook. destruct x509; cbn [negb].
  2:{ cbn. split; [discriminate|intros (X & _); discriminate]. }
  change (SSL_OPT_DEFAULT =? SSL_OPT_NO_CHECK) with false. cbv iota. destruct parsed as [p|].
  2:{ cbn. split; [discriminate|intros (_ & c & s & X & _); discriminate]. }
  destruct (in_stores_spec SSL_OPT_DEFAULT p stores (S n) opened) as (A & _).
  destruct (in_stores SSL_OPT_DEFAULT p stores (S n) opened) as [[found n'] o']. cbn [fst snd] in *. split.
  - destruct found; [|discriminate]. intros _. split; [reflexivity|]. destruct A as (A & _).
    destruct (A eq_refl) as (s & c & I & J & (_ & [X | (_ & ->)])); [discriminate|]. exists p, s. auto.
  - intros (_ & c & s & E & I & J). injection E as <-. replace found with true; [reflexivity|]. symmetry. apply A.
    exists s, p. split; [exact I|]. split; [exact J|]. split; [reflexivity|]. right. split; reflexivity.
Qed.

(* Whatever the options, the hook leaves as many certificate contexts and open stores as it found;
   under "no check" it accepts everything that calls itself X.509, under "issuer" everything whose
   issuer has issued a certificate in a store. *)
Theorem ce_certificates_freed : forall options x509 parsed stores n opened,
  snd (fst (SSLValidateCertHook options x509 parsed stores n opened)) = n /\
  snd (SSLValidateCertHook options x509 parsed stores n opened) = opened.
Proof.
  intros options x509 parsed stores n opened. unfold SSLValidateCertHook. destruct x509; [|split; reflexivity]. cbn [negb].
  destruct (options =? SSL_OPT_NO_CHECK); [split; reflexivity|]. destruct parsed as [p|]; [|split; reflexivity].
  destruct (in_stores_spec options p stores (S n) opened) as (_ & B & C).
  destruct (in_stores options p stores (S n) opened) as [[found n'] o']. cbn [fst snd] in *. destruct found; split; lia.
Qed.
Theorem ce_certificate_options : forall options parsed stores n opened,
  fst (fst (SSLValidateCertHook options true parsed stores n opened)) = SSL_ERR_OKAY <->
  options = SSL_OPT_NO_CHECK \/
  exists p store c, parsed = Some p /\ In (Some store) stores /\ In c store /\ vouches options p c.
Proof.
  intros options parsed stores n opened. unfold SSLValidateCertHook. cbn [negb].
  destruct (Z.eqb_spec options SSL_OPT_NO_CHECK) as [O|O].
  { cbn. split; auto. }
  destruct parsed as [p|].
  2:{ cbn. split; [discriminate|intros [X | (c & s & d & X & _)]; [contradiction|discriminate] ]. }
  destruct (in_stores_spec options p stores (S n) opened) as (A & _).
  destruct (in_stores options p stores (S n) opened) as [[found n'] o']. cbn [fst snd] in *. split.
  - destruct found; [|discriminate]. intros _. right. destruct A as (A & _). destruct (A eq_refl) as (s & c & J).
    exists p, s, c. auto.
  - intros [X | (q & s & c & E & J)]; [contradiction|]. injection E as <-. replace found with true; [reflexivity|].
    symmetry. apply A. exists s, c. exact J.
Qed.

(* Neither the host that was asked for nor the time is looked at, and a certificate that a root in
   the store has signed is refused. *)
Definition a_root := mkcert (str "Root") (str "root") (str "root") false.
Definition an_old := mkcert (str "Root") (str "old") (str "other.example") true.
Definition a_leaf := mkcert (str "Root") (str "leaf") (str "hub.example") false.
Theorem ce_expired_certificate_refuted :
  fst (fst (SSLValidateCertHook SSL_OPT_DEFAULT true (Some an_old) [None; Some [a_root; an_old]; None] 0 0)) = SSL_ERR_OKAY /\
  c_expired an_old = true /\ c_host an_old <> c_host a_leaf.
Proof. split; [reflexivity|]. split; [reflexivity|discriminate]. Qed.
Theorem ce_signed_certificate_refuted : forall n opened,
  fst (fst (SSLValidateCertHook SSL_OPT_DEFAULT true (Some a_leaf) [Some []; Some [a_root]; Some []] n opened)) = SSL_ERR_NO_CERT.
Proof. reflexivity. Qed.

(* ------------------------------------------------------------------ *)
(** * What the platform is told: specification *)

(* what may come after [before] *)
Definition allowed (before : list event) (e : event) : Prop :=
  match e with
  | Opened s => ~ In (Opened s) before
  | Secured s | Hooked s | OnlyTls1 s => In (Opened s) before /\ ~ In (Closed s) before
  | Connected s address port options =>
    In (Opened s) before /\ ~ In (Closed s) before /\ In (Secured s) before /\ In (Hooked s) before /\ In (OnlyTls1 s) before /\
    port = 443%N /\ options = SSL_OPT_STRICT_CHECK
  | Sent s bytes =>
    In (Secured s) before /\ In (Hooked s) before /\ In (OnlyTls1 s) before /\ ~ In (Closed s) before /\
    exists address, In (Connected s address 443 SSL_OPT_STRICT_CHECK) before
  | Closed s => In (Opened s) before /\ ~ In (Closed s) before
  | Started | CleanedUp => True
  end.
Definition secure (tr : list event) : Prop := forall before e after, tr = before ++ e :: after -> allowed before e.

(* ------------------------------------------------------------------ *)
(** * Invariant *)

Lemma secure_nil : secure [].
Proof. intros b e a E. destruct b; discriminate. Qed.
Lemma secure_log tr e : secure tr -> allowed tr e -> secure (tr ++ [e]).
Proof.
  intros S A b f a E. destruct a as [|x a] using rev_ind.
  - apply app_inj_tail in E. destruct E as (-> & ->). exact A.
  - clear IHa. rewrite app_comm_cons, app_assoc in E. apply app_inj_tail in E. destruct E as (-> & ->). apply (S b f a). reflexivity.
Qed.

Definition holds (h : option handle) (s : nat) (up : bool) : Prop := exists d, h = Some d /\ h_sock d = Some (s, up).
Definition owned (tr : list event) (s : nat) (up : bool) : Prop :=
  In (Opened s) tr /\ ~ In (Closed s) tr /\
  (up = true -> In (Secured s) tr /\ In (Hooked s) tr /\ In (OnlyTls1 s) tr /\ exists a, In (Connected s a 443 SSL_OPT_STRICT_CHECK) tr).

Record good (hs : list (option handle)) (t : state) : Prop := {
  g_secure : secure (trace t);
  g_new : forall s, In (Opened s) (trace t) -> (s < next t)%nat;
  g_owned : forall h s up, In h hs -> holds h s up -> owned (trace t) s up;
  g_one : forall i j s up up', holds (nth i hs None) s up -> holds (nth j hs None) s up' -> i = j;
  g_left : forall s, In (Opened s) (trace t) -> In (Closed s) (trace t) \/ exists i up, holds (nth i hs None) s up }.

Lemma nth_put {A} (d a : A) : forall l i j, (i < length l)%nat -> nth j (put_at i a l) d = if (i =? j)%nat then a else nth j l d.
Proof.
  induction l as [|b l IH]; intros i j L; cbn in L; [lia|]. destruct i as [|i], j as [|j]; cbn; try reflexivity. apply IH. lia.
Qed.
Lemma put_out {A} (a : A) : forall l i, (length l <= i)%nat -> put_at i a l = l.
Proof. induction l as [|b l IH]; intros i L; cbn; [reflexivity|]. destruct i; cbn in L; [lia|]. rewrite IH; [reflexivity|lia]. Qed.
Lemma in_put {A} (x a : A) : forall l i, In x (put_at i a l) -> x = a \/ In x l.
Proof.
  induction l as [|b l IH]; intros i I; [contradiction|]. destruct i; cbn in I; destruct I as [<- | I]; cbn; auto.
  destruct (IH i I); auto.
Qed.
Lemma length_put {A} (a : A) : forall l i, length (put_at i a l) = length l.
Proof. induction l; intros [|i]; cbn; auto. Qed.

Lemma In_log e t x : In x (trace (log e t)) <-> In x (trace t) \/ e = x.
Proof. unfold log. cbn. rewrite in_app_iff. cbn. tauto. Qed.

Definition extends (tr tr' : list event) := exists l, tr' = tr ++ l.

(* events about the socket [s] of this handle only *)
Definition about (s : nat) (e : event) : Prop :=
  match e with
  | Secured u | Hooked u | OnlyTls1 u | Connected u _ _ _ | Sent u _ => u = s
  | _ => False
  end.

(* one more event about a socket that is held *)
Lemma good_about hs t i s up e :
  good hs t -> holds (nth i hs None) s up -> about s e -> allowed (trace t) e -> good hs (log e t).
Proof.
  intros G Ho Ab Al.
  assert (NO : forall u, In (Opened u) (trace (log e t)) <-> In (Opened u) (trace t)).
  { intros u. rewrite In_log. split; [|auto]. intros [X | X]; [exact X|]. subst e. cbn in Ab. contradiction. }
  assert (NC : forall u, In (Closed u) (trace (log e t)) <-> In (Closed u) (trace t)).
  { intros u. rewrite In_log. split; [|auto]. intros [X | X]; [exact X|]. subst e. cbn in Ab. contradiction. }
  constructor.
  - cbn. apply secure_log; [apply (g_secure _ _ G)|exact Al].
  - intros u I. cbn. apply (g_new _ _ G). apply NO, I.
  - intros h u b I Hu. destruct (g_owned _ _ G h u b I Hu) as (A & B & C). split; [apply NO, A|]. split; [rewrite NC; exact B|].
    intros E. destruct (C E) as (C1 & C2 & C3 & a & C4). rewrite !In_log. repeat split; auto. exists a. rewrite In_log. auto.
  - apply (g_one _ _ G).
  - intros u I. rewrite NO in I. rewrite NC. apply (g_left _ _ G), I.
Qed.

(* a handle gets another socket, none, or the same one in another condition *)
Lemma good_handle hs t i (d' : option handle) (e : event) t' :
  good hs t -> (i < length hs)%nat ->
  t' = log e (mkst (next t') (g_SslOptions t') (trace t)) ->
  match e with
  | Opened s => s = next t /\ next t' = S (next t) /\ (forall u up, ~ holds (nth i hs None) u up) /\ (exists up, holds d' s up) /\ (forall u up, holds d' u up -> u = s /\ up = false)
  | Closed s => next t' = next t /\ (exists up, holds (nth i hs None) s up) /\ (forall u up, ~ holds d' u up)
  | Connected s a port options => next t' = next t /\ (exists up, holds (nth i hs None) s up) /\ (forall u up, holds d' u up -> u = s) /\ (exists up, holds d' s up) /\
      port = 443%N /\ options = SSL_OPT_STRICT_CHECK /\ In (Secured s) (trace t) /\ In (Hooked s) (trace t) /\ In (OnlyTls1 s) (trace t)
  | _ => False
  end -> good (put_at i d' hs) t'.
Proof.
  intros G L Et C. set (n' := next t') in *. set (g' := g_SslOptions t') in *.
  assert (Tr : trace t' = trace t ++ [e]) by (rewrite Et; reflexivity).
  assert (Nx : next t' = n') by reflexivity.
  assert (II : forall x, In x (trace t') <-> In x (trace t) \/ e = x) by (intros x; rewrite Tr, in_app_iff; cbn; tauto).
  clearbody n' g'. clear Et.
  assert (NTH : forall j, nth j (put_at i d' hs) None = if (i =? j)%nat then d' else nth j hs None) by (intros j; apply nth_put, L).
  assert (INH : forall h, In h hs -> exists j, nth j hs None = h).
  { intros h I. destruct (In_nth hs h None I) as (j & _ & E). exists j. exact E. }
  assert (HIN : forall j s up, holds (nth j hs None) s up -> In (nth j hs None) hs).
  { intros j s up (d & E & _). destruct (Nat.lt_ge_cases j (length hs)) as [X|X]; [apply nth_In, X|]. rewrite nth_overflow in E by exact X. discriminate. }
  assert (INP : forall h, In h (put_at i d' hs) -> exists j, nth j (put_at i d' hs) None = h).
  { intros h I. destruct (In_nth _ h None I) as (j & _ & E). exists j. exact E. }
  destruct e as [s| | | |s a port options| |s| | ]; try contradiction.
  - (* Opened *)
    destruct C as (-> & N & Emp & (up0 & Ho0) & Ho).
    assert (Fresh : ~ In (Opened (next t)) (trace t)) by (intros X; apply (g_new _ _ G) in X; lia).
    assert (FreshC : ~ In (Closed (next t)) (trace t)).
    { intros X. apply in_split in X. destruct X as (b & a & X). pose proof (g_secure _ _ G _ _ _ X) as (Y & _).
      apply Fresh. rewrite X. apply in_or_app. left. exact Y. }
    constructor.
    + rewrite Tr. apply secure_log; [apply (g_secure _ _ G)|exact Fresh].
    + intros s I. apply II in I. rewrite Nx, N. destruct I as [I | I]; [apply (g_new _ _ G) in I; lia|]. injection I as ->. lia.
    + intros h s up I Hh. apply INP in I. destruct I as (j & E). rewrite NTH in E. destruct (Nat.eqb_spec i j).
      * subst h. destruct (Ho _ _ Hh) as (-> & ->). split; [rewrite II; auto|]. split; [|discriminate].
        rewrite II. intros [X | X]; [contradiction|discriminate].
      * subst h. destruct (g_owned _ _ G _ _ _ (HIN _ _ _ Hh) Hh) as (A & B & D). split; [rewrite II; auto|].
        split; [rewrite II; intros [X | X]; [contradiction|discriminate]|]. intros E. destruct (D E) as (D1 & D2 & D3 & a & D4).
        rewrite !II. repeat split; auto. exists a. rewrite II. auto.
    + intros j k s up up' Hj Hk. rewrite NTH in Hj, Hk. destruct (Nat.eqb_spec i j), (Nat.eqb_spec i k).
      * lia.
      * destruct (Ho _ _ Hj) as (-> & _). destruct (g_owned _ _ G _ _ _ (HIN _ _ _ Hk) Hk) as (A & _). contradiction.
      * destruct (Ho _ _ Hk) as (-> & _). destruct (g_owned _ _ G _ _ _ (HIN _ _ _ Hj) Hj) as (A & _). contradiction.
      * apply (g_one _ _ G j k s up up'); assumption.
    + intros s I. apply II in I. destruct I as [I | I].
      * destruct (g_left _ _ G _ I) as [X | (j & up & X)]; [left; rewrite II; auto|]. right. exists j, up. rewrite NTH.
        destruct (Nat.eqb_spec i j); [|exact X]. subst j. exfalso. apply (Emp _ _ X).
      * injection I as <-. right. exists i, up0. rewrite NTH, Nat.eqb_refl. exact Ho0.
  - (* Connected *)
    destruct C as (N & (up0 & Ho0) & Ho & (up1 & Ho1) & -> & -> & S1 & S2 & S3).
    destruct (g_owned _ _ G _ _ _ (HIN _ _ _ Ho0) Ho0) as (A0 & B0 & _).
    assert (NO : forall u, In (Opened u) (trace t') <-> In (Opened u) (trace t)).
    { intros u. rewrite II. split; [|auto]. intros [X | X]; [exact X|discriminate]. }
    assert (NC : forall u, In (Closed u) (trace t') <-> In (Closed u) (trace t)).
    { intros u. rewrite II. split; [|auto]. intros [X | X]; [exact X|discriminate]. }
    constructor.
    + rewrite Tr. apply secure_log; [apply (g_secure _ _ G)|]. cbn. repeat split; auto.
    + intros u I. rewrite Nx, N. apply (g_new _ _ G), NO, I.
    + intros h u up I Hh. apply INP in I. destruct I as (j & E). rewrite NTH in E. destruct (Nat.eqb_spec i j).
      * subst h. rewrite (Ho _ _ Hh) in *. split; [apply NO, A0|]. split; [rewrite NC; exact B0|]. intros _.
        rewrite !II. repeat split; auto. exists a. rewrite II. auto.
      * subst h. destruct (g_owned _ _ G _ _ _ (HIN _ _ _ Hh) Hh) as (A & B & D). split; [apply NO, A|].
        split; [rewrite NC; exact B|]. intros E. destruct (D E) as (D1 & D2 & D3 & b & D4).
        rewrite !II. repeat split; auto. exists b. rewrite II. auto.
    + intros j k u up up' Hj Hk. rewrite NTH in Hj, Hk. destruct (Nat.eqb_spec i j), (Nat.eqb_spec i k).
      * lia.
      * rewrite (Ho _ _ Hj) in *. exfalso. pose proof (g_one _ _ G _ _ _ _ _ Ho0 Hk). lia.
      * rewrite (Ho _ _ Hk) in *. exfalso. pose proof (g_one _ _ G _ _ _ _ _ Ho0 Hj). lia.
      * apply (g_one _ _ G j k u up up'); assumption.
    + intros u I. rewrite NO in I. rewrite NC. destruct (g_left _ _ G _ I) as [X | (j & up & X)]; [auto|].
      right. destruct (Nat.eq_dec i j) as [<- | Ne].
      * exists i. destruct X as (d & E1 & E2). destruct Ho0 as (d0 & E3 & E4). rewrite E1 in E3. injection E3 as <-.
        rewrite E2 in E4. injection E4 as <- <-. exists up1. rewrite NTH, Nat.eqb_refl. exact Ho1.
      * exists j, up. rewrite NTH. destruct (Nat.eqb_spec i j); [contradiction|exact X].
  - (* Closed *)
    destruct C as (N & (up0 & Ho0) & Emp).
    destruct (g_owned _ _ G _ _ _ (HIN _ _ _ Ho0) Ho0) as (A0 & B0 & _).
    assert (NO : forall u, In (Opened u) (trace t') <-> In (Opened u) (trace t)).
    { intros u. rewrite II. split; [|auto]. intros [X | X]; [exact X|discriminate]. }
    constructor.
    + rewrite Tr. apply secure_log; [apply (g_secure _ _ G)|]. split; assumption.
    + intros u I. rewrite Nx, N. apply (g_new _ _ G), NO, I.
    + intros h u up I Hh. apply INP in I. destruct I as (j & E). rewrite NTH in E. destruct (Nat.eqb_spec i j).
      * subst h. exfalso. apply (Emp _ _ Hh).
      * subst h. destruct (g_owned _ _ G _ _ _ (HIN _ _ _ Hh) Hh) as (A & B & D). split; [apply NO, A|].
        split. { rewrite II. intros [X | X]; [contradiction|]. injection X as <-. pose proof (g_one _ _ G _ _ _ _ _ Ho0 Hh). lia. }
        intros E. destruct (D E) as (D1 & D2 & D3 & b & D4).
        rewrite !II. repeat split; auto. exists b. rewrite II. auto.
    + intros j k u up up' Hj Hk. rewrite NTH in Hj, Hk. destruct (Nat.eqb_spec i j), (Nat.eqb_spec i k).
      * lia.
      * exfalso. apply (Emp _ _ Hj).
      * exfalso. apply (Emp _ _ Hk).
      * apply (g_one _ _ G j k u up up'); assumption.
    + intros u I. rewrite NO in I. destruct (g_left _ _ G _ I) as [X | (j & up & X)]; [rewrite II; auto|].
      destruct (Nat.eq_dec i j) as [<- | Ne].
      * left. rewrite II. right. destruct X as (d & E1 & E2). destruct Ho0 as (d0 & E3 & E4). rewrite E1 in E3. injection E3 as <-.
        rewrite E2 in E4. injection E4 as <- <-. reflexivity.
      * right. exists j, up. rewrite NTH. destruct (Nat.eqb_spec i j); [contradiction|exact X].
Qed.

Lemma put_same {A} (d : A) : forall l i, put_at i (nth i l d) l = l.
Proof. induction l as [|b l IH]; intros [|i]; cbn; try reflexivity. rewrite IH. reflexivity. Qed.
Lemma put_put {A} (a b : A) : forall l i, put_at i a (put_at i b l) = put_at i a l.
Proof. induction l as [|c l IH]; intros [|i]; cbn; try reflexivity. rewrite IH. reflexivity. Qed.

(* g_SslOptions is not part of the invariant *)
Lemma good_options hs t o : good hs t -> good hs (mkst (next t) o (trace t)).
Proof. intros [A B C D E]. constructor; assumption. Qed.

Definition sock_of (h : option handle) : option (nat * bool) := match h with Some d => h_sock d | None => None end.
Lemma holds_sock h s up : holds h s up <-> sock_of h = Some (s, up).
Proof.
  unfold holds, sock_of. split.
  - intros (d & -> & E). exact E.
  - destruct h as [d|]; [|discriminate]. intros E. exists d. auto.
Qed.

Lemma nth_some_lt {A} (l : list (option A)) i d : nth i l None = Some d -> (i < length l)%nat.
Proof. intros E. destruct (Nat.lt_ge_cases i (length l)) as [X|X]; [exact X|]. rewrite nth_overflow in E by exact X. discriminate. Qed.

(* httpapi_wince.c:120-160 *)
Lemma sslinit_good hs t i s options x ok t' :
  good hs t -> holds (nth i hs None) s false -> SSLInit (Some s) options x t = (ok, t') ->
  good hs t' /\ next t' = next t /\ g_SslOptions t' = options /\
  (ok = true -> In (Secured s) (trace t') /\ In (Hooked s) (trace t') /\ In (OnlyTls1 s) (trace t')) /\
  (exists l, trace t' = trace t ++ l).
Proof.
  intros G Ho. unfold SSLInit. set (t0 := mkst (next t) options (trace t)).
  assert (G0 : good hs t0) by (apply good_options, G).
  assert (Own : forall u, good hs u -> owned (trace u) s false).
  { intros u Gu. destruct Ho as (d & E & Eh). apply (g_owned _ _ Gu (nth i hs None)); [|exists d; auto].
    apply nth_In. apply (nth_some_lt _ _ _ E). }
  destruct (x_secure x); cbn [negb].
  2:{ intros E. injection E as <- <-. split; [exact G0|]. split; [reflexivity|]. split; [reflexivity|]. split; [discriminate|]. exists []. symmetry. apply app_nil_r. }
  assert (G1 : good hs (log (Secured s) t0)).
  { apply (good_about _ _ i s false); [exact G0|exact Ho|reflexivity|]. destruct (Own _ G0) as (A & B & _). split; assumption. }
  destruct (x_hook x); cbn [negb].
  2:{ intros E. injection E as <- <-. split; [exact G1|]. split; [reflexivity|]. split; [reflexivity|]. split; [discriminate|]. exists [Secured s]. reflexivity. }
  assert (G2 : good hs (log (Hooked s) (log (Secured s) t0))).
  { apply (good_about _ _ i s false); [exact G1|exact Ho|reflexivity|]. destruct (Own _ G1) as (A & B & _). split; assumption. }
  destruct (x_protocols x); cbn [negb].
  2:{ intros E. injection E as <- <-. split; [exact G2|]. split; [reflexivity|]. split; [reflexivity|]. split; [discriminate|]. exists [Secured s; Hooked s]. cbn. rewrite <- app_assoc. reflexivity. }
  intros E. injection E as <- <-. split.
  - apply (good_about _ _ i s false); [exact G2|exact Ho|reflexivity|]. destruct (Own _ G2) as (A & B & _). split; assumption.
  - split; [reflexivity|]. split; [reflexivity|]. split.
    + intros _. rewrite !In_log. auto 8.
    + exists [Secured s; Hooked s; OnlyTls1 s]. cbn. rewrite <- !app_assoc. reflexivity.
Qed.

Lemma connecting_good hs t i d x c d' t' :
  good hs t -> nth i hs None = Some d -> connecting d x t = (c, d', t') ->
  good (put_at i (Some d') hs) t' /\ (c = Ready -> h_sock d' <> None).
Proof.
  intros G Ed. pose proof (nth_some_lt _ _ _ Ed) as L. unfold connecting. destruct (h_sock d) as [[s up]|] eqn:Es.
  { intros E. injection E as <- <- <-. rewrite <- Ed, put_same. split; [exact G|]. intros _. congruence. }
  destruct (x_socket x).
  2:{ (* INVALID_SOCKET *)
    assert (P : good (put_at i (Some (mkh (h_name d) None)) hs) t).
    { replace (Some (mkh (h_name d) None)) with (nth i hs None); [rewrite put_same; exact G|]. rewrite Ed. destruct d as [n k]. cbn in *. subst k. reflexivity. }
    cbn [h_name]. destruct (scan_address 4 0 (h_name d)); [|intros E; injection E as <- <- <-; split; [exact P|discriminate]].
    destruct (x_dns x); [|intros E; injection E as <- <- <-; split; [exact P|discriminate]].
    cbn [SSLInit]. intros E. injection E as <- <- <-. split; [apply good_options, P|discriminate]. }
  set (h1 := mkh (h_name d) (Some (next t, false))). set (t1 := log (Opened (next t)) (mkst (S (next t)) (g_SslOptions t) (trace t))).
  assert (G1 : good (put_at i (Some h1) hs) t1).
  { apply (good_handle hs t i (Some h1) (Opened (next t)) t1); [exact G|exact L|reflexivity|].
    split; [reflexivity|]. split; [reflexivity|]. split; [|split].
    - intros u up X. apply holds_sock in X. rewrite Ed in X. cbn in X. congruence.
    - exists false. apply holds_sock. reflexivity.
    - intros u up X. apply holds_sock in X. cbn in X. injection X as <- <-. auto. }
  change (h_name h1) with (h_name d). cbn [h_name].
  assert (L1 : (i < length (put_at i (Some h1) hs))%nat) by (rewrite length_put; exact L).
  assert (N1 : nth i (put_at i (Some h1) hs) None = Some h1) by (rewrite nth_put, Nat.eqb_refl by exact L; reflexivity).
  assert (H1 : holds (nth i (put_at i (Some h1) hs) None) (next t) false) by (rewrite N1; apply holds_sock; reflexivity).
  destruct (scan_address 4 0 (h_name d)); [|intros E; injection E as <- <- <-; split; [exact G1|discriminate]].
  destruct (x_dns x) as [address|]; [|intros E; injection E as <- <- <-; split; [exact G1|discriminate]].
  destruct (SSLInit (Some (next t)) SSL_OPT_DEFAULT x t1) as [ok t2] eqn:E2.
  destruct (sslinit_good _ _ i _ _ _ _ _ G1 H1 E2) as (G2 & Nx2 & O2 & S2 & _).
  destruct ok; cbn [negb].
  2:{ intros E. injection E as <- <- <-. split; [exact G2|discriminate]. }
  destruct (x_connect x); cbn [negb]; intros E; injection E as <- <- <-.
  - split; [|intros _; discriminate]. destruct (S2 eq_refl) as (A & B & C).
    rewrite <- (put_put (Some (mkh (h_name d) (Some (next t, true)))) (Some h1)).
    apply (good_handle _ t2 i _ (Connected (next t) address 443 (g_SslOptions t2))); [exact G2|exact L1|reflexivity|].
    split; [reflexivity|]. split; [exists false; exact H1|]. split; [|split; [exists true; apply holds_sock; reflexivity|]].
    + intros u up X. apply holds_sock in X. cbn in X. injection X as <- <-. reflexivity.
    + split; [reflexivity|]. split; [exact O2|]. auto.
  - split; [|discriminate]. rewrite <- (put_put (Some (mkh (h_name d) None)) (Some h1)).
    apply (good_handle _ t2 i _ (Closed (next t))); [exact G2|exact L1|reflexivity|].
    split; [reflexivity|]. split; [exists false; exact H1|]. intros u up X. apply holds_sock in X. discriminate.
Qed.

Lemma transmitted_good hs t i d s up w :
  good hs t -> nth i hs None = Some d -> h_sock d = Some (s, up) -> good hs (transmitted s up w t).
Proof.
  intros G Ed Es. unfold transmitted. destruct up; [|exact G].
  assert (Ho : holds (nth i hs None) s true) by (apply holds_sock; rewrite Ed; exact Es).
  apply (good_about _ _ i s true); [exact G|exact Ho|reflexivity|].
  destruct (g_owned _ _ G (nth i hs None) s true) as (A & B & C); [apply nth_In, (nth_some_lt _ _ _ Ed)|exact Ho|].
  destruct (C eq_refl) as (C1 & C2 & C3 & C4). cbn. auto.
Qed.

(* what every outcome of a request leaves *)
Lemma execute_good hs t i r x : good hs t ->
  match HTTPAPI_ExecuteRequest (nth i hs None) r x t with
  | Returns _ h _ t' | Undefined h t' => good (put_at i h hs) t'
  | Never => True
  end.
Proof.
  intros G. unfold HTTPAPI_ExecuteRequest. destruct (nth i hs None) as [d|] eqn:Ed.
  2:{ rewrite <- Ed, put_same. exact G. }
  assert (K : good (put_at i (Some d) hs) t) by (rewrite <- Ed, put_same; exact G).
  destruct (r_path r) as [p|]; [|exact K]. destruct (r_headers r) as [l|]; [|exact K]. destruct (method_of (r_type r)) as [m|]; [|exact K].
  destruct (connecting d x t) as [[c d'] t'] eqn:Ec. destruct (connecting_good _ _ _ _ _ _ _ _ G Ed Ec) as (G' & R).
  destruct c as [|res|]; [|exact G'|exact G'].
  destruct (h_sock d') as [[s up]|] eqn:Es; [|exact G'].
  assert (N1 : nth i (put_at i (Some d') hs) None = Some d') by (rewrite nth_put, Nat.eqb_refl by (apply (nth_some_lt _ _ _ Ed)); reflexivity).
  destruct (exchange m p l r (start up (x_net x))) as [res w|res w|w|]; try exact Logic.I; apply (transmitted_good _ _ i d'); assumption.
Qed.

Lemma nth_snoc_some {A} (l : list (option A)) a i d : nth i (l ++ [a]) None = Some d -> nth i l None = Some d \/ (i = length l /\ a = Some d).
Proof.
  intros E. destruct (Nat.lt_ge_cases i (length l)) as [X|X]; [rewrite app_nth1 in E by exact X; auto|].
  rewrite app_nth2 in E by exact X. destruct (i - length l)%nat as [|k] eqn:Ek; cbn in E; [right; split; [lia|exact E]|]. destruct k; discriminate.
Qed.

Lemma step_good o sy sy' : good (handles sy) (st sy) -> step o sy = Some sy' -> good (handles sy') (st sy').
Proof.
  intros G. destruct o as [host|i r x|i]; cbn [step].
  - intros E. injection E as <-. cbn [handles st].
    assert (Emp : forall u up, ~ holds (HTTPAPI_CreateConnection host) u up).
    { intros u up X. apply holds_sock in X. unfold HTTPAPI_CreateConnection in X. destruct host as [h|]; [|discriminate]. destruct (64 <=? length h)%nat; discriminate. }
    assert (NTH : forall j u up, holds (nth j (handles sy ++ [HTTPAPI_CreateConnection host]) None) u up <-> holds (nth j (handles sy) None) u up).
    { intros j u up. split.
      - intros (d & E & Eh). apply nth_snoc_some in E. destruct E as [E | (_ & E)]; [exists d; auto|]. exfalso. apply (Emp u up). exists d. auto.
      - intros (d & E & Eh). exists d. split; [|exact Eh]. rewrite app_nth1; [exact E|apply (nth_some_lt _ _ _ E)]. }
    destruct G as [A B C D E]. constructor; try assumption.
    + intros h s up I Hh. apply in_app_or in I. destruct I as [I | [<- | []]]; [apply (C h s up I Hh)|]. exfalso. apply (Emp _ _ Hh).
    + intros j k s up up' Hj Hk. apply NTH in Hj, Hk. apply (D j k s up up'); assumption.
    + intros s I. destruct (E s I) as [X | (j & up & X)]; [auto|]. right. exists j, up. apply NTH, X.
  - pose proof (execute_good _ _ i r x G) as K. destruct (HTTPAPI_ExecuteRequest _ r x (st sy)) as [res h w t'|h t'|]; try discriminate.
    intros E. injection E as <-. exact K.
  - intros E. injection E as <-. cbn [handles st]. destruct (nth i (handles sy) None) as [d|] eqn:Ed.
    2:{ cbn. replace (put_at i None (handles sy)) with (handles sy); [exact G|]. rewrite <- Ed, put_same. reflexivity. }
    pose proof (nth_some_lt _ _ _ Ed) as L. unfold HTTPAPI_CloseConnection. destruct (h_sock d) as [[s up]|] eqn:Es.
    + apply (good_handle _ (st sy) i _ (Closed s)); [exact G|exact L|reflexivity|].
      split; [reflexivity|]. split; [exists up; rewrite Ed; apply holds_sock; exact Es|]. intros u b X. apply holds_sock in X. discriminate.
    + destruct G as [A B C D E].
      assert (NTH : forall j u up, holds (nth j (put_at i None (handles sy)) None) u up <-> holds (nth j (handles sy) None) u up).
      { intros j u up. rewrite nth_put by exact L. destruct (Nat.eqb_spec i j); [|tauto]. subst j. rewrite !holds_sock, Ed. cbn. rewrite Es. split; discriminate. }
      constructor; try assumption.
      * intros h u b I Hh. apply in_put in I. destruct I as [-> | I]; [|apply (C h u b I Hh)]. apply holds_sock in Hh. discriminate.
      * intros j k u b b' Hj Hk. apply NTH in Hj, Hk. apply (D j k u b b'); assumption.
      * intros u I. destruct (E u I) as [X | (j & b & X)]; [auto|]. right. exists j, b. apply NTH, X.
Qed.

Lemma good0 : good [] state0.
Proof.
  constructor; cbn; try contradiction; [apply secure_nil|].
  intros i j s up up' Hi. apply holds_sock in Hi. destruct i; discriminate.
Qed.
Lemma good_start : good (handles system0) (st system0).
Proof. exact good0. Qed.
Lemma run_good ops : forall sy sy', good (handles sy) (st sy) -> run ops sy = Some sy' -> good (handles sy') (st sy').
Proof.
  induction ops as [|o ops IH]; intros sy sy' G E; cbn in E; [injection E as <-; exact G|].
  destruct (step o sy) as [sy1|] eqn:E1; [|discriminate]. apply (IH sy1); [apply (step_good o sy); assumption|exact E].
Qed.

(* ------------------------------------------------------------------ *)
(** * Everything goes over checked TLS, and no socket is lost *)

(* In every history of creating handles, requests and closing handles, whatever the platform
   answers: a byte is sent only over a socket that was made secure, whose certificate was judged by
   the hook under the strict option, that speaks TLS 1 only, was then connected to port 443 and is
   not closed; and no socket is closed twice.  This also holds when the last request runs into
   undefined behaviour. *)
Theorem ce_requests_secure : forall ops sy, run ops system0 = Some sy -> secure (trace (st sy)).
Proof. intros ops sy E. apply (g_secure _ _ (run_good ops _ _ good_start E)). Qed.
Theorem ce_last_request_secure : forall ops sy i r x h t, run ops system0 = Some sy ->
  HTTPAPI_ExecuteRequest (nth i (handles sy) None) r x (st sy) = Undefined h t -> secure (trace t).
Proof.
  intros ops sy i r x h t E U. pose proof (execute_good _ _ i r x (run_good ops _ _ good_start E)) as K. rewrite U in K. apply (g_secure _ _ K).
Qed.

(* When every handle was closed, every socket is. *)
Theorem ce_sockets_closed : forall ops sy, run ops system0 = Some sy -> Forall (fun h => h = None) (handles sy) ->
  forall s, In (Opened s) (trace (st sy)) -> In (Closed s) (trace (st sy)).
Proof.
  intros ops sy E F s I. destruct (g_left _ _ (run_good ops _ _ good_start E) s I) as [X | (i & up & d & X & _)]; [exact X|].
  pose proof (nth_some_lt _ _ _ X) as L. rewrite Forall_forall in F. specialize (F (nth i (handles sy) None) (nth_In _ _ L)). congruence.
Qed.

(* ------------------------------------------------------------------ *)
(** * The exchange *)

(* A reply that follows the specification is read as what it says, on a connection that is there:
   the request goes out over it as it should. *)
Theorem ce_reply_read : forall d s r x t rp rest,
  h_sock d = Some (s, true) -> sendable r -> sizes_ok r ->
  all_sent (x_net x) -> memory (x_net x) -> (r_body r = true -> w_body (x_net x) = None) ->
  well_formed rp -> w_in (x_net x) = reply_bytes rp ++ rest -> arrives (reply_bytes rp) (x_net x) ->
  exists w', HTTPAPI_ExecuteRequest (Some d) r x t = Returns HTTPAPI_OK (Some d) w' (log (Sent s (request_bytes r)) t) /\
    w_in w' = rest /\
    w_status w' = (if r_status r then Some (numeral 10 (rp_code rp)) else None) /\
    w_resp w' = (if r_response r then headers_after (rp_fields rp) (w_resp (x_net x)) else w_resp (x_net x)) /\
    (if r_body r then HttpApiMbed_Spec.holds (reply_data rp) (w_body w') else w_body w' = w_body (x_net x)).
Proof.
  intros d s r x t rp rest Es (T & Pp & Ph) SZ AS M B WF In A.
  destruct (r_path r) as [p|] eqn:Ep; [|congruence]. destruct (r_headers r) as [hs|] eqn:Eh; [|congruence].
  destruct (method_of (r_type r)) as [m|] eqn:Em; [|destruct (r_type r); cbn in Em; congruence].
  unfold HTTPAPI_ExecuteRequest. rewrite Ep, Eh, Em. unfold connecting. rewrite Es. cbv iota beta. rewrite Es.
  unfold exchange.
  destruct (send_request_done r m p hs (start true (x_net x)) Em Ep Eh SZ M AS) as (w1 & E1 & O1 & Q1 & M1 & A1).
  erewrite HttpApiMbed_Read.bind_ret by exact E1. destruct Q1 as (I1 & S1 & R1 & B1 & P1 & C1 & L1 & LB1 & CO1 & _).
  destruct (HttpApiMbed_Reply.read_response_ok rp r w1 rest WF) as (w' & E & I' & T' & ST' & M' & R' & C' & B').
  - rewrite I1. exact In.
  - unfold arrives. rewrite S1. exact A.
  - exact M1.
  - rewrite B1. exact B.
  - rewrite E. exists w'. destruct ST' as (O' & S' & _ & _ & CO'). split.
    + unfold transmitted. rewrite O', O1. reflexivity.
    + split; [exact I'|]. split; [rewrite C', C1; reflexivity|]. split; [rewrite R', R1; reflexivity|].
      destruct (r_body r); [exact B'|rewrite B', B1; reflexivity].
Qed.

(* Whatever the platform answers, what a request gives it to send is the beginning of the request
   that was asked for, and all of it if HTTPAPI_OK is returned (as long as a send takes all or
   fails).  What is missing of the full claim: when the name could not be resolved the result means
   nothing, see [ce_unresolved_refuted]. *)
Definition quiet_events (u : list event) : Prop := forall s b, ~ In (Sent s b) u.
Lemma quiet_app u v : quiet_events u -> quiet_events v -> quiet_events (u ++ v).
Proof. intros A B s b I. apply in_app_or in I. destruct I as [I | I]; [apply (A s b I)|apply (B s b I)]. Qed.
Lemma quiet_one e : (forall s b, e <> Sent s b) -> quiet_events [e].
Proof. intros A s b [X | []]. apply (A s b X). Qed.
Lemma quiet_nil : quiet_events []. Proof. intros s b []. Qed.
Definition quietly (t t' : state) : Prop := exists u, trace t' = trace t ++ u /\ quiet_events u.
Lemma quietly_refl t t' : trace t' = trace t -> quietly t t'.
Proof. intros E. exists []. rewrite app_nil_r. split; [exact E|apply quiet_nil]. Qed.
Lemma quietly_log t t' e : (forall s b, e <> Sent s b) -> quietly t t' -> quietly t (log e t').
Proof.
  intros N (u & E & Q). exists (u ++ [e]). cbn. rewrite E, app_assoc. split; [reflexivity|]. apply quiet_app; [exact Q|apply quiet_one, N].
Qed.
Lemma quietly_options t t' o : quietly t t' -> quietly t (mkst (next t') o (trace t')).
Proof. intros (u & E & Q). exists u. auto. Qed.
Ltac quiet_step := repeat (first [assumption | apply quietly_log; [intros; discriminate|] | apply quietly_options | apply quietly_refl; reflexivity]).
Lemma sslinit_quiet t0 s o x t ok t' : quietly t0 t -> SSLInit s o x t = (ok, t') -> quietly t0 t'.
Proof.
  intros Q E. unfold SSLInit in E. destruct s as [s|]; [|injection E as _ <-; quiet_step].
  destruct (x_secure x); cbn [negb] in E; [|injection E as _ <-; quiet_step].
  destruct (x_hook x); cbn [negb] in E; [|injection E as _ <-; quiet_step].
  destruct (x_protocols x); cbn [negb] in E; injection E as _ <-; quiet_step.
Qed.
Lemma connecting_quiet d x t c d' t' : connecting d x t = (c, d', t') ->
  quietly t t' /\ (x_dns x <> None -> forall res, c = Stops res -> res <> HTTPAPI_OK).
Proof.
  intros Ec. unfold connecting in Ec. destruct (h_sock d).
  { injection Ec as <- _ <-. split; [quiet_step|discriminate]. }
  destruct (x_socket x); cbn [h_name] in Ec.
  - set (t0 := log _ _) in Ec. assert (Q0 : quietly t t0).
    { exists [Opened (next t)]. split; [reflexivity|]. apply quiet_one. discriminate. }
    destruct (scan_address 4 0 (h_name d)); [|injection Ec as <- _ <-; split; [exact Q0|discriminate] ].
    destruct (x_dns x) as [a|]; [|injection Ec as <- _ <-; split; [exact Q0|congruence] ].
    destruct (SSLInit (Some (next t)) SSL_OPT_DEFAULT x t0) as [ok t2] eqn:E2. pose proof (sslinit_quiet _ _ _ _ _ _ _ Q0 E2) as Q2.
    destruct ok; cbn [negb] in Ec; [|injection Ec as <- _ <-; split; [exact Q2|intros _ res X; injection X as <-; discriminate] ].
    destruct (x_connect x); cbn [negb] in Ec; injection Ec as <- _ <-; (split; [quiet_step|intros _ res X; try discriminate X]).
    injection X as <-. discriminate.
  - destruct (scan_address 4 0 (h_name d)); [|injection Ec as <- _ <-; split; [quiet_step|discriminate] ].
    destruct (x_dns x) as [a|]; [|injection Ec as <- _ <-; split; [quiet_step|congruence] ].
    cbn [SSLInit] in Ec. injection Ec as <- _ <-. split; [quiet_step|]. intros _ res X. injection X as <-. discriminate.
Qed.

(* the first send on a socket that is not connected fails *)
Lemma unconnected_send m p hs c n w : w_sends w = [-1] ->
  exists res w', send_request m p hs c n w = Fail res w' /\ res <> HTTPAPI_OK /\ w_out w' = w_out w.
Proof.
  intros W. unfold send_request. cbn zeta. destruct (4096 <=? _). { eexists _, _. split; [reflexivity|]. split; [discriminate|reflexivity]. }
  unfold bind at 1, change. unfold sending at 1. unfold bind at 1. unfold bind at 1. unfold send_all at 1.
  cbn [w_sends set_buf]. rewrite W.
  destruct (2147483648 <=? _); cbn; eexists _, _; (split; [reflexivity|split; [discriminate|reflexivity] ]).
Qed.

Theorem ce_request_sent_partial : forall h r x t res h' w' t',
  whole_sends (x_net x) -> x_dns x <> None -> HTTPAPI_ExecuteRequest h r x t = Returns res h' w' t' ->
  exists events, trace t' = trace t ++ events /\
    (forall s bytes, In (Sent s bytes) events -> HttpApiMbed_Spec.is_prefix bytes (request_bytes r)) /\
    (res = HTTPAPI_OK -> exists s, In (Sent s (request_bytes r)) events).
Proof.
  intros h r x t res h' w' t' W Dns E. unfold HTTPAPI_ExecuteRequest in E.
  assert (NO : quietly t t' -> res <> HTTPAPI_OK ->
    exists events, trace t' = trace t ++ events /\
      (forall s bytes, In (Sent s bytes) events -> HttpApiMbed_Spec.is_prefix bytes (request_bytes r)) /\
      (res = HTTPAPI_OK -> exists s, In (Sent s (request_bytes r)) events)).
  { intros (u & Et & N) R. exists u. split; [exact Et|]. split; [intros s b I; exfalso; apply (N s b I)|intros X; contradiction]. }
  destruct h as [d|]; [|injection E as <- _ _ <-; apply NO; [quiet_step|discriminate] ].
  destruct (r_path r) as [p|] eqn:Ep; [|injection E as <- _ _ <-; apply NO; [quiet_step|discriminate] ].
  destruct (r_headers r) as [hs|] eqn:Eh; [|injection E as <- _ _ <-; apply NO; [quiet_step|discriminate] ].
  destruct (method_of (r_type r)) as [m|] eqn:Em; [|injection E as <- _ _ <-; apply NO; [quiet_step|discriminate] ].
  destruct (connecting d x t) as [[c d'] t1] eqn:Ec.
  destruct (connecting_quiet _ _ _ _ _ _ Ec) as (Q & R). specialize (R Dns).
  destruct c as [|res0|]; [|injection E as <- _ _ <-; apply NO; auto|discriminate].
  destruct (h_sock d') as [[s up]|] eqn:Es; [|discriminate]. unfold exchange in E. unfold bind at 1 in E.
  destruct up.
  2:{ destruct (unconnected_send m p hs (r_content r) (r_length r) (start false (x_net x)) eq_refl) as (c & w2 & E2 & N2 & _).
      rewrite E2 in E. injection E as <- _ _ <-. apply NO; assumption. }
  pose proof (send_request_spec r m p hs (start true (x_net x)) Em Ep Eh W) as G.
  destruct Q as (u & Eu & Nu).
  destruct (send_request m p hs (r_content r) (r_length r) (start true (x_net x))) as [u2 w2|c w2|w2|]; cbn [sends] in G; try contradiction.
  - destruct G as (O2 & _). pose proof (read_response_steady r w2) as K.
    assert (O3 : w_out w' = request_bytes r /\ t' = log (Sent s (w_out w')) t1).
    { destruct (read_response r w2) as [a w3|c3 w3|w3|]; try discriminate E; injection E as <- <- <- <-; destruct K as (K & _);
        (split; [rewrite K, O2; reflexivity|reflexivity]). }
    destruct O3 as (O3 & ->). exists (u ++ [Sent s (w_out w')]). split; [cbn; rewrite Eu, app_assoc; reflexivity|]. rewrite O3. split.
    + intros s0 b I. apply in_app_or in I. destruct I as [I | [I | [] ] ]; [exfalso; apply (Nu s0 b I)|]. injection I as <- <-. exists []. symmetry; apply app_nil_r.
    + intros _. exists s. apply in_or_app. right. left. reflexivity.
  - injection E as <- <- <- <-. destruct G as (Rf & (q & Pq & O2) & _). cbn in O2.
    assert (Rn : c <> HTTPAPI_OK). { intros ->. destruct Rf as [ [X | X] | X]; discriminate. }
    unfold transmitted. rewrite O2. exists (u ++ [Sent s q]).
    split; [cbn; rewrite Eu, app_assoc; reflexivity|]. split; [|intros X; contradiction].
    intros s0 b I. apply in_app_or in I. destruct I as [I | [I | [] ] ]; [exfalso; apply (Nu s0 b I)|]. injection I as <- <-. exact Pq.
Qed.

(* ------------------------------------------------------------------ *)
(** * Making the connection *)

Definition all_well (x : script) : Prop :=
  x_socket x = true /\ x_secure x = true /\ x_hook x = true /\ x_protocols x = true /\ x_connect x = true.
(* the first letter of the name is not a digit, space or sign *)
Definition starts_with_letter (t : text) : Prop :=
  match t with [] => True | c :: _ => ~ is_dec c /\ ~ is_space c /\ c <> 43%N /\ c <> 45%N end.

Lemma letter_scan t : starts_with_letter t -> scan_address 4 0 t = Some 0%nat.
Proof.
  intros S. unfold scan_address, scan_u3. destruct t as [|c t]; [reflexivity|]. destruct S as (D & Sp & P & M).
  rewrite skip_spaces_none by exact Sp. destruct (N.eqb_spec c 45); [contradiction|]. destruct (N.eqb_spec c 43); [contradiction|]. cbn [orb].
  destruct (dec_digit c) eqn:E; [|reflexivity]. exfalso. apply D. unfold dec_digit in E. unfold is_dec.
  destruct ((48 <=? c) && (c <=? 57))%N eqn:X; [|discriminate]. apply Bool.andb_true_iff in X. destruct X as (A & B). apply N.leb_le in A, B. lia.
Qed.

(* A handle whose host is a name ce_connects when the platform lets it: to the address the resolver
   gave, port 443; and then sends. *)
Theorem ce_connects : forall d r x t address rp rest,
  h_sock d = None -> starts_with_letter (h_name d) -> all_well x -> x_dns x = Some address ->
  sendable r -> sizes_ok r -> all_sent (x_net x) -> memory (x_net x) -> (r_body r = true -> w_body (x_net x) = None) ->
  well_formed rp -> w_in (x_net x) = reply_bytes rp ++ rest -> arrives (reply_bytes rp) (x_net x) ->
  exists w', HTTPAPI_ExecuteRequest (Some d) r x t = Returns HTTPAPI_OK (Some (mkh (h_name d) (Some (next t, true)))) w'
    (mkst (S (next t)) SSL_OPT_STRICT_CHECK
      (trace t ++ [Opened (next t); Secured (next t); Hooked (next t); OnlyTls1 (next t); Connected (next t) address 443 SSL_OPT_STRICT_CHECK;
                   Sent (next t) (request_bytes r)])).
Proof.
  intros d r x t address rp rest Es L (A1 & A3 & A4 & A5 & A6) Ed SE SZ AS M B WF In A.
  set (t1 := mkst (S (next t)) SSL_OPT_STRICT_CHECK
      (trace t ++ [Opened (next t); Secured (next t); Hooked (next t); OnlyTls1 (next t); Connected (next t) address 443 SSL_OPT_STRICT_CHECK])).
  assert (C : connecting d x t = (Ready, mkh (h_name d) (Some (next t, true)), t1)).
  { unfold connecting. rewrite Es, A1. cbn [h_name]. rewrite (letter_scan _ L), Ed.
    unfold SSLInit. rewrite A3, A4, A5. cbn [negb]. rewrite A6. unfold t1. cbn. unfold log. cbn. rewrite <- !app_assoc. reflexivity. }
  destruct (ce_reply_read (mkh (h_name d) (Some (next t, true))) (next t) r x t1 rp rest eq_refl SE SZ AS M B WF In A) as (w' & E & _).
  exists w'. unfold HTTPAPI_ExecuteRequest in *. rewrite C. cbn [connecting h_sock] in E.
  destruct SE as (T & Pp & Ph).
  destruct (r_path r) as [p|]; [|congruence]. destruct (r_headers r) as [hs|]; [|congruence].
  destruct (method_of (r_type r)) as [m|] eqn:Em; [|destruct (r_type r); cbn in Em; congruence].
  cbn [h_sock]. rewrite E. unfold log, t1. cbn. rewrite <- app_assoc. reflexivity.
Qed.

(* After a request that failed because connect did, or because there was no socket, the handle is
   as it was, and the next request tries again.  What is missing of the full claim: the same after
   every failure ([ce_unresolved_refuted], [ce_unsecured_refuted]). *)
Theorem ce_try_again_partial : forall d r x t, sendable r -> h_sock d = None -> starts_with_letter (h_name d) ->
  x_dns x <> None -> x_socket x = false \/ (x_secure x = true /\ x_hook x = true /\ x_protocols x = true /\ x_connect x = false) ->
  exists w t', HTTPAPI_ExecuteRequest (Some d) r x t = Returns HTTPAPI_ERROR (Some d) w t' /\
    (forall s, In (Opened s) (trace t') -> In (Opened s) (trace t) \/ In (Closed s) (trace t')).
Proof.
  intros d r x t (T & Pp & Ph) Es L Dn C.
  destruct (r_path r) as [p|] eqn:Ep; [|congruence]. destruct (r_headers r) as [hs|] eqn:Eh; [|congruence].
  destruct (method_of (r_type r)) as [m|] eqn:Em; [|destruct (r_type r); cbn in Em; congruence].
  unfold HTTPAPI_ExecuteRequest. rewrite Ep, Eh, Em. unfold connecting. rewrite Es. cbn [h_name].
  destruct (x_dns x); [|congruence]. destruct d as [n k]. cbn in Es. subst k. cbn [h_name] in *.
  destruct (x_socket x); cbn [h_name]; rewrite (letter_scan _ L).
  - destruct C as [C | (C1 & C2 & C3 & C4)]; [discriminate|]. unfold SSLInit. rewrite C1, C2, C3. cbn [negb]. rewrite C4. cbn [negb].
    eexists _, _. split; [reflexivity|]. intros s. rewrite !In_log. cbn [trace]. rewrite ?in_app_iff. intros Q. intuition (try discriminate); auto.
    match goal with H : In (Opened s) (trace (log _ _)) |- _ => apply In_log in H; destruct H as [H | H]; [left; exact H|injection H as <-; auto] end.
  - cbn [SSLInit]. eexists _, _. split; [reflexivity|]. intros s I. left. exact I.
Qed.

(* a handle with a socket that is not connected *)
Lemma dead_request d s r x t : h_sock d = Some (s, false) ->
  exists res w, HTTPAPI_ExecuteRequest (Some d) r x t = Returns res (Some d) w t /\ res <> HTTPAPI_OK.
Proof.
  intros Es. unfold HTTPAPI_ExecuteRequest.
  destruct (r_path r) as [p|]; [|eexists _, _; split; [reflexivity|discriminate] ].
  destruct (r_headers r) as [hs|]; [|eexists _, _; split; [reflexivity|discriminate] ].
  destruct (method_of (r_type r)) as [m|]; [|eexists _, _; split; [reflexivity|discriminate] ].
  unfold connecting. rewrite Es. cbv iota beta. rewrite Es. unfold exchange, bind at 1.
  destruct (unconnected_send m p hs (r_content r) (r_length r) (start false (x_net x)) eq_refl) as (c & w2 & E2 & N2 & _).
  rewrite E2. eexists _, _. split; [reflexivity|exact N2].
Qed.

(* a series of requests on one handle: the results *)
Fixpoint requests (h : option handle) (rs : list (request * script)) (t : state) : option (list HTTPAPI_RESULT * state) :=
  match rs with
  | [] => Some ([], t)
  | (r, x) :: rs =>
    match HTTPAPI_ExecuteRequest h r x t with
    | Returns res h _ t => match requests h rs t with Some (l, t) => Some (res :: l, t) | None => None end
    | _ => None
    end
  end.
Lemma dead_requests d s : h_sock d = Some (s, false) -> forall rs t,
  exists l, requests (Some d) rs t = Some (l, t) /\ Forall (fun res => res <> HTTPAPI_OK) l.
Proof.
  intros Es. induction rs as [|(r & x) rs IH]; intros t; cbn [requests]; [exists []; auto|].
  destruct (dead_request d s r x t Es) as (res & w & -> & N). destruct (IH t) as (l & -> & F). exists (res :: l). auto.
Qed.

(* When the name cannot be resolved, the call returns whatever its variable happened to hold -
   HTTPAPI_OK, say - and from then on, whatever the platform would do, no request on this handle
   sends anything or succeeds. *)
Theorem ce_unresolved_refuted : forall d r x t, sendable r -> h_sock d = None -> starts_with_letter (h_name d) ->
  x_socket x = true -> x_dns x = None ->
  exists d' w t', HTTPAPI_ExecuteRequest (Some d) r x t = Returns (x_result x) (Some d') w t' /\
    forall rs, exists l, requests (Some d') rs t' = Some (l, t') /\ Forall (fun res => res <> HTTPAPI_OK) l.
Proof.
  intros d r x t (T & Pp & Ph) Es L So Dn.
  destruct (r_path r) as [p|] eqn:Ep; [|congruence]. destruct (r_headers r) as [hs|] eqn:Eh; [|congruence].
  destruct (method_of (r_type r)) as [m|] eqn:Em; [|destruct (r_type r); cbn in Em; congruence].
  unfold HTTPAPI_ExecuteRequest at 1. rewrite Ep, Eh, Em. unfold connecting. rewrite Es, So. cbn [h_name]. rewrite (letter_scan _ L), Dn.
  eexists _, _, _. split; [reflexivity|]. intros rs. apply (dead_requests _ (next t)). reflexivity.
Qed.
(* The same after SSLInit failed, though with HTTPAPI_ERROR the first time. *)
Theorem ce_unsecured_refuted : forall d r x t, sendable r -> h_sock d = None -> starts_with_letter (h_name d) ->
  x_socket x = true -> x_dns x <> None -> x_secure x = false \/ x_hook x = false \/ x_protocols x = false ->
  exists d' w t', HTTPAPI_ExecuteRequest (Some d) r x t = Returns HTTPAPI_ERROR (Some d') w t' /\
    forall rs, exists l, requests (Some d') rs t' = Some (l, t') /\ Forall (fun res => res <> HTTPAPI_OK) l.
Proof.
  intros d r x t (T & Pp & Ph) Es L So Dn C.
  destruct (r_path r) as [p|] eqn:Ep; [|congruence]. destruct (r_headers r) as [hs|] eqn:Eh; [|congruence].
  destruct (method_of (r_type r)) as [m|] eqn:Em; [|destruct (r_type r); cbn in Em; congruence].
  unfold HTTPAPI_ExecuteRequest at 1. rewrite Ep, Eh, Em. unfold connecting. rewrite Es, So. cbn [h_name]. rewrite (letter_scan _ L).
  destruct (x_dns x); [|congruence]. unfold SSLInit.
  destruct (x_secure x), (x_hook x), (x_protocols x); cbn [negb];
    try (destruct C as [C | [C | C] ]; discriminate);
    (eexists _, _, _; split; [reflexivity|]; intros rs; apply (dead_requests _ (next t)); reflexivity).
Qed.

(* ------------------------------------------------------------------ *)
(** * Hosts that begin with numbers *)

Definition short_number (t : text) : Prop := (1 <= length t <= 3)%nat /\ Forall is_dec t.
Lemma dec_some c : is_dec c -> exists v, dec_digit c = Some v.
Proof.
  unfold is_dec, dec_digit. intros (A & B). destruct (N.leb_spec 48 c); [|lia]. destruct (N.leb_spec c 57); [|lia]. cbn. eauto.
Qed.
Lemma at_most_app : forall ds n rest, Forall is_dec ds -> (length ds <= n)%nat ->
  match rest with [] => True | c :: _ => dec_digit c = None end -> at_most n (ds ++ rest) = rest.
Proof.
  induction ds as [|c ds IH]; intros n rest F L R; cbn [app].
  - destruct n; [reflexivity|]. destruct rest as [|c rest]; [reflexivity|]. cbn. rewrite R. reflexivity.
  - inversion F; subst. cbn in L. destruct n; [lia|]. destruct (dec_some c) as (v & E); [assumption|]. cbn. rewrite E.
    apply IH; [assumption|lia|exact R].
Qed.
Lemma scan_short ds rest : short_number ds -> match rest with [] => True | c :: _ => dec_digit c = None end ->
  scan_u3 (ds ++ rest) = Some rest.
Proof.
  intros ((L1 & L3) & F) R. destruct ds as [|c ds]; [cbn in L1; lia|]. inversion F as [|? ? D F2]; subst.
  unfold scan_u3. cbn [app]. rewrite skip_spaces_none by (unfold is_dec, is_space in *; lia).
  destruct (N.eqb_spec c 45); [unfold is_dec in D; lia|]. destruct (N.eqb_spec c 43); [unfold is_dec in D; lia|]. cbn [orb].
  destruct (dec_some c D) as (v & ->). f_equal. apply (at_most_app (c :: ds)); [exact F|exact L3|exact R].
Qed.

(* Every host that begins with three numbers and dots, such as every IPv4 address in the usual
   notation, makes the first request write beyond the five bytes of a local array. *)
Theorem ce_numeric_host_refuted : forall d r x t a b c rest, sendable r -> h_sock d = None ->
  short_number a -> short_number b -> short_number c -> match rest with [] => True | e :: _ => dec_digit e = None end ->
  h_name d = a ++ str "." ++ b ++ str "." ++ c ++ rest ->
  exists h t', HTTPAPI_ExecuteRequest (Some d) r x t = Undefined h t'.
Proof.
  intros d r x t a b c rest (T & Pp & Ph) Es A B C R Ed.
  destruct (r_path r) as [p|] eqn:Ep; [|congruence]. destruct (r_headers r) as [hs|] eqn:Eh; [|congruence].
  destruct (method_of (r_type r)) as [m|] eqn:Em; [|destruct (r_type r); cbn in Em; congruence].
  assert (Sc : scan_address 4 0 (h_name d) = None).
  { rewrite Ed. cbn [scan_address]. rewrite (scan_short a) by (try exact A; reflexivity). cbn [Nat.ltb Nat.leb Nat.add].
    change (str "." ++ b ++ str "." ++ c ++ rest) with (46%N :: b ++ str "." ++ c ++ rest). cbn [N.eqb Pos.eqb].
    rewrite (scan_short b) by (try exact B; reflexivity). cbn [Nat.ltb Nat.leb Nat.add].
    change (str "." ++ c ++ rest) with (46%N :: c ++ rest). cbn [N.eqb Pos.eqb].
    rewrite (scan_short c) by assumption. reflexivity. }
  unfold HTTPAPI_ExecuteRequest. rewrite Ep, Eh, Em. unfold connecting. rewrite Es. cbn [h_name].
  destruct (x_socket x); cbn [h_name]; rewrite Sc; eauto.
Qed.
(* ... and the four numbers are never all stored, so no host is ever taken as an address. *)
Theorem ce_never_an_address : forall t, scan_address 4 0 t <> Some 4%nat.
Proof.
  intros t. cbn [scan_address]. destruct (scan_u3 t) as [[|c rest]|]; try discriminate. cbn [Nat.ltb Nat.leb Nat.add].
  destruct (c =? 46)%N; [|discriminate]. destruct (scan_u3 rest) as [[|c2 rest2]|]; try discriminate.
  destruct (c2 =? 46)%N; [|discriminate]. destruct (scan_u3 rest2); discriminate.
Qed.

(* ------------------------------------------------------------------ *)
(** * Handles, options, start and end *)

Theorem ce_handle_created : forall host,
  HTTPAPI_CreateConnection host = None <-> host = None \/ exists t, host = Some t /\ (64 <= length t)%nat.
Proof.
  intros [t|]; [|split; auto]. unfold HTTPAPI_CreateConnection. destruct (Nat.leb_spec 64 (length t)).
  - split; [|reflexivity]. intros _. right. eauto.
  - split; [discriminate|]. intros [X | (u & X & L)]; [discriminate|]. injection X as <-. lia.
Qed.
Theorem ce_handle_is_new : forall t d, HTTPAPI_CreateConnection (Some t) = Some d -> h_name d = t /\ h_sock d = None.
Proof. intros t d. unfold HTTPAPI_CreateConnection. destruct (64 <=? length t)%nat; [discriminate|]. intros E. injection E as <-. auto. Qed.

Definition count (p : event -> bool) (l : list event) : nat := length (filter p l).
Definition is_started (e : event) : bool := match e with Started => true | _ => false end.
Definition is_cleaned (e : event) : bool := match e with CleanedUp => true | _ => false end.
(* HTTPAPI_Init succeeds exactly if Winsock 2.2 is there, and then one start more is outstanding,
   which HTTPAPI_Deinit ends; otherwise none is *)
Theorem ce_init_balanced : forall started version t ok t', HTTPAPI_Init started version t = (ok, t') ->
  ok = (started && version)%bool /\
  (count is_started (trace t') + count is_cleaned (trace t) = count is_started (trace t) + count is_cleaned (trace t') + (if ok then 1 else 0))%nat /\
  (ok = true -> (count is_started (trace (HTTPAPI_Deinit t')) + count is_cleaned (trace t) = count is_started (trace t) + count is_cleaned (trace (HTTPAPI_Deinit t')))%nat).
Proof.
  intros started version t ok t' E. unfold HTTPAPI_Init in E. unfold count.
  destruct started, version; cbn [negb] in E; injection E as <- <-; cbn; rewrite ?filter_app, ?app_length; cbn;
    (split; [reflexivity|]); (split; [lia|]); try discriminate; intros _; lia.
Qed.

(* No option is known. *)
Theorem ce_options_refused : forall h name value saved,
  HTTPAPI_SetOption h name value = HTTPAPI_INVALID_ARG /\
  fst (HTTPAPI_CloneOption name value saved) = HTTPAPI_INVALID_ARG /\
  forall v, snd (HTTPAPI_CloneOption name value saved) <> Some (Some v).
Proof.
  intros h name value saved. split; [reflexivity|]. unfold HTTPAPI_CloneOption. destruct name, value, saved; cbn; (split; [reflexivity|discriminate]).
Qed.
