(* The reading functions on bytes that arrive. *)
From Verif Require Import Base Map_Model HttpHeaders_Spec HttpApiMbed_Model HttpApiMbed_Spec.
Local Open Scope Z_scope.
#[global] Arguments size32 : simpl never.
#[global] Arguments int32 : simpl never.
#[global] Arguments Z.to_nat : simpl never.
#[global] Arguments Z.of_nat : simpl never.

Definition rd (i : list N) (s : list Z) (b : list N) (w : world) : world := set_in i (set_sched s (set_buf b w)).

Lemma bind_ret {A B} (m : H A) (f : A -> H B) w a w' : m w = Ret a w' -> bind m f w = f a w'.
Proof. intros E. unfold bind. now rewrite E. Qed.
Lemma bind_fail {A B} (m : H A) (f : A -> H B) w r w' : m w = Fail r w' -> bind m f w = Fail r w'.
Proof. intros E. unfold bind. now rewrite E. Qed.

Lemma size32_small z : 0 <= z < 4294967296 -> size32 z = z.
Proof. intros. unfold size32. now rewrite Z.mod_small by lia. Qed.
Lemma int32_small z : 0 <= z < 2147483648 -> int32 z = z.
Proof. intros. unfold int32. rewrite size32_small by lia. destruct (Z.ltb_spec z 2147483648); lia. Qed.

Lemma receive_one c rest k ks w : w_in w = c :: rest -> w_sched w = k :: ks -> 0 < k ->
  receive 1 w = Ret (1, [c]) (set_in rest (set_sched ks w)).
Proof.
  intros I S K. unfold receive. rewrite S, I. cbn [length].
  destruct (Z.ltb_spec 1 0); [lia|]. destruct (Z.ltb_spec k 0); [lia|].
  replace (Z.min (Z.min k 1) (Z.of_nat (Datatypes.S (length rest)))) with 1 by lia.
  reflexivity.
Qed.

Lemma skipn_S_cons {A} n (k : A) ks : skipn (S n) (k :: ks) = skipn n ks.
Proof. reflexivity. Qed.

Lemma line_loop_ok : forall x room acc c y w rest,
  x ++ [13%N] = c :: y -> w_in w = y ++ 10%N :: rest ->
  ~ In 13%N x -> (length x <= room)%nat ->
  Forall (fun k => 0 < k) (w_sched w) -> (S (length y) <= length (w_sched w))%nat ->
  line_loop room acc c w =
    Ret (Z.of_nat (length (acc ++ x)))
        (rd rest (skipn (S (length y)) (w_sched w))
            ((acc ++ x) ++ 0%N :: skipn (S (length (acc ++ x))) (w_buf w)) w).
Proof.
  induction x as [|d x IH]; intros room acc c y w rest E I NI R F L.
  - cbn in E. injection E as <- <-. cbn [app] in I.
    destruct (w_sched w) as [|k ks] eqn:S; [cbn in L; lia|].
    inversion F as [|? ? K F']; subst.
    rewrite app_nil_r.
    destruct room; cbn [line_loop]; rewrite ?N.eqb_refl.
    all: erewrite bind_ret by reflexivity.
    all: erewrite bind_ret by (eapply receive_one with (k := k) (ks := ks); [exact I|exact S|exact K]).
    all: cbn [fst snd got]; replace (1 <? 0) with false by reflexivity.
    all: cbn [orb]; rewrite N.eqb_refl; cbn [negb]; reflexivity.
  - cbn in E. injection E as <- E.
    assert (d <> 13%N) as Dn. { intros ->. apply NI. now left. }
    destruct room as [|room]; [cbn in R; lia|]. cbn [line_loop].
    replace (d =? 13)%N with false by (symmetry; apply N.eqb_neq; exact Dn).
    destruct y as [|c' y']; [destruct x; discriminate E|]. cbn [app] in I.
    destruct (w_sched w) as [|k ks] eqn:S; [cbn in L; lia|].
    inversion F as [|? ? K F']; subst.
    erewrite bind_ret by (eapply receive_one with (k := k) (ks := ks); [exact I|exact S|exact K]).
    cbn [fst snd got]. replace (1 <? 0) with false by reflexivity.
    rewrite (IH room (acc ++ [d]) c' y' (set_in (y' ++ 10%N :: rest) (set_sched ks w)) rest); cbn [w_in w_sched w_buf set_in set_sched]; auto.
    + rewrite <- !app_assoc. cbn [app length]. reflexivity.
    + intros ?. apply NI. now right.
    + cbn in R. lia.
    + cbn in L |- *. lia.
Qed.

Lemma room_eq : N.to_nat 4095 = Z.to_nat 4095.
Proof. reflexivity. Qed.

Lemma readLine_ok x w rest :
  w_in w = x ++ 13%N :: 10%N :: rest -> ~ In 13%N x -> Z.of_nat (length x) < 4096 ->
  Forall (fun k => 0 < k) (w_sched w) -> (length x + 2 <= length (w_sched w))%nat ->
  readLine w = Ret (Z.of_nat (length x))
                   (rd rest (skipn (length x + 2) (w_sched w)) (x ++ 0%N :: skipn (S (length x)) (w_buf w)) w).
Proof.
  intros I NI B F L. unfold readLine. erewrite bind_ret by reflexivity.
  destruct (w_sched w) as [|k ks] eqn:S; [cbn in L; lia|].
  inversion F as [|? ? K F']; subst.
  assert (exists c y, x ++ [13%N] = c :: y) as (c & y & E).
  { destruct x as [|c x]; [now exists 13%N, []|]. now exists c, (x ++ [13%N]). }
  assert (w_in w = c :: y ++ 10%N :: rest) as I'.
  { rewrite I. change (13%N :: 10%N :: rest) with ([13%N] ++ 10%N :: rest). rewrite app_assoc, E. reflexivity. }
  erewrite bind_ret by (eapply receive_one with (k := k) (ks := ks); [exact I'|exact S|exact K]).
  cbn [fst snd got]. replace (1 <? 0) with false by reflexivity.
  assert (Datatypes.S (length y) = length x + 1)%nat as Ly.
  { apply (f_equal (@length _)) in E. rewrite app_length in E. cbn in E. lia. }
  rewrite (line_loop_ok x (N.to_nat 4095) [] c y (set_in (y ++ 10%N :: rest) (set_sched ks w)) rest); cbn [w_in w_sched w_buf set_in set_sched]; auto.
  - cbn [app]. rewrite Ly. replace (length x + 2)%nat with (Datatypes.S (length x + 1)) by lia. reflexivity.
  - rewrite room_eq. lia.
  - cbn in L. lia.
Qed.

Lemma c_string_app x r : ~ In 0%N x -> c_string_of (x ++ 0%N :: r) = Some x.
Proof.
  induction x as [|c x IH]; intros H; [reflexivity|]. cbn [app c_string_of].
  destruct (N.eqb_spec c 0) as [->|]; [exfalso; apply H; now left|].
  rewrite IH; [reflexivity|]. intros ?. apply H. now right.
Qed.

Lemma buf_text_ok x r w : w_buf w = x ++ 0%N :: r -> ~ In 0%N x -> buf_text w = Ret x w.
Proof. intros E NI. unfold buf_text. rewrite E, c_string_app by exact NI. reflexivity. Qed.

Lemma forall_skipn {A} (P : A -> Prop) n l : Forall P l -> Forall P (skipn n l).
Proof.
  revert l. induction n as [|n IH]; intros l F; [exact F|]. destruct l; [constructor|]. inversion F; subst. now apply IH.
Qed.
Lemma forall_firstn {A} (P : A -> Prop) n l : Forall P l -> Forall P (firstn n l).
Proof.
  revert l. induction n as [|n IH]; intros l F; [constructor|]. destruct l; [constructor|]. inversion F; subst. constructor; auto.
Qed.

(* a_line: the line is in buf, what follows it was not touched *)
Lemma a_line_ok x w rest :
  w_in w = x ++ CRLF ++ rest -> line_ok x -> arrives (x ++ CRLF) w ->
  a_line w = Ret tt (rd rest (skipn (length x + 2) (w_sched w)) (x ++ 0%N :: skipn (S (length x)) (w_buf w)) w).
Proof.
  intros I (L1 & L2 & L3) (F & L). rewrite app_length in L. cbn [length CRLF] in L. unfold a_line.
  erewrite bind_ret by (apply (readLine_ok x w rest); [exact I|exact L1|exact L3|exact F|exact L]).
  destruct (Z.ltb_spec (Z.of_nat (length x)) 0); [lia|]. reflexivity.
Qed.

(** * readChunk *)

Lemma skipn_more {A} a b (l : list A) : skipn a (skipn b l) = skipn (a + b) l.
Proof.
  revert l. induction b as [|b IH]; intros l.
  - cbn [skipn]. now rewrite Nat.add_0_r.
  - destruct l as [|x l]; [now rewrite !skipn_nil|]. rewrite Nat.add_succ_r. cbn [skipn]. apply IH.
Qed.
Lemma overwrite_length {A} i (bs l : list A) : (i + length bs <= length l)%nat -> length (overwrite i bs l) = length l.
Proof. intros L. unfold overwrite. rewrite !app_length, firstn_length, skipn_length. lia. Qed.
Lemma overwrite_app {A} i (a b l : list A) : (i <= length l)%nat ->
  overwrite (i + length a) b (overwrite i a l) = overwrite i (a ++ b) l.
Proof.
  intros L. unfold overwrite. rewrite app_length.
  rewrite firstn_app, firstn_firstn, firstn_length. rewrite Nat.min_r by lia.
  replace (i + length a - Nat.min i (length l))%nat with (length a) by lia.
  rewrite firstn_app, Nat.sub_diag, firstn_all. cbn [firstn]. rewrite app_nil_r.
  rewrite skipn_app, skipn_firstn_comm. 
  replace (i - (i + length a + length b))%nat with 0%nat by lia. cbn [firstn app].
  rewrite firstn_length. replace (i + length a + length b - Nat.min i (length l))%nat with (length a + length b)%nat by lia.
  rewrite skipn_app. rewrite (skipn_all2 a) by lia. cbn [app].
  replace (length a + length b - length a)%nat with (length b) by lia.
  rewrite skipn_more. rewrite <- !app_assoc. do 3 f_equal. f_equal. lia.
Qed.
Lemma overwrite_nil {A} i (l : list A) : overwrite i [] l = l.
Proof. unfold overwrite. cbn [length app]. rewrite Nat.add_0_r. apply firstn_skipn. Qed.

Definition written (d : dest) (off : Z) (bs : list N) (w : world) : world :=
  match d with
  | ToBuf => set_buf (overwrite (Z.to_nat off) bs (w_buf w)) w
  | ToBody base =>
    match w_body w with
    | Some block => set_body (Some (overwrite (Z.to_nat (base + off)) (map Some bs) block)) (w_ptr w) w
    | None => w
    end
  end.
(* there is room for [n] bytes from [off] on *)
Definition room_for (d : dest) (off n : Z) (w : world) : Prop :=
  match d with
  | ToBuf => 0 <= off <= Z.of_nat (length (w_buf w)) /\ off + n <= 4096
  | ToBody base =>
    exists block, w_body w = Some block /\ 0 <= base /\ 0 <= off /\ base + off + n <= Z.of_nat (length block) /\
                  Z.of_nat (length block) < 4294967296
  end.

Lemma store_ok d off bs w : room_for d off (Z.of_nat (length bs)) w -> bs <> [] ->
  store d off bs w = Ret tt (written d off bs w).
Proof.
  intros R NE. unfold store. destruct bs as [|b bs]; [congruence|].
  destruct d as [|base]; cbn [room_for] in R.
  - destruct R as (R1 & R2). destruct (Z.leb_spec (off + Z.of_nat (length (b :: bs))) 4096); [reflexivity|lia].
  - destruct R as (block & E & R1 & R2 & R3 & R4). rewrite E. cbn zeta. unfold written. rewrite E.
    rewrite size32_small by lia.
    destruct (Z.leb_spec (base + off + Z.of_nat (length (b :: bs))) (Z.of_nat (length block))); [reflexivity|lia].
Qed.

Lemma written_app d off a b w : room_for d off (Z.of_nat (length a) + Z.of_nat (length b)) w ->
  written d (off + Z.of_nat (length a)) b (written d off a w) = written d off (a ++ b) w.
Proof.
  intros R. destruct d as [|base]; cbn [room_for written] in *.
  - cbn [w_buf set_buf]. replace (Z.to_nat (off + Z.of_nat (length a))) with (Z.to_nat off + length a)%nat by lia.
    rewrite overwrite_app by lia. reflexivity.
  - destruct R as (block & E & R1 & R2 & R3 & R4). rewrite E. cbn [w_body set_body w_ptr].
    replace (Z.to_nat (base + (off + Z.of_nat (length a)))) with (Z.to_nat (base + off) + length (map (@Some N) a))%nat by (rewrite map_length; lia).
    rewrite overwrite_app by lia. rewrite map_app. reflexivity.
Qed.

Lemma room_for_written d off n m bs w : room_for d off (n + m) w -> Z.of_nat (length bs) = n -> 0 <= m ->
  room_for d (off + n) m (written d off bs w).
Proof.
  intros R L M. destruct d as [|base]; cbn [room_for written] in *.
  - cbn [w_buf set_buf]. unfold overwrite. rewrite !app_length, firstn_length, skipn_length. lia.
  - destruct R as (block & E & R1 & R2 & R3 & R4). rewrite E. cbn [w_body set_body].
    eexists. split; [reflexivity|]. rewrite overwrite_length by (rewrite map_length; lia). lia.
Qed.

Lemma room_for_rd d off n i s w : room_for d off n (set_in i (set_sched s w)) <-> room_for d off n w.
Proof. destruct d; reflexivity. Qed.
Lemma written_rd d off bs i s w : written d off bs (set_in i (set_sched s w)) = set_in i (set_sched s (written d off bs w)).
Proof. destruct d as [|base]; [reflexivity|]. cbn [written]. cbn [w_body set_in set_sched]. destruct (w_body w); reflexivity. Qed.
Lemma set_in_sched w : set_in (w_in w) (set_sched (w_sched w) w) = w.
Proof. destruct w. reflexivity. Qed.
Lemma written_in d off bs w : w_in (written d off bs w) = w_in w.
Proof. destruct d as [|base]; [reflexivity|]. cbn [written]. destruct (w_body w); reflexivity. Qed.
Lemma written_sched d off bs w : w_sched (written d off bs w) = w_sched w.
Proof. destruct d as [|base]; [reflexivity|]. cbn [written]. destruct (w_body w); reflexivity. Qed.

Lemma chunk_loop_ok : forall fuel d data off w rest,
  w_in w = data ++ rest -> Forall (fun k => 0 < k) (w_sched w) ->
  (length data <= length (w_sched w))%nat -> (length (w_sched w) < fuel)%nat ->
  0 <= off -> off + Z.of_nat (length data) < 2147483648 -> room_for d off (Z.of_nat (length data)) w ->
  exists n, (n <= length data)%nat /\
    chunk_loop fuel d (Z.of_nat (length data)) off w =
      Ret (off + Z.of_nat (length data)) (set_in rest (set_sched (skipn n (w_sched w)) (written d off data w))).
Proof.
  induction fuel as [|fuel IH]; intros d data off w rest I F L FU O B R; [lia|].
  cbn [chunk_loop]. destruct (Z.eqb_spec (Z.of_nat (length data)) 0) as [Z0|NZ].
  - destruct data as [|x data]; [|cbn in Z0; lia]. exists 0%nat. split; [cbn; lia|].
    unfold ret. rewrite int32_small by lia. cbn [length]. rewrite Z.add_0_r. cbn [app] in I. subst rest.
    f_equal. cbn [skipn]. rewrite <- written_rd. rewrite set_in_sched.
    destruct d as [|base]; cbn [written map].
    + rewrite overwrite_nil. now destruct w.
    + destruct (w_body w) eqn:EB; [|reflexivity]. rewrite overwrite_nil, <- EB. now destruct w.
  - destruct (w_sched w) as [|k ks] eqn:S; [cbn in L; lia|].
    inversion F as [|? ? K F']; subst.
    set (m := Z.min k (Z.of_nat (length data))).
    assert (receive (int32 (Z.of_nat (length data))) w =
            Ret (m, firstn (Z.to_nat m) data) (set_in (skipn (Z.to_nat m) data ++ rest) (set_sched ks w))) as RE.
    { unfold receive. rewrite S. rewrite int32_small by lia.
      destruct (Z.ltb_spec (Z.of_nat (length data)) 0); [lia|]. destruct (Z.ltb_spec k 0); [lia|].
      rewrite I, app_length. cbn zeta.
      replace (Z.min (Z.min k (Z.of_nat (length data))) (Z.of_nat (length data + length rest))) with m by lia.
      destruct (Z.eqb_spec m 0); [lia|].
      rewrite firstn_app, skipn_app.
      replace (Z.to_nat m - length data)%nat with 0%nat by lia. cbn [firstn skipn]. rewrite app_nil_r. reflexivity. }
    erewrite bind_ret by exact RE. cbn [fst snd].
    set (a := firstn (Z.to_nat m) data). set (b := skipn (Z.to_nat m) data).
    assert (Z.of_nat (length a) = m) as La by (subst a; rewrite firstn_length; lia).
    assert (Z.of_nat (length b) = Z.of_nat (length data) - m) as Lb by (subst b; rewrite skipn_length; lia).
    assert (data = a ++ b) as Eab by (symmetry; apply firstn_skipn).
    erewrite bind_ret.
    2:{ apply store_ok; [|intros X; rewrite X in La; cbn in La; lia].
        apply room_for_rd. rewrite La. 
        destruct d as [|base]; cbn [room_for] in *; [lia|]. destruct R as (block & ? & ?). exists block. split; [assumption|]. lia. }
    cbn zeta. rewrite size32_small by lia. destruct (Z.eqb_spec m 0); [lia|].
    rewrite !size32_small by lia. rewrite <- Lb.
    destruct (IH d b (off + m) (written d off a (set_in (b ++ rest) (set_sched ks w))) rest) as (n' & Hn & E).
    + now rewrite written_in.
    + now rewrite written_sched.
    + rewrite written_sched. cbn [w_sched set_in set_sched]. cbn in L. lia.
    + rewrite written_sched. cbn [w_sched set_in set_sched]. cbn in FU. lia.
    + lia.
    + lia.
    + apply room_for_written; [|lia|lia]. apply room_for_rd. replace (m + Z.of_nat (length b)) with (Z.of_nat (length data)) by lia. exact R.
    + exists (Datatypes.S n'). split; [lia|]. rewrite E, written_sched, written_rd. cbn [w_sched set_in set_sched].
      replace (off + m + Z.of_nat (length b)) with (off + Z.of_nat (length data)) by lia.
      f_equal. rewrite <- La. rewrite written_rd.
      rewrite written_app by (rewrite La; replace (m + Z.of_nat (length b)) with (Z.of_nat (length data)) by lia; exact R).
      rewrite <- Eab. reflexivity.
Qed.

Lemma readChunk_ok d data w rest :
  w_in w = data ++ rest -> arrives data w -> Z.of_nat (length data) < 2147483648 ->
  room_for d 0 (Z.of_nat (length data)) w ->
  exists n, (n <= length data)%nat /\
    readChunk d (Z.of_nat (length data)) w =
      Ret (Z.of_nat (length data)) (set_in rest (set_sched (skipn n (w_sched w)) (written d 0 data w))).
Proof.
  intros I (F & L) B R. unfold readChunk.
  destruct (chunk_loop_ok (S (length (w_sched w))) d data 0 w rest) as (n & Hn & E); auto; try lia.
  exists n. split; [exact Hn|]. rewrite E. reflexivity.
Qed.

(* skipN gives buf some other content *)
Lemma skip_loop_ok : forall fuel org data w rest,
  w_in w = data ++ rest -> arrives data w -> Z.of_nat (length data) < 2147483648 ->
  Z.of_nat (length data) / 4096 < Z.of_nat fuel -> 0 <= org < 2147483648 ->
  exists n b, (n <= length data)%nat /\
    skip_loop fuel org (Z.of_nat (length data)) w = Ret org (rd rest (skipn n (w_sched w)) b w).
Proof.
  induction fuel as [|fuel IH]; intros org data w rest I (F & L) B FU O; [lia|].
  cbn [skip_loop]. destruct (Z.ltb_spec 4096 (Z.of_nat (length data))) as [G|G].
  - set (a := firstn (Z.to_nat 4096) data). set (b := skipn (Z.to_nat 4096) data).
    assert (data = a ++ b) as Eab by (symmetry; apply firstn_skipn).
    assert (Z.of_nat (length a) = 4096) as La by (subst a; rewrite firstn_length; lia).
    assert (Z.of_nat (length b) = Z.of_nat (length data) - 4096) as Lb by (subst b; rewrite skipn_length; lia).
    destruct (readChunk_ok ToBuf a w (b ++ rest)) as (n & Hn & E).
    + rewrite I, Eab, app_assoc. reflexivity.
    + split; [exact F|lia].
    + lia.
    + cbn [room_for]. lia.
    + rewrite La in E. erewrite bind_ret by exact E. replace (4096 <? 0) with false by reflexivity.
      rewrite <- Lb.
      destruct (IH org b (set_in (b ++ rest) (set_sched (skipn n (w_sched w)) (written ToBuf 0 a w))) rest) as (n' & b' & Hn' & E').
      * reflexivity.
      * split; cbn [w_sched set_in set_sched]; [now apply forall_skipn|]. rewrite skipn_length. lia.
      * lia.
      * rewrite Lb. lia.
      * lia.
      * exists (n + n')%nat, b'. split; [lia|]. rewrite E'. cbn [w_sched set_in set_sched]. rewrite skipn_more.
        rewrite (Nat.add_comm n' n). reflexivity.
  - destruct (readChunk_ok ToBuf data w rest) as (n & Hn & E); [exact I|split; assumption|lia|cbn [room_for]; lia|].
    exists n, (overwrite (Z.to_nat 0) data (w_buf w)). split; [exact Hn|].
    erewrite bind_ret by exact E. destruct (Z.ltb_spec (Z.of_nat (length data)) 0); [lia|].
    rewrite int32_small by lia. reflexivity.
Qed.

Lemma skipN_ok data w rest :
  w_in w = data ++ rest -> arrives data w -> Z.of_nat (length data) < 2147483648 ->
  exists n b, (n <= length data)%nat /\
    skipN (Z.of_nat (length data)) w = Ret (Z.of_nat (length data)) (rd rest (skipn n (w_sched w)) b w).
Proof.
  intros I A B. unfold skipN. apply skip_loop_ok; auto; lia.
Qed.

Lemma crlf_ok w rest : w_in w = CRLF ++ rest -> arrives CRLF w ->
  exists n, (n <= 2)%nat /\
    crlf_missing w = Ret false (rd rest (skipn n (w_sched w)) (CRLF ++ skipn 2 (w_buf w)) w).
Proof.
  intros I A. unfold crlf_missing.
  destruct (readChunk_ok ToBuf CRLF w rest) as (n & Hn & E); [exact I|exact A|cbn; lia|cbn [room_for CRLF length]; lia|].
  exists n. split; [exact Hn|]. change (Z.of_nat (length CRLF)) with 2 in E.
  erewrite bind_ret by exact E. replace (2 <? 0) with false by reflexivity.
  erewrite bind_ret by reflexivity. reflexivity.
Qed.
