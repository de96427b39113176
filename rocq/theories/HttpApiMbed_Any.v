(* What the adapter makes of any bytes. *)
From Verif Require Import Base Map_Model HttpHeaders_Spec HttpApiMbed_Model HttpApiMbed_Spec HttpApiMbed_Read HttpApiMbed_Scan HttpApiMbed_Reply HttpApiMbed_Props.
Local Open Scope Z_scope.

(** * readLine *)

Lemma set_sched_nil w : w_sched w = [] -> w = set_sched [] w.
Proof. intros <-. destruct w. reflexivity. Qed.

Lemma receive_one_any w :
  (exists r w1, r < 0 /\ receive 1 w = Ret (r, []) w1) \/
  receive 1 w = Ret (0, []) (set_sched [] w) \/
  exists c rest k ks, 0 < k /\ w_in w = c :: rest /\ w_sched w = k :: ks /\
    receive 1 w = Ret (1, [c]) (set_in rest (set_sched ks w)).
Proof.
  unfold receive. destruct (w_sched w) as [|k ks] eqn:S.
  - right. left. rewrite <- (set_sched_nil w S). reflexivity.
  - replace (1 <? 0) with false by reflexivity. destruct (Z.ltb_spec k 0) as [K|K].
    + left. eauto.
    + right. destruct (w_in w) as [|c rest] eqn:I.
      * left. replace (Z.min (Z.min k 1) (Z.of_nat (length (@nil N)))) with 0 by (cbn; lia). reflexivity.
      * cbn zeta. destruct (Z.eqb_spec (Z.min (Z.min k 1) (Z.of_nat (length (c :: rest)))) 0) as [E|E].
        -- left. reflexivity.
        -- right. cbn [length] in E. assert (Z.min (Z.min k 1) (Z.of_nat (length (c :: rest))) = 1) as -> by (cbn [length]; lia).
           exists c, rest, k, ks. split; [lia|]. auto.
Qed.

(* nothing comes any more *)
Lemma line_loop_over room : forall acc c w, w_sched w = [] -> exists w1, line_loop room acc c w = Ret (-1) w1.
Proof.
  assert (forall w, w_sched w = [] -> receive 1 w = Ret (0, []) w) as R by (intros w S; unfold receive; now rewrite S).
  induction room as [|room IH]; intros acc c w S; cbn [line_loop]; destruct (N.eqb_spec c 13) as [->|N].
  1,3: erewrite bind_ret by reflexivity; erewrite bind_ret by (apply R; exact S); eexists; reflexivity.
  - eexists; reflexivity.
  - erewrite bind_ret by (apply R; exact S). cbn [fst snd got]. change (0 <? 0) with false. cbn iota. now apply IH.
Qed.

Lemma line_loop_any : forall room acc c w,
  (exists w1, line_loop room acc c w = Ret (-1) w1) \/
  exists x y rest, x ++ [13%N] = c :: y /\ w_in w = y ++ 10%N :: rest /\ ~ In 13%N x /\ (length x <= room)%nat /\
    line_loop room acc c w =
      Ret (Z.of_nat (length (acc ++ x)))
        (rd rest (skipn (S (length y)) (w_sched w))
            ((acc ++ x) ++ 0%N :: skipn (S (length (acc ++ x))) (w_buf w)) w).
Proof.
  assert (forall room acc w, line_loop room acc 13%N w =
    (change (fun w => set_buf (acc ++ 0%N :: skipn (S (length acc)) (w_buf w)) w) ;;
     p <- receive 1 ;;
     if (fst p <? 0) || negb (got (snd p) 13%N =? 10)%N then ret (-1) else ret (Z.of_nat (length acc))) w) as CR by (intros []; reflexivity).
  assert (forall room acc w,
    (exists w1, line_loop room acc 13%N w = Ret (-1) w1) \/
    exists x y rest, x ++ [13%N] = 13%N :: y /\ w_in w = y ++ 10%N :: rest /\ ~ In 13%N x /\ (length x <= room)%nat /\
    line_loop room acc 13%N w =
      Ret (Z.of_nat (length (acc ++ x)))
        (rd rest (skipn (S (length y)) (w_sched w))
            ((acc ++ x) ++ 0%N :: skipn (S (length (acc ++ x))) (w_buf w)) w)) as END.
  { intros room acc w. rewrite CR. erewrite bind_ret by reflexivity.
    set (w1 := set_buf _ w).
    destruct (receive_one_any w1) as [(r & w2 & R & E)|[E|(c & rest & k & ks & K & I & SC & E)] ].
    - left. erewrite bind_ret by exact E. cbn [fst snd]. destruct (Z.ltb_spec r 0); [|lia]. eexists; reflexivity.
    - left. erewrite bind_ret by exact E. eexists; reflexivity.
    - erewrite bind_ret by exact E. cbn [fst snd got]. change (1 <? 0) with false. cbn [orb].
      destruct (N.eqb_spec c 10) as [->|NC]; [|left; eexists; reflexivity].
      right. exists [], [], rest. cbn in I, SC. rewrite app_nil_r. rewrite SC. repeat split; auto; cbn; lia. }
  induction room as [|room IH]; intros acc c w.
  - destruct (N.eqb_spec c 13) as [->|N]; [apply END|]. left. cbn [line_loop].
    apply N.eqb_neq in N. rewrite N. eexists; reflexivity.
  - destruct (N.eqb_spec c 13) as [->|N]; [apply END|]. cbn [line_loop].
    pose proof N as N'. apply N.eqb_neq in N. rewrite N.
    destruct (receive_one_any w) as [(r & w2 & R & E)|[E|(c' & rest & k & ks & K & I & SC & E)] ].
    + left. erewrite bind_ret by exact E. cbn [fst snd]. destruct (Z.ltb_spec r 0); [|lia]. eexists; reflexivity.
    + left. erewrite bind_ret by exact E. cbn [fst snd got]. change (0 <? 0) with false. cbn iota. now apply line_loop_over.
    + erewrite bind_ret by exact E. cbn [fst snd got]. change (1 <? 0) with false. cbn iota.
      destruct (IH (acc ++ [c]) c' (set_in rest (set_sched ks w))) as [L|(x & y & rest' & E1 & E2 & E3 & E4 & E5)]; [left; exact L|].
      right. cbn [w_in set_in] in E2. exists (c :: x), (c' :: y), rest'. split; [cbn; now rewrite E1|].
      split; [rewrite I, E2; reflexivity|]. split; [intros [?|?]; [now apply N'|now apply E3]|]. split; [cbn; lia|].
      rewrite E5. cbn [w_sched w_buf set_in set_sched]. rewrite SC. rewrite <- !app_assoc. cbn [app length]. reflexivity.
Qed.

Lemma readLine_any w :
  (exists w1, readLine w = Ret (-1) w1) \/
  exists x rest, w_in w = x ++ CRLF ++ rest /\ raw_line x /\
    readLine w = Ret (Z.of_nat (length x))
                   (rd rest (skipn (length x + 2) (w_sched w)) (x ++ 0%N :: skipn (S (length x)) (w_buf w)) w).
Proof.
  unfold readLine. erewrite bind_ret by reflexivity.
  destruct (receive_one_any w) as [(r & w2 & R & E)|[E|(c & rest & k & ks & K & I & SC & E)] ].
  - left. erewrite bind_ret by exact E. cbn [fst snd]. destruct (Z.ltb_spec r 0); [|lia]. eexists; reflexivity.
  - left. erewrite bind_ret by exact E. cbn [fst snd got]. change (0 <? 0) with false. cbn iota. now apply line_loop_over.
  - erewrite bind_ret by exact E. cbn [fst snd got]. change (1 <? 0) with false. cbn iota.
    destruct (line_loop_any (N.to_nat 4095) [] c (set_in rest (set_sched ks w))) as [L|(x & y & rest' & E1 & E2 & E3 & E4 & E5)]; [left; exact L|].
    right. cbn [w_in set_in] in E2. exists x, rest'. split.
    + rewrite I, E2. unfold CRLF. change (x ++ [13; 10]%N ++ rest') with (x ++ [13%N] ++ 10%N :: rest'). rewrite app_assoc, E1. reflexivity.
    + split; [split; [exact E3|rewrite room_eq in E4; lia]|]. rewrite E5. cbn [w_sched w_buf set_in set_sched]. cbn [app].
      assert (S (length y) = length x + 1)%nat as Ly.
      { apply (f_equal (@length _)) in E1. rewrite app_length in E1. cbn in E1. lia. }
      rewrite Ly, SC. replace (length x + 2)%nat with (S (length x + 1)) by lia. reflexivity.
Qed.

Lemma a_line_any w :
  (exists w1, a_line w = Fail HTTPAPI_READ_DATA_FAILED w1) \/
  exists x rest, w_in w = x ++ CRLF ++ rest /\ raw_line x /\
    a_line w = Ret tt (rd rest (skipn (length x + 2) (w_sched w)) (x ++ 0%N :: skipn (S (length x)) (w_buf w)) w).
Proof.
  unfold a_line. destruct (readLine_any w) as [(w1 & E)|(x & rest & I & R & E)].
  - left. erewrite bind_ret by exact E. eexists; reflexivity.
  - right. exists x, rest. split; [exact I|]. split; [exact R|]. erewrite bind_ret by exact E.
    destruct (Z.ltb_spec (Z.of_nat (length x)) 0); [lia|]. reflexivity.
Qed.
(* nothing comes any more *)
Lemma a_line_over w : w_sched w = [] -> exists w1, a_line w = Fail HTTPAPI_READ_DATA_FAILED w1.
Proof.
  intros SC. assert (receive 1 w = Ret (0, []) w) as R by (unfold receive; now rewrite SC).
  destruct (line_loop_over (N.to_nat 4095) [] (got [] (w_c0 w)) w SC) as (w1 & E).
  assert (readLine w = Ret (-1) w1) as L.
  { unfold readLine. erewrite bind_ret by reflexivity. erewrite bind_ret by exact R. exact E. }
  exists w1. unfold a_line. erewrite bind_ret by exact L. reflexivity.
Qed.

Lemma c_string_text l junk : c_string_of (l ++ 0%N :: junk) = Some (c_text l).
Proof.
  induction l as [|c l IH]; [reflexivity|]. cbn [app c_string_of c_text]. destruct (c =? 0)%N; [reflexivity|]. now rewrite IH.
Qed.
Lemma buf_text_any l junk w : w_buf w = l ++ 0%N :: junk -> buf_text w = Ret (c_text l) w.
Proof. intros E. unfold buf_text. now rewrite E, c_string_text. Qed.
Lemma c_text_plain l : ~ In 0%N l -> c_text l = l.
Proof.
  induction l as [|c l IH]; intros N; [reflexivity|]. cbn [c_text]. destruct (N.eqb_spec c 0) as [->|]; [exfalso; apply N; now left|].
  rewrite IH; [reflexivity|]. intros ?. apply N. now right.
Qed.

(** * readChunk *)

Lemma room_for_less d off n m w : room_for d off n w -> m <= n -> room_for d off m w.
Proof. destruct d; cbn [room_for]; [lia|]. intros (b & ? & ?) L. exists b. split; [assumption|lia]. Qed.

Lemma written_nil d off w : written d off [] w = w.
Proof.
  destruct d as [|base]; cbn [written map].
  - rewrite overwrite_nil. now destruct w.
  - destruct (w_body w) eqn:EB; [|reflexivity]. rewrite overwrite_nil, <- EB. now destruct w.
Qed.

Lemma chunk_loop_any : forall fuel d n off w,
  Forall (fun k => 0 <= k) (w_sched w) -> (length (w_sched w) < fuel)%nat ->
  0 <= off -> 0 <= n -> off + n < 2147483648 -> room_for d off n w ->
  exists data rest s, w_in w = data ++ rest /\ Z.of_nat (length data) <= n /\
    Forall (fun k => 0 <= k) s /\ (Z.of_nat (length data) = n \/ s = []) /\
    chunk_loop fuel d n off w = Ret (off + Z.of_nat (length data)) (set_in rest (set_sched s (written d off data w))).
Proof.
  induction fuel as [|fuel IH]; intros d n off w F FU O NN B R; [lia|].
  cbn [chunk_loop]. destruct (Z.eqb_spec n 0) as [Z0|NZ].
  - exists [], (w_in w), (w_sched w). cbn [length app]. split; [reflexivity|]. split; [lia|]. split; [exact F|]. split; [left; lia|].
    unfold ret. rewrite int32_small by lia. rewrite Z.add_0_r, written_nil, set_in_sched. reflexivity.
  - destruct (w_sched w) as [|k ks] eqn:S.
    + exists [], (w_in w), []. cbn [length app]. split; [reflexivity|]. split; [lia|]. split; [constructor|]. split; [now right|].
      erewrite bind_ret by (unfold receive; rewrite S; reflexivity). cbn [fst snd].
      erewrite bind_ret by reflexivity. change (size32 0 =? 0) with true. cbn zeta iota. unfold ret. rewrite int32_small by lia.
      rewrite Z.add_0_r, written_nil, <- S, set_in_sched. reflexivity.
    + inversion F as [|? ? K F']; subst.
      set (m := Z.min (Z.min k n) (Z.of_nat (length (w_in w)))).
      destruct (Z.eqb_spec m 0) as [M0|M0].
      * exists [], (w_in w), []. cbn [length app]. split; [reflexivity|]. split; [lia|]. split; [constructor|]. split; [now right|].
        erewrite bind_ret.
        2:{ unfold receive. rewrite S, int32_small by lia. destruct (Z.ltb_spec n 0); [lia|]. destruct (Z.ltb_spec k 0); [lia|].
            cbn zeta. fold m. rewrite M0. reflexivity. }
        cbn [fst snd]. erewrite bind_ret by reflexivity. change (size32 0 =? 0) with true. cbn zeta iota. unfold ret. rewrite int32_small by lia.
        rewrite Z.add_0_r, written_nil. destruct w; reflexivity.
      * set (a := firstn (Z.to_nat m) (w_in w)). set (b := skipn (Z.to_nat m) (w_in w)).
        assert (Z.of_nat (length a) = m) as La by (subst a; rewrite firstn_length; lia).
        assert (w_in w = a ++ b) as Eab by (symmetry; apply firstn_skipn).
        erewrite bind_ret.
        2:{ unfold receive. rewrite S, int32_small by lia. destruct (Z.ltb_spec n 0); [lia|]. destruct (Z.ltb_spec k 0); [lia|].
            cbn zeta. fold m. apply Z.eqb_neq in M0. rewrite M0. reflexivity. }
        cbn [fst snd]. fold a b.
        erewrite bind_ret.
        2:{ apply store_ok; [|intros X; rewrite X in La; cbn in La; lia].
            apply room_for_rd. rewrite La. eapply room_for_less; [exact R|lia]. }
        cbn zeta. rewrite size32_small by lia. destruct (Z.eqb_spec m 0); [lia|].
        rewrite !size32_small by lia.
        destruct (IH d (n - m) (off + m) (written d off a (set_in b (set_sched ks w)))) as (data & rest & s & I & L & FS & EOF & E).
        -- now rewrite written_sched.
        -- rewrite written_sched. cbn [w_sched set_in set_sched]. cbn in FU. lia.
        -- lia.
        -- lia.
        -- lia.
        -- apply room_for_written; [|exact La|lia]. apply room_for_rd. replace (m + (n - m)) with n by lia. exact R.
        -- rewrite written_in in I. cbn [w_in set_in] in I.
           exists (a ++ data), rest, s. split; [rewrite Eab, I, app_assoc; reflexivity|]. rewrite app_length, Nat2Z.inj_add, La.
           split; [lia|]. split; [exact FS|]. split; [destruct EOF; [left; lia|now right]|].
           rewrite E. replace (off + m + Z.of_nat (length data)) with (off + (m + Z.of_nat (length data))) by lia.
           f_equal. rewrite <- La at 1. rewrite !written_rd.
           rewrite written_app by (rewrite La; eapply room_for_less; [exact R|lia]).
           reflexivity.
Qed.

Lemma readChunk_any d n w :
  Forall (fun k => 0 <= k) (w_sched w) -> 0 <= n < 2147483648 -> room_for d 0 n w ->
  exists data rest s, w_in w = data ++ rest /\ Z.of_nat (length data) <= n /\
    Forall (fun k => 0 <= k) s /\ (Z.of_nat (length data) = n \/ s = []) /\
    readChunk d n w = Ret (Z.of_nat (length data)) (set_in rest (set_sched s (written d 0 data w))).
Proof.
  intros F N R. unfold readChunk.
  destruct (chunk_loop_any (S (length (w_sched w))) d n 0 w) as (data & rest & s & X); auto; try lia.
  exists data, rest, s. exact X.
Qed.

Lemma buf_longer (bs b : list N) : (length b <= length (overwrite (Z.to_nat 0) bs b))%nat.
Proof. unfold overwrite. change (Z.to_nat 0) with 0%nat. cbn [firstn app Nat.add]. rewrite app_length, skipn_length. lia. Qed.

Lemma skip_loop_any : forall fuel org n w,
  Forall (fun k => 0 <= k) (w_sched w) -> 0 <= n < 2147483648 -> n / 4096 < Z.of_nat fuel -> 0 <= org < 2147483648 ->
  exists data rest s b, w_in w = data ++ rest /\ Z.of_nat (length data) <= n /\
    Forall (fun k => 0 <= k) s /\ (Z.of_nat (length data) = n \/ s = []) /\ (length (w_buf w) <= length b)%nat /\
    skip_loop fuel org n w = Ret org (rd rest s b w).
Proof.
  induction fuel as [|fuel IH]; intros org n w F N FU O; [lia|].
  cbn [skip_loop]. destruct (Z.ltb_spec 4096 n) as [G|G].
  - destruct (readChunk_any ToBuf 4096 w F) as (d1 & r1 & s1 & I1 & L1 & F1 & EOF1 & E1); [lia|cbn [room_for]; lia|].
    erewrite bind_ret by exact E1. destruct (Z.ltb_spec (Z.of_nat (length d1)) 0); [lia|].
    destruct (IH org (n - 4096) (set_in r1 (set_sched s1 (written ToBuf 0 d1 w)))) as (d2 & r2 & s2 & b & I2 & L2 & F2 & EOF2 & B2 & E2).
    + exact F1.
    + lia.
    + lia.
    + lia.
    + cbn [w_in set_in] in I2. destruct EOF1 as [EOF1| ->].
      * exists (d1 ++ d2), r2, s2, b. split; [rewrite I1, I2, app_assoc; reflexivity|]. rewrite app_length, Nat2Z.inj_add.
        split; [lia|]. split; [exact F2|]. split; [destruct EOF2; [left; lia|now right]|].
        split; [|rewrite E2; reflexivity]. cbn [w_buf written set_buf set_in set_sched] in B2. pose proof (buf_longer d1 (w_buf w)). lia.
      * (* closed: the following pieces are empty *)
        exists (d1 ++ d2), r2, s2, b. split; [rewrite I1, I2, app_assoc; reflexivity|]. rewrite app_length, Nat2Z.inj_add.
        split; [lia|]. split; [exact F2|]. split.
        -- right. destruct EOF2 as [EOF2| ->]; [|reflexivity].
           (* all of n - 4096 arrived although nothing was to come *)
           pose proof (skip_loop_steady fuel org (n - 4096)) as _. 
           assert (forall s, skip_loop fuel org (n - 4096) (set_in r1 (set_sched [] (written ToBuf 0 d1 w))) = Ret org (rd r2 s b (set_in r1 (set_sched [] (written ToBuf 0 d1 w)))) -> s = []) as OV.
           { clear. intros s E. 
             assert (forall fuel n w a w', w_sched w = [] -> skip_loop fuel org n w = Ret a w' -> w_sched w' = []) as G.
             { clear. assert (forall d n w a w', w_sched w = [] -> readChunk d n w = Ret a w' -> w_sched w' = []) as RC.
               { intros d n w a w' S E. unfold readChunk in E. rewrite S in E. cbn [length chunk_loop] in E.
                 destruct (n =? 0); [now injection E as _ <-|]. erewrite bind_ret in E by (unfold receive; rewrite S; reflexivity).
                 cbn [fst snd] in E. erewrite bind_ret in E by reflexivity. change (size32 0 =? 0) with true in E. cbn zeta iota in E.
                 now injection E as _ <-. }
               induction fuel as [|fuel IH]; intros n w a w' S E; [discriminate E|]. cbn [skip_loop] in E.
               destruct (4096 <? n).
               - unfold bind in E. destruct (readChunk ToBuf 4096 w) as [k w1|c w1|w1|] eqn:E1; try discriminate E.
                 apply RC in E1; [|exact S]. destruct (k <? 0); [now injection E as _ <-|]. eapply IH; eassumption.
               - unfold bind in E. destruct (readChunk ToBuf n w) as [k w1|c w1|w1|] eqn:E1; try discriminate E.
                 apply RC in E1; [|exact S]. destruct (k <? 0); now injection E as _ <-. }
             eapply G in E; [exact E|reflexivity]. }
           apply OV. exact E2.
        -- split; [|rewrite E2; reflexivity]. cbn [w_buf written set_buf set_in set_sched] in B2. pose proof (buf_longer d1 (w_buf w)). lia.
  - destruct (readChunk_any ToBuf n w F) as (d1 & r1 & s1 & I1 & L1 & F1 & EOF1 & E1); [lia|cbn [room_for]; lia|].
    exists d1, r1, s1, (overwrite (Z.to_nat 0) d1 (w_buf w)). split; [exact I1|]. split; [exact L1|]. split; [exact F1|]. split; [exact EOF1|].
    split; [apply buf_longer|]. erewrite bind_ret by exact E1. destruct (Z.ltb_spec (Z.of_nat (length d1)) 0); [lia|].
    rewrite int32_small by lia. reflexivity.
Qed.

Lemma skipN_any n w :
  Forall (fun k => 0 <= k) (w_sched w) -> 0 <= n < 2147483648 ->
  exists data rest s b, w_in w = data ++ rest /\ Z.of_nat (length data) <= n /\
    Forall (fun k => 0 <= k) s /\ (Z.of_nat (length data) = n \/ s = []) /\ (length (w_buf w) <= length b)%nat /\
    skipN n w = Ret n (rd rest s b w).
Proof. intros F N. unfold skipN. apply skip_loop_any; auto; lia. Qed.

(* the line end after a chunk *)
Lemma crlf_any w a b t : Forall (fun k => 0 <= k) (w_sched w) -> w_buf w = a :: b :: t ->
  exists e data rest s buf, w_in w = data ++ rest /\ Forall (fun k => 0 <= k) s /\
    crlf_missing w = Ret e (rd rest s buf w) /\
    (e = false -> data = CRLF \/ (s = [] /\ (data = [] /\ a = 13%N \/ data = [13%N]) /\ b = 10%N)).
Proof.
  intros F B. unfold crlf_missing.
  destruct (readChunk_any ToBuf 2 w F) as (d1 & r1 & s1 & I1 & L1 & F1 & EOF1 & E1); [lia|cbn [room_for]; lia|].
  erewrite bind_ret by exact E1. destruct (Z.ltb_spec (Z.of_nat (length d1)) 0); [lia|].
  erewrite bind_ret by reflexivity. cbn [written w_buf set_buf set_in set_sched]. rewrite B. change (Z.to_nat 0) with 0%nat.
  destruct d1 as [|x [|y [|z d1] ] ]; [| | |cbn in L1; lia].
  - exists (negb ((a =? 13) && (b =? 10))%N), [], r1, s1, (a :: b :: t). split; [exact I1|]. split; [exact F1|]. split; [reflexivity|].
    intros X. apply negb_false_iff in X. apply andb_true_iff in X. destruct X as (X & Y). apply N.eqb_eq in X, Y.
    right. destruct EOF1 as [EOF1| ->]; [cbn in EOF1; lia|]. auto.
  - exists (negb ((x =? 13) && (b =? 10))%N), [x], r1, s1, (x :: b :: t). split; [exact I1|]. split; [exact F1|]. split; [reflexivity|].
    intros X. apply negb_false_iff in X. apply andb_true_iff in X. destruct X as (X & Y). apply N.eqb_eq in X, Y. subst.
    right. destruct EOF1 as [EOF1| ->]; [cbn in EOF1; lia|]. auto.
  - exists (negb ((x =? 13) && (y =? 10))%N), [x; y], r1, s1, (x :: y :: t). split; [exact I1|]. split; [exact F1|]. split; [reflexivity|].
    intros X. apply negb_false_iff in X. apply andb_true_iff in X. destruct X as (X & Y). apply N.eqb_eq in X, Y. subst. now left.
Qed.
