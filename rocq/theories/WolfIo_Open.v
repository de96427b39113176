(* Opening a wolfSSL io: C101, C102. *)
From Verif Require Import Base WolfIo_Model WolfIo_Spec WolfIo_Logic WolfIo_Frame WolfIo_Flow.
Open Scope Z_scope.

Section Once.
Context (E : engine).
Definition asked (l : list event) : nat := count is_underlying_open l.
Definition IC (w : world E) : Prop :=
  (opens 408 (log E w) + opens 0 (log E w) + opens 418 (log E w) <= asked (log E w))%nat /\ (asked (log E w) <= opens 408 (log E w) + 1)%nat /\
  (state E w = NOT_OPEN -> asked (log E w) = opens 408 (log E w)).
(* calls of open that went on to open the underlying io and have not returned *)
Definition RC (w w' : world E) : Prop :=
  (asked (log E w') + opens 408 (log E w) + opens 0 (log E w) + opens 418 (log E w) = asked (log E w) + opens 408 (log E w') + opens 0 (log E w') + opens 418 (log E w'))%nat.
#[local] Arguments count : simpl never.
Ltac cnt := unfold IC, RC, asked, opens in *; sim; rewrite ?count_snoc in *; cbn [is_underlying_open open_returned] in *; cbn [Z.eqb Pos.eqb] in *.
Ltac cnt0 := intros; intros Hi; cnt; destruct Hi as (Hx & Hy & Hz); (split; [split; [lia|split; [lia|first [discriminate|intros Hc; specialize (Hz Hc); lia] ] ]|lia]).
Lemma cnt_pieces : pieces_ok E IC RC (always E).
Proof.
  constructor; try (solve [unfold always; auto]); try solve [cnt0].
  - intros w. unfold RC. lia.
  - unfold RC. intros. lia.
  - intros w o r Ho Hi. destruct o as [h ? ? ? ? ? ?| | |]; [destruct h; [contradiction|]|..]; revert Hi; cnt; intros (Hx & Hy & Hz); (split; [split; [lia|split; [lia|intros Hc; specialize (Hz Hc); lia]]|lia]).
Qed.
Lemma cnt_open : forall env loops, env_ok E IC RC env -> open_ok E IC RC env loops.
Proof.
  intros env loops He oo ooc ob obc oe oec w Hw Es. unfold api, call, tlsio_wolfssl_open. wps. cbn [state add_log]. rewrite Es. wps.
  pose proof Hw as (A1 & A2 & A3). specialize (A3 Es).
  eapply wp_env; [exact He| |].
  - cnt. split; [lia|split; [lia|discriminate]].
  - intros r w1 (H1 & H1' & _) H2. destruct (negb (r =? 0)).
    + wps. cnt. split; [split; [lia|split; [lia|intros _; lia]]|lia].
    + wps. assert (H3 : IC (set_state E w1 IN_HANDSHAKE)) by (cnt; split; [lia|split; [lia|discriminate]]).
      eapply wp_imp; [apply (k_connect E IC RC (always E) cnt_pieces env He); [exact H3|exact I]|]. intros z w2 [ (H5 & H5' & H5'') H6].
      assert (H7 : state E w2 = NOT_OPEN -> False). { intros Hs. specialize (H5'' Hs). clear H3. cnt. lia. }
      clear H3 H5''. destruct (negb (z =? 1)); wps; cnt; (split; [split; [lia|split; [lia|intros Hs; destruct (H7 Hs)]]|lia]).
Qed.
Lemma cnt_run f s al an l : IC (snd (run E f s al an l)).
Proof.
  apply (frame E IC RC (always E) cnt_pieces); [exact cnt_open|]. split; [cbv; lia|split; [cbv; lia|reflexivity]].
Qed.
End Once.

(* C102 is false: over the life of an io at most one call of open gets past the opening of the
   underlying io, however often the io is closed; so *)
Theorem wolf_opened_once_in_a_life : forall E f s al an l, (opens 0 (log E (snd (run E f s al an l))) + opens 418 (log E (snd (run E f s al an l))) <= 1)%nat.
Proof. intros E f s al an l. pose proof (cnt_run E f s al an l) as (A & B & _). unfold opens, asked in *. lia. Qed.
Lemma count_app {A} (p : A -> bool) a b : count p (a ++ b) = (count p a + count p b)%nat.
Proof. unfold count. rewrite filter_app, app_length. reflexivity. Qed.
Lemma count_in {A} (p : A -> bool) l x : In x l -> p x = true -> (1 <= count p l)%nat.
Proof. intros H1 H2. unfold count. assert (In x (filter p l)) by (apply filter_In; auto). destruct (filter p l); [destruct H|cbn; lia]. Qed.
(* after a call of open that succeeded, or whose handshake failed, no call of open ever succeeds. *)
Theorem wolf_reopen_refuted : forall E f s al an l l1 oo ooc ob obc oe oec r l2, log E (snd (run E f s al an l)) = l1 ++ LReturn (OOpen true oo ooc ob obc oe oec) r :: l2 -> r = 0 \/ r = 418 ->
  forall oo' ooc' ob' obc' oe' oec' r', In (LReturn (OOpen true oo' ooc' ob' obc' oe' oec') r') l2 -> r' <> 0.
Proof.
  intros E f s al an l l1 oo ooc ob obc oe oec r l2 Hl Hr oo' ooc' ob' obc' oe' oec' r' Hin ->. pose proof (wolf_opened_once_in_a_life E f s al an l) as H. rewrite Hl in H. unfold opens in H. rewrite !count_app in H.
  change (LReturn (OOpen true oo ooc ob obc oe oec) r :: l2) with ([LReturn (OOpen true oo ooc ob obc oe oec) r] ++ l2) in H. rewrite !count_app in H.
  assert (H1 : (1 <= count (open_returned 0) l2)%nat) by (eapply count_in; [exact Hin|reflexivity]).
  destruct Hr as [-> | ->]; cbn in H; lia.
Qed.
