(* A test with mocks that meets the hypotheses of mocks_follow_test_partial, and what happens when they are not met. *)
From Verif Require Import Base Strings_Model UMockName_Model UMockTypes_Model UMock_Model UMock_Spec MockFn_Model MockFn_Spec MockText_Props MockFn_Props.
Local Open Scope Z_scope.

(* int f(int, char* ) and void g(void) *)
Definition Fs (f : nat) : mock := match f with O => {| m_name := [102]%N; arity := 2; gives := true |} | _ => {| m_name := [103]%N; arity := 0; gives := false |} end.
Definition vs : outside := {| type_equal := fun _ _ a b => if (a =? b)%nat then 1 else 0; type_text := fun _ _ a => Some [N.of_nat (48 + a mod 10)]; bytes_at := fun p => if (p =? 0)%nat then None else Some [1; 2; 3]%N |}.
Fixpoint each (l : list mop) : muser := match l with [] => MStop | op :: l => MDo vs op (fun _ _ => each l) end.
Lemma Fs_ok : mocks_ok Fs.
Proof. intros [|f]; (constructor; [unfold char_ok; lia|constructor]). Qed.
Lemma vs_ok : outside_ok vs.
Proof. intros f i x t H. injection H as <-. constructor; [|constructor]. unfold char_ok. pose proof (Nat.mod_upper_bound x 10). lia. Qed.
Definition story := [MInit; MExpect 0 true [1; 7]; MModify 0 (SetReturn 42); MModify 0 (IgnoreArgument 1); MModify 0 (CopyOutArgumentBuffer 2 (Some [5; 6]%N)); MExpected;
                     MHook 1 true; MCall 1 [] false false 0; MCall 0 [3; 9] false false 0; MActuals; MReset; MDeinit]%nat.
Ltac next := let a := fresh in let e := fresh in let T := fresh in let Y := fresh in intros a e T Y; inversion Y; subst; clear Y; try discriminate; cbn [with_lists on done due extra hook fallback mtest_start] in *.
Lemma story_careful : mcareful Fs mtest_start (each story).
Proof.
  pose proof vs_ok as V. cbn [each story mcareful].
  split; [exact V|]. split; [exact Logic.I|]. next.
  split; [exact V|]. split; [split; reflexivity|]. next.
  split; [exact V|]. split; [repeat split|]. next.
  split; [exact V|]. split; [repeat split; cbn; lia|]. next.
  split; [exact V|]. split; [repeat split; cbn; try lia; repeat constructor; unfold byte_ok; lia|]. next.
  split; [exact V|]. split; [exact Logic.I|]. next.
  split; [exact V|]. split; [exact Logic.I|]. next.
  split; [exact V|]. split; [repeat split; intros e rest X; cbn in X; injection X as <- <-; discriminate|]. intros a e T Y.
  assert (X : exists x, T = with_lists T true [] [{| e_mock := 0; e_args := [{| w_value := 1; w_checked := false; w_points_to := None; w_fills := None |}; {| w_value := 7; w_checked := false; w_points_to := None; w_fills := Some [5; 6]%N |}]; e_return := Some 42%nat; e_fail := None |}] x).
  { inversion Y; subst; clear Y.
    - match goal with H : due _ = _ :: _ |- _ => cbn in H; injection H as <- <- end. discriminate.
    - eexists. reflexivity.
    - match goal with H : due _ = _ :: _ |- _ => cbn in H; injection H as <- <- end. discriminate. }
  clear Y. destruct X as (x & ->).
  split; [exact V|]. split.
  - split; [reflexivity|]. split; [reflexivity|]. intros e0 rest X. cbn in X. injection X as <- <-. intros _ [|[|i] ] w y b Hw Hx HB; cbn in Hw, Hx; try (destruct i; discriminate).
    + injection Hw as <-. destruct HB as [HB|HB]; discriminate HB.
    + injection Hw as <-. injection Hx as <-. destruct HB as [HB|HB]; [discriminate HB|]. injection HB as <-. exists [1; 2; 3]%N. split; [reflexivity|]. cbn. lia.
  - intros a1 e1 T1 _. split; [exact V|]. split; [exact Logic.I|]. intros a2 e2 T2 _. split; [exact V|]. split; [exact Logic.I|]. intros a3 e3 T3 _. split; [exact V|]. split; [exact Logic.I|]. intros. exact Logic.I.
Qed.
Theorem story_played : exists s, mplay Fs mocks_start (each story) [] = Some ((
  [(vs, MInit, AInt 0, []); (vs, MExpect 0 true [1; 7], ANone, []); (vs, MModify 0 (SetReturn 42), ANone, []); (vs, MModify 0 (IgnoreArgument 1), ANone, []);
   (vs, MModify 0 (CopyOutArgumentBuffer 2 (Some [5; 6]%N)), ANone, []); (vs, MExpected, AText (Some [91; 102; 40; 49; 44; 55; 41; 93]%N), []); (vs, MHook 1 true, ANone, []);
   (vs, MCall 1 [] false false 0, AResult None, [HookCalled 1 []]); (vs, MCall 0 [3; 9] false false 0, AResult (Some 42), [FreeArg 0 0 3; FreeArg 0 1 9; Written 9 [5; 6]%N]);
   (vs, MActuals, AText (Some [91; 103; 40; 41; 93]%N), []); (vs, MReset, ANone, [FreeArg 0 0 1; FreeArg 0 1 7; FreeReturn 0 (Some 42)]); (vs, MDeinit, ANone, [])], s), [])%nat /\ held s = 0%nat.
Proof. eexists. split; [vm_compute; reflexivity|vm_compute; reflexivity]. Qed.

(* The mock does not write the flags of its call data that say whether a return value is set: if the memory malloc
   gives happens to hold set bits there, umocktypes_free is called on memory that was never written. *)
Theorem mock_frees_unwritten_return_refuted : exists p tr s, mcareful Fs mtest_start p /\ mplay Fs mocks_start p [] = Some ((tr, s), []) /\ exists v op a e, In (v, op, a, e) tr /\ In (FreeReturn 0 None) e.
Proof.
  exists (each [MInit; MCall 0 [3; 9] true false 0; MReset]%nat). eexists _, _. split; [|split; [vm_compute; reflexivity|] ].
  - pose proof vs_ok as V. cbn [each mcareful]. split; [exact V|]. split; [exact Logic.I|]. next. split; [exact V|]. split; [repeat split; intros e rest X; discriminate X|]. intros. split; [exact V|]. split; [exact Logic.I|]. intros. exact Logic.I.
  - eexists _, _, _, _. split; [right; right; left; reflexivity|]. vm_compute. tauto.
Qed.
(* umock_c_deinit without a reset before it: the types are gone when the call data are freed, so the copies of
   arguments and return values are never given back. *)
Theorem deinit_forgets_copies_refuted : exists p tr s, mcareful Fs mtest_start p /\ mplay Fs mocks_start p [] = Some ((tr, s), []) /\ In (vs, MExpect 0 true [1; 7]%nat, ANone, []) tr /\ held s = 0%nat /\
  forall v op a e, In (v, op, a, e) tr -> e = [].
Proof.
  exists (each [MInit; MExpect 0 true [1; 7]; MDeinit]%nat). eexists _, _. split; [|split; [vm_compute; reflexivity|split; [right; left; reflexivity|split; [vm_compute; reflexivity|] ] ] ].
  - pose proof vs_ok as V. cbn [each mcareful]. split; [exact V|]. split; [exact Logic.I|]. next. split; [exact V|]. split; [split; reflexivity|]. intros. split; [exact V|]. split; [exact Logic.I|]. intros. exact Logic.I.
  - intros v op a e [H|[H|[H|[] ] ] ]; injection H as <- <- <- <-; reflexivity.
Qed.
(* Out of memory for the call data: the mock and its expectation write through NULL. *)
Theorem mock_without_memory_refuted : mplay Fs mocks_start (each [MInit; MCall 0 [3; 9] false false 0]%nat) (repeat true 29 ++ [false]) = None /\ mplay Fs mocks_start (each [MInit; MExpect 0 true [1; 7]]%nat) (repeat true 29 ++ [false]) = None.
Proof. split; vm_compute; reflexivity. Qed.
(* Out of memory when the expected call is recorded: nothing is reported, and the modifiers chained to the expectation
   change the one before it. *)
Theorem expectation_without_memory_refuted : exists o tr s, In false o /\
  mplay Fs mocks_start (each [MInit; MExpect 0 true [1; 7]; MExpect 0 true [2; 7]; MModify 0 (SetReturn 42); MCall 0 [1; 7] false false 0]%nat) o = Some ((tr, s), []) /\
  In (vs, MExpect 0 true [2; 7]%nat, ANone, []) tr /\ In (vs, MModify 0 (SetReturn 42%nat), ANone, []) tr /\ exists e, In (vs, MCall 0 [1; 7]%nat false false 0%nat, AResult (Some 42%nat), e) tr.
Proof.
  exists (repeat true 36 ++ [false]). eexists _, _. split; [apply in_or_app; right; left; reflexivity|]. split; [vm_compute; reflexivity|]. split; [right; right; left; reflexivity|].
  split; [right; right; right; left; reflexivity|]. eexists. right. right. right. right. left. reflexivity.
Qed.
(* A mock without a result that meets its expectation does not call the hook. *)
Theorem hook_not_called_refuted : exists p tr s, mcareful Fs mtest_start p /\ mplay Fs mocks_start p [] = Some ((tr, s), []) /\ In (vs, MHook 1 true, ANone, []) tr /\ In (vs, MCall 1 [] false false 0%nat, AResult None, []) tr.
Proof.
  exists (each [MInit; MHook 1 true; MExpect 1 true []; MCall 1 [] false false 0]%nat). eexists _, _. split; [|split; [vm_compute; reflexivity|split; [right; left; reflexivity|right; right; right; left; reflexivity] ] ].
  pose proof vs_ok as V. cbn [each mcareful]. split; [exact V|]. split; [exact Logic.I|]. next. split; [exact V|]. split; [exact Logic.I|]. next. split; [exact V|]. split; [split; reflexivity|]. next.
  split; [exact V|]. split; [|intros; exact Logic.I]. split; [reflexivity|]. split; [reflexivity|]. intros e rest X. cbn in X. injection X as <- <-. intros _ [|i] w x b Hw; discriminate Hw.
Qed.
(* An expected buffer is compared with what the actual argument points to without a look at the pointer: NULL. *)
Theorem validate_buffer_null_refuted : mplay Fs mocks_start (each [MInit; MExpect 0 true [1; 7]; MModify 0 (ValidateArgumentBuffer 2 (Some [5]%N)); MCall 0 [1; 0] false false 0]%nat) [] = None.
Proof. vm_compute. reflexivity. Qed.
(* IgnoreAllArguments with nothing expected, and a mock called before umock_c_init (matched_call is never written). *)
Theorem modifier_without_call_refuted : mplay Fs mocks_start (each [MInit; MModify 0 IgnoreAllArguments]) [] = None /\ mplay Fs mocks_start (each [MCall 0 [1; 7] false false 0]%nat) [] = None.
Proof. split; vm_compute; reflexivity. Qed.
