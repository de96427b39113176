(* Concrete executions of a wolfSSL io: the hypotheses of the theorems are met. *)
From Verif Require Import Base WolfIo_Model WolfIo_Spec WolfIo_Flow WolfIo_Open WolfIo_Fail.
Open Scope Z_scope.

(* a wolfSSL that follows a script *)
Definition scripted : engine := {| est := list want; e_step := fun s _ => match s with [] => ([], WReturn 0 []) | v :: s => (s, v) end |}.
Definition bytes_now (b : list N) : answer := {| a_actions := [AEvent (UBytes b)]; a_ret := 0 |}.

Example connects_case : connects scripted [WHandshakeDone; WReturn 1 []; WReturn 0 []] [WReturn 0 []].
Proof. eexists. split; reflexivity. Qed.
Example connects_twice_case : connects scripted [WHandshakeDone; WReturn 1 []; WHandshakeDone; WReturn 1 []] [WHandshakeDone; WReturn 1 []] /\ connects scripted [WHandshakeDone; WReturn 1 []] [].
Proof. split; eexists; split; reflexivity. Qed.
Example writes_two_case : writes_two scripted [WSend [23; 1]%N; WSend [23; 2]%N; WReturn 3 []] [7; 8; 9]%N [23; 1]%N [23; 2]%N.
Proof. eexists. eexists. eexists. repeat split; reflexivity. Qed.
Example wants_bytes_case : e_step scripted [WRecv 5] (IBegin (WRead 64)) = ([], WRecv 5).
Proof. reflexivity. Qed.

(* A life: the handshake sends a hello and receives five bytes in two parts, the user sends, receives, and closes. *)
Definition life := run scripted 6 [WSend [1]%N; WRecv 3; WRecv 3; WHandshakeDone; WReturn 1 []; WSend [23; 50]%N; WReturn 1 []; WRecv 4; WReturn 2 [60; 61]%N; WReturn 0 []] []
  [yes; yes; bytes_now [10; 11; 12; 13; 14]%N; yes; yes; bytes_now [30; 31]%N; yes; yes; yes]
  [AOp (OOpen true (Some 1%nat) None (Some 2%nat) (Some 3%nat) (Some 4%nat) None); AOp (OSend true [50]%N (Some 9%nat) (Some 10%nat)); AOp (ODowork true); AOp (OClose true None None)].
Example life_case : let l := log scripted (snd life) in
  fst life = Some tt /\ memory_sufficed l /\ Forall has_bytes_callback l /\ delivered l = [10; 11; 12; 13; 14; 30; 31]%N /\ given l = delivered l /\
  records l = [ [1]; [23; 50] ]%N /\ pieces l = [ [60; 61]%N ] /\ opens 0 l = 1%nat /\ count opened_ok l = 1%nat.
Proof. vm_compute. repeat split; try reflexivity. repeat constructor. Qed.
Example life_owner : exists l1 l2, log scripted (snd life) = l1 ++ LAsk (QSend [23; 50]%N (Some 9%nat) (Some 10%nat)) :: l2 /\ send_owner l1 = (Some 9%nat, Some 10%nat).
Proof.
  exists (firstn 24 (log scripted (snd life))). exists (skipn 25 (log scripted (snd life))). split; vm_compute; reflexivity.
Qed.
Example life_events_after_open : events_after_open (log scripted (snd life)).
Proof.
  intros l1 e l2 H. assert (Hl : exists t, log scripted (snd life) = LCall (OOpen true (Some 1%nat) None (Some 2%nat) (Some 3%nat) (Some 4%nat) None) :: LAsk QOpen :: t) by (vm_compute; eexists; reflexivity).
  destruct Hl as [t Hl]. rewrite Hl in H. clear Hl. destruct l1 as [|a [|b l1] ]; [discriminate H|discriminate H|]. injection H as _ <- _. cbn [existsb is_underlying_open]. apply orb_true_r.
Qed.
(* A closed io is in a state where dowork does not come back *)
Example closing_case : state scripted (snd life) = CLOSING /\ rbytes scripted (snd life) = [].
Proof. vm_compute. auto. Qed.
