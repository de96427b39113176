(* Concrete runs that meet the hypotheses of the theorems about the re-entrant socket io. *)
From Verif Require Import Base SocketIo_Model SocketIo_Spec SocketIoRe_Model SocketIoRe_Spec SocketIoRe_Props SocketIoRe_Close SocketIoRe_Fates.
Open Scope Z_scope.

(* an io of an accepted socket, descriptor 5 *)
Definition io5 : sio := {| sock := 5; on_bytes := None; on_bytes_ctx := None; on_error := None; on_error_ctx := None; state := CLOSED; hostname := None; port := 0; queue := [] |}.
Definition ans (z : Z) : answers := {| a_sys := []; a_send := z; a_memory := true |}.
(* open; the open callback sends [1;2;3] of which one byte is taken, and sends [4]; it returns;
   dowork sends the rest of the first message: its completion callback is running *)
Definition upto : list label :=
  [LCall (ROpen (Some 1) None (Some 2) None None None) (ans 0); LCall (RSend [1; 2; 3]%N (Some 3) (Some 30)) (ans 1)]%nat
  ++ [LCall (RSend [4]%N (Some 4%nat) None) (ans 1); LReturn; LCall RDowork (ans 0); LSend 2].
(* the callback sends a further message, then dowork goes on with the others, receives a byte and
   in its callback the io is closed; dowork then ends, and the io is destroyed *)
Definition onwards : list label :=
  [LCall (RSend [5; 6]%N None None) (ans 2); LReturn; LSend 1; LReturn; LSend 2; LRecv (Some 9%N); LCall (RClose (Some 7%nat) None) (ans 0); LReturn; LReturn; LRecv None; LCall RDestroy (ans 0)].
Definition state_after (l : list label) : st := match re_run true (re_start io5) l with Ok s => s | _ => re_start io5 end.
Fixpoint law (s : st) (l : list label) : bool :=
  match l with
  | [] => true
  | a :: t => (match a with LCall o _ => permitted (existsb is_destroy (out s)) (stack s) o | _ => true end) &&
              match re_step true s a with Ok s => law s t | _ => true end
  end.
Lemma law_ok : forall l s, law s l = true -> law_abiding true s l.
Proof. induction l as [|a l IH]; intros s H; [exact I|]. cbn in *. apply andb_true_iff in H. destruct H as [A B]. split; [destruct a; auto|]. destruct (re_step true s a); auto. Qed.
Lemma reached l : law (re_start io5) l = true -> (match re_run true (re_start io5) l with Ok _ => true | _ => false end) = true -> re_reach true io5 (state_after l).
Proof. intros A B. split; [split; [reflexivity|cbn; lia]|]. exists l. split; [apply law_ok; exact A|]. unfold state_after. destruct (re_run true (re_start io5) l); congruence. Qed.

(* dowork_in_completion_refuted, destroy_in_callback_refuted: a reachable state within a completion *)
Example completion_running : exists s y p, re_reach true io5 s /\ at_ s = User /\ stack s = [InWorkSent 3 0] /\ inst s = Some y /\ state (core y) = OPEN /\ sock (core y) = 5 /\ items y = [0; 1]%nat /\
  entries s 0%nat = Some p /\ p_callback p = Some 3%nat /\ p_size p = 2%nat /\ on_error (core y) = None /\ existsb is_destroy (out s) = false /\ last_act (InWorkSent 3 0) = false.
Proof. exists (state_after upto). eexists. eexists. split; [apply reached; vm_compute; reflexivity|]. repeat split; vm_compute; reflexivity. Qed.
(* the same with the one message only *)
Definition upto_one : list label :=
  [LCall (ROpen (Some 1%nat) None (Some 2%nat) None None None) (ans 0); LCall (RSend [1; 2; 3]%N (Some 3%nat) (Some 30%nat)) (ans 1); LReturn; LCall RDowork (ans 0); LSend 2].
Example lone_completion_running : exists s y p, re_reach true io5 s /\ at_ s = User /\ stack s = [InWorkSent 2 0] /\ inst s = Some y /\ state (core y) = OPEN /\ 0 <= sock (core y) /\ items y = [0]%nat /\
  entries s 0%nat = Some p /\ p_callback p = Some 3%nat /\ Z.of_nat (p_size p) <= max_rw /\ existsb is_destroy (out s) = false.
Proof. exists (state_after upto_one). eexists. eexists. split; [apply reached; vm_compute; reflexivity|]. repeat split; vm_compute; try reflexivity; intros C; discriminate C. Qed.
(* the whole run keeps the rules, ends with the io destroyed, and sent every byte in order *)
Example whole_run : let s := state_after (upto ++ onwards) in re_reach true io5 s /\ quiescent s /\ existsb is_destroy (out s) = true /\ inst s = None /\
  handed (events_of (out s)) = [1; 2; 3; 4; 5; 6]%N /\ map snd (re_attempts (out s)) = [true; true; true].
Proof. cbv zeta. split; [apply reached; vm_compute; reflexivity|]. repeat split; vm_compute; reflexivity. Qed.
(* closed_stays_closed_partial: the state after the close made in the receive callback, where one is still running *)
Definition closed_there : list label := upto ++ firstn 7 onwards ++ [LReturn].
Example closed_within_receive : exists s y, re_reach true io5 s /\ inst s = Some y /\ state (core y) = CLOSED /\ sock (core y) = -1 /\ at_ s = User /\ stack s = [InWorkBytes 3] /\ existsb sending_frame (stack s) = false /\
  law_abiding true s [LReturn; LRecv None; LCall (RSend [8]%N None None) (ans 1)] /\ exists s', re_run true s [LReturn; LRecv None; LCall (RSend [8]%N None None) (ans 1)] = Ok s'.
Proof. exists (state_after closed_there). eexists. split; [apply reached; vm_compute; reflexivity|]. split; [vm_compute; reflexivity|]. do 5 (split; [vm_compute; reflexivity|]). split; [apply law_ok; vm_compute; reflexivity|]. eexists. vm_compute. reflexivity. Qed.
(* buffer_read_late_refuted: a message sent at once *)
Example sent_at_once : exists s y, re_reach true io5 s /\ at_ s = User /\ stack s = [InSent 1] /\ inst s = Some y.
Proof. exists (state_after [LCall (ROpen None None None None None None) (ans 0); LCall (RSend [1]%N (Some 3%nat) None) (ans 1)]). eexists. split; [apply reached; vm_compute; reflexivity|]. repeat split; vm_compute; reflexivity. Qed.
