(* Histories of the TLS io: the hypotheses of the theorems are met by real histories, and what the
   io does not keep. *)
From Verif Require Import Base TlsIo_Model TlsIo_Spec TlsIo_Logic TlsIo_Open TlsIo_Once TlsIo_Exact TlsIo_Flow TlsIo_Close.
Open Scope Z_scope.

(* An OpenSSL that takes [n] flights to finish, puts [flight] out at each SSL_do_handshake, echoes
   what it was fed as plain text, and takes every write *)
Definition toy : engine := {|
  est := nat * list N;
  e_finished := fun s => (fst s =? 0)%nat;
  e_handshake := fun s => ((Nat.pred (fst s), snd s), [22; 3; 1]%N);
  e_feed := fun s b => ((fst s, snd s ++ b), negb (match b with 255%N :: _ => true | _ => false end));
  e_read := fun s => ((fst s, skipn 64 (snd s)), snd s, []);
  e_write := fun s b => (s, Z.of_nat (length b), 23%N :: b) |}.

Lemma toy_stays_finished : stays_finished toy.
Proof. split; intros [n k]; cbn; intros; destruct n; auto; discriminate. Qed.

Definition nothing := {| a_actions := []; a_ret := 0 |}.
Definition fails := {| a_actions := []; a_ret := 1 |}.
Definition gives (l : list action) := {| a_actions := l; a_ret := 0 |}.
Definition open_ (ctx : nat) := OOpen true (Some 1%nat) (Some ctx) (Some 2%nat) None (Some 3%nat) None.
Definition close_ (ctx : nat) := OClose true (Some 4%nat) (Some ctx).
Definition send_ (b : list N) := OSend true b (Some 5%nat) None.
Definition history (n : nat) (an : list answer) (l : list action) : list event :=
  log toy (snd (run toy 20 (n, []) [] an l)).

Ltac all_ := repeat (constructor; [cbn; try exact I; try reflexivity; try (left; reflexivity); try (right; discriminate); auto|]); try constructor.

(* An ordinary life: open, handshake of two flights, send, receive, close *)
Definition ordinary : list event :=
  history 2
    [gives [AEvent (UOpened true)]; nothing;                                  (* xio_open; xio_send of the first flight *)
     gives [AEvent (UBytes [9%N])]; nothing;                                  (* xio_dowork; open-complete *)
     nothing;                                                                 (* xio_send of the data *)
     gives [AEvent (UBytes [7%N; 8%N])]; nothing;                             (* xio_dowork; bytes-received *)
     gives [AEvent UClosed]; nothing]                                         (* xio_close; close-complete *)
    [AOp (open_ 10); AOp (ODowork true); AOp (send_ [5%N]); AOp (ODowork true); AOp (close_ 11)].

Example ordinary_is_polite : polite ordinary.
Proof. unfold polite. vm_compute. all_. Qed.
Example ordinary_completes :
  open_calls 1 (Some 10%nat) ordinary = 1%nat /\ open_completes 1 (Some 10%nat) ordinary = 1%nat /\
  ok_completes ordinary = 1%nat /\
  close_calls 4 (Some 11%nat) ordinary = 1%nat /\ close_completes 4 (Some 11%nat) ordinary = 1%nat.
Proof. vm_compute. auto. Qed.
Example ordinary_data :
  produced ordinary = [22; 3; 1; 22; 3; 1; 23; 5]%N /\ handed ordinary = [22; 3; 1; 22; 3; 1; 23; 5]%N /\
  pieces ordinary = [ [9; 7; 8]%N ] /\ passed_on ordinary = [ [9; 7; 8]%N ].
Proof. vm_compute. auto. Qed.
Example ordinary_callbacks : Forall has_bytes_callback ordinary.
Proof. vm_compute. all_. Qed.

(* a history the exactness theorem speaks of: the connection fails in the handshake *)
Definition broken_world := snd (run toy 20 (2%nat, []) [] [gives [AEvent (UOpened true)]; nothing; nothing] [AOp (open_ 10)]).
Example broken_run :
  run toy 20 (2%nat, []) [] [gives [AEvent (UOpened true)]; nothing; nothing] [AOp (open_ 10)] = (Some tt, broken_world).
Proof. vm_compute. reflexivity. Qed.
Definition after_report := snd (handle toy (environment toy 20) 20 UError broken_world).
Example broken_reported : good (log toy after_report) /\
  open_calls 1 (Some 10%nat) (log toy after_report) = open_calls 1 (Some 10%nat) (log toy broken_world) /\
  open_calls 1 (Some 10%nat) (log toy broken_world) = 1%nat.
Proof. split; [|vm_compute; auto]. unfold good. vm_compute. all_. Qed.

(* After a failed open the io cannot be opened again: the next open is refused; close returns 0
   but nothing is reported, and from then on open and close are both refused.  The underlying io
   behaves like the socket io: its open failed, and closing it when closed does nothing. *)
Theorem failed_open_cannot_be_retried_refuted :
  exists h, h = history 2 [fails; nothing] [AOp (open_ 10); AOp (open_ 11); AOp (close_ 12); AOp (open_ 13); AOp (close_ 14)] /\
  polite h /\
  h = [LCall (open_ 10); LAsk QOpen; LAnswer QOpen fails; LReturn (open_ 10) 524;
       LCall (open_ 11); LReturn (open_ 11) 506;
       LCall (close_ 12); LAsk QClose; LAnswer QClose nothing; LReturn (close_ 12) 0;
       LCall (open_ 13); LReturn (open_ 13) 506;
       LCall (close_ 14); LReturn (close_ 14) 553].
Proof. eexists. split; [reflexivity|]. split; [unfold polite; vm_compute; all_|vm_compute; reflexivity]. Qed.

(* An underlying io that reports a failed open by its callback: open-complete is called twice *)
Theorem open_complete_twice_refuted :
  exists h, h = history 2 [gives [AEvent (UOpened false)]; nothing; nothing] [AOp (open_ 10); AEvent UError] /\
  open_calls 1 (Some 10%nat) h = 1%nat /\ open_completes 1 (Some 10%nat) h = 2%nat.
Proof. eexists. split; [reflexivity|]. vm_compute. auto. Qed.

(* An underlying io whose close fails: the same *)
Theorem open_complete_twice_after_failed_close_refuted :
  exists h, h = history 2 [gives [AEvent (UOpened true)]; fails; fails; nothing; nothing] [AOp (open_ 10); AEvent UError] /\
  open_calls 1 (Some 10%nat) h = 1%nat /\ open_completes 1 (Some 10%nat) h = 2%nat.
Proof. eexists. split; [reflexivity|]. vm_compute. auto. Qed.

(* An open that is closed during the handshake is never completed *)
Theorem closed_open_never_completes_refuted :
  exists h, h = history 2 [gives [AEvent (UOpened true)]; nothing; gives [AEvent UClosed]; nothing] [AOp (open_ 10); AOp (close_ 12)] /\
  polite h /\ In (LReturn (open_ 10) 0) h /\ In (LReturn (close_ 12) 0) h /\
  close_completes 4 (Some 12%nat) h = 1%nat /\ open_completes 1 (Some 10%nat) h = 0%nat.
Proof.
  eexists. split; [reflexivity|]. split; [unfold polite; vm_compute; all_|]. vm_compute. repeat split; auto 60.
Qed.

(* An open during which the incoming BIO cannot take the bytes is never completed, even when the
   underlying io then reports an error: only the error callback is made *)
Theorem open_never_completes_after_bio_failure_refuted :
  exists h, h = history 2 [gives [AEvent (UOpened true)]; nothing; gives [AEvent (UBytes [255%N]); AEvent UError]; nothing]
                  [AOp (open_ 10); AOp (ODowork true)] /\
  polite h /\ In (LReturn (open_ 10) 0) h /\ open_completes 1 (Some 10%nat) h = 0%nat /\ In (LAsk (QError 3 None)) h.
Proof.
  eexists. split; [reflexivity|]. split; [unfold polite; vm_compute; all_|]. vm_compute. repeat split; auto 60.
Qed.

(* The last flight of the handshake is not sent: success is reported while bytes the peer needs
   are still in the outgoing BIO, and dowork does not send them *)
Theorem last_flight_not_sent_refuted :
  exists h, h = history 1 [gives [AEvent (UOpened true)]; nothing; nothing] [AOp (open_ 10); AOp (ODowork true)] /\
  polite h /\ ok_completes h = 1%nat /\ produced h = [22; 3; 1]%N /\ handed h = [].
Proof. eexists. split; [reflexivity|]. split; [unfold polite; vm_compute; all_|]. vm_compute. auto. Qed.

(* An io that was open once cannot be opened again: the second open ends in an error *)
Theorem reopen_always_fails_refuted :
  exists h, h = history 1 [gives [AEvent (UOpened true)]; nothing; gives [AEvent UClosed]; nothing;
                           gives [AEvent (UOpened true)]; gives [AEvent UClosed]; nothing]
                  [AOp (open_ 10); AOp (close_ 11); AOp (open_ 12)] /\
  polite h /\ In (LAsk (QOpenComplete 1 (Some 10%nat) true)) h /\ In (LAsk (QOpenComplete 1 (Some 12%nat) false)) h.
Proof.
  eexists. split; [reflexivity|]. split; [unfold polite; vm_compute; all_|]. vm_compute. split; auto 60.
Qed.

(* Bytes are passed to the user after close has returned and close-complete was called, when the
   user closes from the bytes-received callback *)
Theorem bytes_after_close_refuted :
  exists h l1 l2, h = history 1
      [gives [AEvent (UOpened true)]; nothing; gives [AEvent (UBytes (repeat 7%N 65))];
       gives [AOp (close_ 11)]; gives [AEvent UClosed]; nothing; nothing]
      [AOp (open_ 10); AOp (ODowork true)] /\
  polite h /\ h = l1 ++ LReturn (close_ 11) 0 :: l2 /\ close_completes 4 (Some 11%nat) l1 = 1%nat /\
  In (LAsk (QBytes 2 None [7%N])) l2.
Proof.
  eexists.
  exists (firstn 26 (history 1
      [gives [AEvent (UOpened true)]; nothing; gives [AEvent (UBytes (repeat 7%N 65))];
       gives [AOp (close_ 11)]; gives [AEvent UClosed]; nothing; nothing]
      [AOp (open_ 10); AOp (ODowork true)])).
  eexists. split; [reflexivity|]. split; [unfold polite; vm_compute; all_|].
  split; [vm_compute; reflexivity|]. vm_compute. split; auto 60.
Qed.

(* An open made from the callback that reported the failure of the last one is refused by the
   underlying io, returns an error, and is completed all the same *)
Theorem failed_open_completed_refuted :
  exists h, h = history 2
      [gives [AEvent (UOpened true)]; {| a_actions := [AEvent UError]; a_ret := 1 |};    (* xio_open; xio_send fails *)
       gives [AOp (open_ 11)]; fails;                                                 (* open-complete; xio_open: still open *)
       gives [AEvent UClosed]; nothing]                                               (* xio_close; open-complete *)
      [AOp (open_ 10)] /\
  polite h /\ In (LReturn (open_ 11) 524) h /\ open_completes 1 (Some 11%nat) h = 1%nat.
Proof. eexists. split; [reflexivity|]. split; [unfold polite; vm_compute; all_|]. vm_compute. split; auto 60. Qed.

(* a world the theorem about send speaks of *)
Example send_example : exists w w' r,
  tlsio_openssl_send toy (environment toy 20) [5%N] (Some 5%nat) None w = (Some r, w') /\ r = 0 /\
  state toy w = OPEN /\ out_bio toy w ++ snd (e_write toy (ssl toy w) [5%N]) = [22; 3; 1; 23; 5]%N.
Proof.
  exists (snd (run toy 20 (1%nat, []) [] [gives [AEvent (UOpened true)]; nothing; nothing] [AOp (open_ 10)])).
  eexists. eexists. split; [vm_compute; reflexivity|]. vm_compute. auto.
Qed.
