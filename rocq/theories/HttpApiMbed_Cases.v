(* Concrete cases: hypotheses that are met, and what C105-C110 do not hold for. *)
From Verif Require Import Base Map_Model HttpHeaders_Spec HttpApiMbed_Model HttpApiMbed_Spec HttpApiMbed_Read HttpApiMbed_Scan HttpApiMbed_Reply HttpApiMbed_Props HttpApiMbed_Any HttpApiMbed_Sound HttpApiMbed_Body HttpApiMbed_Safety HttpApiMbed_Cut HttpApiMbed_Handle.
From Coq Require Import String.
Local Open Scope Z_scope.
Local Open Scope list_scope.

Definition online : con := {| c_ctx := true; c_refs := 2; c_ssls := 1; c_open := true; c_connected := true |}.
Definition a_handle : HTTP_HANDLE_DATA := {| h_host := str "host"; h_certificate := None |}.
Definition a_get : request := {|
  HttpApiCurl_Model.r_type := HttpApiCurl_Model.HTTPAPI_REQUEST_GET;
  HttpApiCurl_Model.r_path := Some (str "/p"); HttpApiCurl_Model.r_headers := Some [(str "Host", str "host")];
  HttpApiCurl_Model.r_content := None; HttpApiCurl_Model.r_length := 0;
  HttpApiCurl_Model.r_status := true; HttpApiCurl_Model.r_response := true; HttpApiCurl_Model.r_body := true |}.
(* a world on a connection: what the peer sends, how it arrives *)
Definition net (input : list N) (sched : list Z) : world := {|
  w_in := input; w_sched := sched; w_out := []; w_sends := []; w_alloc := []; w_lib := [];
  w_buf := []; w_c0 := 0%N; w_resp := []; w_body := None; w_ptr := false; w_status := None; w_lens := []; w_con := online |}.
Definition line (s : string) : list N := str s ++ CRLF.
(* byte by byte *)
Definition trickle (l : list N) : list Z := repeat 1 (List.length l).

(** * Hypotheses that are met *)

Definition a_reply : reply := {|
  rp_major := str "1"; rp_minor := str "1"; rp_code := str "200"; rp_reason := str "OK";
  rp_fields := [(str "Server", str " x"); (str "transfer-encoding", str " Chunked")];
  rp_payload := Chunked [(str "3", [], str "abc"); (str "2", str ";x=y", str "de")] (str "0", []) |}.
Lemma a_reply_ok : well_formed a_reply.
Proof.
  assert (forall l : list N, forallb (fun c => negb ((c =? 13) || (c =? 0))%N) l = true -> ~ In 13%N l /\ ~ In 0%N l) as NL.
  { intros l F. rewrite forallb_forall in F. split; intros X; apply F in X; discriminate X. }
  assert (forall c : N, (48 <=? c)%N && (c <=? 57)%N = true -> is_dec c) as DD by (unfold is_dec; lia).
  assert (forall l : list N, l <> [] -> forallb (fun c => (48 <=? c)%N && (c <=? 57)%N) l = true -> decimal l) as D1.
  { intros l N F. split; [exact N|]. apply Forall_forall. intros c IN. rewrite forallb_forall in F. auto. }
  assert (forall l : list N, forallb (fun c => (48 <=? c)%N && (c <=? 57)%N) l = true -> Forall is_hex l) as X1.
  { intros l F. apply Forall_forall. intros c IN. rewrite forallb_forall in F. apply F in IN. left. lia. }
  constructor.
  - apply D1; [discriminate|reflexivity].
  - apply D1; [discriminate|reflexivity].
  - apply D1; [discriminate|reflexivity].
  - reflexivity.
  - split; [|split]; [apply NL; reflexivity|apply NL; reflexivity|reflexivity].
  - repeat constructor; try (apply NL; reflexivity); try reflexivity; cbn; intros X; intuition discriminate.
  - intros f [<-|[<-|[] ] ] X; discriminate X.
  - cbn [rp_payload a_reply]. split; [|split; [|split] ].
    + exists (str "transfer-encoding", str " Chunked"). split; [right; now left|]. split; [reflexivity|].
      exists (str " "), (str "Chunked"). split; [reflexivity|]. split; [|reflexivity]. constructor; [|constructor]. unfold is_space. cbn. auto 6.
    + constructor; [|constructor; [|constructor] ].
      * split; [|split; [discriminate|split; reflexivity] ]. split; [discriminate|]. split; [apply X1; reflexivity|]. split; [|split; [now left|intros []] ].
        split; [|split]; [apply NL; reflexivity|apply NL; reflexivity|reflexivity].
      * split; [|split; [discriminate|split; reflexivity] ]. split; [discriminate|]. split; [apply X1; reflexivity|]. split.
        { split; [|split]; [apply NL; reflexivity|apply NL; reflexivity|reflexivity]. }
        split; [right; eexists; left; reflexivity|]. cbn. intros X. intuition discriminate.
    + split; [discriminate|]. split; [apply X1; reflexivity|]. split; [|split; [now left|intros []] ].
      split; [|split]; [apply NL; reflexivity|apply NL; reflexivity|reflexivity].
    + reflexivity.
  - reflexivity.
Qed.
Lemma trickle_ok (l : list N) n : (List.length l <= n)%nat -> Forall (fun k => 0 < k) (repeat 1 n) /\ (List.length l <= List.length (repeat 1 n))%nat.
Proof. intros L. split; [|rewrite repeat_length; exact L]. apply Forall_forall. intros x I. apply repeat_spec in I. lia. Qed.

(* C106: this reply is read. *)
Example reply_read_case : exists w', HTTPAPI_ExecuteRequest (Some a_handle) a_get (net (reply_bytes a_reply) (trickle (reply_bytes a_reply))) = Returns HTTPAPI_OK w' /\
  w_status w' = Some 200 /\ w_body w' = Some (map Some (str "abcde")) /\ w_in w' = [].
Proof.
  destruct (reply_read a_handle a_get (net (reply_bytes a_reply) (trickle (reply_bytes a_reply))) a_reply []) as (w' & E & _ & I & S & _ & B & _).
  - reflexivity.
  - repeat split; discriminate.
  - split; [|split]; [reflexivity|reflexivity|]. repeat constructor; reflexivity.
  - constructor.
  - constructor.
  - reflexivity.
  - apply a_reply_ok.
  - cbn [w_in net]. now rewrite app_nil_r.
  - unfold arrives. cbn [w_sched net]. apply trickle_ok. lia.
  - exists w'. split; [exact E|]. split; [exact S|]. split; [exact B|exact I].
Qed.
(* C108: and of any beginning of it nothing is made. *)
Example truncated_case n : (n < List.length (reply_bytes a_reply))%nat -> forall sched, Forall (fun k => 0 <= k) sched ->
  exists res w', HTTPAPI_ExecuteRequest (Some a_handle) a_get (net (firstn n (reply_bytes a_reply)) sched) = Returns res w' /\ res <> HTTPAPI_OK.
Proof.
  intros L sched F.
  apply (truncated_chunked_partial (Some a_handle) a_get (net (firstn n (reply_bytes a_reply)) sched) a_reply
    [(str "3", [], str "abc"); (str "2", str ";x=y", str "de")] (str "0", []) (skipn n (reply_bytes a_reply))).
  - apply a_reply_ok.
  - reflexivity.
  - apply firstn_skipn.
  - intros X. apply (f_equal (@List.length _)) in X. rewrite skipn_length in X. cbn [List.length] in X. lia.
  - exact F.
  - constructor.
  - reflexivity.
Qed.

(** * C105: a send that takes only a part *)

Theorem request_sent_refuted : exists r w w', sendable r /\ sizes_ok r /\ no_errors w /\ memory w /\
  HTTPAPI_ExecuteRequest (Some a_handle) r w = Returns HTTPAPI_OK w' /\ w_out w' <> w_out w ++ request_bytes r.
Proof.
  pose (i := line "HTTP/1.1 200 OK" ++ CRLF).
  pose (w := set_out [] [3; 0] (net i (trickle i))).
  exists a_get, w. destruct (HTTPAPI_ExecuteRequest (Some a_handle) a_get w) as [res w'|w'|] eqn:E; vm_compute in E; [|discriminate E|discriminate E].
  exists w'. injection E as <- <-. split; [repeat split; discriminate|]. split; [split; [|split]; [reflexivity|reflexivity|repeat constructor; reflexivity]|].
  split; [|split; [constructor|split; [reflexivity|vm_compute; discriminate] ] ].
  unfold no_errors. cbn [w w_sched set_out net]. apply Forall_forall. intros x I. apply repeat_spec in I. lia.
Qed.

(** * C106: responses that HTTP allows *)

Definition outcome_of (r : request) (i : list N) : option (HTTPAPI_RESULT * option Z * option (list (option N)) * list N) :=
  match HTTPAPI_ExecuteRequest (Some a_handle) r (net i (trickle i)) with
  | Returns res w' => Some (res, w_status w', w_body w', w_in w')
  | _ => None
  end.

(* A space after the coding: the content is not read, and is there for the next request. *)
Definition spaced_coding := line "HTTP/1.1 200 OK" ++ line "Transfer-Encoding: chunked " ++ CRLF ++ line "3" ++ line "abc" ++ line "0" ++ CRLF.
Theorem spaced_coding_refuted :
  outcome_of a_get spaced_coding = Some (HTTPAPI_OK, Some 200, None, line "3" ++ line "abc" ++ line "0" ++ CRLF).
Proof. vm_compute. reflexivity. Qed.
(* A trailer after the chunks. *)
Definition trailer := line "HTTP/1.1 200 OK" ++ line "Transfer-Encoding: chunked" ++ CRLF ++ line "3" ++ line "abc" ++ line "0" ++ line "A: b" ++ CRLF.
Theorem trailer_refuted : exists rest,
  outcome_of a_get trailer = Some (HTTPAPI_READ_DATA_FAILED, Some 200, None, rest).
Proof. eexists. vm_compute. reflexivity. Qed.
(* After a failure the connection stays, and the next request takes the rest of the response as
   its own. *)
Definition confusing := line "HTTP/1.1 200 OK" ++ line "Transfer-Encoding: chunked" ++ CRLF ++ line "zz" ++ line "HTTP/1.1 299 from the content" ++ CRLF.
Theorem confusion_refuted : exists l w',
  exchange a_handle [a_get; a_get] (net confusing (trickle confusing)) = Some (l, w') /\
  map (fun a => (fst (fst a), snd (fst a))) l = [(HTTPAPI_RECEIVE_RESPONSE_FAILED, Some 200); (HTTPAPI_OK, Some 299)].
Proof.
  destruct (exchange a_handle [a_get; a_get] (net confusing (trickle confusing))) as [(l, w')|] eqn:E; vm_compute in E; [|discriminate E].
  exists l, w'. injection E as <- <-. split; reflexivity.
Qed.

(** * C107: undefined behaviour *)

Definition four := line "HTTP/1.1 200 OK" ++ line "Content-Length: 4" ++ CRLF.
(* A receive that fails first thing in the content: what comes next is stored in front of the
   buffer. *)
Theorem receive_error_undefined_refuted : exists w w', memory w /\ w_body w = None /\ lengths_ok w' /\
  HTTPAPI_ExecuteRequest (Some a_handle) a_get w = Undefined w'.
Proof.
  pose (w := net (four ++ str "abcd") (trickle four ++ [-1; 4])). exists w.
  destruct (HTTPAPI_ExecuteRequest (Some a_handle) a_get w) as [res w'|w'|] eqn:E; vm_compute in E; try discriminate E.
  exists w'. injection E as <-. split; [constructor|]. split; [reflexivity|]. split; [|reflexivity]. split; [repeat constructor|]; reflexivity.
Qed.
(* One later on is reported as success, with bytes of the content gone and one of what follows it
   taken. *)
Theorem receive_error_ok_refuted : exists w w',
  w_in w = four ++ str "abcd" ++ str "X" /\ HTTPAPI_ExecuteRequest (Some a_handle) a_get w = Returns HTTPAPI_OK w' /\
  w_body w' = Some (map Some (str "acdX")).
Proof.
  pose (w := net (four ++ str "abcd" ++ str "X") (trickle four ++ [2; -1; 3])). exists w.
  destruct (HTTPAPI_ExecuteRequest (Some a_handle) a_get w) as [res w'|w'|] eqn:E; vm_compute in E; try discriminate E.
  exists w'. injection E as <- <-. split; [reflexivity|]. split; reflexivity.
Qed.
(* No memory for the content. *)
Theorem no_memory_undefined_refuted : exists w w', no_errors w /\ w_body w = None /\ lengths_ok w' /\
  HTTPAPI_ExecuteRequest (Some a_handle) a_get w = Undefined w'.
Proof.
  pose (w := set_alloc [true; true; false] (net (four ++ str "abcd") (trickle (four ++ str "abcd")))). exists w.
  destruct (HTTPAPI_ExecuteRequest (Some a_handle) a_get w) as [res w'|w'|] eqn:E; vm_compute in E; try discriminate E.
  exists w'. injection E as <-. split; [unfold no_errors; cbn [w w_sched set_alloc net]; apply Forall_forall; intros x I; apply repeat_spec in I; lia|].
  split; [reflexivity|]. split; [|reflexivity]. split; [repeat constructor|]; reflexivity.
Qed.
(* A response buffer that is not empty. *)
Theorem used_buffer_undefined_refuted : exists w w', no_errors w /\ memory w /\ lengths_ok w' /\
  HTTPAPI_ExecuteRequest (Some a_handle) a_get w = Undefined w'.
Proof.
  pose (w := set_body (Some [Some 1%N]) false (net (four ++ str "abcd") (trickle (four ++ str "abcd")))). exists w.
  destruct (HTTPAPI_ExecuteRequest (Some a_handle) a_get w) as [res w'|w'|] eqn:E; vm_compute in E; try discriminate E.
  exists w'. injection E as <-. split; [unfold no_errors; cbn [w w_sched set_body net]; apply Forall_forall; intros x I; apply repeat_spec in I; lia|].
  split; [constructor|]. split; [|reflexivity]. split; [repeat constructor|]; reflexivity.
Qed.
(* A peer that announces a chunk so big that the sum wraps around. *)
Definition wrapping := line "HTTP/1.1 200 OK" ++ line "Transfer-Encoding: chunked" ++ CRLF ++ line "2" ++ line "ab" ++ line "FFFFFFFE".
Theorem wrap_undefined_refuted : exists w w', no_errors w /\ memory w /\ w_body w = None /\
  HTTPAPI_ExecuteRequest (Some a_handle) a_get w = Undefined w'.
Proof.
  pose (w := net wrapping (trickle wrapping)). exists w.
  destruct (HTTPAPI_ExecuteRequest (Some a_handle) a_get w) as [res w'|w'|] eqn:E; vm_compute in E; try discriminate E.
  exists w'. injection E as <-. split; [unfold no_errors; cbn [w w_sched set_body net]; apply Forall_forall; intros x I; apply repeat_spec in I; lia|].
  split; [constructor|]. split; reflexivity.
Qed.

(* The result for a lack of memory is never returned. *)
Theorem alloc_failed_never_returned : forall h r w w', HTTPAPI_ExecuteRequest h r w <> Returns HTTPAPI_ALLOC_FAILED w'.
Proof.
  intros h r w w'.
  assert (forall v v1, execute h r v <> Fail HTTPAPI_ALLOC_FAILED v1) as FC.
  { assert (forall A B (m : H A) (f : A -> H B), (forall v v1, m v <> Fail HTTPAPI_ALLOC_FAILED v1) -> (forall a v v1, f a v <> Fail HTTPAPI_ALLOC_FAILED v1) -> forall v v1, bind m f v <> Fail HTTPAPI_ALLOC_FAILED v1) as FB.
    { intros A B m f P Q v v1. unfold bind. specialize (P v). destruct (m v); try discriminate; [apply Q|]. intros [= -> ->]. now apply (P v1). }
    assert (forall n v v1, receive n v <> Fail HTTPAPI_ALLOC_FAILED v1) as F1.
    { intros n v v1. unfold receive. destruct (w_sched v); [discriminate|]. destruct (n <? 0); [discriminate|]. destruct (_ <? 0); [discriminate|]. cbn zeta. destruct (_ =? 0); discriminate. }
    assert (forall d o bs v v1, store d o bs v <> Fail HTTPAPI_ALLOC_FAILED v1) as F2.
    { intros d o bs v v1. unfold store. destruct bs; [discriminate|]. destruct d; [destruct (_ <=? _); discriminate|]. destruct (w_body v); [|discriminate]. cbn zeta. destruct (_ <=? _); discriminate. }
    assert (forall v v1, allocates v <> Fail HTTPAPI_ALLOC_FAILED v1) as F3 by (intros v v1; unfold allocates; destruct (w_alloc v); discriminate).
    assert (forall v v1, succeeds v <> Fail HTTPAPI_ALLOC_FAILED v1) as F4 by (intros v v1; unfold succeeds; destruct (w_lib v); discriminate).
    assert (forall v v1, buf_text v <> Fail HTTPAPI_ALLOC_FAILED v1) as F5 by (intros v v1; unfold buf_text; destruct (c_string_of _); discriminate).
    assert (forall v v1, ctx_free v <> Fail HTTPAPI_ALLOC_FAILED v1) as F6 by (intros v v1; unfold ctx_free; destruct (c_refs _); discriminate).
    assert (forall bs v v1, send_all bs v <> Fail HTTPAPI_ALLOC_FAILED v1) as F7.
    { intros bs v v1. unfold send_all. destruct (_ <=? _); [discriminate|]. destruct (w_sends v); [discriminate|]. destruct (_ <? 0); discriminate. }
    assert (forall room line c v v1, line_loop room line c v <> Fail HTTPAPI_ALLOC_FAILED v1) as L1.
    { induction room as [|room IH]; intros line c; cbn [line_loop]; destruct (c =? 13)%N; nf. }
    assert (forall v v1, a_line v <> Fail HTTPAPI_ALLOC_FAILED v1) as L2 by (unfold a_line, readLine; nf).
    assert (forall d n v v1, readChunk d n v <> Fail HTTPAPI_ALLOC_FAILED v1) as L3.
    { intros d n v v1. unfold readChunk. revert v1. generalize (Datatypes.S (List.length (w_sched v))). intros fuel v1. generalize 0. revert v v1 n.
      induction fuel as [|fuel IH]; intros v v1 n o; [discriminate|]. cbn [chunk_loop]. destruct (n =? 0); [discriminate|].
      revert v v1. apply FB; [apply F1|intros p]. apply FB; [apply F2|intros _]. cbn zeta. destruct (_ =? 0); [discriminate|].
      intros v v1. apply IH. }
    assert (forall fuel o n v v1, skip_loop fuel o n v <> Fail HTTPAPI_ALLOC_FAILED v1) as L4.
    { induction fuel as [|fuel IH]; intros o n; [discriminate|]. cbn [skip_loop]. nf. }
    assert (forall n v v1, skipN n v <> Fail HTTPAPI_ALLOC_FAILED v1) as L4' by (unfold skipN; auto).
    assert (forall v v1, crlf_missing v <> Fail HTTPAPI_ALLOC_FAILED v1) as L5 by (unfold crlf_missing; nf).
    assert (forall s l c v v1, framing s l c v <> Fail HTTPAPI_ALLOC_FAILED v1) as L6 by (unfold framing; intros s l c; nf).
    assert (forall s v v1, add_header r s v <> Fail HTTPAPI_ALLOC_FAILED v1) as L7 by (unfold add_header; intros s; nf).
    assert (forall fuel l c v v1, headers_loop fuel r l c v <> Fail HTTPAPI_ALLOC_FAILED v1) as L8.
    { induction fuel as [|fuel IH]; intros l c; [discriminate|]. cbn [headers_loop]. nf. }
    assert (forall fuel s c v v1, chunks_loop fuel r s c v <> Fail HTTPAPI_ALLOC_FAILED v1) as L9.
    { induction fuel as [|fuel IH]; intros s c; [discriminate|]. cbn [chunks_loop]. unfold enlarge, use_ptr. nf. }
    assert (forall l v v1, send_headers l v <> Fail HTTPAPI_ALLOC_FAILED v1) as L10.
    { induction l as [|(n, x) l IH]; cbn [send_headers]; unfold sending; nf. }
    unfold execute, connecting, con_load_certificate, con_connect, con_close, on_con, send_request, sending, read_response, read_status, read_headers, read_chunked_body, read_sized_body, pre_build, use_ptr.
    nf. }
  assert (forall fuel s v a v1, chunks_loop fuel r s HTTPAPI_OK v = Ret a v1 -> a = HTTPAPI_OK) as RC.
  { induction fuel as [|fuel IH]; intros s v a v1 E; [discriminate E|]. cbn [chunks_loop] in E.
    unfold bind at 1 in E. destruct (a_line v) as [? v2|? ?|?|]; try discriminate E.
    unfold bind at 1 in E. destruct (buf_text v2) as [t v3|? ?|?|]; try discriminate E.
    destruct (scan_x t) as [n|]; [|discriminate E]. unfold bind at 1, change in E. set (v4 := set_lens _ v3) in E. clearbody v4.
    destruct (n =? 0).
    - unfold bind at 1 in E. destruct (crlf_missing v4) as [e v5|? ?|?|]; try discriminate E.
      destruct e; [destruct (r_body r); discriminate E|]. now injection E as <- _.
    - unfold bind at 1 in E.
      match type of E with context [match ?m v4 with _ => _ end] => assert (forall b v5, m v4 = Ret b v5 -> b = HTTPAPI_OK) as G end.
      { intros b v5 X. destruct (r_body r).
        - unfold bind at 1 in X. destruct (enlarge n v4) as [b2 v6|? ?|?|] eqn:EE; try discriminate X.
          unfold bind at 1 in X. destruct (use_ptr v6) as [u v6'|? ?|?|] eqn:UP; try discriminate X.
          assert (w_ptr v6 = true /\ v6' = v6) as (PT & ->).
          { destruct (w_ptr v6) eqn:PT; unfold use_ptr, bind, HttpApiMbed_Model.get in UP; rewrite PT in UP; [|discriminate UP]. injection UP as _ <-. split; reflexivity. }
          clear UP.
          unfold bind at 1 in X. destruct (readChunk (ToBody s) n v6) as [k v7|? ?|?|]; try discriminate X.
          destruct (k <? 0); [discriminate X|]. destruct b2; [now injection X as <- _|]. exfalso.
          unfold enlarge, bind, HttpApiMbed_Model.get in EE. cbn zeta in EE. destruct (size32 _ =? 0); [discriminate EE|].
          destruct (allocates v4) as [b3 v8|? ?|?|]; try discriminate EE. destruct b3; [discriminate EE|]. injection EE as <-. discriminate PT.
        - unfold bind in X. destruct (skipN n v4) as [k v6|? ?|?|]; try discriminate X. destruct (k <? 0); [discriminate X|]. now injection X as <- _. }
      match type of E with context [match ?m v4 with _ => _ end] => destruct (m v4) as [b v5|? ?|?|]; try discriminate E end.
      rewrite (G b v5 eq_refl) in E. unfold bind at 1 in E. destruct (crlf_missing v5) as [e v6|? ?|?|]; try discriminate E.
      destruct e; [discriminate E|]. eapply IH. exact E. }
  assert (forall l v a v1, read_sized_body r l v = Ret a v1 -> a = HTTPAPI_OK) as RS.
  { intros l v a v1 E. unfold read_sized_body in E. destruct (l =? 0); [now injection E as <- _|]. destruct (r_body r).
    - unfold bind at 1 in E. destruct (pre_build l v) as [b v2|? ?|?|]; try discriminate E.
      unfold bind at 1 in E. destruct (use_ptr v2) as [b2 v3|? ?|?|]; try discriminate E.
      unfold bind at 1 in E. destruct (readChunk (ToBody 0) l v3) as [b3 v4|? ?|?|]; try discriminate E.
      destruct (b3 <? 0); [discriminate E|]. now injection E as <- _.
    - unfold bind at 1 in E. destruct (skipN l v) as [b v2|? ?|?|]; try discriminate E. now injection E as <- _. }
  unfold HTTPAPI_ExecuteRequest. destruct (execute h r w) as [a w1|c w1|w1|] eqn:E; try discriminate.
  2:{ intros [= -> ->]. now apply FC in E. }
  intros [= -> ->]. destruct (call_splits h r w) as [(c & w1 & X)|(w1 & X & _)]; [congruence|]. rewrite X in E.
  unfold read_response in E. unfold bind at 1 in E. destruct (read_status r w1) as [u w2|? ?|?|]; try discriminate E.
  unfold bind at 1 in E. destruct (read_headers r w2) as [(l, ch) w3|? ?|?|]; try discriminate E. cbn [fst snd] in E.
  destruct ch; [unfold read_chunked_body, bind, HttpApiMbed_Model.get in E; apply RC in E; discriminate E|apply RS in E; discriminate E].
Qed.

(** * C108: a content with a length that was cut *)

Theorem truncated_sized_refuted : exists w w', no_errors w /\ memory w /\
  w_in w = four ++ str "ab" /\ HTTPAPI_ExecuteRequest (Some a_handle) a_get w = Returns HTTPAPI_OK w' /\
  w_body w' = Some [Some 97%N; Some 98%N; None; None].
Proof.
  pose (w := net (four ++ str "ab") (trickle (four ++ str "ab"))). exists w.
  destruct (HTTPAPI_ExecuteRequest (Some a_handle) a_get w) as [res w'|w'|] eqn:E; vm_compute in E; try discriminate E.
  exists w'. injection E as <- <-. split; [unfold no_errors; cbn [w w_sched net]; apply Forall_forall; intros x I; apply repeat_spec in I; lia|].
  split; [constructor|]. split; [reflexivity|]. split; reflexivity.
Qed.

(** * C109, C110 *)

(* A history that is met: create, one request that fails to connect, a second one, close. *)
Definition offline (lib : list bool) : world := set_con new_con (set_lib lib (net [] [])).
Example failed_connect_case : exists h w1 w2, 
  HTTPAPI_CreateConnection (Some (str "host")) (offline [true; true; true; true; false]) = Ret (Some h) w1 /\
  use [Execute a_get] h w1 = Some (h, w2) /\
  good w2 /\ c_connected (w_con w2) = false /\ c_open (w_con w2) = true /\ w_lib w2 = [].
Proof.
  destruct (HTTPAPI_CreateConnection (Some (str "host")) (offline [true; true; true; true; false])) as [ [h|] w1|? ?|?|] eqn:E; vm_compute in E; try discriminate E.
  injection E as <- <-. match goal with |- context [Ret (Some ?h) ?w] => exists h, w end.
  match goal with |- context [use ?o ?h ?w] => destruct (use o h w) as [(h2, w2)|] eqn:E2; vm_compute in E2; [|discriminate E2] end.
  injection E2 as <- <-. eexists. split; [reflexivity|]. split; [reflexivity|]. split; [vm_compute; auto 8|]. split; [reflexivity|]. split; reflexivity.
Qed.
(* A handshake that fails: context and session stay. *)
Theorem failed_handshake_leak_refuted : exists h w1 w2 w3,
  HTTPAPI_CreateConnection (Some (str "host")) (offline [true; true; true; true; true; true; false]) = Ret (Some h) w1 /\
  use [Execute a_get] h w1 = Some (h, w2) /\ HTTPAPI_CloseConnection (Some h) w2 = Ret tt w3 /\
  c_refs (w_con w3) = 1%nat /\ c_ssls (w_con w3) = 1%nat.
Proof.
  destruct (HTTPAPI_CreateConnection (Some (str "host")) (offline [true; true; true; true; true; true; false])) as [ [h|] w1|? ?|?|] eqn:E; vm_compute in E; try discriminate E.
  injection E as <- <-. match goal with |- context [Ret (Some ?h) ?w] => exists h, w end.
  match goal with |- context [use ?o ?h ?w] => destruct (use o h w) as [(h2, w2)|] eqn:E2; vm_compute in E2; [|discriminate E2] end.
  injection E2 as <- <-. eexists. eexists. split; [reflexivity|]. split; [reflexivity|]. split; [reflexivity|]. split; reflexivity.
Qed.
