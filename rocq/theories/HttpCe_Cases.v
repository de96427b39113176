(* Concrete cases: the hypotheses of the theorems of HttpCe_Props.v can be met. *)
From Verif Require Import Base Map_Model HttpHeaders_Spec HttpApiMbed_Model HttpApiMbed_Spec HttpApiMbed_Props HttpApiMbed_Cases HttpCe_Model HttpCe_Props.
Local Open Scope Z_scope.

Definition replies := reply_bytes a_reply.
Definition good_script := mkx true (Some [10; 0; 0; 1]%N) true true true true HTTPAPI_OK (net replies (trickle replies)).
Definition a_name := str "hub.example".
Lemma name_ok : starts_with_letter a_name.
Proof. cbn. unfold is_dec, is_space. lia. Qed.
Lemma get_ok : sendable a_get /\ sizes_ok a_get.
Proof. split; [repeat split; discriminate|]. split; [reflexivity|]. split; [reflexivity|]. repeat constructor; cbn; lia. Qed.

(* a handle is made, a request answered, the handle closed *)
Example a_history : exists sy, run [Create (Some a_name); Execute 0 a_get good_script; Close 0] system0 = Some sy /\
  trace (st sy) = [Opened 0; Secured 0; Hooked 0; OnlyTls1 0; Connected 0 [10; 0; 0; 1]%N 443 SSL_OPT_STRICT_CHECK;
                   Sent 0 (request_bytes a_get); Closed 0] /\
  Forall (fun h => h = None) (handles sy).
Proof.
  unfold run, step at 1. cbn [HTTPAPI_CreateConnection]. change (64 <=? length a_name)%nat with false. cbv iota.
  cbn [app handles system0 st]. unfold step at 1. cbn [nth handles st].
  destruct (ce_connects (mkh a_name None) a_get good_script state0 [10; 0; 0; 1]%N a_reply []) as (w & E); try reflexivity.
  - exact name_ok.
  - repeat split.
  - apply get_ok.
  - apply get_ok.
  - constructor.
  - constructor.
  - exact a_reply_ok.
  - apply (trickle_ok replies (length replies)). apply le_n.
  - rewrite E. cbn [put_at]. unfold step. cbn [nth handles st HTTPAPI_CloseConnection h_sock]. eexists. split; [reflexivity|].
    split; [reflexivity|]. repeat constructor.
Qed.
(* hypotheses of the counterexamples *)
Example unresolved_case : exists x, x_socket x = true /\ x_dns x = None /\ x_result x = HTTPAPI_OK.
Proof. exists (mkx true None true true true true HTTPAPI_OK (net [] [])). auto. Qed.
Example numeric_case : exists a b c rest, short_number a /\ short_number b /\ short_number c /\
  match rest with [] => True | e :: _ => dec_digit e = None end /\ str "40.76.1.22" = a ++ str "." ++ b ++ str "." ++ c ++ rest.
Proof.
  exists (str "40"), (str "76"), (str "1"), (str ".22"). repeat split; cbn; try lia; repeat constructor; unfold is_dec; lia.
Qed.
