(* What a SAS token is (the comments of sastoken.c:65-92 and the service's documentation):
   "SharedAccessSignature sr=<scope>&sig=<signature>&se=<expiry>&skn=<key name>", the signature
   being the percent-encoded base64 text of the HMAC-SHA256 of "<scope>\n<expiry>". *)
From Verif Require Import Base Base64_Spec UrlEncode_Spec Sha_Spec.
Open Scope N_scope.

Definition sas_token (scope sig expiry keyName : list N) : list N :=
  str "SharedAccessSignature sr=" ++ scope ++ str "&sig=" ++ sig ++ str "&se=" ++ expiry ++ str "&skn=" ++ keyName.

Definition sas_mac (key scope expiry : list N) : list N :=
  hmac_spec Sha256 key (bits_of_bytes (scope ++ [10] ++ expiry)).

(* sig is the signature text *)
Definition signs (key scope expiry sig : list N) : Prop :=
  url_safe sig /\ url_denotes sig = Some (rfc4648 (sas_mac key scope expiry)).

(* reading a token: the four fields between the marks, each up to the next '&' *)
Fixpoint until_amp (l : list N) : list N * list N :=
  match l with
  | [] => ([], [])
  | c :: t => if c =? 38 (* the ampersand *) then ([], l) else let '(a, b) := until_amp t in (c :: a, b)
  end.
Fixpoint strip (p l : list N) : option (list N) :=
  match p, l with
  | [], _ => Some l
  | x :: p', y :: l' => if x =? y then strip p' l' else None
  | _ :: _, [] => None
  end.
Definition sas_fields (token : list N) : option (list N * list N * list N * list N) :=
  match strip (str "SharedAccessSignature sr=") token with
  | Some r =>
      let '(scope, r) := until_amp r in
      match strip (str "&sig=") r with
      | Some r =>
          let '(sig, r) := until_amp r in
          match strip (str "&se=") r with
          | Some r => let '(se, r) := until_amp r in
                      match strip (str "&skn=") r with
                      | Some r => let '(skn, r) := until_amp r in match r with [] => Some (scope, sig, se, skn) | _ => None end
                      | None => None
                      end
          | None => None
          end
      | None => None
      end
  | None => None
  end.
