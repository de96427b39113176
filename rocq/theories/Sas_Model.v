(* Model of src/sastoken.c, over the models of strings.c, buffer.c, base64.c, urlencode.c,
   crt_abstractions.c and hmacsha256.c. *)
From Verif Require Import Base Base64_Model UrlEncode_Model Crt_Model Hmac_Model.
From Verif Require Import Buffer_Model Strings_Model.
Open Scope N_scope.

(* the bytes of a block, None = one of them was never written *)
Fixpoint initialised (b : block) : option (list N) :=
  match b with
  | [] => Some []
  | Some x :: t => match initialised t with Some l => Some (x :: l) | None => None end
  | None :: _ => None
  end.

(* if (f(...) != 0) bad else good *)
Definition check {A} (m : M (sret * slots)) (bad good : slots -> M A) : M A :=
  (r <- m ;; match fst r with RI true => good (snd r) | _ => bad (snd r) end)%m.
(* if ((h = f(...)) == NULL) bad else good h *)
Definition check_new {A} (m : M (sret * slots)) (bad : slots -> M A) (good : nat -> slots -> M A) : M A :=
  (r <- m ;; match fst r with RH (Some h) => good h (snd r) | _ => bad (snd r) end)%m.

(* Base64_Encode and URL_Encode as functions giving a STRING_HANDLE: their models give the memory of the new string *)
Definition new_text (st : slots) (m : M (option block)) : M (sret * slots) :=
  (r <- m ;; ret (match r with Some b => push st b | None => (RH None, st) end))%m.

(* the state: strings (of the caller, too) and the two buffers made here, decodedKey and hash *)
Definition sas_result := (option nat * slots * buffers)%type.

(* BUFFER_u_char and BUFFER_length of a buffer, as arguments for reading: NULL or bytes *)
Definition readable (bs : buffers) (i : nat) : option (bytes_ptr * N) :=
  match getbuf bs i with
  | Some b => match buffer b with
              | PNull => Some (None, size b)
              | PBlock c => match initialised c with Some l => Some (Some l, size b) | None => None end
              | _ => None
              end
  | None => None
  end.

(* sastoken.c:117-118, 120: STRING_delete(toBeHashed); BUFFER_delete(hash); BUFFER_delete(decodedKey) *)
Definition finish (result toBeHashed : option nat) (hash : option nat) (st : slots) (bs : buffers) : M sas_result :=
  (r <- STRING_delete st toBeHashed ;;
   b1 <- BUFFER_delete bs hash ;;
   b2 <- BUFFER_delete (snd b1) (Some 0%nat) ;;
   ret (result, snd r, snd b2))%m.

(* sastoken.c:105-107, 113-114: the token could not be built (ok = false) or could; the two signature strings are deleted *)
Definition built (ok : bool) (result toBeHashed : nat) (sig64 sigurl : option nat) (hash : nat) (bs : buffers) (st : slots) : M sas_result :=
  (st1 <- (if ok then ret (RI true, st) else STRING_delete st (Some result)) ;;
   st2 <- STRING_delete (snd st1) sig64 ;;
   st3 <- STRING_delete (snd st2) sigurl ;;
   finish (if ok then Some result else None) (Some toBeHashed) (Some hash) (snd st3) bs)%m.

(* sastoken.c:93-103 *)
Definition build_token (st : slots) (bs : buffers) (hs hn : nat) (expiryText : list N) (toBeHashed result hash : nat) : M sas_result :=
  (k <- lift (readable bs 0) ;;
   tx <- STRING_c_str st (Some toBeHashed) ;;
   payload <- lift (match fst tx with RT t => Some t | _ => None end) ;;
   ln <- STRING_length st (Some toBeHashed) ;;
   payloadLen <- lift (match fst ln with RN n => Some (N.of_nat n) | _ => None end) ;;
   x <- HMACSHA256_ComputeHash bs (fst k) (snd k) payload payloadLen (Some hash) ;;
   let bs := snd x in
   match fst x with
   | HMACSHA256_OK =>
       mac <- lift (readable bs hash) ;;
       check_new (new_text st (Base64_Encode (match fst mac with Some l => Some l | None => Some [] end)))
         (built false result toBeHashed None None hash bs) (fun s64 st =>
       t64 <- lift (match getb st s64 with Some b => ctext b | None => None end) ;;
       check_new (new_text st (URL_Encode (Some t64)))
         (built false result toBeHashed (Some s64) None hash bs) (fun surl st =>
       let bad := built false result toBeHashed (Some s64) (Some surl) hash bs in
       check (STRING_copy st (Some result) (CText (str "SharedAccessSignature sr="))) bad (fun st =>
       check (STRING_concat_with_STRING st (Some result) (Some hs)) bad (fun st =>
       check (STRING_concat st (Some result) (CText (str "&sig="))) bad (fun st =>
       check (STRING_concat_with_STRING st (Some result) (Some surl)) bad (fun st =>
       check (STRING_concat st (Some result) (CText (str "&se="))) bad (fun st =>
       check (STRING_concat st (Some result) (CText expiryText)) bad (fun st =>
       check (STRING_concat st (Some result) (CText (str "&skn="))) bad (fun st =>
       check (STRING_concat_with_STRING st (Some result) (Some hn)) bad
         (built true result toBeHashed (Some s64) (Some surl) hash bs))))))))))
   | _ => built false result toBeHashed None None hash bs st
   end)%m.

(* sastoken.c:57-75 *)
Definition prepare (st : slots) (bs : buffers) (hs hn : nat) (expiryText : list N) : M sas_result :=
  (h <- BUFFER_new bs ;;
   match fst h with
   | BRH (Some hash) =>
       check_new (STRING_new st) (fun st => finish None None (Some hash) st (snd h)) (fun tbh st =>
       check_new (STRING_new st) (fun st => finish None (Some tbh) (Some hash) st (snd h)) (fun result st =>
       let bad st := (r <- STRING_delete st (Some result) ;; finish None (Some tbh) (Some hash) (snd r) (snd h))%m in
       check (STRING_concat_with_STRING st (Some tbh) (Some hs)) bad (fun st =>
       check (STRING_concat st (Some tbh) (CText [10])) bad (fun st =>
       check (STRING_concat st (Some tbh) (CText expiryText)) bad (fun st =>
       build_token st (snd h) hs hn expiryText tbh result hash)))))
   | _ => finish None None None st (snd h)
   end)%m.

(* sastoken.c:23-125.  The two buffers are slots 0 and 1 of a store of their own. *)
Definition SASToken_Create (st : slots) (key scope keyName : option nat) (expiry : N) : M sas_result :=
  match key, scope, keyName with
  | Some hk, Some hs, Some hn =>
      (kt <- STRING_c_str st (Some hk) ;;
       k <- lift (match fst kt with RT t => Some t | _ => None end) ;;
       dk <- Base64_Decoder k ;;
       match dk with
       | None => ret (None, st, [])
       | Some kb =>
           let bs := [Some {| buffer := match kb with [] => PNull | _ => PBlock kb end; size := N.of_nat (length kb) |}] in
           t <- lift (size_tToString (Some (filled (repeat 0 32))) 32 expiry) ;;
           match t with
           | (true, Some tb) => e <- lift (ctext tb) ;; prepare st bs hs hn e
           | _ => b <- BUFFER_delete bs (Some 0%nat) ;; ret (None, st, snd b)
           end
       end)%m
  | _, _, _ => ret (None, st, [])
  end.
