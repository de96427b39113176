(* Model of src/httpapiexsas.c, over the models of strings.c, sastoken.c, httpheaders.c and
   httpapiex.c. *)
From Verif Require Import Base Strings_Model Map_Model HttpHeaders_Model Sas_Model HttpApiEx_Model.
Open Scope N_scope.

(* httpapiexsas.c:22-27 *)
Record sas_state := { s_key : option nat; s_uri : option nat; s_name : option nat }.

(* httpapiexsas.c:74-95 HTTPAPIEX_SAS_Destroy (STRING_delete ignores NULL, as the ifs do) *)
Definition HTTPAPIEX_SAS_Destroy (st : slots) (h : option sas_state) : M slots :=
  match h with
  | None => ret st
  | Some s => (x <- STRING_delete st (s_key s) ;;
               x <- STRING_delete (snd x) (s_uri s) ;;
               x <- STRING_delete (snd x) (s_name s) ;;
               ret (snd x))%m
  end.

(* httpapiexsas.c:30-72 HTTPAPIEX_SAS_Create: malloc, then three clones, the second only if
   the first was made and so on *)
Definition HTTPAPIEX_SAS_Create (st : slots) (key uri name : option nat) : M (option sas_state * slots) :=
  match key, uri, name with
  | Some _, Some _, Some _ =>
      (ok <- alloc ;;
       if negb ok then ret (None, st)
       else
         let fail s st := (st <- HTTPAPIEX_SAS_Destroy st (Some s) ;; ret (None, st))%m in
         check_new (STRING_clone st key) (fail {| s_key := None; s_uri := None; s_name := None |}) (fun k st =>
         check_new (STRING_clone st uri) (fail {| s_key := Some k; s_uri := None; s_name := None |}) (fun u st =>
         check_new (STRING_clone st name) (fail {| s_key := Some k; s_uri := Some u; s_name := None |}) (fun n st =>
         ret (Some {| s_key := Some k; s_uri := Some u; s_name := Some n |}, st)))))%m
  | _, _, _ => ret (None, st)
  end.

(* httpapiexsas.c:121 (size_t)(difftime(currentTime, 0) + 3600), in double arithmetic: exact for
   times up to 2^53.  None = the conversion of a negative double is undefined, or (not
   modelled) the sum is not exact. *)
Definition sas_expiry (now : Z) : option N :=
  if (-3600 <=? now)%Z && (now + 3600 <=? 2 ^ 53)%Z then Some (Z.to_N (now + 3600)) else None.

(* httpapiexsas.c:100-141: the new token goes into the request headers *)
Definition refresh (st : slots) (sas : option sas_state) (hs : hstate) (reqh : option nat) (now : Z) : M (hstate * slots) :=
  match sas, reqh with
  | Some s, Some _ =>
      (f <- HTTPHeaders_FindHeaderValue hs reqh (Some (str "Authorization")) ;;
       match fst f with
       | HRS (Some _) =>
           if (now =? -1)%Z then ret (hs, st)
           else
             expiry <- lift (sas_expiry now) ;;
             '(token, st, _) <- SASToken_Create st (s_key s) (s_uri s) (s_name s) expiry ;;
             match token with
             | None => ret (hs, st)
             | Some t =>
                 c <- STRING_c_str st token ;;
                 tx <- lift (match fst c with RT (Some x) => Some x | _ => None end) ;;
                 r <- HTTPHeaders_ReplaceHeaderNameValuePair hs reqh (Some (str "Authorization")) (HStr tx) ;;
                 d <- STRING_delete st token ;;
                 ret (snd r, snd d)
             end
       | _ => ret (hs, st)
       end)%m
  | _, _ => ret (hs, st)
  end.

(* httpapiexsas.c:97-144 HTTPAPIEX_SAS_ExecuteRequest; now = what get_time returns *)
Definition HTTPAPIEX_SAS_ExecuteRequest (fuel : nat) (st : slots) (sas : option sas_state) (now : Z) (d : exdata) (w : world)
    (type : N) (path : option text) (reqh reqc : option nat) (status : bool) (resh resc : option nat)
    : M (ex_result * exdata * world * slots) :=
  ('(hs, st) <- refresh st sas (w_headers w) reqh now ;;
   x <- HTTPAPIEX_ExecuteRequest fuel d (with_objects w hs (w_buffers w)) type path reqh reqc status resh resc ;;
   ret (x, st))%m.
