(* What the Windows HTTP adapter should do, without the model's loops. *)
From Verif Require Import Base HttpWin_Model.

Definition crlf : list N := [13%N; 10%N].
(* a header as HTTP knows it *)
Definition plain (l : list N) : Prop := Forall (fun c => c <> 0%N /\ c <> 13%N /\ c <> 10%N) l.
Definition field_ok (f : list N * list N) : Prop := plain (fst f) /\ ~ In 58%N (fst f) /\ plain (snd f).
Definition method_of (t : HTTPAPI_REQUEST_TYPE) : list N :=
  match t with GET => str "GET" | POST => str "POST" | PUT => str "PUT" | DELETE => str "DELETE" | PATCH => str "PATCH" end.
(* the headers of a request, and of a response with its status line *)
Definition request_text (hs : list (list N * list N)) : list N := flat_map (fun h => fst h ++ str ": " ++ snd h ++ crlf) hs.
Definition response_text (line : list N) (hs : list (list N * list N)) : list N :=
  line ++ crlf ++ flat_map (fun h => fst h ++ 58%N :: snd h ++ crlf) hs ++ crlf.

(* the body comes in pieces, each as long as was announced *)
Inductive chunks : list N -> list body_answer -> Prop :=
| chunks_end memory read a : chunks [] (Available 0 memory read :: a)
| chunks_more bs rest a : bs <> [] -> chunks rest a -> chunks (bs ++ rest) (Available (length bs) true (Some bs) :: a).
(* the pieces come, but the stream does not come to its end *)
Inductive chunks_cut : list body_answer -> Prop :=
| cut_query a : chunks_cut (QueryFails :: a)
| cut_memory n read a : n <> 0 -> chunks_cut (Available n false read :: a)
| cut_read n a : n <> 0 -> chunks_cut (Available n true None :: a)
| cut_empty n a : n <> 0 -> chunks_cut (Available n true (Some []) :: a)
| cut_more n bs a : bs <> [] -> length bs <= n -> chunks_cut a -> chunks_cut (Available n true (Some bs) :: a).

(* every call of the system succeeds; the status, the response headers and the tokens' fortunes *)
Definition good (hs : list (list N * list N)) (s : script) (code : N) : Prop :=
  length (s_first s) = length hs /\ Forall (eq true) (s_first s) /\ length (s_second s) = length hs /\ Forall (eq true) (s_second s) /\ s_text s = true /\
  s_pathmem s = true /\ s_pathconv s = true /\ s_headmem s = true /\ s_headconv s = true /\ s_open s = true /\ s_timeouts s = true /\ s_security s = true /\
  s_send s = true /\ s_receive s = true /\ s_status s = Some code /\ s_buffer s = true /\ s_rawmem s = true.
Definition lucky (x : token_answer) : Prop := t_size x = true /\ t_memory x = true /\ t_convert x = true /\ t_add x = true.
(* what should be sent *)
Definition whole (t : HTTPAPI_REQUEST_TYPE) (path : list N) (hs : list (list N * list N)) (content : list N) (timeout : N) : message :=
  mkmsg (method_of t) path (request_text hs) content timeout.
Definition running (i : api) : Prop := initialised i = true.
Definition connected (timeout : N) : option connection := Some (mkc (Some true) (Some timeout)).
