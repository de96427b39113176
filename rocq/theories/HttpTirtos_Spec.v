(* What the TI-RTOS HTTP adapter should do, without the model's loops. *)
From Verif Require Import Base HttpTirtos_Model.

(* a header as HTTP knows it: no NUL, no colon in the name *)
Definition field_ok (f : list N * list N) : Prop := ~ In 0%N (fst f) /\ ~ In 58%N (fst f) /\ ~ In 0%N (snd f).
(* the value without the spaces in front *)
Fixpoint trimmed (v : list N) : list N :=
  match v with c :: t => if (c =? 32)%N then trimmed t else v | [] => [] end.
Definition trim (f : list N * list N) : list N * list N := (fst f, trimmed (snd f)).

(* the method of a request *)
Definition method_of (t : HTTPAPI_REQUEST_TYPE) : list N :=
  match t with GET => str "GET" | POST => str "POST" | PUT => str "PUT" | DELETE => str "DELETE" | PATCH => str "PATCH" end.
(* a whole request *)
Definition whole (t : HTTPAPI_REQUEST_TYPE) (path : list N) (hs : list (list N * list N)) (content : option (list N)) : list sent :=
  SendRequest (method_of t) path :: map (fun f => SendField (fst f) (trimmed (snd f))) (rev hs) ++ [SendEnd]
  ++ match content with Some (c :: t) => [SendBody (c :: t)] | _ => [] end.

(* the library hands over the bytes of one header in pieces *)
Inductive delivered : list N -> list header_answer -> Prop :=
| delivered_last bs : 1 <= length bs <= 128 -> delivered bs [HPiece bs false true true]
| delivered_more bs rest a : 1 <= length bs <= 128 -> delivered rest a -> delivered (bs ++ rest) (HPiece bs true true true :: a).
(* ... and the headers one after the other, each "name:value" with a NUL *)
Inductive response : list (list N * list N) -> list header_answer -> Prop :=
| response_end a : response [] (HEnd :: a)
| response_field f fs a b : field_ok f -> delivered (fst f ++ 58%N :: snd f ++ [0%N]) a -> response fs b -> response (f :: fs) (a ++ b).
(* the headers so far, and then the connection fails, perhaps in the middle of one *)
Inductive broken : list (list N * list N) -> list header_answer -> Prop :=
| broken_now a : broken [] (HFail :: a)
| broken_inside bs a : 1 <= length bs <= 128 -> broken [] a -> broken [] (HPiece bs true true true :: a)
| broken_field f fs a b : field_ok f -> delivered (fst f ++ 58%N :: snd f ++ [0%N]) a -> broken fs b -> broken (f :: fs) (a ++ b).

(* the body in chunks *)
Inductive body_of : list N -> list body_answer -> Prop :=
| body_last bs a : length bs <= 128 -> body_of bs (BChunk bs false true :: a)
| body_more bs rest a : length bs <= 128 -> body_of rest a -> body_of (bs ++ rest) (BChunk bs true true :: a).
(* the body so far, and then reading or the memory fails *)
Inductive body_cut : list N -> list body_answer -> Prop :=
| cut_read a : body_cut [] (BFail :: a)
| cut_memory bs more a : 1 <= length bs <= 128 -> body_cut [] (BChunk bs more false :: a)
| cut_more bs rest a : length bs <= 128 -> body_cut rest a -> body_cut (bs ++ rest) (BChunk bs true true :: a).

(* the library ends every header with a NUL *)
Definition terminates (x : header_answer) : Prop :=
  match x with HPiece bs false _ _ => exists l, bs = l ++ [0%N] | _ => True end.
