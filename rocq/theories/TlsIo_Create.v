(* tlsio_openssl_create and tlsio_openssl_destroy (src/tlsio_openssl.c:343-489): what is acquired
   and what is released. *)
From Verif Require Import Base.

Inductive resource := Instance | Context_ | InBio | OutBio | Underlying | Ssl.
Inductive rev := Got (r : resource) | Freed (r : resource).

(* The answers of the calls that may fail, in the order of the code *)
Record answers := {
  config_given : bool;        (* :348 *)
  malloc_ok : bool;           (* :355 *)
  ctx_ok : bool;              (* :383 SSL_CTX_new *)
  in_ok : bool;               (* :392 BIO_new *)
  out_ok : bool;              (* :402 BIO_new *)
  interface_ok : bool;        (* :413 *)
  xio_ok : bool;              (* :425 xio_create *)
  eof_in_ok : bool;           (* :427 BIO_set_mem_eof_return *)
  eof_out_ok : bool;          (* :428 *)
  ssl_ok : bool               (* :448 SSL_new *)
}.

(* :343-472; true: a handle is returned *)
Definition create (a : answers) : bool * list rev :=
  if negb (config_given a) then (false, [])
  else if negb (malloc_ok a) then (false, [])
  else if negb (ctx_ok a) then (false, [Got Instance; Freed Instance])
  else if negb (in_ok a) then (false, [Got Instance; Got Context_; Freed Context_; Freed Instance])
  else if negb (out_ok a) then (false, [Got Instance; Got Context_; Got InBio; Freed InBio; Freed Context_; Freed Instance])
  else if negb (interface_ok a) then
    (false, [Got Instance; Got Context_; Got InBio; Got OutBio; Freed InBio; Freed OutBio; Freed Context_; Freed Instance])
  else
    let xio := if xio_ok a then [Got Underlying] else [] in
    if negb (xio_ok a) || negb (eof_in_ok a) || negb (eof_out_ok a) then
      (false, [Got Instance; Got Context_; Got InBio; Got OutBio] ++ xio ++ [Freed InBio; Freed OutBio; Freed Context_; Freed Instance])
    else if negb (ssl_ok a) then
      (false, [Got Instance; Got Context_; Got InBio; Got OutBio] ++ xio ++ [Freed InBio; Freed OutBio; Freed Context_; Freed Instance])
    else
      (true, [Got Instance; Got Context_; Got InBio; Got OutBio] ++ xio ++ [Got Ssl]).

(* :474-489; SSL_free releases the two BIOs given to SSL_set_bio (:460) *)
Definition destroy : list rev := [Freed Ssl; Freed InBio; Freed OutBio; Freed Context_; Freed Underlying; Freed Instance].

(* Specification: what is held after such a sequence; None: something was released that was not held *)
Definition resource_eq (a b : resource) : {a = b} + {a <> b}.
Proof. decide equality. Defined.
Fixpoint held (l : list rev) (h : resource -> bool) : option (resource -> bool) :=
  match l with
  | [] => Some h
  | Got r :: l => held l (fun x => if resource_eq x r then true else h x)
  | Freed r :: l => if h r then held l (fun x => if resource_eq x r then false else h x) else None
  end.

(* A handle stands for everything, and destroying it gives everything back, once *)
Theorem created_holds_everything a l :
  create a = (true, l) ->
  exists h, held l (fun _ => false) = Some h /\ (forall r, h r = true) /\
  exists h', held (l ++ destroy) (fun _ => false) = Some h' /\ (forall r, h' r = false).
Proof.
  destruct a as [ [] [] [] [] [] [] [] [] [] [] ]; cbn; intro H; inversion H; subst; cbn;
  eexists; (split; [reflexivity|]); (split; [intros []; reflexivity|]); eexists; (split; [reflexivity|]); intros []; reflexivity.
Qed.

(* A failed create gives everything back, except the underlying io *)
Theorem failed_create_releases_partial a l :
  create a = (false, l) ->
  exists h, held l (fun _ => false) = Some h /\ (forall r, r <> Underlying -> h r = false) /\
  (h Underlying = true -> xio_ok a = true /\ (eof_in_ok a && eof_out_ok a && ssl_ok a = false)%bool).
Proof.
  destruct a as [ [] [] [] [] [] [] [] [] [] [] ]; cbn; intro H; inversion H; subst; cbn;
  eexists; (split; [reflexivity|]); (split; [intros []; cbn; congruence|]); cbn; auto; discriminate.
Qed.

(* The underlying io is leaked when SSL_new (or BIO_set_mem_eof_return) fails *)
Theorem failed_create_leaks_underlying_refuted :
  exists a l h, create a = (false, l) /\ held l (fun _ => false) = Some h /\ h Underlying = true.
Proof.
  exists {| config_given := true; malloc_ok := true; ctx_ok := true; in_ok := true; out_ok := true; interface_ok := true;
            xio_ok := true; eof_in_ok := true; eof_out_ok := true; ssl_ok := false |}.
  eexists. eexists. split; [reflexivity|]. split; reflexivity.
Qed.
