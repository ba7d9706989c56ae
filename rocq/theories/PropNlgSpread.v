(** A second message down every edge of a tree of Gaussian and nonlinear Gaussian clusters, and all
    messages after that (cluster_graph.py, _cluster.py with gaussian.py and nonlinear_gaussian.py). *)
From Verif Require Import NlgSpread6.
Local Open Scope string_scope.
Local Open Scope list_scope.
Local Open Scope R_scope.

(** C137: messages down every edge after a visit: every cluster of the tree gives the marginals of
    the product of all factors at the observed values, up to one constant for the whole tree. *)
Theorem c137_every_cluster o p t : oracle_ok o -> nready (cl_fac p) -> tree p t -> clear p t -> NoDup (cl_id p :: fids t) -> (forall i, In i (fids t) -> dget (cl_recv p) i = None) -> cvars p <> [] ->
  exists p' t' t3 c, visit (nfac_ops o) p t = Ok (p', t') /\ resend (nfac_ops o) p' t' = Ok t3 /\ 0 < c /\
    Forall2 (fun d q => cl_id q = cl_id d /\ forall v, In v (cvars q) <-> In v (cvars d)) (p :: fnodes t) (p' :: fnodes t3) /\
    forall q xs, In q (p' :: fnodes t3) -> xs <> [] -> NoDup xs -> incl xs (cvars q) ->
      exists x1 r, nf_reduce (cl_fac q) [] [] = Ok x1 /\ nf_marg o x1 xs = Ok (FG r) /\ ga_vars r = xs /\ solid r /\ posg r /\
        forall rem, NoDup rem -> (forall v, In v rem <-> In v (tvars p t) /\ ~ In v xs) -> forall e, iint rem (tpot p t) e (c * gval r e).
Proof. exact (spread_marginal o p t). Qed.
Print Assumptions c137_every_cluster.
Example c137_nonvacuous : exists o f1 f2 f3 p' t' t3, oracle_ok o /\ is_link "x0" "x1" [] f1 /\ is_link "x1" "z" [("z", 3)] f2 /\ is_link "x1" "x2" [] f3 /\
  nready (cl_fac ex_root) /\ tree ex_root (ex_kids f1 f2 f3) /\ clear ex_root (ex_kids f1 f2 f3) /\ NoDup (cl_id ex_root :: fids (ex_kids f1 f2 f3)) /\
  (forall i, In i (fids (ex_kids f1 f2 f3)) -> dget (cl_recv ex_root) i = None) /\ cvars ex_root <> [] /\
  visit (nfac_ops o) ex_root (ex_kids f1 f2 f3) = Ok (p', t') /\ length (lasts t') = 2%nat /\ resend (nfac_ops o) p' t' = Ok t3 /\ length (fnodes t3) = 3%nat.
Proof. exact ex_spread. Qed.

(** C138: from then on, messages over any edges in any order and any number neither fail nor change
    what any cluster says. *)
Theorem c138_converged o p t p' t' t3 l : oracle_ok o -> nready (cl_fac p) -> tree p t -> clear p t -> NoDup (cl_id p :: fids t) -> (forall i, In i (fids t) -> dget (cl_recv p) i = None) -> cvars p <> [] ->
  visit (nfac_ops o) p t = Ok (p', t') -> resend (nfac_ops o) p' t' = Ok t3 ->
  exists p2 t4, stirs (nfac_ops o) l p' t3 = Ok (p2, t4) /\
    Forall2 (fun q q' => cl_id q' = cl_id q /\ nready (cl_fac q') /\ (forall v, In v (cvars q') <-> In v (cvars q)) /\ forall e, own q' e = own q e) (p' :: fnodes t3) (p2 :: fnodes t4).
Proof. exact (spread_still o p t p' t' t3 l). Qed.
Print Assumptions c138_converged.
Example c138_nonvacuous : exists o f1 f2 f3 p' t' t3, oracle_ok o /\ is_link "x0" "x1" [] f1 /\ is_link "x1" "z" [("z", 3)] f2 /\ is_link "x1" "x2" [] f3 /\
  nready (cl_fac ex_root) /\ tree ex_root (ex_kids f1 f2 f3) /\ clear ex_root (ex_kids f1 f2 f3) /\ NoDup (cl_id ex_root :: fids (ex_kids f1 f2 f3)) /\
  (forall i, In i (fids (ex_kids f1 f2 f3)) -> dget (cl_recv ex_root) i = None) /\ cvars ex_root <> [] /\
  visit (nfac_ops o) ex_root (ex_kids f1 f2 f3) = Ok (p', t') /\ length (lasts t') = 2%nat /\ resend (nfac_ops o) p' t' = Ok t3 /\ length (fnodes t3) = 3%nat.
Proof. exact ex_spread. Qed.
