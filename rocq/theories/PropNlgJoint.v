(** The joint distribution of trees of Gaussian and nonlinear Gaussian clusters
    (cluster_graph.py get_posterior_joint with nonlinear_gaussian.py joint_distribution). *)
From Verif Require Import NlgJoint2.
Local Open Scope string_scope.
Local Open Scope list_scope.
Local Open Scope R_scope.

(** C139: after messages over every edge in both directions and once more away from the root, the
    product of the clusters' joint distributions divided by the product of the messages last sent is
    the product of all factors at the observed values, up to a constant, whatever the order of the
    clusters and of the message paths. *)
Theorem c139_posterior_joint o p t cls ms p' t' t3 : oracle_ok o -> nready (cl_fac p) -> tree p t -> clear p t -> NoDup (cl_id p :: fids t) -> cl_recv p = [] -> cvars p <> [] ->
  visit (nfac_ops o) p t = Ok (p', t') -> resend (nfac_ops o) p' t' = Ok t3 ->
  Permutation cls (p' :: fnodes t3) -> Permutation ms (flat_map (fun q => dvals (cl_recv q)) cls) ->
  exists J c, posterior o cls ms = Ok (FG J) /\ ggood false J /\ (forall v, In v (ga_vars J) <-> In v (tvars p t)) /\ 0 < c /\ forall e, gval J e = c * tpot p t e.
Proof. exact (posterior_ok o p t cls ms p' t' t3). Qed.
Print Assumptions c139_posterior_joint.
Example c139_nonvacuous : exists o f1 f2 f3 p' t' t3, oracle_ok o /\ is_link "x0" "x1" [] f1 /\ is_link "x1" "z" [("z", 3)] f2 /\ is_link "x1" "x2" [] f3 /\
  nready (cl_fac ex_root) /\ tree ex_root (ex_kids f1 f2 f3) /\ clear ex_root (ex_kids f1 f2 f3) /\ NoDup (cl_id ex_root :: fids (ex_kids f1 f2 f3)) /\
  cl_recv ex_root = [] /\ cvars ex_root <> [] /\ visit (nfac_ops o) ex_root (ex_kids f1 f2 f3) = Ok (p', t') /\ resend (nfac_ops o) p' t' = Ok t3 /\ length (p' :: fnodes t3) = 4%nat /\
  exists J, posterior o (rev (p' :: fnodes t3)) (flat_map (fun q => dvals (cl_recv q)) (p' :: fnodes t3)) = Ok (FG J).
Proof. exact ex_posterior. Qed.
