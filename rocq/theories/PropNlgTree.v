(** Messages over trees of Gaussian and nonlinear Gaussian clusters (cluster_graph.py, _cluster.py
    with gaussian.py and nonlinear_gaussian.py). *)
From Verif Require Import NlgTree6 NlgTreeFaint.
Local Open Scope string_scope.
Local Open Scope list_scope.
Local Open Scope R_scope.

(** C133: no errors; every cluster ends with a distribution, and no message is about other clusters. *)
Theorem c133_no_errors o p t : oracle_ok o -> nready (cl_fac p) -> tree p t -> NoDup (cl_id p :: fids t) -> (forall i, In i (fids t) -> dget (cl_recv p) i = None) -> cvars p <> [] ->
  exists p' t', visit (nfac_ops o) p t = Ok (p', t') /\ cl_id p' = cl_id p /\ fids t' = fids t /\ (forall q, In q (p' :: fnodes t') -> nready (cl_fac q)) /\
    (forall v, In v (cvars p') <-> In v (cvars p)) /\ (forall i, ~ In i (fids t) -> dget (cl_recv p') i = dget (cl_recv p) i).
Proof. exact (visit_total o p t). Qed.
Print Assumptions c133_no_errors.
Example c133_nonvacuous : exists o f1 f2 f3, oracle_ok o /\ is_link "x0" "x1" [] f1 /\ is_link "x1" "z" [("z", 3)] f2 /\ is_link "x1" "x2" [] f3 /\
  nready (cl_fac ex_root) /\ tree ex_root (ex_kids f1 f2 f3) /\ clear ex_root (ex_kids f1 f2 f3) /\ NoDup (cl_id ex_root :: fids (ex_kids f1 f2 f3)) /\
  (forall i, In i (fids (ex_kids f1 f2 f3)) -> dget (cl_recv ex_root) i = None) /\ cvars ex_root <> [].
Proof. exact ex_tree. Qed.
(** Each cluster that has a distribution gives a marginal over any of its free variables. *)
Theorem c133_marginals o x xs : oracle_ok o -> nready x -> xs <> [] -> NoDup xs -> incl xs (nfree x) ->
  exists x1 r, nf_reduce x [] [] = Ok x1 /\ nf_marg o x1 xs = Ok (FG r) /\ ga_vars r = xs /\ solid r /\ (forall e, 0 < gval r e) /\
    forall rem, NoDup rem -> (forall v, In v rem <-> In v (nfree x) /\ ~ In v xs) -> forall e, iint rem (npot x) e (gval r e).
Proof. exact (ready_marginal o x xs). Qed.
Print Assumptions c133_marginals.
Example c133_marginals_nonvacuous : (exists o, oracle_ok o) /\ nready (cl_fac ex_root) /\ NoDup ["x0"] /\ incl ["x0"] (cvars ex_root).
Proof. exact ex_marginal. Qed.

(** C134: the marginals of the root and of the clusters visited last are, up to one constant, the
    integrals of the product of all factors at the observed values. *)
Theorem c134_marginals_partial o p t p' t' q xs : oracle_ok o -> nready (cl_fac p) -> tree p t -> clear p t -> NoDup (cl_id p :: fids t) -> (forall i, In i (fids t) -> dget (cl_recv p) i = None) -> cvars p <> [] ->
  visit (nfac_ops o) p t = Ok (p', t') -> In q (p' :: lasts t') -> xs <> [] -> NoDup xs -> incl xs (cvars q) ->
  exists x1 r k, nf_reduce (cl_fac q) [] [] = Ok x1 /\ nf_marg o x1 xs = Ok (FG r) /\ ga_vars r = xs /\ solid r /\ posg r /\ 0 < k /\
    incl xs (tvars p t) /\ forall rem, NoDup rem -> (forall v, In v rem <-> In v (tvars p t) /\ ~ In v xs) -> forall e, iint rem (tpot p t) e (k * gval r e).
Proof. exact (visit_marginal o p t p' t' q xs). Qed.
Print Assumptions c134_marginals_partial.
(** Not so without the condition on messages with a small singular precision. *)
Theorem c134_refuted : exists o p t p' t', oracle_ok o /\ nready (cl_fac p) /\ tree p t /\ NoDup (cl_id p :: fids t) /\ (forall i, In i (fids t) -> dget (cl_recv p) i = None) /\ cvars p <> [] /\
  visit (nfac_ops o) p t = Ok (p', t') /\
  ~ exists k, 0 < k /\ forall rem, NoDup rem -> (forall v, In v rem <-> In v (tvars p t) /\ ~ In v (cvars p')) -> forall e, iint rem (tpot p t) e (k * own p' e).
Proof. exact faint_lost. Qed.
Print Assumptions c134_refuted.
(** Branches without observations satisfy the condition. *)
Theorem c134_untold o p d k s : oracle_ok o -> tree p (FCons d k s) -> untold (cl_fac d) -> untoldF k ->
  exists S m, dget (cl_seps p) (cl_id d) = Some S /\ down (cvars d ++ fvars k) S (fun e => own d e * fpot k e) m /\ forall e e', m e = m e'.
Proof. exact (untold_clear o p d k s). Qed.
Print Assumptions c134_untold.
Example c134_untold_nonvacuous : exists o f1 f3, oracle_ok o /\ is_link "x0" "x1" [] f1 /\ is_link "x1" "x2" [] f3 /\ untold (FN f3) /\ untoldF FNil /\
  tree (node (FN f1) "c1" [("c3", ["x1"])]) (FCons (node (FN f3) "c3" [("c1", ["x1"])]) FNil FNil).
Proof. exact ex_untold. Qed.
Example c134_nonvacuous : exists o f1 f2 f3 p' t' x1 r, oracle_ok o /\ is_link "x0" "x1" [] f1 /\ is_link "x1" "z" [("z", 3)] f2 /\ is_link "x1" "x2" [] f3 /\
  nready (cl_fac ex_root) /\ tree ex_root (ex_kids f1 f2 f3) /\ clear ex_root (ex_kids f1 f2 f3) /\ NoDup (cl_id ex_root :: fids (ex_kids f1 f2 f3)) /\
  visit (nfac_ops o) ex_root (ex_kids f1 f2 f3) = Ok (p', t') /\ length (lasts t') = 2%nat /\ nf_reduce (cl_fac p') [] [] = Ok x1 /\ nf_marg o x1 ["x0"] = Ok (FG r).
Proof. exact ex_visited. Qed.

(** C135: one direction along a chain (a filter): the last cluster holds the integral of the product
    of all factors, without a constant and without a condition on the messages. *)
Theorem c135_filter o p ds : oracle_ok o -> nready (cl_fac p) -> tree p (line ds) -> NoDup (cl_id p :: map cl_id ds) -> (forall i, In i (map cl_id ds) -> dget (cl_recv p) i = None) -> cvars p <> [] ->
  exists q, forward (nfac_ops o) p ds = Ok q /\ nready (cl_fac q) /\ cl_id q = cl_id (last ds p) /\ (forall v, In v (cvars q) <-> In v (cvars (last ds p))) /\
    forall rem, NoDup rem -> (forall v, In v rem <-> In v (tvars p (line ds)) /\ ~ In v (cvars q)) -> forall e, iint rem (tpot p (line ds)) e (own q e).
Proof. exact (forward_exact o p ds). Qed.
Print Assumptions c135_filter.
Example c135_nonvacuous : exists o f1 f2 p ds, oracle_ok o /\ is_link "x0" "x1" [] f1 /\ is_link "x1" "z" [("z", 3)] f2 /\
  map cl_fac (p :: ds) = [FG (stdg ["x0"] [0] 0); FN f1; FN f2] /\ nready (cl_fac p) /\ tree p (line ds) /\ clear p (line ds) /\ NoDup (cl_id p :: map cl_id ds) /\
  (forall i, In i (map cl_id ds) -> dget (cl_recv p) i = None) /\ cvars p <> [].
Proof. exact ex_chain. Qed.

(** C136: there and back along a chain (a smoother): every cluster. *)
Theorem c136_smoother o p ds : oracle_ok o -> nready (cl_fac p) -> tree p (line ds) -> clear p (line ds) -> NoDup (cl_id p :: map cl_id ds) -> (forall i, In i (map cl_id ds) -> dget (cl_recv p) i = None) -> cvars p <> [] ->
  exists p' ds', visit (nfac_ops o) p (line ds) = Ok (p', line ds') /\ map cl_id ds' = map cl_id ds /\
    forall q xs, In q (p' :: ds') -> xs <> [] -> NoDup xs -> incl xs (cvars q) ->
      exists x1 r k, nf_reduce (cl_fac q) [] [] = Ok x1 /\ nf_marg o x1 xs = Ok (FG r) /\ ga_vars r = xs /\ 0 < k /\
        forall rem, NoDup rem -> (forall v, In v rem <-> In v (tvars p (line ds)) /\ ~ In v xs) -> forall e, iint rem (tpot p (line ds)) e (k * gval r e).
Proof. exact (smooth_exact o p ds). Qed.
Print Assumptions c136_smoother.
Example c136_nonvacuous : exists o f1 f2 p ds, oracle_ok o /\ is_link "x0" "x1" [] f1 /\ is_link "x1" "z" [("z", 3)] f2 /\
  map cl_fac (p :: ds) = [FG (stdg ["x0"] [0] 0); FN f1; FN f2] /\ nready (cl_fac p) /\ tree p (line ds) /\ clear p (line ds) /\ NoDup (cl_id p :: map cl_id ds) /\
  (forall i, In i (map cl_id ds) -> dget (cl_recv p) i = None) /\ cvars p <> [].
Proof. exact ex_chain. Qed.
