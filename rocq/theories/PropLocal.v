(** Property theorems for converged graphs of any shape, loops included (C127 - C129, C151).  Only
    statements: the proofs are in GraphLocal*.v.  [spot], [dpot] and [gval] are the values of the
    potentials, [edge_with g i j S] says that clusters [i] and [j] are joined with sepset [S], and
    [history] lists the states reached by passing messages. *)
From Verif Require Import GraphLocalThm GraphLocalGauss DenseGraphEx GaussGraphEx.
Local Open Scope string_scope.
Local Open Scope list_scope.
Local Open Scope nat_scope.
Local Notation io := SparseExamples.id_oracle.

(** ** C127 *)
Theorem c127_still_edge : forall card o factors ev special g0, oracle_ok o ->
  (forall f, In f factors -> sgood card f) -> mk_graph (sparse_ops o) o factors ev special = Ok g0 ->
  forall g i j S ci cj, history (sparse_ops o) g0 g -> (forall k p e, nth_error (g_paths g) k = Some p -> (forall v, In v (svars (m_fac (p_next p))) -> e v < card v) ->
     spot (m_fac (p_next p)) e = match p_prev p with Some m => spot (m_fac m) e | None => 1%R end) -> edge_with g0 i j S ->
  nth_error (g_cl g) i = Some ci -> nth_error (g_cl g) j = Some cj -> forall keep ri rj e, incl keep S -> NoDup ri -> NoDup rj ->
  (forall v, In v ri <-> In v (svars (cl_fac ci)) /\ ~ In v keep /\ ~ In v (dkeys special)) ->
  (forall v, In v rj <-> In v (svars (cl_fac cj)) /\ ~ In v keep /\ ~ In v (dkeys special)) -> agrees special e ->
  sum_over card ri (spot (cl_fac ci)) e = sum_over card rj (spot (cl_fac cj)) e.
Proof. exact local_edge. Qed.
Print Assumptions c127_still_edge.
(** A loop of three tables: nothing to send, and no tree. *)
Example c127_nonvacuous_loop : (forall f, In f lp_loop -> sgood two f) /\
  exists g res, mk_graph (sparse_ops io) io lp_loop None [] = Ok g /\
  length (g_cl g) = 3 /\ cycle (linked g) [0; 1; 2] /\ edge_with g 0 1 ["b"] /\
  nothing_to_send (sparse_ops io) two spot g /\ get_marginal (sparse_ops io) g ["a"] = Ok res.
Proof. split; [exact lp_good|exact lp_loop_quiet]. Qed.
Theorem c127_stopped_edge : forall card o factors ev special g0, oracle_ok o ->
  (forall f, In f factors -> sgood card f) -> mk_graph (sparse_ops o) o factors ev special = Ok g0 ->
  forall e0 g tol max_iter g' i j S ci cj, agrees_opt ev e0 -> agrees special e0 -> (forall f, In f factors -> spot f e0 <> 0%R) ->
  history (sparse_ops o) g0 g -> length (g_cl g) <> 1 -> (tol <= 0)%R -> process_graph (sparse_ops o) tol max_iter g = Ok g' ->
  length (g_dists g') < max_iter * length (g_order g) -> edge_with g0 i j S ->
  nth_error (g_cl g') i = Some ci -> nth_error (g_cl g') j = Some cj ->
  exists k, (0 < k)%R /\ forall keep ri rj e, incl keep S -> NoDup ri -> NoDup rj ->
  (forall v, In v ri <-> In v (svars (cl_fac ci)) /\ ~ In v keep /\ ~ In v (dkeys special)) ->
  (forall v, In v rj <-> In v (svars (cl_fac cj)) /\ ~ In v keep /\ ~ In v (dkeys special)) -> agrees special e ->
  (k * sum_over card ri (spot (cl_fac ci)) e = sum_over card rj (spot (cl_fac cj)) e)%R.
Proof. exact stop_edge. Qed.
Print Assumptions c127_stopped_edge.
Example c127_nonvacuous_stop : exists g max_iter g' c1 c2 res, mk_graph (sparse_ops io) io gx_chain0 None gx_special = Ok g /\
  length (g_cl g) <> 1 /\ process_graph (sparse_ops io) 0 max_iter g = Ok g' /\
  length (g_dists g') < max_iter * length (g_order g) /\ (exists S, edge_with g 0 1 S) /\
  nth_error (g_cl g') 0 = Some c1 /\ nth_error (g_cl g') 1 = Some c2 /\
  In "b,c" (svars (cl_fac c1)) /\ In "b,c" (svars (cl_fac c2)) /\ get_marginal (sparse_ops io) g' ["b,c"] = Ok res.
Proof. exact gx_stopped. Qed.
Theorem c127_gauss_edge : forall o factors ev special g0, oracle_ok o ->
  (forall f, In f factors -> def_gauss f) -> mk_graph (gauss_ops o) o factors ev special = Ok g0 ->
  forall g i j S ci cj, history (gauss_ops o) g0 g ->
  (forall k p e, nth_error (g_paths g) k = Some p ->
     gval (m_fac (p_next p)) e = match p_prev p with Some m => gval (m_fac m) e | None => 1%R end) ->
  edge_with g0 i j S -> nth_error (g_cl g) i = Some ci -> nth_error (g_cl g) j = Some cj -> exists h : renv -> R,
  (forall e, (0 < h e)%R) /\
  (forall ri e, NoDup ri -> (forall v, In v ri <-> In v (ga_vars (cl_fac ci)) /\ ~ In v S /\ ~ In v (dkeys special)) ->
     agrees special e -> iint ri (gval (cl_fac ci)) e (h e)) /\
  (forall rj e, NoDup rj -> (forall v, In v rj <-> In v (ga_vars (cl_fac cj)) /\ ~ In v S /\ ~ In v (dkeys special)) ->
     agrees special e -> iint rj (gval (cl_fac cj)) e (h e)).
Proof. exact dedge_agrees. Qed.
Print Assumptions c127_gauss_edge.
Theorem c127_semi_edge : forall o factors ev special g0, oracle_ok o ->
  (forall f, In f factors -> semi_gauss f) -> mk_graph (gauss_ops o) o factors ev special = Ok g0 ->
  (forall c r, In c (g_cl g0) -> g_reduce (cl_fac c) (dkeys (cl_spec c)) (dvals (cl_spec c)) = Ok r -> ga_vac r = false) ->
  forall g i j S ci cj, history (gauss_ops o) g0 g ->
  (forall k p e, nth_error (g_paths g) k = Some p ->
     gval (m_fac (p_next p)) e = match p_prev p with Some m => gval (m_fac m) e | None => 1%R end) ->
  edge_with g0 i j S -> nth_error (g_cl g) i = Some ci -> nth_error (g_cl g) j = Some cj -> exists h : renv -> R,
  (forall e, (0 < h e)%R) /\
  (forall ri e, NoDup ri -> (forall v, In v ri <-> In v (ga_vars (cl_fac ci)) /\ ~ In v S /\ ~ In v (dkeys special)) ->
     agrees special e -> iint ri (gval (cl_fac ci)) e (h e)) /\
  (forall rj e, NoDup rj -> (forall v, In v rj <-> In v (ga_vars (cl_fac cj)) /\ ~ In v S /\ ~ In v (dkeys special)) ->
     agrees special e -> iint rj (gval (cl_fac cj)) e (h e)).
Proof. exact gedge_agrees. Qed.
Print Assumptions c127_semi_edge.
Example c127_nonvacuous_gauss : (forall f, In f gg_chain -> def_gauss f) /\
  exists g0 g i j S ci cj, mk_graph (gauss_ops io) io gg_chain None gg_special = Ok g0 /\
  history (gauss_ops io) g0 g /\
  (forall k p e, nth_error (g_paths g) k = Some p ->
     gval (m_fac (p_next p)) e = match p_prev p with Some m => gval (m_fac m) e | None => 1%R end) /\
  edge_with g0 i j S /\ nth_error (g_cl g) i = Some ci /\ nth_error (g_cl g) j = Some cj.
Proof. split; [exact gg_chain_def|exact gg_edge]. Qed.

(** ** C128 *)
Theorem c128_still_holders : forall card o factors ev special g0, oracle_ok o ->
  (forall f, In f factors -> sgood card f) -> mk_graph (sparse_ops o) o factors ev special = Ok g0 ->
  forall g v ci cj, history (sparse_ops o) g0 g -> (forall k p e, nth_error (g_paths g) k = Some p -> (forall v, In v (svars (m_fac (p_next p))) -> e v < card v) ->
     spot (m_fac (p_next p)) e = match p_prev p with Some m => spot (m_fac m) e | None => 1%R end) -> In ci (g_cl g) -> In cj (g_cl g) ->
  In v (svars (cl_fac ci)) -> In v (svars (cl_fac cj)) -> ~ In v (dkeys special) -> forall ri rj e, NoDup ri -> NoDup rj ->
  (forall w, In w ri <-> In w (svars (cl_fac ci)) /\ w <> v /\ ~ In w (dkeys special)) ->
  (forall w, In w rj <-> In w (svars (cl_fac cj)) /\ w <> v /\ ~ In w (dkeys special)) -> agrees special e ->
  sum_over card ri (spot (cl_fac ci)) e = sum_over card rj (spot (cl_fac cj)) e.
Proof. exact local_holders. Qed.
Print Assumptions c128_still_holders.
Theorem c128_still_marginal : forall card o factors ev special g0, oracle_ok o ->
  (forall f, In f factors -> sgood card f) -> mk_graph (sparse_ops o) o factors ev special = Ok g0 ->
  forall g v res ci, history (sparse_ops o) g0 g -> (forall k p e, nth_error (g_paths g) k = Some p -> (forall v, In v (svars (m_fac (p_next p))) -> e v < card v) ->
     spot (m_fac (p_next p)) e = match p_prev p with Some m => spot (m_fac m) e | None => 1%R end) -> In ci (g_cl g) -> In v (svars (cl_fac ci)) ->
  ~ In v (dkeys special) -> get_marginal (sparse_ops o) g [v] = Ok res -> forall ri e, NoDup ri ->
  (forall w, In w ri <-> In w (svars (cl_fac ci)) /\ w <> v /\ ~ In w (dkeys special)) -> agrees special e ->
  spot res e = sum_over card ri (spot (cl_fac ci)) e.
Proof. exact local_any. Qed.
Print Assumptions c128_still_marginal.
Theorem c128_stopped_holders : forall card o factors ev special g0, oracle_ok o ->
  (forall f, In f factors -> sgood card f) -> mk_graph (sparse_ops o) o factors ev special = Ok g0 ->
  forall e0 g tol max_iter g' v ci cj, agrees_opt ev e0 -> agrees special e0 -> (forall f, In f factors -> spot f e0 <> 0%R) ->
  history (sparse_ops o) g0 g -> length (g_cl g) <> 1 -> (tol <= 0)%R -> process_graph (sparse_ops o) tol max_iter g = Ok g' ->
  length (g_dists g') < max_iter * length (g_order g) -> In ci (g_cl g') -> In cj (g_cl g') ->
  In v (svars (cl_fac ci)) -> In v (svars (cl_fac cj)) -> ~ In v (dkeys special) -> exists k, (0 < k)%R /\ forall ri rj e, NoDup ri -> NoDup rj ->
  (forall w, In w ri <-> In w (svars (cl_fac ci)) /\ w <> v /\ ~ In w (dkeys special)) ->
  (forall w, In w rj <-> In w (svars (cl_fac cj)) /\ w <> v /\ ~ In w (dkeys special)) -> agrees special e ->
  (k * sum_over card ri (spot (cl_fac ci)) e = sum_over card rj (spot (cl_fac cj)) e)%R.
Proof. exact stop_holders. Qed.
Print Assumptions c128_stopped_holders.
Theorem c128_stopped_marginal : forall card o factors ev special g0, oracle_ok o ->
  (forall f, In f factors -> sgood card f) -> mk_graph (sparse_ops o) o factors ev special = Ok g0 ->
  forall e0 g tol max_iter g' v res ci, agrees_opt ev e0 -> agrees special e0 -> (forall f, In f factors -> spot f e0 <> 0%R) ->
  history (sparse_ops o) g0 g -> length (g_cl g) <> 1 -> (tol <= 0)%R -> process_graph (sparse_ops o) tol max_iter g = Ok g' ->
  length (g_dists g') < max_iter * length (g_order g) -> In ci (g_cl g') -> In v (svars (cl_fac ci)) ->
  ~ In v (dkeys special) -> get_marginal (sparse_ops o) g' [v] = Ok res -> exists k, (0 < k)%R /\ forall ri e, NoDup ri ->
  (forall w, In w ri <-> In w (svars (cl_fac ci)) /\ w <> v /\ ~ In w (dkeys special)) -> agrees special e ->
  (k * spot res e = sum_over card ri (spot (cl_fac ci)) e)%R.
Proof. exact stop_any. Qed.
Print Assumptions c128_stopped_marginal.
(** Met by the loop (C127) and by the early stop: clusters 0 and 1 hold "b,c". *)
Example c128_nonvacuous : (forall f, In f gx_chain0 -> sgood two f) /\ agrees gx_special zero_env /\ (forall f, In f gx_chain0 -> spot f zero_env <> 0%R) /\
  exists g max_iter g' c1 c2 res, mk_graph (sparse_ops io) io gx_chain0 None gx_special = Ok g /\
  length (g_cl g) <> 1 /\ process_graph (sparse_ops io) 0 max_iter g = Ok g' /\
  length (g_dists g') < max_iter * length (g_order g) /\ (exists S, edge_with g 0 1 S) /\
  nth_error (g_cl g') 0 = Some c1 /\ nth_error (g_cl g') 1 = Some c2 /\
  In "b,c" (svars (cl_fac c1)) /\ In "b,c" (svars (cl_fac c2)) /\ get_marginal (sparse_ops io) g' ["b,c"] = Ok res.
Proof. split; [exact gx_chain0_good|]. split; [exact (proj1 (proj2 gx_positive0))|]. split; [exact (proj2 (proj2 gx_positive0))|exact gx_stopped]. Qed.

(** ** C129 *)
(** For the dense class the factors are multiplied without lining up their axes, so the result is
    stated for graphs whose sepsets are listed in the order of the tables at both ends (see C99;
    in particular for sepsets of one variable); missing: other orders, where it fails. *)
Theorem c129_dense_holders_partial : forall card nm o, oracle_ok o -> forall factors ev special g0,
  (forall f, In f factors -> dgood card nm f) -> mk_graph (dense_ops o) o factors ev special = Ok g0 ->
  lined g0 ->
  forall e0 g tol max_iter g' v ci cj, agrees_opt ev e0 -> agrees special e0 -> fits card factors e0 ->
  history (dense_ops o) g0 g -> length (g_cl g) <> 1 -> (tol <= 0)%R ->
  process_graph (dense_ops o) tol max_iter g = Ok g' -> length (g_dists g') < max_iter * length (g_order g) ->
  In ci (g_cl g') -> In cj (g_cl g') -> In v (dvars (cl_fac ci)) -> In v (dvars (cl_fac cj)) -> ~ In v (dkeys special) ->
  exists k, (0 < k)%R /\ forall ri rj e, NoDup ri -> NoDup rj ->
    (forall w, In w ri <-> In w (dvars (cl_fac ci)) /\ w <> v /\ ~ In w (dkeys special)) ->
    (forall w, In w rj <-> In w (dvars (cl_fac cj)) /\ w <> v /\ ~ In w (dkeys special)) -> agrees special e -> fits card factors e ->
    (k * sum_over card ri (dpot (cl_fac ci)) e = sum_over card rj (dpot (cl_fac cj)) e)%R.
Proof. exact dense_holders. Qed.
Print Assumptions c129_dense_holders_partial.
Theorem c129_dense_marginal_partial : forall card nm o, oracle_ok o -> forall factors ev special g0,
  (forall f, In f factors -> dgood card nm f) -> mk_graph (dense_ops o) o factors ev special = Ok g0 ->
  lined g0 ->
  forall e0 g tol max_iter g' v res ci, agrees_opt ev e0 -> agrees special e0 -> fits card factors e0 ->
  history (dense_ops o) g0 g -> length (g_cl g) <> 1 -> (tol <= 0)%R ->
  process_graph (dense_ops o) tol max_iter g = Ok g' -> length (g_dists g') < max_iter * length (g_order g) ->
  In ci (g_cl g') -> In v (dvars (cl_fac ci)) -> ~ In v (dkeys special) -> get_marginal (dense_ops o) g' [v] = Ok res ->
  exists k, (0 < k)%R /\ forall ri e, NoDup ri ->
    (forall w, In w ri <-> In w (dvars (cl_fac ci)) /\ w <> v /\ ~ In w (dkeys special)) -> agrees special e -> fits card factors e ->
    (k * dpot res e = sum_over card ri (dpot (cl_fac ci)) e)%R.
Proof. exact dense_any. Qed.
Print Assumptions c129_dense_marginal_partial.
Example c129_nonvacuous : (forall f, In f dx_chain -> dgood dx_card dx_nm f) /\ agrees dx_special dx_env /\ fits dx_card dx_chain dx_env /\
  exists g max_iter g' c1 c2 res, mk_graph (dense_ops io) io dx_chain None dx_special = Ok g /\
  lined g /\ length (g_cl g) <> 1 /\ process_graph (dense_ops io) 0 max_iter g = Ok g' /\
  length (g_dists g') < max_iter * length (g_order g) /\ nth_error (g_cl g') 0 = Some c1 /\ nth_error (g_cl g') 1 = Some c2 /\
  In "b" (dvars (cl_fac c1)) /\ In "b" (dvars (cl_fac c2)) /\ get_marginal (dense_ops io) g' ["b"] = Ok res.
Proof. split; [exact dx_chain_good|]. split; [exact dx_agrees|]. split; [exact dx_fits|exact dx_stopped]. Qed.

(** ** C151 *)
(** Gaussians with positive definite precision matrices.  [iint rem f e x]: the iterated improper
    integral of [f] over the variables [rem] from [e] is [x]. *)
Theorem c151_gauss_parts : forall o factors ev special g0, oracle_ok o -> (forall f, In f factors -> def_gauss f) ->
  mk_graph (gauss_ops o) o factors ev special = Ok g0 ->
  forall g i j S ci cj keep, history (gauss_ops o) g0 g ->
  (forall k p e, nth_error (g_paths g) k = Some p ->
     gval (m_fac (p_next p)) e = match p_prev p with Some m => gval (m_fac m) e | None => 1%R end) ->
  edge_with g0 i j S -> nth_error (g_cl g) i = Some ci -> nth_error (g_cl g) j = Some cj -> keep <> [] -> NoDup keep -> incl keep S ->
  exists m : renv -> R, (forall e, (0 < m e)%R) /\
  (forall rem e, NoDup rem -> (forall v, In v rem <-> In v (ga_vars (cl_fac ci)) /\ ~ In v keep /\ ~ In v (dkeys special)) -> agrees special e -> iint rem (gval (cl_fac ci)) e (m e)) /\
  (forall rem e, NoDup rem -> (forall v, In v rem <-> In v (ga_vars (cl_fac cj)) /\ ~ In v keep /\ ~ In v (dkeys special)) -> agrees special e -> iint rem (gval (cl_fac cj)) e (m e)).
Proof. exact gauss_parts. Qed.
Print Assumptions c151_gauss_parts.
Theorem c151_gauss_holders : forall o factors ev special g0, oracle_ok o -> (forall f, In f factors -> def_gauss f) ->
  mk_graph (gauss_ops o) o factors ev special = Ok g0 ->
  forall g v ci cj, history (gauss_ops o) g0 g ->
  (forall k p e, nth_error (g_paths g) k = Some p ->
     gval (m_fac (p_next p)) e = match p_prev p with Some m => gval (m_fac m) e | None => 1%R end) ->
  In ci (g_cl g) -> In cj (g_cl g) -> In v (ga_vars (cl_fac ci)) -> In v (ga_vars (cl_fac cj)) -> ~ In v (dkeys special) ->
  exists m : renv -> R, (forall e, (0 < m e)%R) /\
  (forall rem e, NoDup rem -> (forall w, In w rem <-> In w (ga_vars (cl_fac ci)) /\ ~ In w [v] /\ ~ In w (dkeys special)) -> agrees special e -> iint rem (gval (cl_fac ci)) e (m e)) /\
  (forall rem e, NoDup rem -> (forall w, In w rem <-> In w (ga_vars (cl_fac cj)) /\ ~ In w [v] /\ ~ In w (dkeys special)) -> agrees special e -> iint rem (gval (cl_fac cj)) e (m e)).
Proof. exact gauss_holders. Qed.
Print Assumptions c151_gauss_holders.
Theorem c151_gauss_marginal : forall o factors ev special g0, oracle_ok o -> (forall f, In f factors -> def_gauss f) ->
  mk_graph (gauss_ops o) o factors ev special = Ok g0 ->
  forall g v res ci, history (gauss_ops o) g0 g ->
  (forall k p e, nth_error (g_paths g) k = Some p ->
     gval (m_fac (p_next p)) e = match p_prev p with Some m => gval (m_fac m) e | None => 1%R end) ->
  In ci (g_cl g) -> In v (ga_vars (cl_fac ci)) -> ~ In v (dkeys special) -> get_marginal (gauss_ops o) g [v] = Ok res ->
  forall rem e, NoDup rem -> (forall w, In w rem <-> In w (ga_vars (cl_fac ci)) /\ ~ In w [v] /\ ~ In w (dkeys special)) ->
  agrees special e -> iint rem (gval (cl_fac ci)) e (gval res e).
Proof. exact gauss_answer. Qed.
Print Assumptions c151_gauss_marginal.
(** Met by the calibrated chain of three Gaussians with "d" observed: two different clusters that
    hold a variable, and the neighbours of C127. *)
Example c151_nonvacuous : (forall f, In f gg_chain -> def_gauss f) /\
  exists g0 g v ci cj res, mk_graph (gauss_ops io) io gg_chain None gg_special = Ok g0 /\ history (gauss_ops io) g0 g /\
  (forall k p e, nth_error (g_paths g) k = Some p ->
     gval (m_fac (p_next p)) e = match p_prev p with Some m => gval (m_fac m) e | None => 1%R end) /\
  In ci (g_cl g) /\ In cj (g_cl g) /\ cl_id ci <> cl_id cj /\ In v (ga_vars (cl_fac ci)) /\ In v (ga_vars (cl_fac cj)) /\
  ~ In v (dkeys gg_special) /\ get_marginal (gauss_ops io) g [v] = Ok res.
Proof. split; [exact gg_chain_def|exact gg_shared]. Qed.
