(** Property theorems for cluster graphs over Gaussian factors (C90 - C98).  Only statements: the
    proofs are in Pos*.v and Gauss*.v.  [gval f e] is the value of the potential of [f] at the
    assignment [e], [iint rem p e x] says that the iterated Riemann integral of [p] over all of R
    for each variable in [rem] exists at [e] and is [x], [def_gauss] that the precision is
    symmetric positive definite, [semi_gauss] that it is symmetric positive semidefinite. *)
From Verif Require Import GaussGraphEx GaussConvEx GaussStale.
From Verif Require SparseExamples.
Local Open Scope string_scope.
Local Open Scope list_scope.
Local Open Scope nat_scope.
Local Notation io := SparseExamples.id_oracle.

(** ** C90 *)
Theorem c90_evidence : forall o factors ev special g, oracle_ok o ->
  (forall f, In f factors -> semi_gauss f) -> mk_graph (gauss_ops o) o factors ev special = Ok g ->
  (forall e, agrees_opt ev e -> Rprod (map (fun c => gval (cl_fac c) e) (g_cl g)) = Rprod (map (fun f => gval f e) factors)) /\
  (forall v, (exists c, In c (g_cl g) /\ In v (ga_vars (cl_fac c))) <->
             (exists f, In f factors /\ In v (ga_vars f)) /\ ~ In v (observed ev)).
Proof. exact gevidence. Qed.
Print Assumptions c90_evidence.
Example c90_nonvacuous : exists g, mk_graph (gauss_ops io) io gg_chain (Some [("a", 3%R)]) gg_special = Ok g /\
  (forall f, In f gg_chain -> semi_gauss f).
Proof. exact gg_evidence. Qed.

(** ** C91 *)
Theorem c91_joint_kept : forall o factors ev special g0 g, oracle_ok o ->
  (forall f, In f factors -> def_gauss f) -> mk_graph (gauss_ops o) o factors ev special = Ok g0 ->
  history (gauss_ops o) g0 g ->
  (forall i c0 c, nth_error (g_cl g0) i = Some c0 -> nth_error (g_cl g) i = Some c ->
     (forall v, In v (ga_vars (cl_fac c)) <-> In v (ga_vars (cl_fac c0))) /\
     forall e, gval (cl_fac c) e = (gval (cl_fac c0) e *
       Rprod (map (fun p => match p_prev p with
                            | Some m => if p_rcv p =? i then gval (m_fac m) e else 1
                            | None => 1
                            end) (g_paths g)))%R) /\
  (forall e, let sent := Rprod (map (fun p => match p_prev p with Some m => gval (m_fac m) e | None => 1%R end) (g_paths g)) in
     (0 < sent)%R /\
     (Rprod (map (fun c => gval (cl_fac c) e) (g_cl g)) / sent)%R = Rprod (map (fun c => gval (cl_fac c) e) (g_cl g0))).
Proof.
  intros o factors ev special g0 g Ho Hf H. exact (dpotentials o factors ev special g0 Ho Hf H g).
Qed.
Print Assumptions c91_joint_kept.
(** The same for semidefinite precisions, if no cluster factor is marked as vacuous. *)
Theorem c91_joint_kept_semidefinite : forall o factors ev special g0, oracle_ok o ->
  (forall f, In f factors -> semi_gauss f) -> mk_graph (gauss_ops o) o factors ev special = Ok g0 ->
  (forall c r, In c (g_cl g0) -> g_reduce (cl_fac c) (dkeys (cl_spec c)) (dvals (cl_spec c)) = Ok r -> ga_vac r = false) ->
  forall g, history (gauss_ops o) g0 g ->
  (forall i c0 c, nth_error (g_cl g0) i = Some c0 -> nth_error (g_cl g) i = Some c ->
     (forall v, In v (ga_vars (cl_fac c)) <-> In v (ga_vars (cl_fac c0))) /\
     forall e, gval (cl_fac c) e = (gval (cl_fac c0) e *
       Rprod (map (fun p => match p_prev p with
                            | Some m => if p_rcv p =? i then gval (m_fac m) e else 1
                            | None => 1
                            end) (g_paths g)))%R) /\
  (forall e, let sent := Rprod (map (fun p => match p_prev p with Some m => gval (m_fac m) e | None => 1%R end) (g_paths g)) in
     (0 < sent)%R /\
     (Rprod (map (fun c => gval (cl_fac c) e) (g_cl g)) / sent)%R = Rprod (map (fun c => gval (cl_fac c) e) (g_cl g0))).
Proof. exact gpotentials. Qed.
Print Assumptions c91_joint_kept_semidefinite.
Example c91_nonvacuous : exists g0 g, (forall f, In f gg_chain -> def_gauss f) /\
  mk_graph (gauss_ops io) io gg_chain None gg_special = Ok g0 /\ history (gauss_ops io) g0 g /\ length (g_cl g0) = 3 /\
  forall k p, nth_error (g_paths g) k = Some p -> p_prev p <> None.
Proof. exact gg_all_sent. Qed.

(** ** C92: false while a path has not carried a message. *)
Theorem c92_joint_refuted : exists g, (forall f, In f gg_chain -> def_gauss f) /\
  mk_graph (gauss_ops io) io gg_chain None [] = Ok g /\ get_joint (gauss_ops io) g = Err AttributeError.
Proof. exact gg_joint_refuted. Qed.
Print Assumptions c92_joint_refuted.
(** Missing for the full claim: the states in which some path has not carried a message; there
    get_posterior_joint raises AttributeError. *)
Theorem c92_joint_partial : forall o factors ev special g0 g, oracle_ok o ->
  (forall f, In f factors -> def_gauss f) -> mk_graph (gauss_ops o) o factors ev special = Ok g0 ->
  history (gauss_ops o) g0 g -> factors <> [] ->
  (forall k p, nth_error (g_paths g) k = Some p -> p_prev p <> None) ->
  exists r, get_joint (gauss_ops o) g = Ok r /\ semi_gauss r /\
    (forall v, In v (ga_vars r) <-> (exists f, In f factors /\ In v (ga_vars f)) /\ ~ In v (observed ev)) /\
    (forall e, agrees_opt ev e -> gval r e = Rprod (map (fun f => gval f e) factors)).
Proof.
  intros o factors ev special g0 g Ho Hf H. exact (djoint o factors ev special g0 Ho Hf H g).
Qed.
Print Assumptions c92_joint_partial.
Theorem c92_joint_missing : forall o factors ev special g0 g, oracle_ok o ->
  (forall f, In f factors -> def_gauss f) -> mk_graph (gauss_ops o) o factors ev special = Ok g0 ->
  history (gauss_ops o) g0 g -> (exists k p, nth_error (g_paths g) k = Some p /\ p_prev p = None) ->
  get_joint (gauss_ops o) g = Err AttributeError.
Proof.
  intros o factors ev special g0 g Ho Hf H. exact (djoint_missing o factors ev special g0 Ho Hf H g).
Qed.
Print Assumptions c92_joint_missing.
Example c92_nonvacuous : exists g0 g, (forall f, In f gg_chain -> def_gauss f) /\
  mk_graph (gauss_ops io) io gg_chain None gg_special = Ok g0 /\ history (gauss_ops io) g0 g /\ length (g_cl g0) = 3 /\
  forall k p, nth_error (g_paths g) k = Some p -> p_prev p <> None.
Proof. exact gg_all_sent. Qed.

(** ** C93 *)
Theorem c93_calibrated_exact : forall o factors ev special g0 g vrs res, oracle_ok o ->
  (forall f, In f factors -> def_gauss f) -> mk_graph (gauss_ops o) o factors ev special = Ok g0 ->
  history (gauss_ops o) g0 g -> tree_shaped g0 ->
  (forall k p e, nth_error (g_paths g) k = Some p ->
     gval (m_fac (p_next p)) e = match p_prev p with Some m => gval (m_fac m) e | None => 1%R end) ->
  vrs <> [] -> NoDup vrs -> (forall v, In v vrs -> ~ In v (dkeys special)) -> get_marginal (gauss_ops o) g vrs = Ok res ->
  (forall v, In v (ga_vars res) <-> In v vrs) /\
  forall rem e, agrees_opt ev e -> agrees special e -> NoDup rem ->
    (forall v, In v rem <-> (exists f, In f factors /\ In v (ga_vars f)) /\
        ~ In v (observed ev) /\ ~ In v (dkeys special) /\ ~ In v vrs) ->
    iint rem (fun e' => Rprod (map (fun f => gval f e') factors)) e (gval res e).
Proof.
  intros o factors ev special g0 g vrs res Ho Hf H. exact (dsettled o factors ev special g0 Ho Hf H g vrs res).
Qed.
Print Assumptions c93_calibrated_exact.
(** The same for semidefinite precisions, if no cluster factor is marked as vacuous. *)
Theorem c93_calibrated_exact_semidefinite : forall o factors ev special g0, oracle_ok o ->
  (forall f, In f factors -> semi_gauss f) -> mk_graph (gauss_ops o) o factors ev special = Ok g0 ->
  (forall c r, In c (g_cl g0) -> g_reduce (cl_fac c) (dkeys (cl_spec c)) (dvals (cl_spec c)) = Ok r -> ga_vac r = false) ->
  (forall c, In c (g_cl g0) -> ga_vac (cl_fac c) = false) ->
  forall g vrs res, history (gauss_ops o) g0 g -> tree_shaped g0 ->
  (forall k p e, nth_error (g_paths g) k = Some p ->
     gval (m_fac (p_next p)) e = match p_prev p with Some m => gval (m_fac m) e | None => 1%R end) ->
  vrs <> [] -> NoDup vrs -> (forall v, In v vrs -> ~ In v (dkeys special)) -> get_marginal (gauss_ops o) g vrs = Ok res ->
  (forall v, In v (ga_vars res) <-> In v vrs) /\
  forall rem e, agrees_opt ev e -> agrees special e -> NoDup rem ->
    (forall v, In v rem <-> (exists f, In f factors /\ In v (ga_vars f)) /\
        ~ In v (observed ev) /\ ~ In v (dkeys special) /\ ~ In v vrs) ->
    iint rem (fun e' => Rprod (map (fun f => gval f e') factors)) e (gval res e).
Proof. exact gsettled. Qed.
Print Assumptions c93_calibrated_exact_semidefinite.
Example c93_nonvacuous : exists g0 g res, mk_graph (gauss_ops io) io gg_chain None gg_special = Ok g0 /\
  history (gauss_ops io) g0 g /\ tree_shaped g0 /\ length (g_cl g0) = 3 /\
  (forall k p e, nth_error (g_paths g) k = Some p ->
     gval (m_fac (p_next p)) e = match p_prev p with Some m => gval (m_fac m) e | None => 1%R end) /\
  get_marginal (gauss_ops io) g ["c"] = Ok res.
Proof. exact gg_calibrated. Qed.

(** ** C94 *)
Theorem c94_two_sweeps_exact : forall o factors ev special g0 g ks g' vrs res, oracle_ok o ->
  (forall f, In f factors -> def_gauss f) -> mk_graph (gauss_ops o) o factors ev special = Ok g0 ->
  history (gauss_ops o) g0 g -> tree_shaped g0 -> two_sweeps g ks -> foldM (pass_path (gauss_ops o)) ks g = Ok g' ->
  vrs <> [] -> NoDup vrs -> (forall v, In v vrs -> ~ In v (dkeys special)) -> get_marginal (gauss_ops o) g' vrs = Ok res ->
  (forall v, In v (ga_vars res) <-> In v vrs) /\
  forall rem e, agrees_opt ev e -> agrees special e -> NoDup rem ->
    (forall v, In v rem <-> (exists f, In f factors /\ In v (ga_vars f)) /\
        ~ In v (observed ev) /\ ~ In v (dkeys special) /\ ~ In v vrs) ->
    iint rem (fun e' => Rprod (map (fun f => gval f e') factors)) e (gval res e).
Proof.
  intros o factors ev special g0 g ks g' vrs res Ho Hf H. exact (dsweeps o factors ev special g0 Ho Hf H g ks g' vrs res).
Qed.
Print Assumptions c94_two_sweeps_exact.
(** The same for semidefinite precisions, if no cluster factor is marked as vacuous. *)
Theorem c94_two_sweeps_exact_semidefinite : forall o factors ev special g0, oracle_ok o ->
  (forall f, In f factors -> semi_gauss f) -> mk_graph (gauss_ops o) o factors ev special = Ok g0 ->
  (forall c r, In c (g_cl g0) -> g_reduce (cl_fac c) (dkeys (cl_spec c)) (dvals (cl_spec c)) = Ok r -> ga_vac r = false) ->
  (forall c, In c (g_cl g0) -> ga_vac (cl_fac c) = false) ->
  forall g ks g' vrs res, history (gauss_ops o) g0 g -> tree_shaped g0 -> two_sweeps g ks ->
  foldM (pass_path (gauss_ops o)) ks g = Ok g' ->
  vrs <> [] -> NoDup vrs -> (forall v, In v vrs -> ~ In v (dkeys special)) -> get_marginal (gauss_ops o) g' vrs = Ok res ->
  (forall v, In v (ga_vars res) <-> In v vrs) /\
  forall rem e, agrees_opt ev e -> agrees special e -> NoDup rem ->
    (forall v, In v rem <-> (exists f, In f factors /\ In v (ga_vars f)) /\
        ~ In v (observed ev) /\ ~ In v (dkeys special) /\ ~ In v vrs) ->
    iint rem (fun e' => Rprod (map (fun f => gval f e') factors)) e (gval res e).
Proof. exact gsweeps. Qed.
Print Assumptions c94_two_sweeps_exact_semidefinite.
Example c94_nonvacuous : exists g0 ks g, mk_graph (gauss_ops io) io gg_chain None gg_special = Ok g0 /\ tree_shaped g0 /\ length (g_cl g0) = 3 /\
  (forall c r, In c (g_cl g0) -> g_reduce (cl_fac c) (dkeys (cl_spec c)) (dvals (cl_spec c)) = Ok r -> ga_vac r = false) /\
  (forall c, In c (g_cl g0) -> ga_vac (cl_fac c) = false) /\
  two_sweeps g0 ks /\ length ks = 4 /\ foldM (pass_path (gauss_ops io)) ks g0 = Ok g /\
  exists res, get_marginal (gauss_ops io) g ["c"] = Ok res.
Proof. exact gg_swept. Qed.

(** ** C95: false for factors whose variables are all observed, and for semidefinite factors. *)
Theorem c95_all_observed_refuted : exists factors ev, (forall f, In f factors -> def_gauss f) /\
  forall g, mk_graph (gauss_ops io) io factors ev [] <> Ok g.
Proof. exact gg_observed_refuted. Qed.
Print Assumptions c95_all_observed_refuted.
Theorem c95_semidefinite_refuted : exists factors, (forall f, In f factors -> semi_gauss f /\ ga_vac f = false) /\
  forall g, mk_graph (gauss_ops io) io factors None [] <> Ok g.
Proof. exact gg_flat_refuted. Qed.
Print Assumptions c95_semidefinite_refuted.
(** Missing for the full claim: factors that are only semidefinite and evidence about a whole
    factor, for which it is false. *)
Theorem c95_construction_partial : forall o factors ev special, oracle_ok o ->
  (forall f, In f factors -> def_gauss f) ->
  (forall f, In f factors -> exists v, In v (ga_vars f) /\ ~ In v (observed ev)) ->
  exists g, mk_graph (gauss_ops o) o factors ev special = Ok g.
Proof. exact gmk_some. Qed.
Print Assumptions c95_construction_partial.
Theorem c95_all_observed_error : forall o factors d special f, In f factors -> wf_gauss f -> ga_vars f <> [] ->
  incl (ga_vars f) (dkeys d) -> forall g, mk_graph (gauss_ops o) o factors (Some d) special <> Ok g.
Proof. exact gmk_all_observed. Qed.
Print Assumptions c95_all_observed_error.
Theorem c95_processing_partial : forall o factors ev special, oracle_ok o ->
  (forall f, In f factors -> def_gauss f) -> forall g0, mk_graph (gauss_ops o) o factors ev special = Ok g0 ->
  forall g, history (gauss_ops o) g0 g ->
  (forall k, k < length (g_paths g) -> exists g', pass_path (gauss_ops o) g k = Ok g') /\
  (forall tol max_iter, NoDup (dkeys special) ->
     (forall c, g_cl g = [c] -> incl (dkeys special) (ga_vars (cl_fac c)) /\ exists v, In v (ga_vars (cl_fac c)) /\ ~ In v (dkeys special)) ->
     exists g', process_graph (gauss_ops o) tol max_iter g = Ok g') /\
  (forall q, q < length (g_paths g) -> gain_of (g_paths g) q <> NaN).
Proof. exact gnever_fails. Qed.
Print Assumptions c95_processing_partial.
Example c95_nonvacuous : exists g0 g g', (forall f, In f gg_chain -> def_gauss f) /\
  mk_graph (gauss_ops io) io gg_chain None gg_special = Ok g0 /\
  pass_path (gauss_ops io) g0 0 = Ok g /\ process_graph (gauss_ops io) (1 / 100)%R 5 g = Ok g'.
Proof. exact gg_processed. Qed.

(** ** C96 *)
Theorem c96_queries_answered : forall o factors ev special, oracle_ok o ->
  (forall f, In f factors -> def_gauss f) -> forall g0, mk_graph (gauss_ops o) o factors ev special = Ok g0 ->
  forall g vrs, history (gauss_ops o) g0 g -> vrs <> [] -> NoDup vrs -> (forall v, In v vrs -> ~ In v (dkeys special)) ->
  (exists c, In c (g_cl g) /\ incl vrs (ga_vars (cl_fac c))) -> exists res, get_marginal (gauss_ops o) g vrs = Ok res.
Proof. exact ganswer. Qed.
Print Assumptions c96_queries_answered.
Theorem c96_sweeps_answer : forall o factors ev special, oracle_ok o ->
  (forall f, In f factors -> def_gauss f) -> forall g0, mk_graph (gauss_ops o) o factors ev special = Ok g0 ->
  forall g r, history (gauss_ops o) g0 g -> tree_shaped g0 -> r < length (g_cl g0) ->
  exists ks g', two_sweeps g ks /\ length ks = 2 * (length (g_cl g0) - 1) /\ foldM (pass_path (gauss_ops o)) ks g = Ok g' /\
    forall vrs, vrs <> [] -> NoDup vrs -> (forall v, In v vrs -> ~ In v (dkeys special)) ->
      (exists c, In c (g_cl g0) /\ incl vrs (ga_vars (cl_fac c))) ->
      exists res, get_marginal (gauss_ops o) g' vrs = Ok res /\ (forall v, In v (ga_vars res) <-> In v vrs) /\
        forall rem e, agrees_opt ev e -> agrees special e -> NoDup rem ->
          (forall v, In v rem <-> (exists f, In f factors /\ In v (ga_vars f)) /\
              ~ In v (observed ev) /\ ~ In v (dkeys special) /\ ~ In v vrs) ->
          iint rem (fun e' => Rprod (map (fun f => gval f e') factors)) e (gval res e).
Proof. exact gsweeps_answer. Qed.
Print Assumptions c96_sweeps_answer.
Example c96_nonvacuous : exists g, (forall f, In f gg_chain -> def_gauss f) /\
  mk_graph (gauss_ops io) io gg_chain None gg_special = Ok g /\ tree_shaped g /\ length (g_cl g) = 3.
Proof. exact gg_ready. Qed.

(** ** C97 *)
Theorem c97_messages_bounded : forall o factors ev special g0, oracle_ok o ->
  (forall f, In f factors -> def_gauss f) -> mk_graph (gauss_ops o) o factors ev special = Ok g0 -> tree_shaped g0 ->
  exists N, forall g tol max_iter g', history (gauss_ops o) g0 g -> (0 <= tol)%R ->
    process_graph (gauss_ops o) tol max_iter g = Ok g' -> length (g_dists g') <= N.
Proof. exact gbounded. Qed.
Print Assumptions c97_messages_bounded.
Theorem c97_greedy_converges : forall o factors ev special g0, oracle_ok o ->
  (forall f, In f factors -> def_gauss f) -> mk_graph (gauss_ops o) o factors ev special = Ok g0 -> tree_shaped g0 ->
  NoDup (dkeys special) -> length (g_cl g0) <> 1 ->
  exists N, forall g tol max_iter, history (gauss_ops o) g0 g -> (0 <= tol)%R -> N < max_iter * length (g_paths g0) ->
    exists g', process_graph (gauss_ops o) tol max_iter g = Ok g' /\ length (g_dists g') <= N /\
      forall k, k < length (g_paths g') -> vleb (gain_of (g_paths g') k) (Fin tol) = true.
Proof. exact gconverges. Qed.
Print Assumptions c97_greedy_converges.
Example c97_nonvacuous : exists g0, (forall f, In f gg_chain -> def_gauss f) /\ mk_graph (gauss_ops io) io gg_chain None gg_special = Ok g0 /\
  tree_shaped g0 /\ NoDup (dkeys gg_special) /\ length (g_cl g0) <> 1 /\ length (g_paths g0) = 4.
Proof. exact gg_converges. Qed.

(** ** C98: false, because messages that differ by less than the tolerance of equals have gain 0.
    The answer is not even proportional to the marginal. *)
Theorem c98_converged_exact_refuted : exists factors g0, (forall f, In f factors -> def_gauss f) /\
  mk_graph (gauss_ops io) io factors None [] = Ok g0 /\ tree_shaped g0 /\ length (g_cl g0) = 3 /\
  forall n, 0 < n -> exists g res, process_graph (gauss_ops io) 0 n g0 = Ok g /\ length (g_dists g) = 4 /\
    (forall k, k < length (g_paths g) -> gain_of (g_paths g) k = Fin 0) /\ get_marginal (gauss_ops io) g ["a"; "b"] = Ok res /\
    NoDup ["c"; "d"] /\ (forall v, In v ["c"; "d"] <-> (exists f, In f factors /\ In v (ga_vars f)) /\ ~ In v ["a"; "b"]) /\
    forall k, exists e, ~ iint ["c"; "d"] (fun e' => Rprod (map (fun f => gval f e') factors)) e (k * gval res e)%R.
Proof. exact (ex_intro _ qchain q_stale). Qed.
Print Assumptions c98_converged_exact_refuted.
(** Missing for the full claim: states in which a waiting message differs from the one sent before but is
    within the tolerance of equals, for which it is false. *)
Theorem c98_converged_exact_partial : forall o factors ev special g0, oracle_ok o ->
  (forall f, In f factors -> def_gauss f) -> mk_graph (gauss_ops o) o factors ev special = Ok g0 ->
  forall g vrs, history (gauss_ops o) g0 g -> tree_shaped g0 ->
  (forall k p e, nth_error (g_paths g) k = Some p ->
     gval (m_fac (p_next p)) e = match p_prev p with Some m => gval (m_fac m) e | None => 1%R end) ->
  vrs <> [] -> NoDup vrs -> (forall v, In v vrs -> ~ In v (dkeys special)) ->
  (exists c, In c (g_cl g) /\ incl vrs (ga_vars (cl_fac c))) ->
  exists res, get_marginal (gauss_ops o) g vrs = Ok res /\ (forall v, In v (ga_vars res) <-> In v vrs) /\
    forall rem e, agrees_opt ev e -> agrees special e -> NoDup rem ->
      (forall v, In v rem <-> (exists f, In f factors /\ In v (ga_vars f)) /\
          ~ In v (observed ev) /\ ~ In v (dkeys special) /\ ~ In v vrs) ->
      iint rem (fun e' => Rprod (map (fun f => gval f e') factors)) e (gval res e).
Proof. exact gcalibrated_answer. Qed.
Print Assumptions c98_converged_exact_partial.
Example c98_nonvacuous : exists g0 g res, mk_graph (gauss_ops io) io gg_chain None gg_special = Ok g0 /\
  history (gauss_ops io) g0 g /\ tree_shaped g0 /\ length (g_cl g0) = 3 /\
  (forall k p e, nth_error (g_paths g) k = Some p ->
     gval (m_fac (p_next p)) e = match p_prev p with Some m => gval (m_fac m) e | None => 1%R end) /\
  get_marginal (gauss_ops io) g ["c"] = Ok res.
Proof. exact gg_calibrated. Qed.
