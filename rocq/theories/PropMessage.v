(** Property theorems for message passing and queries on cluster graphs (C30 - C39, C56 - C59).
    Only statements: the proofs are in Graph*.v.  A [history] is any interleaving of single
    passes along any paths and of process_graph calls, starting from a constructed graph. *)
From Verif Require Import GraphExamples3.
Local Open Scope string_scope.
Local Open Scope nat_scope.

(** ** C30 *)
Theorem c30_no_stale_messages : forall F V (ops : fops F V) o factors ev special g0 g,
  oracle_ok o -> mk_graph ops o factors ev special = Ok g0 -> history ops g0 g ->
  forall k p, nth_error (g_paths g) k = Some p ->
  exists ci cj, nth_error (g_cl g) (p_snd p) = Some ci /\ nth_error (g_cl g) (p_rcv p) = Some cj /\
    make_message ops ci (cl_id cj) = Ok (p_next p).
Proof. exact @never_stale'. Qed.
Print Assumptions c30_no_stale_messages.
Example c30_nonvacuous : exists g0 g, mk_graph (sparse_ops id_oracle) id_oracle gx_chain0 None gx_special = Ok g0 /\
  history (sparse_ops id_oracle) g0 g /\ length (g_paths g) = 4 /\ exists k p, nth_error (g_paths g) k = Some p /\ p_prev p <> None.
Proof. exact gx_moved. Qed.

(** ** C31: false at assignments that contradict the special evidence. *)
Theorem c31_joint_kept_refuted : exists g0 g e,
  mk_graph (sparse_ops id_oracle) id_oracle [gs_ab; gs_bc] None gs_special = Ok g0 /\
  history (sparse_ops id_oracle) g0 g /\ (forall v, e v < 2) /\
  (let sent := Rprod (map (fun p => match p_prev p with Some m => spot (m_fac m) e | None => 1%R end) (g_paths g)) in
   if Req_EM_T sent 0 then 0%R else (Rprod (map (fun c => spot (cl_fac c) e) (g_cl g)) / sent)%R) <>
  Rprod (map (fun c => spot (cl_fac c) e) (g_cl g0)).
Proof. exact gs_joint_refuted. Qed.
Print Assumptions c31_joint_kept_refuted.
(** Missing for the full claim: in the second part, the assignments that contradict the special
    evidence (there the claim is false).  Without special evidence this is the full claim. *)
Theorem c31_joint_kept_partial : forall card o factors ev special g0 g, oracle_ok o ->
  (forall f, In f factors -> sgood card f) -> mk_graph (sparse_ops o) o factors ev special = Ok g0 ->
  history (sparse_ops o) g0 g ->
  (forall i c0 c, nth_error (g_cl g0) i = Some c0 -> nth_error (g_cl g) i = Some c -> forall e,
     spot (cl_fac c) e = (spot (cl_fac c0) e *
       Rprod (map (fun p => match p_prev p with
                            | Some m => if p_rcv p =? i then spot (m_fac m) e else 1
                            | None => 1
                            end) (g_paths g)))%R) /\
  (forall e, agrees special e ->
     let sent := Rprod (map (fun p => match p_prev p with Some m => spot (m_fac m) e | None => 1%R end) (g_paths g)) in
     (if Req_EM_T sent 0 then 0%R else (prod_at spot (map cl_fac (g_cl g)) e / sent)%R)
     = prod_at spot (map cl_fac (g_cl g0)) e).
Proof.
  intros card o factors ev special g0 g Ho G H Hh.
  exact (potentials_kept (sparse_ops o) card (sgood card) spot (sparse_lawful card o Ho) o factors ev special g0 Ho G H g Hh).
Qed.
Print Assumptions c31_joint_kept_partial.
Example c31_nonvacuous : (forall f, In f gx_chain0 -> sgood two f) /\ agrees gx_special zero_env /\
  exists g0 g, mk_graph (sparse_ops id_oracle) id_oracle gx_chain0 None gx_special = Ok g0 /\
  history (sparse_ops id_oracle) g0 g /\ length (g_paths g) = 4 /\ exists k p, nth_error (g_paths g) k = Some p /\ p_prev p <> None.
Proof. split; [exact gx_chain0_good|]. split; [exact (proj1 (proj2 gx_positive0))|exact gx_moved]. Qed.

(** ** C32: false before every path has carried a message. *)
Theorem c32_posterior_joint_refuted : exists g, mk_graph (sparse_ops id_oracle) id_oracle gx_chain0 None gx_special = Ok g /\
  get_joint (sparse_ops id_oracle) g = Err AttributeError.
Proof. exact gx_joint_missing. Qed.
Print Assumptions c32_posterior_joint_refuted.
(** It always fails while some path is unused. *)
Theorem c32_posterior_joint_unsent_fails : forall card o factors ev special g0 g, oracle_ok o ->
  (forall f, In f factors -> sgood card f) -> mk_graph (sparse_ops o) o factors ev special = Ok g0 ->
  history (sparse_ops o) g0 g -> (exists k p, nth_error (g_paths g) k = Some p /\ p_prev p = None) ->
  get_joint (sparse_ops o) g = Err AttributeError.
Proof.
  intros card o factors ev special g0 g Ho G H.
  exact (joint_missing (sparse_ops o) card (sgood card) spot (sparse_lawful card o Ho) o factors ev special g0 Ho G H g).
Qed.
Print Assumptions c32_posterior_joint_unsent_fails.
(** Missing for the full claim: states in which some path has not been used, and assignments that
    contradict the special evidence (there the claim is false). *)
Theorem c32_posterior_joint_partial : forall card o factors ev special g0 g, oracle_ok o ->
  (forall f, In f factors -> sgood card f) -> mk_graph (sparse_ops o) o factors ev special = Ok g0 ->
  history (sparse_ops o) g0 g -> factors <> [] ->
  (forall k p, nth_error (g_paths g) k = Some p -> p_prev p <> None) ->
  exists r, get_joint (sparse_ops o) g = Ok r /\
    (forall v, In v (svars r) <-> (exists f, In f factors /\ In v (svars f)) /\ ~ In v (observed ev)) /\
    (forall e, agrees_opt ev e -> agrees special e -> spot r e = Rprod (map (fun f => spot f e) factors)).
Proof.
  intros card o factors ev special g0 g Ho G H.
  exact (joint_returned (sparse_ops o) card (sgood card) spot (sparse_lawful card o Ho) o factors ev special g0 Ho G H g).
Qed.
Print Assumptions c32_posterior_joint_partial.
Example c32_nonvacuous : exists g0 g, mk_graph (sparse_ops id_oracle) id_oracle gx_chain0 None gx_special = Ok g0 /\
  history (sparse_ops id_oracle) g0 g /\ length (g_paths g) = 4 /\ forall k p, nth_error (g_paths g) k = Some p -> p_prev p <> None.
Proof. exact gx_all_sent. Qed.

(** ** C33 *)
Theorem c33_bounded_passes : forall F V (ops : fops F V) tol max_iter g g',
  process_graph ops tol max_iter g = Ok g' -> length (g_cl g) <> 1 ->
  exists ks h, length ks <= max_iter * length (g_order g) /\ foldM (pass_path ops) ks g = Ok h /\
    g_cl g' = g_cl h /\ g_paths g' = g_paths h /\
    g_passed g' = g_passed g + length ks /\ length (g_dists g') = length ks.
Proof. exact @bounded_passes. Qed.
Print Assumptions c33_bounded_passes.
(** The queue always holds every path once. *)
Theorem c33_queue_is_all_paths : forall F V (ops : fops F V) o factors ev special g0 g,
  oracle_ok o -> mk_graph ops o factors ev special = Ok g0 -> history ops g0 g ->
  Permutation (g_order g) (seq 0 (length (g_paths g))).
Proof. exact @queue_all. Qed.
Print Assumptions c33_queue_is_all_paths.
Theorem c33_single_cluster : forall F V (ops : fops F V) tol max_iter g g' c,
  process_graph ops tol max_iter g = Ok g' -> g_cl g = [c] ->
  g_passed g' = g_passed g /\ g_dists g' = [] /\ g_paths g' = g_paths g.
Proof. exact @single_passes. Qed.
Print Assumptions c33_single_cluster.
Example c33_nonvacuous : exists g g', mk_graph (sparse_ops id_oracle) id_oracle gx_chain0 None gx_special = Ok g /\
  length (g_cl g) <> 1 /\ length (g_order g) = 4 /\ process_graph (sparse_ops id_oracle) (1/10) 3 g = Ok g'.
Proof. exact gx_processed. Qed.
Example c33_nonvacuous_single : exists g g1 e, mk_graph (sparse_ops id_oracle) id_oracle [gx_ab] None gs_special = Ok g /\
  length (g_cl g) = 1 /\ process_graph (sparse_ops id_oracle) 0 1 g = Ok g1 /\ process_graph (sparse_ops id_oracle) 0 1 g1 = Err e.
Proof. exact gx_single_refuted. Qed.

(** ** C34 and C35 *)
Theorem c34_greedy_schedule : forall F V (ops : fops F V) o factors ev special g0 g tol max_iter g',
  oracle_ok o -> mk_graph ops o factors ev special = Ok g0 -> history ops g0 g ->
  process_graph ops tol max_iter g = Ok g' -> length (g_cl g) <> 1 ->
  exists steps, run ops (sort_paths (reset_dists g)) steps g' /\
    (forall s k, In (s, k) steps -> (forall q, q < length (g_paths s) -> gain_of (g_paths s) q <> NaN) ->
       forall q, q < length (g_paths s) -> vltb (gain_of (g_paths s) k) (gain_of (g_paths s) q) = false).
Proof. exact @greedy_steps. Qed.
Print Assumptions c34_greedy_schedule.
Theorem c35_early_stop_converged : forall F V (ops : fops F V) o factors ev special g0 g tol max_iter g',
  oracle_ok o -> mk_graph ops o factors ev special = Ok g0 -> history ops g0 g ->
  process_graph ops tol max_iter g = Ok g' -> length (g_cl g) <> 1 ->
  (forall q, q < length (g_paths g') -> gain_of (g_paths g') q <> NaN) ->
  length (g_dists g') = max_iter * length (g_order g) \/
  (length (g_dists g') < max_iter * length (g_order g) /\
   forall k, k < length (g_paths g') -> vleb (gain_of (g_paths g') k) (Fin tol) = true).
Proof. exact @early_stop. Qed.
Print Assumptions c35_early_stop_converged.
(** The gains are comparable in every state of every run over sparse tables with a positive assignment. *)
Theorem c34_c35_gains_comparable : forall card o factors ev special g0 e0 g steps g', oracle_ok o ->
  (forall f, In f factors -> sgood card f) -> mk_graph (sparse_ops o) o factors ev special = Ok g0 ->
  agrees_opt ev e0 -> agrees special e0 -> (forall f, In f factors -> spot f e0 <> 0%R) ->
  history (sparse_ops o) g0 g -> run (sparse_ops o) (sort_paths (reset_dists g)) steps g' ->
  (forall q, q < length (g_paths g') -> gain_of (g_paths g') q <> NaN) /\
  (forall s k, In (s, k) steps -> forall q, q < length (g_paths s) -> gain_of (g_paths s) q <> NaN).
Proof.
  intros card o factors ev special g0 e0 g steps g' Ho G H P1 P2 P3.
  exact (run_comparable (sparse_ops o) card (sgood card) spot (sparse_lawful card o Ho) o factors ev special g0 Ho G H e0 g steps g'
    (conj P1 (conj P2 P3))).
Qed.
Print Assumptions c34_c35_gains_comparable.
Example c34_c35_nonvacuous : exists g g', mk_graph (sparse_ops id_oracle) id_oracle gx_chain0 None gx_special = Ok g /\
  length (g_cl g) <> 1 /\ length (g_order g) = 4 /\ process_graph (sparse_ops id_oracle) (1/10) 3 g = Ok g'.
Proof. exact gx_processed. Qed.
Example c34_c35_nonvacuous_positive : (forall f, In f gx_chain0 -> sgood two f) /\ agrees gx_special zero_env /\
  (forall f, In f gx_chain0 -> spot f zero_env <> 0%R).
Proof. split; [exact gx_chain0_good|exact (proj2 gx_positive0)]. Qed.

(** ** C36 *)
Theorem c36_calibrated_marginal : forall card o factors ev special g0 g vrs res, oracle_ok o ->
  (forall f, In f factors -> sgood card f) -> mk_graph (sparse_ops o) o factors ev special = Ok g0 ->
  tree_shaped g0 -> history (sparse_ops o) g0 g ->
  (forall k p e, nth_error (g_paths g) k = Some p -> (forall v, In v (svars (m_fac (p_next p))) -> e v < card v) ->
     spot (m_fac (p_next p)) e = match p_prev p with Some m => spot (m_fac m) e | None => 1%R end) ->
  NoDup vrs -> (forall v, In v vrs -> ~ In v (dkeys special)) -> get_marginal (sparse_ops o) g vrs = Ok res ->
  (forall v, In v (svars res) <-> In v vrs) /\
  forall rem e, agrees_opt ev e -> agrees special e -> NoDup rem ->
    (forall v, In v rem <-> (exists f, In f factors /\ In v (svars f)) /\
        ~ In v (observed ev) /\ ~ In v (dkeys special) /\ ~ In v vrs) ->
    spot res e = sum_over card rem (fun e' => Rprod (map (fun f => spot f e') factors)) e.
Proof. exact sparse_exact. Qed.
Print Assumptions c36_calibrated_marginal.
(** The query succeeds whenever some cluster contains the variables. *)
Theorem c36_marginal_exists : forall card o factors ev special g0 g vrs e0, oracle_ok o ->
  (forall f, In f factors -> sgood card f) -> mk_graph (sparse_ops o) o factors ev special = Ok g0 ->
  history (sparse_ops o) g0 g ->
  agrees_opt ev e0 -> agrees special e0 -> (forall f, In f factors -> spot f e0 <> 0%R) ->
  NoDup vrs -> (forall v, In v vrs -> ~ In v (dkeys special)) ->
  (exists c, In c (g_cl g) /\ incl vrs (svars (cl_fac c))) -> exists res, get_marginal (sparse_ops o) g vrs = Ok res.
Proof.
  intros card o factors ev special g0 g vrs e0 Ho G H Hh P1 P2 P3.
  exact (marginal_some (sparse_ops o) card (sgood card) spot (sparse_lawful card o Ho) o factors ev special g0 Ho G H g vrs e0 Hh
    (conj P1 (conj P2 P3))).
Qed.
Print Assumptions c36_marginal_exists.
Example c36_nonvacuous : exists g0 g, mk_graph (sparse_ops id_oracle) id_oracle gx_chain None [] = Ok g0 /\
  tree_shaped g0 /\ history (sparse_ops id_oracle) g0 g /\ nothing_to_send (sparse_ops id_oracle) two spot g /\
  exists res, get_marginal (sparse_ops id_oracle) g ["d"] = Ok res.
Proof. exact gx_calibrated. Qed.

(** ** C37 *)
Theorem c37_lookup_none : forall F V (ops : fops F V) g vrs,
  (forall c, In c (g_cl g) -> ~ incl vrs (f_vars ops (cl_fac c))) -> get_marginal ops g vrs = Err ValueError.
Proof. exact @lookup_none. Qed.
Print Assumptions c37_lookup_none.
Theorem c37_lookup_first : forall F V (ops : fops F V) g vrs i c,
  nth_error (g_cl g) i = Some c -> incl vrs (f_vars ops (cl_fac c)) -> NoDup (f_vars ops (cl_fac c)) ->
  (forall j c', j < i -> nth_error (g_cl g) j = Some c' -> ~ incl vrs (f_vars ops (cl_fac c'))) ->
  exists evs vals, NoDup evs /\
    (forall v, In v evs <-> In v (f_vars ops (cl_fac c)) /\ In v (dkeys (g_spec g))) /\
    map (dget (g_spec g)) evs = map Some vals /\
    get_marginal ops g vrs =
      match evs with
      | [] => f_marg ops (cl_fac c) vrs
      | _ :: _ => let* f := f_reduce ops (cl_fac c) evs vals in f_marg ops f vrs
      end.
Proof. exact @lookup_first. Qed.
Print Assumptions c37_lookup_first.
Theorem c37_lookup_error_iff : forall card o factors ev special g0 g vrs, oracle_ok o ->
  (forall f, In f factors -> sgood card f) -> mk_graph (sparse_ops o) o factors ev special = Ok g0 ->
  history (sparse_ops o) g0 g -> NoDup vrs -> (forall v, In v vrs -> ~ In v (dkeys special)) ->
  (get_marginal (sparse_ops o) g vrs = Err ValueError <-> forall c, In c (g_cl g) -> ~ incl vrs (svars (cl_fac c))).
Proof. exact lookup_error. Qed.
Print Assumptions c37_lookup_error_iff.
Example c37_nonvacuous : exists g c, mk_graph (sparse_ops id_oracle) id_oracle gx_chain0 None gx_special = Ok g /\
  nth_error (g_cl g) 1 = Some c /\ incl ["1#c"] (svars (cl_fac c)) /\ NoDup (svars (cl_fac c)) /\
  (forall j c', j < 1 -> nth_error (g_cl g) j = Some c' -> ~ incl ["1#c"] (svars (cl_fac c'))) /\
  (forall c', In c' (g_cl g) -> ~ incl ["a"; "d"] (svars (cl_fac c'))).
Proof. exact gx_lookup. Qed.

(** ** C38: false, the second call always fails when there is special evidence. *)
Theorem c38_process_twice_refuted : exists g g1 e,
  mk_graph (sparse_ops id_oracle) id_oracle [gx_ab] None gs_special = Ok g /\ length (g_cl g) = 1 /\
  process_graph (sparse_ops id_oracle) 0 1 g = Ok g1 /\ process_graph (sparse_ops id_oracle) 0 1 g1 = Err e.
Proof. exact gx_single_refuted. Qed.
Print Assumptions c38_process_twice_refuted.
Theorem c38_process_twice_fails : forall o tol tol' n n' g g1 c, g_cl g = [c] -> g_spec g <> [] ->
  process_graph (sparse_ops o) tol n g = Ok g1 -> exists e, process_graph (sparse_ops o) tol' n' g1 = Err e.
Proof. exact single_special_fails. Qed.
Print Assumptions c38_process_twice_fails.
(** Missing for the full claim: graphs with special evidence (there the claim is false). *)
Theorem c38_process_twice_partial : forall F V (ops : fops F V) tol tol' n n' g g1 c, g_cl g = [c] -> g_spec g = [] ->
  process_graph ops tol n g = Ok g1 ->
  process_graph ops tol' n' g1 = Ok g1 /\ g_cl g1 = g_cl g /\ g_paths g1 = g_paths g.
Proof. exact @single_twice. Qed.
Print Assumptions c38_process_twice_partial.
Example c38_nonvacuous : exists g c g1, mk_graph (sparse_ops id_oracle) id_oracle [gx_ab] None [] = Ok g /\ g_cl g = [c] /\
  g_spec g = [] /\ process_graph (sparse_ops id_oracle) 0 1 g = Ok g1.
Proof. exact gx_single. Qed.

(** ** C39 *)
Theorem c39_almost_sorted : forall A K (lt : K -> K -> bool) (key : A -> K) (good : K -> Prop),
  (forall a b, good a -> good b -> lt a b = true -> lt b a = false) ->
  (forall a b c, good a -> good b -> good c -> lt a b = false -> lt b c = false -> lt a c = false) ->
  forall x y rest, (forall z, In z (x :: y :: rest) -> good (key z)) -> descending lt key (y :: rest) ->
  exists l', sort_almost_sorted lt key (x :: y :: rest) = Ok l' /\ Permutation (x :: y :: rest) l' /\ descending lt key l'.
Proof. exact @almost_sorted_ok. Qed.
Print Assumptions c39_almost_sorted.
Example c39_nonvacuous : descending Nat.ltb (fun x : nat => x) [5; 3; 3; 1] /\
  (forall a b, Nat.ltb a b = true -> Nat.ltb b a = false) /\
  (forall a b c, Nat.ltb a b = false -> Nat.ltb b c = false -> Nat.ltb a c = false).
Proof. exact nat_descending. Qed.

(** ** C56 *)
Theorem c56_construction_never_fails : forall card o factors ev special e0, oracle_ok o ->
  (forall f, In f factors -> sgood card f) -> agrees_opt ev e0 -> agrees special e0 ->
  (forall f, In f factors -> spot f e0 <> 0%R) -> exists g, mk_graph (sparse_ops o) o factors ev special = Ok g.
Proof.
  intros card o factors ev special e0 Ho G P1 P2 P3.
  exact (mk_graph_some (sparse_ops o) card (sgood card) spot (sparse_lawful card o Ho) o factors ev special e0 Ho G (conj P1 (conj P2 P3))).
Qed.
Print Assumptions c56_construction_never_fails.
Theorem c56_processing_never_fails : forall card o factors ev special g0 e0 g, oracle_ok o ->
  (forall f, In f factors -> sgood card f) -> mk_graph (sparse_ops o) o factors ev special = Ok g0 ->
  agrees_opt ev e0 -> agrees special e0 -> (forall f, In f factors -> spot f e0 <> 0%R) ->
  history (sparse_ops o) g0 g ->
  (forall k, k < length (g_paths g) -> exists g', pass_path (sparse_ops o) g k = Ok g') /\
  (forall tol max_iter, NoDup (dkeys special) ->
     (forall c, g_cl g = [c] -> incl (dkeys special) (svars (cl_fac c))) ->
     exists g', process_graph (sparse_ops o) tol max_iter g = Ok g').
Proof. exact sparse_never_fails. Qed.
Print Assumptions c56_processing_never_fails.
Example c56_nonvacuous : (forall f, In f gx_chain0 -> sgood two f) /\ agrees gx_special zero_env /\
  (forall f, In f gx_chain0 -> spot f zero_env <> 0%R) /\ NoDup (dkeys gx_special) /\
  exists g, mk_graph (sparse_ops id_oracle) id_oracle gx_chain0 None gx_special = Ok g /\ tree_shaped g /\ length (g_cl g) = 3.
Proof.
  split; [exact gx_chain0_good|]. split; [exact (proj1 (proj2 gx_positive0))|]. split; [exact (proj2 (proj2 gx_positive0))|].
  split; [repeat constructor; intros []|exact gx_tree].
Qed.

(** ** C57 *)
Theorem c57_early_stop_exact : forall card o factors ev special g0 e0 g tol max_iter g' vrs res, oracle_ok o ->
  (forall f, In f factors -> sgood card f) -> mk_graph (sparse_ops o) o factors ev special = Ok g0 ->
  agrees_opt ev e0 -> agrees special e0 -> (forall f, In f factors -> spot f e0 <> 0%R) ->
  history (sparse_ops o) g0 g -> length (g_cl g) <> 1 -> tree_shaped g0 -> (tol <= 0)%R ->
  process_graph (sparse_ops o) tol max_iter g = Ok g' ->
  length (g_dists g') < max_iter * length (g_order g) ->
  NoDup vrs -> (forall v, In v vrs -> ~ In v (dkeys special)) -> get_marginal (sparse_ops o) g' vrs = Ok res ->
  (forall v, In v (svars res) <-> In v vrs) /\
  exists k, (0 < k)%R /\ forall rem e, agrees_opt ev e -> agrees special e -> NoDup rem ->
    (forall v, In v rem <-> (exists f, In f factors /\ In v (svars f)) /\
        ~ In v (observed ev) /\ ~ In v (dkeys special) /\ ~ In v vrs) ->
    (k * spot res e = sum_over card rem (fun e' => Rprod (map (fun f => spot f e') factors)) e)%R.
Proof.
  intros card o factors ev special g0 e0 g tol max_iter g' vrs res Ho G H P1 P2 P3.
  exact (converged_marginal (sparse_ops o) card (sgood card) spot (sparse_lawful card o Ho) o factors ev special g0 Ho G H e0 g tol
    max_iter g' vrs res (conj P1 (conj P2 P3))).
Qed.
Print Assumptions c57_early_stop_exact.
(** The hypotheses are met: with enough iterations the run with tol = 0 stops early (C59). *)
Example c57_nonvacuous : exists g max_iter g' res, mk_graph (sparse_ops id_oracle) id_oracle gx_chain0 None gx_special = Ok g /\
  tree_shaped g /\ length (g_cl g) <> 1 /\ process_graph (sparse_ops id_oracle) 0 max_iter g = Ok g' /\
  length (g_dists g') < max_iter * length (g_order g) /\ get_marginal (sparse_ops id_oracle) g' ["b,c"] = Ok res.
Proof. exact gx_converges. Qed.

(** ** C58 *)
Theorem c58_two_sweeps_exact : forall card o factors ev special g0 g ks g' vrs res, oracle_ok o ->
  (forall f, In f factors -> sgood card f) -> mk_graph (sparse_ops o) o factors ev special = Ok g0 ->
  history (sparse_ops o) g0 g -> tree_shaped g0 -> two_sweeps g ks -> foldM (pass_path (sparse_ops o)) ks g = Ok g' ->
  NoDup vrs -> (forall v, In v vrs -> ~ In v (dkeys special)) -> get_marginal (sparse_ops o) g' vrs = Ok res ->
  (forall v, In v (svars res) <-> In v vrs) /\
  forall rem e, agrees_opt ev e -> agrees special e -> NoDup rem ->
    (forall v, In v rem <-> (exists f, In f factors /\ In v (svars f)) /\
        ~ In v (observed ev) /\ ~ In v (dkeys special) /\ ~ In v vrs) ->
    spot res e = sum_over card rem (fun e' => Rprod (map (fun f => spot f e') factors)) e.
Proof.
  intros card o factors ev special g0 g ks g' vrs res Ho G H.
  exact (sweeps_exact (sparse_ops o) card (sgood card) spot (sparse_lawful card o Ho) o factors ev special g0 Ho G H g ks g' vrs res).
Qed.
Print Assumptions c58_two_sweeps_exact.
(** From any root there is such a schedule, with two passes per edge, and it runs to the end. *)
Theorem c58_two_sweeps_exist : forall card o factors ev special g0 g r e0, oracle_ok o ->
  (forall f, In f factors -> sgood card f) -> mk_graph (sparse_ops o) o factors ev special = Ok g0 ->
  history (sparse_ops o) g0 g -> tree_shaped g0 ->
  agrees_opt ev e0 -> agrees special e0 -> (forall f, In f factors -> spot f e0 <> 0%R) -> r < length (g_cl g0) ->
  exists ks g', two_sweeps g ks /\ length ks = 2 * (length (g_cl g0) - 1) /\ foldM (pass_path (sparse_ops o)) ks g = Ok g'.
Proof.
  intros card o factors ev special g0 g r e0 Ho G H Hh TR P1 P2 P3.
  exact (sweeps_run (sparse_ops o) card (sgood card) spot (sparse_lawful card o Ho) o factors ev special g0 Ho G H g r e0 Hh TR
    (conj P1 (conj P2 P3))).
Qed.
Print Assumptions c58_two_sweeps_exist.
Example c58_nonvacuous : exists g ks g', mk_graph (sparse_ops id_oracle) id_oracle gx_chain0 None gx_special = Ok g /\
  tree_shaped g /\ two_sweeps g ks /\ length ks = 4 /\ foldM (pass_path (sparse_ops id_oracle)) ks g = Ok g'.
Proof. exact gx_sweeps. Qed.

(** ** C59 *)
Theorem c59_messages_bounded : forall card o factors ev special g0 e0, oracle_ok o ->
  (forall f, In f factors -> sgood card f) -> mk_graph (sparse_ops o) o factors ev special = Ok g0 ->
  agrees_opt ev e0 -> agrees special e0 -> (forall f, In f factors -> spot f e0 <> 0%R) -> tree_shaped g0 ->
  exists N, forall g tol max_iter g', history (sparse_ops o) g0 g -> (0 <= tol)%R ->
    process_graph (sparse_ops o) tol max_iter g = Ok g' -> length (g_dists g') <= N.
Proof.
  intros card o factors ev special g0 e0 Ho G H P1 P2 P3.
  exact (messages_bounded (sparse_ops o) card (sgood card) spot (sparse_lawful card o Ho) o factors ev special g0 Ho G H e0 (conj P1 (conj P2 P3))).
Qed.
Print Assumptions c59_messages_bounded.
Theorem c59_greedy_converges : forall card o factors ev special g0 e0, oracle_ok o ->
  (forall f, In f factors -> sgood card f) -> mk_graph (sparse_ops o) o factors ev special = Ok g0 ->
  agrees_opt ev e0 -> agrees special e0 -> (forall f, In f factors -> spot f e0 <> 0%R) -> tree_shaped g0 ->
  length (g_cl g0) <> 1 ->
  exists N, forall g tol max_iter g', history (sparse_ops o) g0 g -> (0 <= tol)%R ->
    N < max_iter * length (g_paths g0) -> process_graph (sparse_ops o) tol max_iter g = Ok g' ->
    length (g_dists g') <= N /\ forall k, k < length (g_paths g') -> vleb (gain_of (g_paths g') k) (Fin tol) = true.
Proof.
  intros card o factors ev special g0 e0 Ho G H P1 P2 P3.
  exact (greedy_converges (sparse_ops o) card (sgood card) spot (sparse_lawful card o Ho) o factors ev special g0 Ho G H e0 (conj P1 (conj P2 P3))).
Qed.
Print Assumptions c59_greedy_converges.
Theorem c59_greedy_exact : forall card o factors ev special g0 e0, oracle_ok o ->
  (forall f, In f factors -> sgood card f) -> mk_graph (sparse_ops o) o factors ev special = Ok g0 ->
  agrees_opt ev e0 -> agrees special e0 -> (forall f, In f factors -> spot f e0 <> 0%R) -> tree_shaped g0 ->
  length (g_cl g0) <> 1 ->
  exists N, forall g max_iter g' vrs res, history (sparse_ops o) g0 g ->
    N < max_iter * length (g_paths g0) -> process_graph (sparse_ops o) 0 max_iter g = Ok g' ->
    NoDup vrs -> (forall v, In v vrs -> ~ In v (dkeys special)) -> get_marginal (sparse_ops o) g' vrs = Ok res ->
    (forall v, In v (svars res) <-> In v vrs) /\
    exists k, (0 < k)%R /\ forall rem e, agrees_opt ev e -> agrees special e -> NoDup rem ->
      (forall v, In v rem <-> (exists f, In f factors /\ In v (svars f)) /\
          ~ In v (observed ev) /\ ~ In v (dkeys special) /\ ~ In v vrs) ->
      (k * spot res e = sum_over card rem (fun e' => Rprod (map (fun f => spot f e') factors)) e)%R.
Proof.
  intros card o factors ev special g0 e0 Ho G H P1 P2 P3.
  exact (greedy_exact (sparse_ops o) card (sgood card) spot (sparse_lawful card o Ho) o factors ev special g0 Ho G H e0 (conj P1 (conj P2 P3))).
Qed.
Print Assumptions c59_greedy_exact.
Example c59_nonvacuous : (forall f, In f gx_chain0 -> sgood two f) /\ agrees gx_special zero_env /\
  (forall f, In f gx_chain0 -> spot f zero_env <> 0%R) /\
  exists g, mk_graph (sparse_ops id_oracle) id_oracle gx_chain0 None gx_special = Ok g /\ tree_shaped g /\ length (g_cl g) = 3.
Proof.
  split; [exact gx_chain0_good|]. split; [exact (proj1 (proj2 gx_positive0))|]. split; [exact (proj2 (proj2 gx_positive0))|exact gx_tree].
Qed.
