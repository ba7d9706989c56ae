(** Property theorems for cluster graphs over dense tables (C99 - C103).  Only statements: the
    proofs are in Dense*.v.  [dgood card nm f] says that [f] is a well formed table with positive
    entries whose variables have the cardinalities [card], at least two, and the assignment names
    [nm]; [fits card factors e] that the assignment [e] is inside all tables; [narrow factors obs]
    that two different factors share at most one variable that is not in [obs].  [zgood] is [dgood]
    with zeros allowed.

    Messages between dense tables are multiplied and divided axis by axis, so most results are for
    graphs [g] with [lined g]: the variables of every edge are listed in the order in which the
    tables at both ends list them ([listed]), and receiving over one edge of a cluster does not
    disturb the order of another edge of it ([keeps]: the variables of the message are moved to the
    end of the table).  It holds when every edge has one variable.  [answers_in_order g vs] says that
    every cluster of [g] that has all of [vs] lists them in this order, and [stays_in_order g vs]
    that this remains so for a new graph whatever messages are sent. *)
From Verif Require Import DenseQueryEx DenseQueryFlip DenseQueryZero DenseLinedEx DenseJoint DenseZeroSweep.
From Verif Require SparseExamples.
Local Open Scope string_scope.
Local Open Scope list_scope.
Local Open Scope nat_scope.
Local Notation io := SparseExamples.id_oracle.

(** ** C99 *)
(** Two tables that list two shared variables in opposite orders: the construction raises an error
    when the cardinalities differ, and gives a message that is not the marginal when they agree. *)
Theorem c99_messages_refuted :
  (exists card nm factors, (forall f, In f factors -> dgood card nm f) /\
     forall o, oracle_ok o -> mk_graph (dense_ops o) o factors None [] = Err AssertionError) /\
  (exists card nm factors e, (forall f, In f factors -> dgood card nm f) /\
     forall o, oracle_ok o -> exists g k p c removed,
       mk_graph (dense_ops o) o factors None [] = Ok g /\ nth_error (g_paths g) k = Some p /\
       nth_error (g_cl g) (p_snd p) = Some c /\ cl_fac c = nth (p_snd p) factors (cl_fac c) /\ NoDup removed /\
       (forall v, In v removed <-> In v (dvars (cl_fac c)) /\ ~ In v (dvars (m_fac (p_next p)))) /\
       dpot (m_fac (p_next p)) e <> sum_over card removed (dpot (cl_fac c)) e).
Proof.
  split; [exists rv_wide, (std_names rv_wide), (rv rv_wide (fun _ => 0%R)); exact rv_raises|].
  exists rv_two, (std_names rv_two), (rv rv_two rv_skew), rv_env. split; [exact rv_good|exact rv_mislabelled].
Qed.
Print Assumptions c99_messages_refuted.
(** A shared variable with one value: the message loses its axis. *)
Theorem c99_one_value_refuted : exists card factors, (forall f, In f factors -> dok card (std_names card) f /\ forall e, (0 < dpot f e)%R) /\
  forall o, oracle_ok o -> mk_graph (dense_ops o) o factors None [] = Err ValueError.
Proof.
  exists ln_thin, (ln ln_thin (fun _ => Fin 0) (fun _ => Fin 0)). split; [exact thin_ok|exact thin_raises].
Qed.
Print Assumptions c99_one_value_refuted.
(** The same tables: a graph that satisfies [lined], or an error, depending on the order in which
    the sets of shared variables are listed. *)
Theorem c99_order_refuted : exists card nm factors o1 o2 g, (forall f, In f factors -> dgood card nm f) /\ oracle_ok o1 /\ oracle_ok o2 /\
  mk_graph (dense_ops o1) o1 factors None [] = Ok g /\ lined g /\ mk_graph (dense_ops o2) o2 factors None [] = Err AssertionError.
Proof. exact tw_either. Qed.
Print Assumptions c99_order_refuted.
(** Full statement: whatever the order of the shared variables, and for variables with one
    value. *)
Theorem c99_construction_partial : forall card nm o factors ev special e0, oracle_ok o ->
  (forall f, In f factors -> dgood card nm f) -> narrow factors (all_evidence ev special) ->
  agrees_opt ev e0 -> agrees special e0 -> fits card factors e0 ->
  exists g, mk_graph (dense_ops o) o factors ev special = Ok g /\ forall i j S, edge_with g i j S -> length S = 1.
Proof. exact dense_graph_some. Qed.
Print Assumptions c99_construction_partial.
Theorem c99_one_variable_edges : forall card nm o factors ev special g, oracle_ok o -> (forall f, In f factors -> dgood card nm f) ->
  mk_graph (dense_ops o) o factors ev special = Ok g -> (forall i j S, edge_with g i j S -> length S = 1) -> lined g.
Proof. exact one_lined. Qed.
Print Assumptions c99_one_variable_edges.
(** [neat] is [lined] for the factors that are left when the evidence is absorbed. *)
Theorem c99_lined_construction_partial : forall card nm o factors ev special e0, oracle_ok o -> (forall f, In f factors -> dgood card nm f) ->
  (forall reduced final, evidence_reduce (dense_ops o) factors ev = Ok reduced -> absorb_subsets (dense_ops o) reduced = Ok final ->
     neat o (all_evidence ev special) final) -> agrees_opt ev e0 -> agrees special e0 -> fits card factors e0 ->
  exists g, mk_graph (dense_ops o) o factors ev special = Ok g /\ lined g.
Proof. exact dense_graph_lined. Qed.
Print Assumptions c99_lined_construction_partial.
Theorem c99_messages_partial : forall card nm o, oracle_ok o -> forall factors ev special g0,
  (forall f, In f factors -> dgood card nm f) -> mk_graph (dense_ops o) o factors ev special = Ok g0 ->
  lined g0 -> forall g k p, history (dense_ops o) g0 g -> nth_error (g_paths g) k = Some p ->
  exists c q kq, nth_error (g_cl g) (p_snd p) = Some c /\ nth_error (g_paths g) kq = Some q /\ p_snd q = p_rcv p /\ p_rcv q = p_snd p /\
    edge_with g0 (p_snd p) (p_rcv p) (dvars (m_fac (p_next p))) /\
    forall rem e, NoDup rem -> (forall v, In v rem <-> In v (dvars (cl_fac c)) /\ ~ In v (dvars (m_fac (p_next p))) /\ ~ In v (dkeys special)) ->
      agrees special e -> fits card factors e ->
      (dpot (m_fac (p_next p)) e * match p_prev q with Some m => dpot (m_fac m) e | None => 1 end)%R = sum_over card rem (dpot (cl_fac c)) e.
Proof. exact dense_message_value. Qed.
Print Assumptions c99_messages_partial.
Example c99_nonvacuous : (forall f, In f dx_chain -> dgood dx_card dx_nm f) /\ narrow dx_chain (all_evidence None dx_special) /\
  agrees dx_special dx_env /\ fits dx_card dx_chain dx_env /\
  exists g, mk_graph (dense_ops io) io dx_chain None dx_special = Ok g /\ lined g /\
    tree_shaped g /\ length (g_cl g) = 3.
Proof. exact (conj dx_chain_good (conj dx_narrow (conj dx_agrees (conj dx_fits dx_made)))). Qed.

(** ** C100 *)
(** A message with a zero sent twice raises an error. *)
Theorem c100_never_fails_refuted : exists card factors, (forall f, In f factors -> dok card (std_names card) f) /\
  forall o, oracle_ok o -> exists g g1, mk_graph (dense_ops o) o factors None [] = Ok g /\ tree_shaped g /\
    pass_path (dense_ops o) g 0 = Ok g1 /\ pass_path (dense_ops o) g1 0 = Err IndexError.
Proof. exists dx_card, zr. split; [exact zr_ok|exact zr_raises]. Qed.
Print Assumptions c100_never_fails_refuted.
(** For every cluster: a second message from the same neighbour, whose first message has a zero
    that is a zero of the cluster potential too. *)
Theorem c100_zero_error : forall card nm o (c : cluster dense nat) m prev w e,
  dok card nm (cl_fac c) -> dok card nm (m_fac m) -> dok card nm prev ->
  m_rcv m = cl_id c -> dget (cl_recv c) (m_snd m) = Some prev -> dvars prev = dvars (m_fac m) ->
  listed (dvars (m_fac m)) (dvars (cl_fac c)) -> In w (dvars (cl_fac c)) -> ~ In w (dvars (m_fac m)) ->
  d_in_range (cl_fac c) e -> dpot (cl_fac c) e = 0%R -> dpot prev e = 0%R ->
  receive_message (dense_ops o) c m = Err IndexError.
Proof. exact resend_zero. Qed.
Print Assumptions c100_zero_error.
Theorem c100_never_fails_partial : forall card nm o, oracle_ok o -> forall factors ev special g0,
  (forall f, In f factors -> dgood card nm f) -> mk_graph (dense_ops o) o factors ev special = Ok g0 ->
  lined g0 -> forall g e0, history (dense_ops o) g0 g ->
  agrees_opt ev e0 -> agrees special e0 -> fits card factors e0 ->
  (forall k, k < length (g_paths g) -> exists g', pass_path (dense_ops o) g k = Ok g') /\
  (forall tol max_iter, NoDup (dkeys special) -> (forall c, g_cl g = [c] -> incl (dkeys special) (dvars (cl_fac c))) ->
     exists g', process_graph (dense_ops o) tol max_iter g = Ok g').
Proof. exact dense_never_fails. Qed.
Print Assumptions c100_never_fails_partial.
Theorem c100_queries_partial : forall card nm o, oracle_ok o -> forall factors ev special g0,
  (forall f, In f factors -> dgood card nm f) -> mk_graph (dense_ops o) o factors ev special = Ok g0 ->
  lined g0 -> forall g v f e0, history (dense_ops o) g0 g ->
  agrees_opt ev e0 -> agrees special e0 -> fits card factors e0 ->
  In f factors -> In v (dvars f) -> ~ In v (observed ev) -> ~ In v (dkeys special) ->
  exists res, get_marginal (dense_ops o) g [v] = Ok res.
Proof. exact dense_marginal_some. Qed.
Print Assumptions c100_queries_partial.
(** Queries about several variables, in the order of the tables. *)
Theorem c100_several_queries_partial : forall card nm o, oracle_ok o -> forall factors ev special g0,
  (forall f, In f factors -> dgood card nm f) -> mk_graph (dense_ops o) o factors ev special = Ok g0 ->
  lined g0 -> forall g vs e0, history (dense_ops o) g0 g ->
  agrees_opt ev e0 -> agrees special e0 -> fits card factors e0 ->
  answers_in_order g vs -> (forall v, In v vs -> ~ In v (dkeys special)) ->
  (exists c, In c (g_cl g) /\ incl vs (dvars (cl_fac c))) -> exists res, get_marginal (dense_ops o) g vs = Ok res.
Proof. exact query_some. Qed.
Print Assumptions c100_several_queries_partial.

(** ** C101 *)
(** Full statement: also for edges whose variables are listed in another order, for two sweeps after
    other messages when the tables have zeros, and for queries about several variables in any order.
    The last is false: the variables must be given in the order of the table. *)
Theorem c101_query_order_refuted : exists card nm factors ks, (forall f, In f factors -> dgood card nm f) /\
  exists g g' r, mk_graph (dense_ops io) io factors None [] = Ok g /\ lined g /\ tree_shaped g /\ two_sweeps g ks /\
    foldM (pass_path (dense_ops io)) ks g = Ok g' /\ get_marginal (dense_ops io) g' ["b"; "c"] = Ok r /\
    get_marginal (dense_ops io) g' ["c"; "b"] = Err AssertionError.
Proof.
  destruct tw_asked as (g & ks & g' & r & H). exists dx_card, dx_nm, tw_chain, ks. split; [exact tw_good|]. exists g, g', r. tauto.
Qed.
Print Assumptions c101_query_order_refuted.
Theorem c101_flipped_query : forall card nm o, oracle_ok o -> forall factors ev special g0,
  (forall f, In f factors -> dgood card nm f) -> mk_graph (dense_ops o) o factors ev special = Ok g0 ->
  lined g0 -> forall g x y e0, history (dense_ops o) g0 g ->
  agrees_opt ev e0 -> agrees special e0 -> fits card factors e0 ->
  answers_in_order g [x; y] -> ~ In x (dkeys special) -> ~ In y (dkeys special) -> card x <> card y ->
  (exists c, In c (g_cl g) /\ In x (dvars (cl_fac c)) /\ In y (dvars (cl_fac c))) ->
  get_marginal (dense_ops o) g [y; x] = Err AssertionError.
Proof. exact query_flipped. Qed.
Print Assumptions c101_flipped_query.
(** Equal cardinalities: the answer has the right shape and the wrong labels. *)
Theorem c101_mislabelled_query_refuted : exists card nm factors ks e, (forall f, In f factors -> dgood card nm f) /\ fits card factors e /\
  exists g g' r, mk_graph (dense_ops io) io factors None [] = Ok g /\ lined g /\ tree_shaped g /\ two_sweeps g ks /\
    foldM (pass_path (dense_ops io)) ks g = Ok g' /\ answers_in_order g' ["a"; "c"] /\ get_marginal (dense_ops io) g' ["c"; "a"] = Ok r /\
    dpot r e <> sum_over card ["d"; "e"] (fun e' => Rprod (map (fun f => dpot f e') factors)) e.
Proof.
  destruct fl_swapped as (g & ks & g' & r & r' & H). exists fl_card, (std_names fl_card), fl_chain, ks, (fl_env 1 0). split; [exact fl_good|].
  split; [apply fl_fits; repeat constructor|]. exists g, g', r'. tauto.
Qed.
Print Assumptions c101_mislabelled_query_refuted.
Theorem c101_exchanged_query : forall card nm o, oracle_ok o -> forall factors ev special g0,
  (forall f, In f factors -> dgood card nm f) -> mk_graph (dense_ops o) o factors ev special = Ok g0 ->
  lined g0 -> forall g x y e0, history (dense_ops o) g0 g ->
  agrees_opt ev e0 -> agrees special e0 -> fits card factors e0 ->
  answers_in_order g [x; y] -> ~ In x (dkeys special) -> ~ In y (dkeys special) -> x <> y -> card x = card y ->
  (exists c, In c (g_cl g) /\ In x (dvars (cl_fac c)) /\ In y (dvars (cl_fac c))) ->
  exists r r', get_marginal (dense_ops o) g [x; y] = Ok r /\ get_marginal (dense_ops o) g [y; x] = Ok r' /\
    dvars r = [x; y] /\ dvars r' = [y; x] /\
    forall e, dval r' e = dval r (fun v => if string_dec v x then e y else if string_dec v y then e x else e v).
Proof. exact query_exchanged. Qed.
Print Assumptions c101_exchanged_query.
Theorem c101_two_sweeps_exact_partial : forall card nm o, oracle_ok o -> forall factors ev special g0,
  (forall f, In f factors -> dgood card nm f) -> mk_graph (dense_ops o) o factors ev special = Ok g0 ->
  lined g0 -> forall g ks g' v res, history (dense_ops o) g0 g ->
  tree_shaped g0 -> two_sweeps g ks -> foldM (pass_path (dense_ops o)) ks g = Ok g' -> ~ In v (dkeys special) ->
  get_marginal (dense_ops o) g' [v] = Ok res ->
  dvars res = [v] /\
  forall rem e, agrees_opt ev e -> agrees special e -> fits card factors e -> NoDup rem ->
    (forall w, In w rem <-> (exists f, In f factors /\ In w (dvars f)) /\ ~ In w (observed ev) /\ ~ In w (dkeys special) /\ w <> v) ->
    dpot res e = sum_over card rem (fun e' => Rprod (map (fun f => dpot f e') factors)) e.
Proof. exact dense_sweeps_exact. Qed.
Print Assumptions c101_two_sweeps_exact_partial.
Theorem c101_sweeps_run_partial : forall card nm o, oracle_ok o -> forall factors ev special g0,
  (forall f, In f factors -> dgood card nm f) -> mk_graph (dense_ops o) o factors ev special = Ok g0 ->
  lined g0 -> forall g r e0, history (dense_ops o) g0 g -> tree_shaped g0 ->
  agrees_opt ev e0 -> agrees special e0 -> fits card factors e0 -> r < length (g_cl g0) ->
  exists ks g', two_sweeps g ks /\ length ks = 2 * (length (g_cl g0) - 1) /\ foldM (pass_path (dense_ops o)) ks g = Ok g'.
Proof. exact dense_sweeps_run. Qed.
Print Assumptions c101_sweeps_run_partial.
(** Queries about several variables. *)
Theorem c101_several_variables_partial : forall card nm o, oracle_ok o -> forall factors ev special g0,
  (forall f, In f factors -> dgood card nm f) -> mk_graph (dense_ops o) o factors ev special = Ok g0 ->
  lined g0 -> forall g ks g' vs res, history (dense_ops o) g0 g ->
  tree_shaped g0 -> two_sweeps g ks -> foldM (pass_path (dense_ops o)) ks g = Ok g' -> answers_in_order g' vs ->
  (forall v, In v vs -> ~ In v (dkeys special)) -> get_marginal (dense_ops o) g' vs = Ok res ->
  dvars res = vs /\
  forall rem e, agrees_opt ev e -> agrees special e -> fits card factors e -> NoDup rem ->
    (forall w, In w rem <-> (exists f, In f factors /\ In w (dvars f)) /\ ~ In w (observed ev) /\ ~ In w (dkeys special) /\ ~ In w vs) ->
    dpot res e = sum_over card rem (fun e' => Rprod (map (fun f => dpot f e') factors)) e.
Proof. exact query_sweeps. Qed.
Print Assumptions c101_several_variables_partial.
Theorem c101_stays_in_order : forall card nm o, oracle_ok o -> forall factors ev special g0,
  (forall f, In f factors -> dgood card nm f) -> mk_graph (dense_ops o) o factors ev special = Ok g0 ->
  lined g0 -> forall vs g, stays_in_order g0 vs -> history (dense_ops o) g0 g -> answers_in_order g vs.
Proof. exact stays_ok. Qed.
Print Assumptions c101_stays_in_order.
(** Tables with zeros, from the freshly built graph: the sweeps raise no error when some assignment
    that agrees with the evidence has positive weight, and every query is exact. *)
Theorem c101_zeros_two_sweeps_partial : forall card nm o, oracle_ok o -> forall factors ev special g0,
  (forall f, In f factors -> zgood card nm f) -> mk_graph (dense_ops o) o factors ev special = Ok g0 ->
  lined g0 -> forall ks e0, tree_shaped g0 -> two_sweeps g0 ks ->
  agrees_opt ev e0 -> agrees special e0 -> fits card factors e0 -> (forall f, In f factors -> dpot f e0 <> 0%R) ->
  exists g', foldM (pass_path (dense_ops o)) ks g0 = Ok g' /\
    forall f v, In f factors -> In v (dvars f) -> ~ In v (observed ev) -> ~ In v (dkeys special) ->
    exists res, get_marginal (dense_ops o) g' [v] = Ok res /\ dvars res = [v] /\
    forall rem e, agrees_opt ev e -> agrees special e -> fits card factors e -> NoDup rem ->
      (forall w, In w rem <-> (exists f, In f factors /\ In w (dvars f)) /\ ~ In w (observed ev) /\ ~ In w (dkeys special) /\ w <> v) ->
      dpot res e = sum_over card rem (fun e' => Rprod (map (fun f => dpot f e') factors)) e.
Proof. exact zero_sweeps. Qed.
Print Assumptions c101_zeros_two_sweeps_partial.
Theorem c101_zeros_several_variables_partial : forall card nm o, oracle_ok o -> forall factors ev special g0,
  (forall f, In f factors -> zgood card nm f) -> mk_graph (dense_ops o) o factors ev special = Ok g0 ->
  lined g0 -> forall ks e0 g', tree_shaped g0 -> two_sweeps g0 ks ->
  agrees_opt ev e0 -> agrees special e0 -> fits card factors e0 -> (forall f, In f factors -> dpot f e0 <> 0%R) ->
  foldM (pass_path (dense_ops o)) ks g0 = Ok g' -> forall vs, answers_in_order g' vs ->
  (forall v, In v vs -> ~ In v (dkeys special)) -> (exists c, In c (g_cl g0) /\ incl vs (dvars (cl_fac c))) ->
  exists res, get_marginal (dense_ops o) g' vs = Ok res /\ dvars res = vs /\
  forall rem e, agrees_opt ev e -> agrees special e -> fits card factors e -> NoDup rem ->
    (forall w, In w rem <-> (exists f, In f factors /\ In w (dvars f)) /\ ~ In w (observed ev) /\ ~ In w (dkeys special) /\ ~ In w vs) ->
    dpot res e = sum_over card rem (fun e' => Rprod (map (fun f => dpot f e') factors)) e.
Proof. exact zero_queries. Qed.
Print Assumptions c101_zeros_several_variables_partial.
Theorem c101_zeros_stays_in_order : forall card nm o, oracle_ok o -> forall factors ev special g0,
  (forall f, In f factors -> zgood card nm f) -> mk_graph (dense_ops o) o factors ev special = Ok g0 ->
  lined g0 -> forall ks e0 g' vs, two_sweeps g0 ks ->
  agrees_opt ev e0 -> agrees special e0 -> fits card factors e0 -> (forall f, In f factors -> dpot f e0 <> 0%R) ->
  foldM (pass_path (dense_ops o)) ks g0 = Ok g' -> stays_in_order g0 vs -> answers_in_order g' vs.
Proof. exact zero_stays. Qed.
Print Assumptions c101_zeros_stays_in_order.
Theorem c101_zeros_schedule_partial : forall card nm o, oracle_ok o -> forall factors ev special g0,
  (forall f, In f factors -> zgood card nm f) -> mk_graph (dense_ops o) o factors ev special = Ok g0 ->
  lined g0 -> forall r, tree_shaped g0 -> r < length (g_cl g0) ->
  exists ks, two_sweeps g0 ks /\ length ks = 2 * (length (g_cl g0) - 1).
Proof. exact zero_sweeps_exist. Qed.
Print Assumptions c101_zeros_schedule_partial.
(** The graph exists when two factors share at most one unobserved variable. *)
Theorem c101_zeros_graph_partial : forall card nm o factors ev special e0, oracle_ok o ->
  (forall f, In f factors -> zgood card nm f) -> narrow factors (all_evidence ev special) ->
  agrees_opt ev e0 -> agrees special e0 -> fits card factors e0 -> (forall f, In f factors -> dpot f e0 <> 0%R) ->
  exists g, mk_graph (dense_ops o) o factors ev special = Ok g /\ forall i j S, edge_with g i j S -> length S = 1.
Proof. exact zero_graph_some. Qed.
Print Assumptions c101_zeros_graph_partial.
Theorem c101_zeros_lined_graph_partial : forall card nm o factors ev special e0, oracle_ok o -> (forall f, In f factors -> zgood card nm f) ->
  (forall reduced final, evidence_reduce (dense_ops o) factors ev = Ok reduced -> absorb_subsets (dense_ops o) reduced = Ok final ->
     neat o (all_evidence ev special) final) -> agrees_opt ev e0 -> agrees special e0 -> fits card factors e0 ->
  (forall f, In f factors -> dpot f e0 <> 0%R) ->
  exists g, mk_graph (dense_ops o) o factors ev special = Ok g /\ lined g.
Proof. exact zero_graph_lined. Qed.
Print Assumptions c101_zeros_lined_graph_partial.
(** The graph of [c100_never_fails_refuted], on which a message cannot be sent twice. *)
Example c101_zeros_nonvacuous : forall o, oracle_ok o -> exists g ks g' res, mk_graph (dense_ops o) o zr None [] = Ok g /\
  lined g /\ tree_shaped g /\ two_sweeps g ks /\ length ks = 2 /\
  foldM (pass_path (dense_ops o)) ks g = Ok g' /\ get_marginal (dense_ops o) g' ["b"] = Ok res /\
  dpot res (fun _ => 0) = 4%R /\ dpot res zr_env = 0%R.
Proof. exact zr_swept. Qed.
Example c101_nonvacuous : exists g ks g' res, mk_graph (dense_ops io) io dx_chain None dx_special = Ok g /\
  lined g /\ tree_shaped g /\ length (g_cl g) = 3 /\
  two_sweeps g ks /\ length ks = 4 /\ foldM (pass_path (dense_ops io)) ks g = Ok g' /\
  get_marginal (dense_ops io) g' ["b"] = Ok res.
Proof. exact dx_swept. Qed.

(** An edge of two variables. *)
Example c101_two_variables_nonvacuous : (forall f, In f tw_chain -> dgood dx_card dx_nm f) /\ fits dx_card tw_chain dx_env /\
  exists g ks g' res, mk_graph (dense_ops io) io tw_chain None [] = Ok g /\ lined g /\ edge_with g 0 1 ["b"; "c"] /\
  tree_shaped g /\ length (g_cl g) = 3 /\ two_sweeps g ks /\ length ks = 4 /\ foldM (pass_path (dense_ops io)) ks g = Ok g' /\
  get_marginal (dense_ops io) g' ["b"] = Ok res.
Proof. exact (conj tw_good (conj tw_fits tw_swept)). Qed.
(** Two variables at once, also in the wrong order. *)
Example c101_several_nonvacuous : exists g ks g' res, mk_graph (dense_ops io) io tw_chain None [] = Ok g /\ lined g /\ tree_shaped g /\ stays_in_order g ["b"; "c"] /\
  two_sweeps g ks /\ foldM (pass_path (dense_ops io)) ks g = Ok g' /\ answers_in_order g' ["b"; "c"] /\
  get_marginal (dense_ops io) g' ["b"; "c"] = Ok res /\ get_marginal (dense_ops io) g' ["c"; "b"] = Err AssertionError.
Proof. exact tw_asked. Qed.
Example c101_zeros_several_nonvacuous : forall o, oracle_ok o -> exists g ks g' res, mk_graph (dense_ops o) o zr None [] = Ok g /\ lined g /\ tree_shaped g /\
  stays_in_order g ["a"; "b"] /\ two_sweeps g ks /\ foldM (pass_path (dense_ops o)) ks g = Ok g' /\ answers_in_order g' ["a"; "b"] /\
  get_marginal (dense_ops o) g' ["a"; "b"] = Ok res /\ dpot res (fun _ => 0) = 2%R /\ dpot res zr_env = 0%R.
Proof. exact zr_asked. Qed.

(** ** C102 *)
(** Full statement: for all graphs and for queries about several variables in any order. *)
Theorem c102_query_order_refuted : exists card nm factors, (forall f, In f factors -> dgood card nm f) /\
  exists g, mk_graph (dense_ops io) io factors None [] = Ok g /\ lined g /\ tree_shaped g /\ length (g_cl g) = 3 /\
  forall tol max_iter, exists g' r, process_graph (dense_ops io) tol max_iter g = Ok g' /\
    get_marginal (dense_ops io) g' ["b"; "c"] = Ok r /\ get_marginal (dense_ops io) g' ["c"; "b"] = Err AssertionError.
Proof.
  destruct tw_processed as (g & H1 & H2 & H3 & H4 & H). exists dx_card, dx_nm, tw_chain. split; [exact tw_good|]. exists g. do 4 (split; [assumption|]).
  intros tol n. destruct (H tol n) as (g' & r & A & _ & B & C). exists g', r. auto.
Qed.
Print Assumptions c102_query_order_refuted.
Theorem c102_greedy_converges_partial : forall card nm o, oracle_ok o -> forall factors ev special g0,
  (forall f, In f factors -> dgood card nm f) -> mk_graph (dense_ops o) o factors ev special = Ok g0 ->
  lined g0 -> forall e0,
  agrees_opt ev e0 -> agrees special e0 -> fits card factors e0 -> tree_shaped g0 -> length (g_cl g0) <> 1 ->
  exists N, forall g tol max_iter g', history (dense_ops o) g0 g -> (0 <= tol)%R -> N < max_iter * length (g_paths g0) ->
    process_graph (dense_ops o) tol max_iter g = Ok g' ->
    length (g_dists g') <= N /\ forall k, k < length (g_paths g') -> vleb (gain_of (g_paths g') k) (Fin tol) = true.
Proof. exact dense_converges. Qed.
Print Assumptions c102_greedy_converges_partial.
Theorem c102_greedy_exact_partial : forall card nm o, oracle_ok o -> forall factors ev special g0,
  (forall f, In f factors -> dgood card nm f) -> mk_graph (dense_ops o) o factors ev special = Ok g0 ->
  lined g0 -> forall e0,
  agrees_opt ev e0 -> agrees special e0 -> fits card factors e0 -> tree_shaped g0 -> length (g_cl g0) <> 1 ->
  exists N, forall g max_iter g' v res, history (dense_ops o) g0 g -> N < max_iter * length (g_paths g0) ->
    process_graph (dense_ops o) 0 max_iter g = Ok g' -> ~ In v (dkeys special) -> get_marginal (dense_ops o) g' [v] = Ok res ->
    dvars res = [v] /\
    exists k, (0 < k)%R /\ forall rem e, agrees_opt ev e -> agrees special e -> fits card factors e -> NoDup rem ->
      (forall w, In w rem <-> (exists f, In f factors /\ In w (dvars f)) /\ ~ In w (observed ev) /\ ~ In w (dkeys special) /\ w <> v) ->
      (k * dpot res e = sum_over card rem (fun e' => Rprod (map (fun f => dpot f e') factors)) e)%R.
Proof. exact dense_greedy_exact. Qed.
Print Assumptions c102_greedy_exact_partial.
Theorem c102_early_exact_partial : forall card nm o, oracle_ok o -> forall factors ev special g0,
  (forall f, In f factors -> dgood card nm f) -> mk_graph (dense_ops o) o factors ev special = Ok g0 ->
  lined g0 -> forall e0 g tol max_iter g' v res,
  agrees_opt ev e0 -> agrees special e0 -> fits card factors e0 ->
  history (dense_ops o) g0 g -> length (g_cl g) <> 1 -> tree_shaped g0 -> (tol <= 0)%R ->
  process_graph (dense_ops o) tol max_iter g = Ok g' -> length (g_dists g') < max_iter * length (g_order g) ->
  ~ In v (dkeys special) -> get_marginal (dense_ops o) g' [v] = Ok res ->
  dvars res = [v] /\
  exists k, (0 < k)%R /\ forall rem e, agrees_opt ev e -> agrees special e -> fits card factors e -> NoDup rem ->
    (forall w, In w rem <-> (exists f, In f factors /\ In w (dvars f)) /\ ~ In w (observed ev) /\ ~ In w (dkeys special) /\ w <> v) ->
    (k * dpot res e = sum_over card rem (fun e' => Rprod (map (fun f => dpot f e') factors)) e)%R.
Proof. exact dense_early_exact. Qed.
Print Assumptions c102_early_exact_partial.
Theorem c102_several_greedy_partial : forall card nm o, oracle_ok o -> forall factors ev special g0,
  (forall f, In f factors -> dgood card nm f) -> mk_graph (dense_ops o) o factors ev special = Ok g0 ->
  lined g0 -> forall e0,
  agrees_opt ev e0 -> agrees special e0 -> fits card factors e0 -> tree_shaped g0 -> length (g_cl g0) <> 1 ->
  exists N, forall g max_iter g' vs res, history (dense_ops o) g0 g -> N < max_iter * length (g_paths g0) ->
    process_graph (dense_ops o) 0 max_iter g = Ok g' -> answers_in_order g' vs -> (forall v, In v vs -> ~ In v (dkeys special)) ->
    get_marginal (dense_ops o) g' vs = Ok res ->
  dvars res = vs /\
  exists k, (0 < k)%R /\ forall rem e, agrees_opt ev e -> agrees special e -> fits card factors e -> NoDup rem ->
    (forall w, In w rem <-> (exists f, In f factors /\ In w (dvars f)) /\ ~ In w (observed ev) /\ ~ In w (dkeys special) /\ ~ In w vs) ->
    (k * dpot res e = sum_over card rem (fun e' => Rprod (map (fun f => dpot f e') factors)) e)%R.
Proof. exact query_greedy. Qed.
Print Assumptions c102_several_greedy_partial.
Theorem c102_several_early_partial : forall card nm o, oracle_ok o -> forall factors ev special g0,
  (forall f, In f factors -> dgood card nm f) -> mk_graph (dense_ops o) o factors ev special = Ok g0 ->
  lined g0 -> forall e0 g tol max_iter g' vs res,
  agrees_opt ev e0 -> agrees special e0 -> fits card factors e0 ->
  history (dense_ops o) g0 g -> length (g_cl g) <> 1 -> tree_shaped g0 -> (tol <= 0)%R ->
  process_graph (dense_ops o) tol max_iter g = Ok g' -> length (g_dists g') < max_iter * length (g_order g) ->
  answers_in_order g' vs -> (forall v, In v vs -> ~ In v (dkeys special)) -> get_marginal (dense_ops o) g' vs = Ok res ->
  dvars res = vs /\
  exists k, (0 < k)%R /\ forall rem e, agrees_opt ev e -> agrees special e -> fits card factors e -> NoDup rem ->
    (forall w, In w rem <-> (exists f, In f factors /\ In w (dvars f)) /\ ~ In w (observed ev) /\ ~ In w (dkeys special) /\ ~ In w vs) ->
    (k * dpot res e = sum_over card rem (fun e' => Rprod (map (fun f => dpot f e') factors)) e)%R.
Proof. exact query_early. Qed.
Print Assumptions c102_several_early_partial.
Example c102_several_nonvacuous : exists g, mk_graph (dense_ops io) io tw_chain None [] = Ok g /\ lined g /\ tree_shaped g /\ length (g_cl g) = 3 /\
  forall tol max_iter, exists g' res, process_graph (dense_ops io) tol max_iter g = Ok g' /\ answers_in_order g' ["b"; "c"] /\
    get_marginal (dense_ops io) g' ["b"; "c"] = Ok res /\ get_marginal (dense_ops io) g' ["c"; "b"] = Err AssertionError.
Proof. exact tw_processed. Qed.

(** ** C103 *)
Theorem c103_joint_refuted : exists card nm factors ks, (forall f, In f factors -> dgood card nm f) /\
  narrow factors (all_evidence None (@nil (string * nat))) /\
  forall o, oracle_ok o -> exists g0 g, mk_graph (dense_ops o) o factors None [] = Ok g0 /\
    foldM (pass_path (dense_ops o)) ks g0 = Ok g /\
    (forall k p, nth_error (g_paths g) k = Some p -> p_prev p <> None) /\ get_joint (dense_ops o) g = Err ValueError.
Proof. exists dx_card, dx_nm, jt, [0; 1; 2; 3]. exact (conj jt_good (conj jt_narrow joint_raises)). Qed.
Print Assumptions c103_joint_refuted.
Theorem c103_joint_partial : forall card nm o, oracle_ok o -> forall factors ev special g0,
  (forall f, In f factors -> dgood card nm f) -> mk_graph (dense_ops o) o factors ev special = Ok g0 ->
  lined g0 -> forall g n, history (dense_ops o) g0 g ->
  (forall f v, In f factors -> In v (dvars f) -> card v = n) -> factors <> [] ->
  (forall k p, nth_error (g_paths g) k = Some p -> p_prev p <> None) ->
  exists r, get_joint (dense_ops o) g = Ok r /\
    (forall v, In v (dvars r) <-> (exists f, In f factors /\ In v (dvars f)) /\ ~ In v (observed ev)) /\
    (forall e, agrees_opt ev e -> agrees special e -> fits card factors e -> dpot r e = Rprod (map (fun f => dpot f e) factors)).
Proof. exact dense_joint. Qed.
Print Assumptions c103_joint_partial.
Example c103_nonvacuous : exists g0 g, (forall f, In f sq -> dgood rv_two (std_names rv_two) f) /\ length sq = 2 /\
  mk_graph (dense_ops io) io sq None [] = Ok g0 /\ lined g0 /\
  history (dense_ops io) g0 g /\ (forall k p, nth_error (g_paths g) k = Some p -> p_prev p <> None).
Proof. exact sq_sent. Qed.
