(** Properties C148 to C150: the record a cluster graph keeps of its message passing. *)
From Verif Require Import TraceEx.
Local Open Scope string_scope.
Local Open Scope list_scope.
Local Open Scope nat_scope.

(** C148: plot_next_messages_info_gain draws one curve for every message path, in the order of the
    queue.  A curve starts with the gain the path had when the graph was built and ends with the gain
    it has now.  The legend names sender and receiver, and no two names are equal. *)
Theorem c148_curves {F V} (ops : fops F V) o (factors : list F) ev special g0 t : oracle_ok o -> mk_graph ops o factors ev special = Ok g0 -> t_history ops g0 t ->
  exists curves legend, plot_info_gain t false = Ok (curves, None) /\ plot_info_gain t true = Ok (curves, Some legend) /\
    length curves = length (g_paths g0) /\ length legend = length (g_paths g0) /\ NoDup legend /\
    forall i c l, nth_error curves i = Some c -> nth_error legend i = Some l ->
      exists k p p0 cs cr, nth_error (g_order (t_g t)) i = Some k /\ nth_error (g_paths (t_g t)) k = Some p /\ nth_error (g_paths g0) k = Some p0 /\
        nth_error (g_cl (t_g t)) (p_snd p) = Some cs /\ nth_error (g_cl (t_g t)) (p_rcv p) = Some cr /\
        l = String.append (cl_id cs) (String.append "->" (cl_id cr)) /\
        (exists tail, c = p_gain p0 :: tail) /\ (exists front, c = front ++ [p_gain p]).
Proof. intros Ho Hmk. exact (curves_shown ops o Ho factors ev special g0 Hmk t). Qed.
Print Assumptions c148_curves.
(** How many points a curve has after the messages along [ks] have been passed: the first one, one for
    each message along the path and one for each message into its sender. *)
Theorem c148_points {F V} (ops : fops F V) o (factors : list F) ev special g0 ks t q p h : oracle_ok o -> mk_graph ops o factors ev special = Ok g0 ->
  foldM (t_pass ops) ks (t_new g0) = Ok t -> nth_error (g_paths g0) q = Some p -> nth_error (t_hist t) q = Some h ->
  length h = 1 + count_occ Nat.eq_dec ks q +
    length (filter (fun k => match nth_error (g_paths g0) k with Some r => Nat.eqb (p_rcv r) (p_snd p) | None => false end) ks).
Proof. intros Ho Hmk. exact (curve_length ops o Ho factors ev special g0 Hmk ks t q p h). Qed.
Print Assumptions c148_points.
(** The axis is labelled "iteration", but points drawn above each other do not belong to the same
    iteration: after one message the curves have different lengths. *)
Theorem c148_same_iterations_refuted : exists (g : cgraph sparse nat) k t,
  mk_graph (sparse_ops id_oracle) id_oracle gx_chain0 None gx_special = Ok g /\ length (g_paths g) = 4 /\ t_pass (sparse_ops id_oracle) (t_new g) k = Ok t /\
  exists q h h', nth_error (t_hist t) k = Some h /\ nth_error (t_hist t) q = Some h' /\ length h = 2 /\ length h' = 1.
Proof. exact gx_uneven. Qed.
Print Assumptions c148_same_iterations_refuted.
Example c148_witness : exists (g0 : cgraph sparse nat) t, mk_graph (sparse_ops id_oracle) id_oracle gx_chain0 None gx_special = Ok g0 /\
  t_history (sparse_ops id_oracle) g0 t /\ length (g_cl g0) = 3.
Proof. destruct (gx_debug 0 3) as (g & t & H1 & H2 & _ & H3). exists g, t. auto. Qed.

(** C149: _last_passed_message_factors gives a list exactly if every path has sent a message, and its
    entries are the factors of the last messages of the paths in the order of the queue; otherwise it
    raises AttributeError. *)
Theorem c149_last_partial {F V} (ops : fops F V) o (factors : list F) ev special g0 g : oracle_ok o -> mk_graph ops o factors ev special = Ok g0 -> history ops g0 g ->
  ((exists fs, last_passed g = Ok fs) <-> forall k p, nth_error (g_paths g) k = Some p -> p_prev p <> None) /\
  ((exists k p, nth_error (g_paths g) k = Some p /\ p_prev p = None) -> last_passed g = Err AttributeError) /\
  forall fs, last_passed g = Ok fs -> Forall2 (fun k f => exists p m, nth_error (g_paths g) k = Some p /\ p_prev p = Some m /\ m_fac m = f) (g_order g) fs.
Proof. intros Ho Hmk. exact (last_passed_iff ops o Ho factors ev special g0 Hmk g). Qed.
Print Assumptions c149_last_partial.
(** The message a path remembers is the one that was waiting when the path was last used, however many
    messages have been passed along other paths since. *)
Theorem c149_which {F V} (ops : fops F V) o (factors : list F) ev special g0 ks g k p : oracle_ok o -> mk_graph ops o factors ev special = Ok g0 ->
  foldM (pass_path ops) ks g0 = Ok g -> nth_error (g_paths g) k = Some p ->
  (~ In k ks /\ p_prev p = None) \/
  exists ks1 ks2 g1 p1, ks = ks1 ++ k :: ks2 /\ ~ In k ks2 /\ foldM (pass_path ops) ks1 g0 = Ok g1 /\ nth_error (g_paths g1) k = Some p1 /\ p_prev p = Some (p_next p1).
Proof. intros Ho Hmk. exact (last_along ops o Ho factors ev special g0 Hmk ks g k p). Qed.
Print Assumptions c149_which.
Theorem c149_before_sending_refuted : exists g : cgraph sparse nat,
  mk_graph (sparse_ops id_oracle) id_oracle gx_chain0 None gx_special = Ok g /\ length (g_paths g) = 4 /\ last_passed g = Err AttributeError.
Proof. exact gx_unsent. Qed.
Print Assumptions c149_before_sending_refuted.
Example c149_witness : exists (g0 g : cgraph sparse nat) fs, mk_graph (sparse_ops id_oracle) id_oracle gx_chain0 None gx_special = Ok g0 /\
  history (sparse_ops id_oracle) g0 g /\ last_passed g = Ok fs /\ length fs = 4.
Proof. exact gx_sent_all. Qed.

(** C150: the record does not change the run: with it and without it process_graph ends with the same
    graph or the same exception. *)
Theorem c150_same_run {F V} (ops : fops F V) (g0 : cgraph F V) debug tol n t : t_history ops g0 t ->
  match t_process ops debug tol n t with
  | Ok t' => process_graph ops tol n (t_g t) = Ok (t_g t')
  | Err e => process_graph ops tol n (t_g t) = Err e
  end.
Proof. exact (same_run ops g0 debug tol n t). Qed.
Print Assumptions c150_same_run.
(** Every run without the record can be had with it. *)
Theorem c150_every_run {F V} (ops : fops F V) (g0 g : cgraph F V) : history ops g0 g -> exists t, t_history ops g0 t /\ t_g t = g.
Proof. exact (history_recorded ops g0 g). Qed.
Print Assumptions c150_every_run.
(** In debug mode passed_messages grows by the messages that are passed, in this order and each as it
    was when it was passed; without debug mode nothing is recorded.  num_messages_passed counts them. *)
Theorem c150_debug {F V} (ops : fops F V) (g0 : cgraph F V) debug tol n t t' :
  t_history ops g0 t -> (length (g_cl (t_g t)) <> 1 \/ g_spec (t_g t) = []) -> t_process ops debug tol n t = Ok t' ->
  exists ks g1 ms, foldM (pass_path ops) ks (t_g t) = Ok g1 /\ g_cl (t_g t') = g_cl g1 /\ g_paths (t_g t') = g_paths g1 /\
    length ms = length ks /\
    (forall i m, nth_error ms i = Some m <-> exists k h p, nth_error ks i = Some k /\ foldM (pass_path ops) (firstn i ks) (t_g t) = Ok h /\ nth_error (g_paths h) k = Some p /\ m = p_next p) /\
    t_msgs t' = t_msgs t ++ (if debug then ms else []) /\ g_passed (t_g t') = g_passed (t_g t) + length ks.
Proof. exact (debug_record ops g0 debug tol n t t'). Qed.
Print Assumptions c150_debug.
Example c150_witness : exists (g : cgraph sparse nat) t, mk_graph (sparse_ops id_oracle) id_oracle gx_chain0 None gx_special = Ok g /\
  t_process (sparse_ops id_oracle) true (1/10) 3 (t_new g) = Ok t /\ 0 < length (t_msgs t).
Proof. exact (gx_debug_some (1/10) 2). Qed.
