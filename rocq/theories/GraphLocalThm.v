(** Local consistency stated for sparse tables. *)
From Verif Require Export GraphLocalEx2.
Local Open Scope nat_scope.

(** No path of [g] has anything to send: the message it would send next is the one it sent last. *)
Local Notation still card g := (forall k p e, nth_error (g_paths g) k = Some p -> (forall v, In v (svars (m_fac (p_next p))) -> e v < card v) ->
  spot (m_fac (p_next p)) e = match p_prev p with Some m => spot (m_fac m) e | None => 1%R end).

Section S.
Context (card : string -> nat) (o : oracle) (factors : list sparse) (ev : option (dict string nat)) (special : dict string nat) (g0 : cgraph sparse nat).
Hypothesis Ho : oracle_ok o.
Hypothesis G : forall f, In f factors -> sgood card f.
Hypothesis Hmk : mk_graph (sparse_ops o) o factors ev special = Ok g0.
Let L := sparse_lawful card o Ho.

Lemma local_edge g i j S ci cj : history (sparse_ops o) g0 g -> still card g -> edge_with g0 i j S ->
  nth_error (g_cl g) i = Some ci -> nth_error (g_cl g) j = Some cj -> forall keep ri rj e, incl keep S -> NoDup ri -> NoDup rj ->
  (forall v, In v ri <-> In v (svars (cl_fac ci)) /\ ~ In v keep /\ ~ In v (dkeys special)) ->
  (forall v, In v rj <-> In v (svars (cl_fac cj)) /\ ~ In v keep /\ ~ In v (dkeys special)) -> agrees special e ->
  sum_over card ri (spot (cl_fac ci)) e = sum_over card rj (spot (cl_fac cj)) e.
Proof.
  intros Hh Q HE Hi Hj keep ri rj e Hk N1 N2 R1 R2 He.
  destruct (edge_agrees (sparse_ops o) card (sgood card) spot L o factors ev special g0 Ho G Hmk g _ i j S ci cj Hh
    (nothing_settled (sparse_ops o) card spot g Q) HE Hi Hj) as (k & _ & K & A).
  rewrite <- (A keep ri rj e Hk (conj N1 R1) (conj N2 R2) He), (K (fun _ _ => eq_refl)). now rewrite Rmult_1_l.
Qed.
Lemma stop_edge e0 g tol max_iter g' i j S ci cj : agrees_opt ev e0 -> agrees special e0 -> (forall f, In f factors -> spot f e0 <> 0%R) ->
  history (sparse_ops o) g0 g -> length (g_cl g) <> 1 -> (tol <= 0)%R -> process_graph (sparse_ops o) tol max_iter g = Ok g' ->
  length (g_dists g') < max_iter * length (g_order g) -> edge_with g0 i j S ->
  nth_error (g_cl g') i = Some ci -> nth_error (g_cl g') j = Some cj ->
  exists k, (0 < k)%R /\ forall keep ri rj e, incl keep S -> NoDup ri -> NoDup rj ->
  (forall v, In v ri <-> In v (svars (cl_fac ci)) /\ ~ In v keep /\ ~ In v (dkeys special)) ->
  (forall v, In v rj <-> In v (svars (cl_fac cj)) /\ ~ In v keep /\ ~ In v (dkeys special)) -> agrees special e ->
  (k * sum_over card ri (spot (cl_fac ci)) e = sum_over card rj (spot (cl_fac cj)) e)%R.
Proof.
  intros P1 P2 P3 Hh H1 Ht Hp Hlt HE Hi Hj.
  destruct (stopped_settled (sparse_ops o) card (sgood card) spot L o factors ev special g0 Ho G Hmk e0 g tol max_iter g'
    (conj P1 (conj P2 P3)) Hh H1 Ht Hp Hlt) as (Hh' & c & ST).
  destruct (edge_agrees (sparse_ops o) card (sgood card) spot L o factors ev special g0 Ho G Hmk g' c i j S ci cj Hh' ST HE Hi Hj) as (k & K & _ & A).
  exists k. split; [exact K|]. intros keep ri rj e Hk N1 N2 R1 R2 He. exact (A keep ri rj e Hk (conj N1 R1) (conj N2 R2) He).
Qed.
Lemma one_out f v r : (forall w, In w r <-> In w (svars f) /\ w <> v /\ ~ In w (dkeys special)) ->
  forall w, In w r <-> In w (f_vars (sparse_ops o) f) /\ ~ In w [v] /\ ~ In w (dkeys special).
Proof. intros H w. rewrite H. cbn. intuition congruence. Qed.
Lemma local_holders g v ci cj : history (sparse_ops o) g0 g -> still card g -> In ci (g_cl g) -> In cj (g_cl g) ->
  In v (svars (cl_fac ci)) -> In v (svars (cl_fac cj)) -> ~ In v (dkeys special) -> forall ri rj e, NoDup ri -> NoDup rj ->
  (forall w, In w ri <-> In w (svars (cl_fac ci)) /\ w <> v /\ ~ In w (dkeys special)) ->
  (forall w, In w rj <-> In w (svars (cl_fac cj)) /\ w <> v /\ ~ In w (dkeys special)) -> agrees special e ->
  sum_over card ri (spot (cl_fac ci)) e = sum_over card rj (spot (cl_fac cj)) e.
Proof.
  intros Hh Q Hi Hj Vi Vj Hs ri rj e N1 N2 R1 R2 He. apply In_nth_error in Hi, Hj. destruct Hi as (i & Hi), Hj as (j & Hj).
  destruct (holders_agree (sparse_ops o) card (sgood card) spot L o factors ev special g0 Ho G Hmk g _ v i j ci cj Hh
    (nothing_settled (sparse_ops o) card spot g Q) Hi Hj Vi Vj Hs) as (k & _ & K & A).
  rewrite <- (A ri rj e (conj N1 (one_out _ _ _ R1)) (conj N2 (one_out _ _ _ R2)) He), (K (fun _ _ => eq_refl)). now rewrite Rmult_1_l.
Qed.
Lemma local_any g v res ci : history (sparse_ops o) g0 g -> still card g -> In ci (g_cl g) -> In v (svars (cl_fac ci)) ->
  ~ In v (dkeys special) -> get_marginal (sparse_ops o) g [v] = Ok res -> forall ri e, NoDup ri ->
  (forall w, In w ri <-> In w (svars (cl_fac ci)) /\ w <> v /\ ~ In w (dkeys special)) -> agrees special e ->
  spot res e = sum_over card ri (spot (cl_fac ci)) e.
Proof.
  intros Hh Q Hi Vi Hs Hm ri e N1 R1 He.
  destruct (any_cluster (sparse_ops o) card (sgood card) spot L o factors ev special g0 Ho G Hmk g _ v res ci Hh
    (nothing_settled (sparse_ops o) card spot g Q) Hi Vi Hs Hm) as (k & _ & K & A).
  rewrite <- (A ri e (conj N1 (one_out _ _ _ R1)) He), (K (fun _ _ => eq_refl)). now rewrite Rmult_1_l.
Qed.
Lemma stop_holders e0 g tol max_iter g' v ci cj : agrees_opt ev e0 -> agrees special e0 -> (forall f, In f factors -> spot f e0 <> 0%R) ->
  history (sparse_ops o) g0 g -> length (g_cl g) <> 1 -> (tol <= 0)%R -> process_graph (sparse_ops o) tol max_iter g = Ok g' ->
  length (g_dists g') < max_iter * length (g_order g) -> In ci (g_cl g') -> In cj (g_cl g') ->
  In v (svars (cl_fac ci)) -> In v (svars (cl_fac cj)) -> ~ In v (dkeys special) -> exists k, (0 < k)%R /\ forall ri rj e, NoDup ri -> NoDup rj ->
  (forall w, In w ri <-> In w (svars (cl_fac ci)) /\ w <> v /\ ~ In w (dkeys special)) ->
  (forall w, In w rj <-> In w (svars (cl_fac cj)) /\ w <> v /\ ~ In w (dkeys special)) -> agrees special e ->
  (k * sum_over card ri (spot (cl_fac ci)) e = sum_over card rj (spot (cl_fac cj)) e)%R.
Proof.
  intros P1 P2 P3 Hh H1 Ht Hp Hlt Hi Hj Vi Vj Hs. apply In_nth_error in Hi, Hj. destruct Hi as (i & Hi), Hj as (j & Hj).
  destruct (stopped_settled (sparse_ops o) card (sgood card) spot L o factors ev special g0 Ho G Hmk e0 g tol max_iter g'
    (conj P1 (conj P2 P3)) Hh H1 Ht Hp Hlt) as (Hh' & c & ST).
  destruct (holders_agree (sparse_ops o) card (sgood card) spot L o factors ev special g0 Ho G Hmk g' c v i j ci cj Hh' ST Hi Hj Vi Vj Hs) as (k & K & _ & A).
  exists k. split; [exact K|]. intros ri rj e N1 N2 R1 R2 He. exact (A ri rj e (conj N1 (one_out _ _ _ R1)) (conj N2 (one_out _ _ _ R2)) He).
Qed.
Lemma stop_any e0 g tol max_iter g' v res ci : agrees_opt ev e0 -> agrees special e0 -> (forall f, In f factors -> spot f e0 <> 0%R) ->
  history (sparse_ops o) g0 g -> length (g_cl g) <> 1 -> (tol <= 0)%R -> process_graph (sparse_ops o) tol max_iter g = Ok g' ->
  length (g_dists g') < max_iter * length (g_order g) -> In ci (g_cl g') -> In v (svars (cl_fac ci)) ->
  ~ In v (dkeys special) -> get_marginal (sparse_ops o) g' [v] = Ok res -> exists k, (0 < k)%R /\ forall ri e, NoDup ri ->
  (forall w, In w ri <-> In w (svars (cl_fac ci)) /\ w <> v /\ ~ In w (dkeys special)) -> agrees special e ->
  (k * spot res e = sum_over card ri (spot (cl_fac ci)) e)%R.
Proof.
  intros P1 P2 P3 Hh H1 Ht Hp Hlt Hi Vi Hs Hm.
  destruct (stopped_settled (sparse_ops o) card (sgood card) spot L o factors ev special g0 Ho G Hmk e0 g tol max_iter g'
    (conj P1 (conj P2 P3)) Hh H1 Ht Hp Hlt) as (Hh' & c & ST).
  destruct (any_cluster (sparse_ops o) card (sgood card) spot L o factors ev special g0 Ho G Hmk g' c v res ci Hh' ST Hi Vi Hs Hm) as (k & K & _ & A).
  exists k. split; [exact K|]. intros ri e N1 R1 He. exact (A ri e (conj N1 (one_out _ _ _ R1)) He).
Qed.
End S.
