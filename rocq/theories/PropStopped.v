(** Properties C102 and C129, counterexample: edges whose variables are listed in another order. *)
From Coq Require Import String List Reals.
Import ListNotations.
From Verif Require Import StoppedEx DenseGraphEx GraphCalib.
Local Open Scope string_scope.
Local Open Scope nat_scope.
Local Open Scope list_scope.
Local Notation io := SparseExamples.id_oracle.

(** C129 without the condition on the order of the edges is false: two positive tables share two
    variables in opposite orders; process_graph with tolerance 0 stops early, the two clusters have
    different marginals of a shared variable, and get_marginal differs from one of them. *)
Theorem c129_dense_refuted : exists card nm factors, (forall f, In f factors -> dgood card nm f) /\
  exists g g' ci cj v res, mk_graph (dense_ops io) io factors None [] = Ok g /\ length (g_cl g) <> 1 /\
  process_graph (dense_ops io) 0 1 g = Ok g' /\ length (g_dists g') < 1 * length (g_order g) /\
  In ci (g_cl g') /\ In cj (g_cl g') /\ In v (dvars (cl_fac ci)) /\ In v (dvars (cl_fac cj)) /\ get_marginal (dense_ops io) g' [v] = Ok res /\
  exists ri rj, NoDup ri /\ NoDup rj /\
    (forall w, In w ri <-> In w (dvars (cl_fac ci)) /\ w <> v) /\ (forall w, In w rj <-> In w (dvars (cl_fac cj)) /\ w <> v) /\
    ~ (exists k, (0 < k)%R /\ forall e, fits card factors e -> (k * sum_over card ri (dpot (cl_fac ci)) e = sum_over card rj (dpot (cl_fac cj)) e)%R) /\
    ~ (exists k, (0 < k)%R /\ forall e, fits card factors e -> (k * dpot res e = sum_over card rj (dpot (cl_fac cj)) e)%R).
Proof. exact stopped_differ. Qed.
Print Assumptions c129_dense_refuted.
(** C102 for such edges: the graph is a tree, the run stops early with tolerance 0, and the marginal
    answered for one variable is not proportional to the sums of the product of the tables. *)
Theorem c102_crossed_refuted : exists card nm factors, (forall f, In f factors -> dgood card nm f) /\
  exists g g' v res, mk_graph (dense_ops io) io factors None [] = Ok g /\ tree_shaped g /\
  process_graph (dense_ops io) 0 1 g = Ok g' /\ length (g_dists g') < 1 * length (g_order g) /\ get_marginal (dense_ops io) g' [v] = Ok res /\
  exists rem, NoDup rem /\ (forall w, In w rem <-> (exists f, In f factors /\ In w (dvars f)) /\ w <> v) /\
    ~ (exists k, (0 < k)%R /\ forall e, fits card factors e -> (k * dpot res e = sum_over card rem (fun e' => Rprod (map (fun f => dpot f e') factors)) e)%R).
Proof. exact stopped_wrong. Qed.
Print Assumptions c102_crossed_refuted.
