(** Property theorems for cluster graph construction (C24 - C29).  Only statements: the proofs are
    in Graph*.v.  Theorems over [fops] hold for every factor class; those about potentials are
    stated for the sparse tables. *)
From Verif Require Import GraphExamples3.
Local Open Scope string_scope.
Local Open Scope nat_scope.

(** ** C24 *)
Theorem c24_cluster_ids_unique : forall F V (ops : fops F V) o factors ev special g,
  oracle_ok o -> mk_graph ops o factors ev special = Ok g -> NoDup (map cl_id (g_cl g)).
Proof. exact @graph_ids. Qed.
Print Assumptions c24_cluster_ids_unique.
(** Any two clusters at different positions have different names, whatever their scopes. *)
Theorem c24_cluster_id_injective : forall i j vs ws, cluster_id i vs = cluster_id j ws -> i = j.
Proof. exact cluster_id_inj. Qed.
Print Assumptions c24_cluster_id_injective.
(** Construction raises only what a factor operation raises. *)
Theorem c24_construction_errors : forall F V (ops : fops F V) o factors ev special e,
  mk_graph ops o factors ev special = Err e ->
  (exists a b, f_mul ops a b = Err e) \/ (exists a vs xs, f_reduce ops a vs xs = Err e) \/
  (exists a vs, f_marg ops a vs = Err e) \/ (exists a, f_dist ops a = Err e) \/
  (exists a b, f_cancel ops a b = Err e) \/ (exists a b, f_kl ops a b = Err e).
Proof. exact @mk_graph_err. Qed.
Print Assumptions c24_construction_errors.
Example c24_nonvacuous : exists g, mk_graph (sparse_ops rev_oracle) rev_oracle (gx_a :: gx_chain) gx_ev gx_special = Ok g.
Proof. exact gx_built. Qed.
Example c24_nonvacuous_errors : exists e, mk_graph (sparse_ops id_oracle) id_oracle [gx_ab] (Some [("a", 5)]) [] = Err e.
Proof. eexists. cbv. reflexivity. Qed.

(** ** C25 *)
Theorem c25_absorb_partition : forall F V (ops : fops F V) factors final,
  absorb_subsets ops factors = Ok final ->
  exists groups, Permutation (concat groups) (seq 0 (length factors)) /\
    Forall2 (fun g f => match g with
                        | [] => False
                        | i :: js => i < length factors /\
                            (let* fi := py_nth factors i in
                             foldM (fun acc j => let* fj := py_nth factors j in f_mul ops acc fj) js fi) = Ok f
                        end) groups final.
Proof. exact @absorb_groups. Qed.
Print Assumptions c25_absorb_partition.
Theorem c25_absorb_product : forall card o factors, oracle_ok o -> (forall f, In f factors -> sgood card f) ->
  exists final, absorb_subsets (sparse_ops o) factors = Ok final /\ (forall f, In f final -> sgood card f) /\
    (forall e, Rprod (map (fun f => spot f e) final) = Rprod (map (fun f => spot f e) factors)) /\
    (forall v, (exists f, In f final /\ In v (svars f)) <-> (exists f, In f factors /\ In v (svars f))).
Proof.
  intros card o factors Ho G.
  destruct (absorb_succeeds (sparse_ops o) card (sgood card) spot (sparse_lawful card o Ho) factors G) as (final & H).
  exists final. split; [exact H|]. exact (absorb_pt (sparse_ops o) card (sgood card) spot (sparse_lawful card o Ho) factors final G H).
Qed.
Print Assumptions c25_absorb_product.
Example c25_nonvacuous : (forall f, In f (gx_a :: gx_abc :: gx_chain) -> sgood two f) /\
  exists final, absorb_subsets (sparse_ops rev_oracle) (gx_a :: gx_abc :: gx_chain) = Ok final /\ length final = 2.
Proof.
  split; [exact gx_chain_good|]. eexists. split; [cbv -[Rplus IZR Rdiv]; reflexivity|reflexivity].
Qed.

(** ** C26: false when a factor absorbs another one before the factor that contains both comes up. *)
Theorem c26_nested_clusters_refuted : exists fs final a b, (forall f, In f fs -> sgood two f) /\
  (forall o, oracle_ok o -> exists final', absorb_subsets (sparse_ops o) fs = Ok final') /\
  absorb_subsets (sparse_ops id_oracle) fs = Ok final /\ In a final /\ In b final /\
  incl (svars a) (svars b) /\ ~ incl (svars b) (svars a).
Proof. exact nested_refuted. Qed.
Print Assumptions c26_nested_clusters_refuted.
(** Missing for the full claim: lists with a chain c, i, j of strictly growing scopes whose middle
    one comes before the largest one (there the claim is false). *)
Theorem c26_nested_clusters_partial : forall o factors final, oracle_ok o ->
  absorb_subsets (sparse_ops o) factors = Ok final ->
  (forall c i j fc fi fj, i < j -> nth_error factors c = Some fc -> nth_error factors i = Some fi ->
     nth_error factors j = Some fj -> ~ (strict_in (svars fc) (svars fi) /\ strict_in (svars fi) (svars fj))) ->
  forall a b, In a final -> In b final -> ~ strict_in (svars a) (svars b).
Proof. exact sparse_not_nested. Qed.
Print Assumptions c26_nested_clusters_partial.
Example c26_nonvacuous : exists final, absorb_subsets (sparse_ops id_oracle) [gx_abc; gx_ab; gx_a; gx_cd] = Ok final /\ length final = 2.
Proof. eexists. split; [cbv -[Rplus IZR Rdiv]; reflexivity|reflexivity]. Qed.
Example c26_nonvacuous_condition : forall c i j fc fi fj, i < j -> nth_error [gx_abc; gx_ab; gx_a; gx_cd] c = Some fc ->
  nth_error [gx_abc; gx_ab; gx_a; gx_cd] i = Some fi -> nth_error [gx_abc; gx_ab; gx_a; gx_cd] j = Some fj ->
  ~ (strict_in (svars fc) (svars fi) /\ strict_in (svars fi) (svars fj)).
Proof. exact gx_ordered. Qed.

(** ** C27 *)
Theorem c27_running_intersection : forall F V (ops : fops F V) o factors ev special g v,
  oracle_ok o -> mk_graph ops o factors ev special = Ok g -> ~ In v (all_evidence ev special) ->
  (forall i j, edge_var g v i j -> in_scope ops g v i /\ in_scope ops g v j) /\
  (forall i j, in_scope ops g v i -> in_scope ops g v j -> clos_refl_trans nat (edge_var g v) i j) /\
  (forall l, ~ cycle (edge_var g v) l).
Proof. exact @running_intersection. Qed.
Print Assumptions c27_running_intersection.
Example c27_nonvacuous : exists g, mk_graph (sparse_ops rev_oracle) rev_oracle (gx_a :: gx_chain) gx_ev gx_special = Ok g /\
  ~ In "b,c" (all_evidence gx_ev gx_special) /\ in_scope (sparse_ops rev_oracle) g "b,c" 0 /\ in_scope (sparse_ops rev_oracle) g "b,c" 1.
Proof. exact gx_shared. Qed.

(** ** C28 *)
Theorem c28_sepsets_sane : forall F V (ops : fops F V) o factors ev special g i j s,
  oracle_ok o -> mk_graph ops o factors ev special = Ok g -> edge_with g i j s ->
  i <> j /\ s <> [] /\ NoDup s /\ edge_with g j i s /\
  (forall v, In v s -> in_scope ops g v i /\ in_scope ops g v j /\ ~ In v (all_evidence ev special)).
Proof. exact @sepsets_sane. Qed.
Print Assumptions c28_sepsets_sane.
(** With factor operations that never fail, construction never fails: no assertion fires. *)
Theorem c28_no_assertion_fires : forall F V (ops : fops F V) o factors ev special, oracle_ok o ->
  (forall a b, exists r, f_mul ops a b = Ok r) -> (forall a vs xs, exists r, f_reduce ops a vs xs = Ok r) ->
  (forall a vs, exists r, f_marg ops a vs = Ok r) -> (forall a, exists r, f_dist ops a = Ok r) ->
  (forall a b, exists r, f_cancel ops a b = Ok r) -> (forall a b, exists r, f_kl ops a b = Ok r) ->
  exists g, mk_graph ops o factors ev special = Ok g.
Proof. exact @graph_total'. Qed.
Print Assumptions c28_no_assertion_fires.
(** And with positive sparse tables construction never fails either. *)
Theorem c28_sparse_construction : forall card o factors ev special e0, oracle_ok o ->
  (forall f, In f factors -> sgood card f) -> agrees_opt ev e0 -> agrees special e0 ->
  (forall f, In f factors -> spot f e0 <> 0%R) -> exists g, mk_graph (sparse_ops o) o factors ev special = Ok g.
Proof.
  intros card o factors ev special e0 Ho G P1 P2 P3.
  exact (mk_graph_some (sparse_ops o) card (sgood card) spot (sparse_lawful card o Ho) o factors ev special e0 Ho G (conj P1 (conj P2 P3))).
Qed.
Print Assumptions c28_sparse_construction.
Example c28_nonvacuous : exists g j s, mk_graph (sparse_ops rev_oracle) rev_oracle (gx_a :: gx_chain) gx_ev gx_special = Ok g /\
  edge_with g 0 j s.
Proof. exact gx_edge. Qed.
Example c28_nonvacuous_sparse : (forall f, In f (gx_a :: gx_chain) -> sgood two f) /\
  agrees_opt gx_ev gx_env /\ agrees gx_special gx_env /\ (forall f, In f (gx_a :: gx_chain) -> spot f gx_env <> 0%R).
Proof. split; [intros f H; apply gx_chain_good; cbn in *; tauto|exact gx_positive]. Qed.

(** ** C29 *)
Theorem c29_evidence_restricts : forall card o factors ev special g, oracle_ok o ->
  (forall f, In f factors -> sgood card f) -> mk_graph (sparse_ops o) o factors ev special = Ok g ->
  (forall e, agrees_opt ev e ->
     Rprod (map (fun f => spot f e) (map cl_fac (g_cl g))) = Rprod (map (fun f => spot f e) factors)) /\
  (forall v, (exists c, In c (g_cl g) /\ In v (svars (cl_fac c))) <->
     (exists f, In f factors /\ In v (svars f)) /\ ~ In v (observed ev)).
Proof.
  intros card o factors ev special g Ho G H.
  exact (evidence_restricts (sparse_ops o) card (sgood card) spot (sparse_lawful card o Ho) o factors ev special g Ho G H).
Qed.
Print Assumptions c29_evidence_restricts.
Example c29_nonvacuous : (forall f, In f (gx_a :: gx_chain) -> sgood two f) /\ agrees_opt gx_ev gx_env /\
  exists g, mk_graph (sparse_ops rev_oracle) rev_oracle (gx_a :: gx_chain) gx_ev gx_special = Ok g.
Proof. split; [intros f H; apply gx_chain_good; cbn in *; tauto|]. split; [exact gx_env_ev|exact gx_built]. Qed.
