(** Properties C122-C126: factorised factors whose factors are dense tables.
    [tab card nm f]: [f] is a well formed table, possibly with zero entries, whose variables have the
    cardinalities [card] and the assignment names [nm]; [tprod fs e] is the product of the
    potentials of [fs] at the assignment [e]; [trange fs e]: [e] lies inside every table. *)
From Verif Require Import FactTabEx DenseGraphEx.
Local Open Scope string_scope.
Local Open Scope nat_scope.
Local Open Scope list_scope.

(** C122: the joint table is the product of the factors, and [multiply] multiplies it. *)
Theorem c122_joint card nm o fs : oracle_ok o -> fs <> [] -> (forall g, In g fs -> tab card nm g) ->
  exists a j, mk_ft o fs = Ok a /\ ft_joint a = Ok j /\ NoDup (ft_vars a) /\ (forall v, In v (ft_vars a) <-> tscope fs v) /\
    (forall v, In v (dvars j) <-> tscope fs v) /\ (forall e, d_in_range j e <-> trange fs e) /\ (forall e, trange fs e -> dpot j e = tprod fs e).
Proof. exact (mk_ft_joint card nm o fs). Qed.
Print Assumptions c122_joint.
Theorem c122_multiply card nm o a f : ft_factors a <> [] -> (forall g, In g (ft_factors a) -> tab card nm g) -> tab card nm f ->
  exists r j jr, ft_multiply o a f = Ok r /\ ft_joint a = Ok j /\ ft_joint r = Ok jr /\
    (forall v, In v (dvars jr) <-> In v (dvars j) \/ In v (dvars f)) /\
    (forall e, d_in_range jr e <-> d_in_range j e /\ d_in_range f e) /\
    (forall e, d_in_range jr e -> dpot jr e = (dpot j e * dpot f e)%R).
Proof. exact (ft_multiply_joint card nm o a f). Qed.
Print Assumptions c122_multiply.
(** The variable names kept by the product are the old ones. *)
Theorem c122_scope_refuted o : oracle_ok o -> exists a f r, (forall g, In g (ft_factors a) -> tab two nm2 g) /\ tab two nm2 f /\
  ft_multiply o a f = Ok r /\ tscope (ft_factors r) "z" /\ ~ In "z" (ft_vars r).
Proof. exact (multiply_scope_refuted o). Qed.
Print Assumptions c122_scope_refuted.
Example c122_nonvacuous : exists a, mk_ft id_oracle [xy0; cst ["y"; "z"] 1] = Ok a /\ (forall f, In f (ft_factors a) -> tab two nm2 f) /\ ft_factors a <> [] /\ 1 < length (ft_factors a).
Proof. exact ex_made. Qed.

(** C123: division.  A factor close to the divisor is dropped as if it were equal to it, and a divisor
    whose scope no single factor covers is refused. *)
Theorem c123_close_refuted o : exists a f r, (forall g, In g (ft_factors a) -> tab two nm2 g) /\ tab two nm2 f /\
  (forall e, dpot f e <> 0%R) /\ ft_divide o a f = Ok r /\ exists e, trange (ft_factors a) e /\ tprod (ft_factors r) e <> (tprod (ft_factors a) e / dpot f e)%R.
Proof. exact (divide_close_refuted o). Qed.
Print Assumptions c123_close_refuted.
Theorem c123_split_refuted o : exists a f j q, (forall g, In g (ft_factors a) -> tab two nm2 g) /\ tab two nm2 f /\ (forall e, dpot f e <> 0%R) /\
  ft_joint a = Ok j /\ d_divide j f = Ok q /\ ft_divide o a f = Err PyException.
Proof. exact (divide_split_refuted o). Qed.
Print Assumptions c123_split_refuted.
(** What holds: the quotient, when no factor is close to the divisor and one covers its scope. *)
Theorem c123_quotient_partial card nm o a f : (forall g, In g (ft_factors a) -> tab card nm g) -> tab card nm f -> (forall e, d_in_range f e -> dpot f e <> 0%R) ->
  (length (ft_factors a) <= 1 \/ forall g, In g (ft_factors a) -> ~ tclose g f) ->
  (exists g, In g (ft_factors a) /\ incl (dvars f) (dvars g)) ->
  exists r j jr, ft_divide o a f = Ok r /\ ft_joint a = Ok j /\ ft_joint r = Ok jr /\
    (forall v, In v (dvars jr) <-> In v (dvars j)) /\ (forall e, d_in_range jr e <-> d_in_range j e) /\
    (forall e, d_in_range j e -> dpot jr e = (dpot j e / dpot f e)%R).
Proof. exact (ft_divide_joint card nm o a f). Qed.
Print Assumptions c123_quotient_partial.
Example c123_quotient_nonvacuous : (forall f, In f (ft_factors ex_ft) -> tab two nm2 f) /\ tab two nm2 (cst ["x"] 3) /\
  (forall e, d_in_range (cst ["x"] 3) e -> dpot (cst ["x"] 3) e <> 0%R) /\ (forall g, In g (ft_factors ex_ft) -> ~ tclose g (cst ["x"] 3)) /\
  exists g, In g (ft_factors ex_ft) /\ incl (dvars (cst ["x"] 3)) (dvars g).
Proof. exact div_hyps. Qed.
(** And how far the result is from the quotient when the first close factor [g] is dropped. *)
Theorem c123_near_partial card nm o a f l1 g l2 : (forall g, In g (ft_factors a) -> tab card nm g) -> tab card nm f ->
  ft_factors a = l1 ++ g :: l2 -> 1 < length (ft_factors a) -> (forall h, In h l1 -> ~ tclose h f) -> tclose g f ->
  exists r j jr, ft_divide o a f = Ok r /\ ft_joint a = Ok j /\ ft_joint r = Ok jr /\ (forall v, In v (dvars jr) <-> tscope (l1 ++ l2) v) /\
    forall e, d_in_range j e -> (dpot f e = 0 /\ dpot j e = 0)%R \/
      (0 < dpot f e /\ exists d, Rabs d <= (1 + Rabs (ln (dpot f e))) / 10000 /\ dpot j e = dpot jr e * dpot f e * exp d)%R.
Proof. exact (ft_divide_near card nm o a f l1 g l2). Qed.
Print Assumptions c123_near_partial.
Example c123_near_nonvacuous : (forall f, In f (ft_factors (pair_ft (cst ["x"] 0) (cst ["y"] 1))) -> tab two nm2 f) /\ tab two nm2 (cst ["x"] tiny) /\
  ft_factors (pair_ft (cst ["x"] 0) (cst ["y"] 1)) = [] ++ cst ["x"] 0 :: [cst ["y"] 1] /\ 1 < length (ft_factors (pair_ft (cst ["x"] 0) (cst ["y"] 1))) /\
  (forall h, In h [] -> ~ tclose h (cst ["x"] tiny)) /\ tclose (cst ["x"] 0) (cst ["x"] tiny).
Proof. exact removal_hyps. Qed.
Theorem c123_uncovered_error card nm o a f : (forall g, In g (ft_factors a) -> tab card nm g) -> tab card nm f ->
  (forall g, In g (ft_factors a) -> ~ incl (dvars f) (dvars g)) -> ft_divide o a f = Err PyException.
Proof. exact (ft_divide_disjoint card nm o a f). Qed.
Print Assumptions c123_uncovered_error.
Example c123_uncovered_nonvacuous : (forall f, In f (ft_factors ex_ft) -> tab two nm2 f) /\ tab two nm2 (cst ["x"; "z"] 1) /\
  forall g, In g (ft_factors ex_ft) -> ~ incl (dvars (cst ["x"; "z"] 1)) (dvars g).
Proof. exact disjoint_hyps. Qed.

(** C124: marginals, evidence, the vacuity flag and normalising use methods tables do not have. *)
Theorem c124_marginal_refuted o : oracle_ok o -> exists a j m, (forall g, In g (ft_factors a) -> tab two nm2 g) /\ ft_joint a = Ok j /\
  d_marginalize o j ["x"] true = Ok m /\ forall r, ft_marginalize o a ["x"] true <> Ok r.
Proof. exact (marginal_refuted o). Qed.
Print Assumptions c124_marginal_refuted.
Theorem c124_reduce_refuted : exists a j m, (forall g, In g (ft_factors a) -> tab two nm2 g) /\ ft_joint a = Ok j /\
  d_reduce j ["x"] [1%Z] = Ok m /\ ft_reduce a ["x"] [1%Z] = Err AttributeError.
Proof. exact reduce_refuted. Qed.
Print Assumptions c124_reduce_refuted.
Theorem c124_marginal_never o a vrs keep r : ft_marginalize o a vrs keep <> Ok r.
Proof. exact (ft_marginalize_fails o a vrs keep r). Qed.
Print Assumptions c124_marginal_never.
Theorem c124_reduce_error card nm a vrs values : ft_factors a <> [] -> (forall f, In f (ft_factors a) -> tab card nm f) -> NoDup vrs -> length values = length vrs ->
  (forall v z, In (v, z) (combine vrs values) -> (0 <= z < Z.of_nat (card v))%Z) -> ft_reduce a vrs values = Err AttributeError.
Proof. exact (ft_reduce_fails card nm a vrs values). Qed.
Print Assumptions c124_reduce_error.
Example c124_reduce_nonvacuous : ft_factors ex_ft <> [] /\ (forall f, In f (ft_factors ex_ft) -> tab two nm2 f) /\ NoDup ["y"] /\ length [1%Z] = length ["y"] /\
  forall v z, In (v, z) (combine ["y"] [1%Z]) -> (0 <= z < Z.of_nat (two v))%Z.
Proof. exact reduce_hyps. Qed.
Theorem c124_vacuous_error a : ft_factors a <> [] -> ft_is_vacuous a = Err AttributeError.
Proof. exact (ft_vacuous_fails a). Qed.
Print Assumptions c124_vacuous_error.
Theorem c124_normalize_error card nm o a : (forall f, In f (ft_factors a) -> tab card nm f) -> 2 <= length (ft_factors a) -> ft_normalize o a = Err AttributeError.
Proof. exact (ft_normalize_fails card nm o a). Qed.
Print Assumptions c124_normalize_error.
(** What works: normalising a single factor. *)
Theorem c124_normalize_partial card nm o a f : ft_factors a = [f] -> tab card nm f -> (0 < d_weight_of f)%R ->
  exists r g, ft_normalize o a = Ok r /\ ft_factors r = [g] /\ dvars g = dvars f /\
    (forall e, d_in_range f e -> dpot g e = (dpot f e / d_weight_of f)%R) /\ d_weight_of g = 1%R.
Proof. exact (ft_normalize_one card nm o a f). Qed.
Print Assumptions c124_normalize_partial.
Example c124_normalize_nonvacuous : tab two nm2 (cst ["z"; "x"; "y"] 1) /\ (0 < d_weight_of (cst ["z"; "x"; "y"] 1))%R.
Proof. exact (conj (proj1 (proj2 (proj2 kl_hyps))) (proj1 (proj2 (proj2 (proj2 (proj2 kl_hyps)))))). Qed.

(** C125: equality. *)
Theorem c125_reflexive_refuted : exists a, (forall f, In f (ft_factors a) -> tab two nm2 f) /\ ft_equals a a = Ok false.
Proof. exact equals_refl_refuted. Qed.
Print Assumptions c125_reflexive_refuted.
Theorem c125_different_refuted : exists a b, (forall f, In f (ft_factors a) -> tab two nm2 f) /\ (forall f, In f (ft_factors b) -> tab two nm2 f) /\
  ft_equals a b = Ok true /\ forall e, tprod (ft_factors a) e <> tprod (ft_factors b) e.
Proof. exact equals_different_refuted. Qed.
Print Assumptions c125_different_refuted.
Theorem c125_reflexive_partial card nm a : (forall f, In f (ft_factors a) -> tab card nm f) ->
  ForallOrdPairs (fun f g => ~ tclose f g /\ ~ tclose g f) (ft_factors a) -> ft_equals a a = Ok true.
Proof. exact (ft_equals_refl card nm a). Qed.
Print Assumptions c125_reflexive_partial.
Example c125_reflexive_nonvacuous : (forall f, In f (ft_factors (dupl (cst ["x"] 0) (cst ["x"] 1))) -> tab two nm2 f) /\
  ForallOrdPairs (fun f g => ~ tclose f g /\ ~ tclose g f) (ft_factors (dupl (cst ["x"] 0) (cst ["x"] 1))).
Proof. exact refl_hyps. Qed.
Theorem c125_equal_partial card nm a b : (forall f, In f (ft_factors a) -> tab card nm f) -> (forall f, In f (ft_factors b) -> tab card nm f) ->
  (forall v, In v (ft_vars a) <-> In v (ft_vars b)) ->
  length (ft_factors a) = length (ft_factors b) -> tsep_rows (ft_factors a) (ft_factors b) -> tsep_cols (ft_factors a) (ft_factors b) ->
  exists r, ft_equals a b = Ok r /\ (r = true <-> exists bs, Permutation bs (ft_factors b) /\ Forall2 tclose (ft_factors a) bs).
Proof. exact (ft_equals_iff card nm a b). Qed.
Print Assumptions c125_equal_partial.
Example c125_equal_nonvacuous : tsep_rows [cst ["x"] 0; cst ["x"] 1] [cst ["x"] 1; cst ["x"] 0] /\ tsep_cols [cst ["x"] 0; cst ["x"] 1] [cst ["x"] 1; cst ["x"] 0].
Proof. exact sep_hyps. Qed.
Theorem c125_shapes_partial card nm a b : ft_factors a <> [] -> ft_factors b <> [] ->
  (forall f, In f (ft_factors a) -> tab card nm f) -> (forall f, In f (ft_factors b) -> tab card nm f) ->
  (forall v, In v (ft_vars a) <-> In v (ft_vars b)) -> length (ft_factors a) <> length (ft_factors b) ->
  exists r ja jb, ft_equals a b = Ok r /\ tab card nm ja /\ tab card nm jb /\
    (forall e, trange (ft_factors a) e -> dpot ja e = tprod (ft_factors a) e) /\
    (forall e, trange (ft_factors b) e -> dpot jb e = tprod (ft_factors b) e) /\ (r = true <-> tclose ja jb).
Proof. exact (ft_equals_shapes card nm a b). Qed.
Print Assumptions c125_shapes_partial.
Theorem c125_scope_partial a b v : (In v (ft_vars a) /\ ~ In v (ft_vars b)) \/ (~ In v (ft_vars a) /\ In v (ft_vars b)) -> ft_equals a b = Ok false.
Proof. exact (ft_equals_scope a b v). Qed.
Print Assumptions c125_scope_partial.
Example c125_scope_nonvacuous : In "z" (ft_vars ex_ft) /\ ~ In "z" (ft_vars (dupl (cst ["x"] 0) (cst ["x"] 1))).
Proof. split; [cbn; tauto|]. intros [E|[]]. discriminate E. Qed.

(** An argument that is a table. *)
Theorem c125_table_partial card nm o a f : oracle_ok o -> 2 <= length (ft_factors a) -> (forall g, In g (ft_factors a) -> tab card nm g) -> tab card nm f ->
  (forall v, In v (ft_vars a) <-> In v (dvars f)) ->
  exists r ja jb, ft_equals_table o a f = Ok r /\ tab card nm ja /\ tab card nm jb /\
    (forall e, trange (ft_factors a) e -> dpot ja e = tprod (ft_factors a) e) /\
    (forall e, d_in_range f e -> dpot jb e = dpot f e) /\ (r = true <-> tclose ja jb).
Proof. exact (ft_equals_table_spec card nm o a f). Qed.
Print Assumptions c125_table_partial.
Example c125_table_nonvacuous : (exists o, oracle_ok o) /\ 2 <= length (ft_factors ex_ft) /\ (forall g, In g (ft_factors ex_ft) -> tab two nm2 g) /\
  tab two nm2 (cst ["z"; "x"; "y"] 1) /\ forall v, In v (ft_vars ex_ft) <-> In v (dvars (cst ["z"; "x"; "y"] 1)).
Proof. split; [exists SparseExamples.id_oracle; exact SparseExamples.id_oracle_ok|]. split; [cbn; lia|]. split; [exact ex_all|]. split; [exact (proj1 (proj2 (proj2 kl_hyps)))|]. cbn. tauto. Qed.

(** C126: the divergence from a table is that of the normalised product. *)
Theorem c126_divergence card nm a q : ft_factors a <> [] -> (forall f, In f (ft_factors a) -> tab card nm f) -> tab card nm q ->
  (forall v, tscope (ft_factors a) v <-> In v (dvars q)) ->
  (0 < d_weight_of q)%R -> exists j, ft_joint a = Ok j /\ (forall e, trange (ft_factors a) e -> dpot j e = tprod (ft_factors a) e) /\
  ((0 < d_weight_of j)%R -> exists d, ft_kl a q = Ok d /\
    ((exists e, trange (ft_factors a) e /\ 0 < tprod (ft_factors a) e /\ dpot q e = 0)%R -> d = PInf) /\
    (~ (exists e, trange (ft_factors a) e /\ 0 < tprod (ft_factors a) e /\ dpot q e = 0)%R -> d = Fin (d_kl_of j q) /\ (0 <= d_kl_of j q)%R) /\
    (d = Fin 0 <-> forall e, trange (ft_factors a) e -> (tprod (ft_factors a) e / d_weight_of j = dpot q e / d_weight_of q)%R)).
Proof. exact (ft_kl_spec card nm a q). Qed.
Print Assumptions c126_divergence.
Example c126_nonvacuous : ft_factors ex_ft <> [] /\ (forall f, In f (ft_factors ex_ft) -> tab two nm2 f) /\ tab two nm2 (cst ["z"; "x"; "y"] 1) /\
  (forall v, tscope (ft_factors ex_ft) v <-> In v (dvars (cst ["z"; "x"; "y"] 1))) /\ (0 < d_weight_of (cst ["z"; "x"; "y"] 1))%R /\
  exists j, ft_joint ex_ft = Ok j /\ (0 < d_weight_of j)%R.
Proof. exact kl_hyps. Qed.
Theorem c126_distance card nm a : ft_factors a <> [] -> (forall f, In f (ft_factors a) -> tab card nm f) -> exists j, ft_joint a = Ok j /\
  (forall v, In v (dvars j) <-> tscope (ft_factors a) v) /\ (forall e, d_in_range j e <-> trange (ft_factors a) e) /\
  (forall e, trange (ft_factors a) e -> dpot j e = tprod (ft_factors a) e) /\
  ((0 < d_weight_of j)%R ->
   let D := sum_over (d_card_of j) (dvars j) (fun e => kl_term (dpot j e / d_weight_of j) (1 / INR (d_n_assignments j)))%R (fun _ => 0) in
   ft_distance a = Ok (Fin D) /\ (0 <= D)%R /\
   (D = 0%R <-> forall e e', trange (ft_factors a) e -> trange (ft_factors a) e' -> tprod (ft_factors a) e = tprod (ft_factors a) e')).
Proof. exact (ft_distance_spec card nm a). Qed.
Print Assumptions c126_distance.
Example c126_distance_nonvacuous : ft_factors ex_ft <> [] /\ (forall f, In f (ft_factors ex_ft) -> tab two nm2 f) /\
  exists j, ft_joint ex_ft = Ok j /\ (0 < d_weight_of j)%R.
Proof. exact (conj (proj1 kl_hyps) (conj (proj1 (proj2 kl_hyps)) (proj2 (proj2 (proj2 (proj2 (proj2 kl_hyps))))))). Qed.
