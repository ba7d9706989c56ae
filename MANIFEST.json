{
 "claims": [
  {
   "property": "C01",
   "status": "proved",
   "theorems": [
    "c01_sparse_product_pointwise"
   ],
   "note": "All oracles (set orders), all scopes."
  },
  {
   "property": "C02",
   "status": "partial",
   "theorems": [
    "c02_sparse_product_default_refuted",
    "c02_sparse_product_default_partial"
   ],
   "note": "False of the code: outer assignments missing from a table are skipped, so the product of the defaults is not what the result stores. Proved for factors over the same variables."
  },
  {
   "property": "C03",
   "status": "proved",
   "theorems": [
    "c03_sparse_product_order_irrelevant"
   ],
   "note": "Any binary tree of multiplications."
  },
  {
   "property": "C04",
   "status": "partial",
   "theorems": [
    "c04_sparse_divide_refuted",
    "c04_sparse_divide_pointwise_partial",
    "c04_sparse_divide_disjoint_fails"
   ],
   "note": "False without a shared variable (TypeError from list * numpy.float64); proved for all other scopes."
  },
  {
   "property": "C05",
   "status": "partial",
   "theorems": [
    "c05_sparse_quotient_usable_refuted",
    "c05_sparse_quotient_never_usable"
   ],
   "note": "False: the quotient's default is NaN, so every further binary operation raises NotImplementedError."
  },
  {
   "property": "C06",
   "status": "proved",
   "theorems": [
    "c06_sparse_cancel_undoes_multiply",
    "c06_sparse_cancel_pointwise",
    "c06_sparse_cancel_pole"
   ],
   "note": "Also without the scope restriction on b."
  },
  {
   "property": "C07",
   "status": "proved",
   "theorems": [
    "c07_sparse_marginal_keep",
    "c07_sparse_marginal_remove",
    "c07_sparse_weight_property"
   ],
   "note": ""
  },
  {
   "property": "C08",
   "status": "partial",
   "theorems": [
    "c08_sparse_reduce_refuted",
    "c08_sparse_reduce_partial",
    "c08_sparse_reduce_missing_fails"
   ],
   "note": "False for observations matching no stored entry (KeyError); exactly characterised."
  },
  {
   "property": "C09",
   "status": "partial",
   "theorems": [
    "c09_sparse_potential_refuted",
    "c09_sparse_potential_missing_refuted",
    "c09_sparse_potential_partial"
   ],
   "note": "False: the permutation is applied in the wrong direction (3-cycles), and unstored assignments raise KeyError. Proved for self-inverse orderings and stored entries."
  },
  {
   "property": "C10",
   "status": "proved",
   "theorems": [
    "c10_sparse_normalize"
   ],
   "note": ""
  },
  {
   "property": "C11",
   "status": "partial",
   "theorems": [
    "c11_sparse_kl_refuted",
    "c11_sparse_kl_partial"
   ],
   "note": "False only for factors without variables (TypeError); proved for every non-empty scope."
  },
  {
   "property": "C12",
   "status": "partial",
   "theorems": [
    "c12_sparse_vacuous_refuted",
    "c12_sparse_vacuous_partial"
   ],
   "note": "As C11."
  },
  {
   "property": "C13",
   "status": "partial",
   "theorems": [
    "c13_sparse_reorder",
    "c13_sparse_equals_reorder",
    "c13_sparse_equals_symmetric",
    "c13_sparse_equals_meaning",
    "c13_sparse_equals_default_refuted"
   ],
   "note": "Proved for zero-default factors; symmetry is false for factors with a common finite default listed in different orders."
  },
  {
   "property": "C14",
   "status": "proved",
   "theorems": [
    "c14_sparse_argmax"
   ],
   "note": ""
  },
  {
   "property": "C15",
   "status": "proved",
   "theorems": [
    "c15_dense_product_pointwise",
    "c15_dense_quotient_pointwise",
    "c15_dense_quotient_needs_nested_scopes",
    "c15_dense_inconsistent_cardinalities",
    "c15_dense_inconsistent_names"
   ],
   "note": "For all well formed factors with consistent cardinalities and names and any variable orders."
  },
  {
   "property": "C16",
   "status": "partial",
   "theorems": [
    "c16_dense_marginal_refuted",
    "c16_dense_marginal_order_raises_refuted",
    "c16_dense_marginal_card_one_refuted",
    "c16_dense_marginal_away_refuted",
    "c16_dense_marginal_partial",
    "c16_dense_marginal_empty_axis"
   ],
   "note": "False when the kept variables are listed in another order than the factor's (axes are mislabelled or an assertion fails) and when a kept variable has one value (squeezed away, ValueError). Holds when the kept list is in the factor's order and no kept variable has one value."
  },
  {
   "property": "C17",
   "status": "partial",
   "theorems": [
    "c17_dense_reduce_negative_refuted",
    "c17_dense_reduce_restricts_partial",
    "c17_dense_reduce_out_of_range_partial"
   ],
   "note": "The restriction part and the IndexError for values >= c or < -c hold for all inputs; the negative values -c..-1 are accepted and counted from the end."
  },
  {
   "property": "C18",
   "status": "proved",
   "theorems": [
    "c18_dense_reorder",
    "c18_dense_potential",
    "c18_dense_reorder_wrong_scope"
   ],
   "note": ""
  },
  {
   "property": "C19",
   "status": "partial",
   "theorems": [
    "c19_dense_cancel_nested_refuted",
    "c19_dense_cancel_nested_zero_refuted",
    "c19_dense_cancel_order_refuted",
    "c19_dense_cancel_same_order_partial",
    "c19_dense_cancel_positive_partial"
   ],
   "note": "The zero mask compares the tensors axis by axis without aligning names: ValueError or IndexError for nested scopes, NaN for permuted scopes. Holds for identical variable lists, and for nested scopes with a positive divisor when numpy can broadcast the shapes."
  },
  {
   "property": "C20",
   "status": "partial",
   "theorems": [
    "c20_dense_equality_symmetric_refuted",
    "c20_dense_equality_cardinalities_refuted",
    "c20_dense_equality_order_partial",
    "c20_dense_equality_meaning_partial",
    "c20_dense_equality_reflexive_partial",
    "c20_dense_equality_symmetric_partial"
   ],
   "note": "Order independence and reflexivity hold; symmetry fails for a positive relative tolerance; cardinalities 1 and n compare equal by broadcasting."
  },
  {
   "property": "C21",
   "status": "proved",
   "theorems": [
    "c21_dense_argmax",
    "c21_dense_argmax_nan",
    "c21_dense_argmax_names"
   ],
   "note": ""
  },
  {
   "property": "C22",
   "status": "proved",
   "theorems": [
    "c22_dense_kl_divergence",
    "c22_dense_distance_from_vacuous",
    "c22_dense_normalize"
   ],
   "note": "Exact reals; the divergence is +inf where the second factor is zero and the first is not."
  },
  {
   "property": "C23",
   "status": "partial",
   "theorems": [
    "c23_sparse_dense_reduce_refuted",
    "c23_sparse_dense_construction_partial",
    "c23_sparse_dense_multiply_partial",
    "c23_sparse_dense_reduce_partial"
   ],
   "note": "Construction and multiplication agree for all inputs; restriction agrees when some stored entry matches the evidence, otherwise the sparse factor raises KeyError."
  },
  {
   "property": "C24",
   "status": "proved",
   "theorems": [
    "c24_cluster_ids_unique",
    "c24_cluster_id_injective",
    "c24_construction_errors"
   ],
   "note": "For every factor class and all variable-name strings."
  },
  {
   "property": "C25",
   "status": "proved",
   "theorems": [
    "c25_absorb_partition",
    "c25_absorb_product"
   ],
   "note": "The partition for every factor class, the product for sparse tables."
  },
  {
   "property": "C26",
   "status": "partial",
   "theorems": [
    "c26_nested_clusters_refuted",
    "c26_nested_clusters_partial"
   ],
   "note": "False for [ab, a, abc]: a factor that has absorbed another one is never absorbed itself. Holds when no middle factor of a chain of three nested scopes comes before the largest one."
  },
  {
   "property": "C27",
   "status": "proved",
   "theorems": [
    "c27_running_intersection"
   ],
   "note": "For every factor class."
  },
  {
   "property": "C28",
   "status": "proved",
   "theorems": [
    "c28_sepsets_sane",
    "c28_no_assertion_fires",
    "c28_sparse_construction"
   ],
   "note": ""
  },
  {
   "property": "C29",
   "status": "proved",
   "theorems": [
    "c29_evidence_restricts"
   ],
   "note": ""
  },
  {
   "property": "C30",
   "status": "proved",
   "theorems": [
    "c30_no_stale_messages"
   ],
   "note": "For every factor class and any interleaving of passes and process_graph calls."
  },
  {
   "property": "C31",
   "status": "partial",
   "theorems": [
    "c31_joint_kept_refuted",
    "c31_joint_kept_partial"
   ],
   "note": "Holds at every assignment consistent with the special evidence (so fully when there is none); false at assignments that contradict it."
  },
  {
   "property": "C32",
   "status": "partial",
   "theorems": [
    "c32_posterior_joint_refuted",
    "c32_posterior_joint_unsent_fails",
    "c32_posterior_joint_partial"
   ],
   "note": "AttributeError while some path has not carried a message; otherwise the joint at all assignments consistent with the special evidence."
  },
  {
   "property": "C33",
   "status": "proved",
   "theorems": [
    "c33_bounded_passes",
    "c33_queue_is_all_paths",
    "c33_single_cluster"
   ],
   "note": ""
  },
  {
   "property": "C34",
   "status": "proved",
   "theorems": [
    "c34_greedy_schedule",
    "c34_c35_gains_comparable"
   ],
   "note": "For every factor class with comparable gains; gains are shown comparable for sparse tables with a positive assignment."
  },
  {
   "property": "C35",
   "status": "proved",
   "theorems": [
    "c35_early_stop_converged",
    "c34_c35_gains_comparable"
   ],
   "note": ""
  },
  {
   "property": "C36",
   "status": "proved",
   "theorems": [
    "c36_calibrated_marginal",
    "c36_marginal_exists"
   ],
   "note": "For sparse tables with zeros allowed."
  },
  {
   "property": "C37",
   "status": "proved",
   "theorems": [
    "c37_lookup_none",
    "c37_lookup_first",
    "c37_lookup_error_iff"
   ],
   "note": ""
  },
  {
   "property": "C38",
   "status": "partial",
   "theorems": [
    "c38_process_twice_refuted",
    "c38_process_twice_fails",
    "c38_process_twice_partial"
   ],
   "note": "With special evidence the second call always raises, because the evidence variables have already been removed; holds without special evidence."
  },
  {
   "property": "C39",
   "status": "proved",
   "theorems": [
    "c39_almost_sorted"
   ],
   "note": ""
  },
  {
   "property": "C40",
   "status": "proved",
   "theorems": [
    "c40_multiply",
    "c40_divide",
    "c40_multiply_divide",
    "c40_constructed_canonical",
    "c40_constructed_covariance"
   ],
   "note": "All dimensions, orders and overlaps; log potentials may be infinite or NaN for the product and quotient, and the divisor's must be finite for the round trip."
  },
  {
   "property": "C41",
   "status": "partial",
   "theorems": [
    "c41_reduce_all_refuted",
    "c41_reduce_all_fails",
    "c41_reduce_partial"
   ],
   "note": "Observing a proper subset is restriction; observing all variables always raises AssertionError instead of giving the constant."
  },
  {
   "property": "C42",
   "status": "proved",
   "theorems": [
    "c42_cov_can_cov",
    "c42_can_cov_can",
    "c42_cov_can_cov_indefinite"
   ],
   "note": "Positive definite matrices of every dimension; also symmetric matrices with positive determinant when the precision is not flagged vacuous."
  },
  {
   "property": "C43",
   "status": "proved",
   "theorems": [
    "c43_marginal",
    "c43_marginal_drop",
    "c43_marginal_any_state"
   ],
   "note": "Positive definite covariances, every kept list of distinct variables in any order, and an object holding either form or both; log weight, mean and covariance blocks and log potential agree."
  },
  {
   "property": "C44",
   "status": "proved",
   "theorems": [
    "c44_reorder",
    "c44_parameters"
   ],
   "note": "All permutations."
  },
  {
   "property": "C45",
   "status": "partial",
   "theorems": [
    "c45_argument_unchanged_refuted",
    "c45_equal_parameters_refuted",
    "c45_answers_refuted",
    "c45_argument_partial",
    "c45_equal_parameters_partial"
   ],
   "note": "equals reorders its argument in place; two vacuous factors always compare equal; a covariance form against a vacuous factor raises. What holds: the argument keeps its value at every assignment, and equal factors not flagged vacuous have close parameters by name."
  },
  {
   "property": "C46",
   "status": "proved",
   "theorems": [
    "c46_moments",
    "c46_gaussian",
    "c46_cholesky"
   ],
   "note": "All dimensions; the Cholesky factor is computed by the textbook recursion and shown to exist for every positive definite matrix."
  },
  {
   "property": "C47",
   "status": "partial",
   "theorems": [
    "c47_weight_refuted",
    "c47_split_partial"
   ],
   "note": "The total weight is lost: the result always has weight one. Mean and variance are preserved."
  },
  {
   "property": "C48",
   "status": "proved",
   "theorems": [
    "c48_moment_match"
   ],
   "note": ""
  },
  {
   "property": "C49",
   "status": "proved",
   "theorems": [
    "c49_multiply"
   ],
   "note": "At every assignment where both potentials are numbers."
  },
  {
   "property": "C50",
   "status": "partial",
   "theorems": [
    "c50_order_refuted",
    "c50_different_refuted",
    "c50_same_partial",
    "c50_equal_partial",
    "c50_answers_partial"
   ],
   "note": "The same components in another order compare different, and different mixtures can compare equal. What holds: same components in the same order compare equal; equal mixtures have the same number of components and every left component is close to one at the same or a later place on the right."
  },
  {
   "property": "C51",
   "status": "proved",
   "theorems": [
    "c51_multiply"
   ],
   "note": "Every non-empty list of well formed Gaussians."
  },
  {
   "property": "C52",
   "status": "partial",
   "theorems": [
    "c52_chain_refuted",
    "c52_marginal_partial",
    "c52_one_variable_partial"
   ],
   "note": "Merging compares factors only with the first of a group, so a chain f1(x), f2(x,y), f3(y,a) marginalised onto a gives another function. Proved when sharing an integrated variable is transitive between the factors, in particular for one variable at a time."
  },
  {
   "property": "C53",
   "status": "partial",
   "theorems": [
    "c53_reflexive_refuted",
    "c53_different_refuted",
    "c53_reflexive_partial",
    "c53_equal_partial",
    "c53_scope_partial",
    "c53_shapes_partial"
   ],
   "note": "All matching pairs are counted: a repeated factor makes an object different from itself, and different products can compare equal. Proved for factors in canonical form when no factor matches two, for different scopes, and for lists of different lengths."
  },
  {
   "property": "C54",
   "status": "proved",
   "theorems": [
    "c54_indexed_matrix",
    "c54_indexed_vector",
    "c54_name_order",
    "c54_same_names",
    "c54_bad_shapes"
   ],
   "note": "All sizes, names, orders and binary operations."
  },
  {
   "property": "C55",
   "status": "proved",
   "theorems": [
    "c55_subset_evidence",
    "c55_remove_duplicates",
    "c55_remove_close_values",
    "c55_remove_duplicates_empty",
    "c55_format_list",
    "c55_formattable",
    "c55_formattable_conditional",
    "c55_template_one_sided"
   ],
   "note": "str.format is modelled for plain fields and doubled braces; format specifications, conversions and attribute lookups are outside of the model. remove_duplicate_values raises IndexError on an empty list."
  },
  {
   "property": "C56",
   "status": "proved",
   "theorems": [
    "c56_construction_never_fails",
    "c56_processing_never_fails"
   ],
   "note": ""
  },
  {
   "property": "C57",
   "status": "proved",
   "theorems": [
    "c57_early_stop_exact"
   ],
   "note": ""
  },
  {
   "property": "C58",
   "status": "proved",
   "theorems": [
    "c58_two_sweeps_exact",
    "c58_two_sweeps_exist"
   ],
   "note": ""
  },
  {
   "property": "C59",
   "status": "proved",
   "theorems": [
    "c59_messages_bounded",
    "c59_greedy_converges",
    "c59_greedy_exact"
   ],
   "note": ""
  },
  {
   "property": "C60",
   "status": "proved",
   "theorems": [
    "c60_affine"
   ],
   "note": ""
  },
  {
   "property": "C61",
   "status": "proved",
   "theorems": [
    "c61_normalize",
    "c61_weight"
   ],
   "note": ""
  },
  {
   "property": "C62",
   "status": "proved",
   "theorems": [
    "c62_reduce"
   ],
   "note": ""
  },
  {
   "property": "C63",
   "status": "proved",
   "theorems": [
    "c63_marginalize"
   ],
   "note": ""
  },
  {
   "property": "C64",
   "status": "proved",
   "theorems": [
    "c64_log_potential"
   ],
   "note": ""
  },
  {
   "property": "C65",
   "status": "proved",
   "theorems": [
    "c65_multiply",
    "c65_divide"
   ],
   "note": ""
  },
  {
   "property": "C66",
   "status": "proved",
   "theorems": [
    "c66_marginal_is_integral",
    "c66_order",
    "c66_mixture",
    "c66_two_steps"
   ],
   "note": "Iterated improper Riemann integrals; positive definite parameters; potentials that are not NaN or plus infinity."
  },
  {
   "property": "C67",
   "status": "proved",
   "theorems": [
    "c67_weight_is_integral",
    "c67_normalize",
    "c67_normalize_integral",
    "c67_mixture_weight"
   ],
   "note": "Normalising: finite log weight."
  },
  {
   "property": "C68",
   "status": "partial",
   "theorems": [
    "c68_scope_refuted",
    "c68_scope_partial"
   ],
   "note": "The names are not updated when the factor is appended. Right when the factor brings no new variable."
  },
  {
   "property": "C69",
   "status": "partial",
   "theorems": [
    "c69_inside_refuted",
    "c69_inside_error",
    "c69_all_error",
    "c69_reduce_partial"
   ],
   "note": "Fails with AssertionError when a factor's scope lies strictly inside the observed variables, and with IndexError when every factor is fully observed; otherwise proved."
  },
  {
   "property": "C70",
   "status": "partial",
   "theorems": [
    "c70_normalize_refuted",
    "c70_always_fails",
    "c70_one_factor_partial"
   ],
   "note": "Always fails with two factors or more; proved for one factor."
  },
  {
   "property": "C71",
   "status": "partial",
   "theorems": [
    "c71_close_refuted",
    "c71_spanning_refuted",
    "c71_divide_partial"
   ],
   "note": "A factor that is only close to the divisor is removed; a divisor whose scope is inside no single factor is refused. Proved otherwise."
  },
  {
   "property": "C72",
   "status": "proved",
   "theorems": [
    "c72_is_vacuous",
    "c72_distance"
   ],
   "note": "The distance is proved for positive definite factors."
  },
  {
   "property": "C73",
   "status": "proved",
   "theorems": [
    "c73_mean",
    "c73_covariance"
   ],
   "note": "Improper Riemann integrals, iterated in any order of the variables."
  },
  {
   "property": "C74",
   "status": "proved",
   "theorems": [
    "c74_moment_match"
   ],
   "note": "Components with finite weights."
  },
  {
   "property": "C75",
   "status": "partial",
   "theorems": [
    "c75_order_refuted",
    "c75_moments_partial"
   ],
   "note": "The arrays follow the variable order of the joint, which can differ from the factor's own names; proved by the joint's names."
  },
  {
   "property": "C76",
   "status": "partial",
   "theorems": [
    "c76_order_refuted",
    "c76_close_refuted",
    "c76_scope_refuted",
    "c76_divergence_partial",
    "c76_degenerate"
   ],
   "note": "Wrong when the variables are listed in different orders and the weights differ, zero for close densities, and a number for different variables. Proved for one variable order whenever the equality check answers false."
  },
  {
   "property": "C77",
   "status": "partial",
   "theorems": [
    "c77_nonsquare_refuted",
    "c77_nonsquare_error",
    "c77_columns",
    "c77_linear_partial"
   ],
   "note": "Every transform between different dimensions raises ValueError. Proved in full for square transforms."
  },
  {
   "property": "C78",
   "status": "partial",
   "theorems": [
    "c78_mass_refuted",
    "c78_template_partial",
    "c78_mass_partial"
   ],
   "note": "The constant term is replaced by 0, so the mass over the conditional variables is the square root of det(2 pi N). Proved up to that constant."
  },
  {
   "property": "C79",
   "status": "partial",
   "theorems": [
    "c79_marginal_refuted",
    "c79_copy_partial",
    "c79_names_error"
   ],
   "note": "The flag is always set, so every marginal is the constant 1 and never the integral; a copy is not flagged but has the same potential."
  },
  {
   "property": "C80",
   "status": "partial",
   "theorems": [
    "c80_observed_refuted",
    "c80_unfactored_error",
    "c80_observed_error",
    "c80_joint_partial",
    "c80_add_log_weight_partial",
    "c80_canonical_partial",
    "c80_covariance_partial",
    "c80_normalize_partial"
   ],
   "note": "With all conditioning variables observed the joint raises UnboundLocalError or AssertionError. Proved whenever one conditioning variable is not observed, also for the canonical and covariance parameters and the normalised joint; a log weight added to the factor is added to the joint (`c80_add_log_weight_partial`, which a mutation of `add_log_weight` asked for)."
  },
  {
   "property": "C81",
   "status": "proved",
   "theorems": [
    "c81_moments",
    "c81_conditioning_marginal",
    "c81_no_output_error"
   ],
   "note": "Before messages about y and observations; C80, C84 and C85 cover those for affine transforms."
  },
  {
   "property": "C82",
   "status": "partial",
   "theorems": [
    "c82_order_refuted",
    "c82_order_partial"
   ],
   "note": "A transform that goes by position sees the rows in the conditioning factor's order. Proved for affine transforms that go by name."
  },
  {
   "property": "C83",
   "status": "partial",
   "theorems": [
    "c83_removed_refuted",
    "c83_observed_error",
    "c83_marginal_partial",
    "c83_no_info_x",
    "c83_no_info_y",
    "c83_no_info_rest"
   ],
   "note": "After an observation, naming the variables to remove raises ValueError. Proved for variables to keep that are not observed; without full information the parts' marginals, or vacuous ones, are returned."
  },
  {
   "property": "C84",
   "status": "partial",
   "theorems": [
    "c84_reduce_refuted",
    "c84_reduce_partial"
   ],
   "note": "Observing the whole conditioning factor makes the joint fail. Proved otherwise."
  },
  {
   "property": "C85",
   "status": "partial",
   "theorems": [
    "c85_vacuous_refuted",
    "c85_multiply_partial",
    "c85_first_message",
    "c85_both_sides_error"
   ],
   "note": "The weight of a vacuous message is dropped and messages about both sides are refused. Proved for positive definite messages about one side."
  },
  {
   "property": "C86",
   "status": "partial",
   "theorems": [
    "c86_no_message_refuted",
    "c86_no_conditioning_refuted",
    "c86_mixture_refuted",
    "c86_divide_partial",
    "c86_quotient_partial",
    "c86_conditioning_partial",
    "c86_conditioning_quotient_partial"
   ],
   "note": "Division fails when no message was multiplied in before, and for every mixture. Proved for messages about either side."
  },
  {
   "property": "C87",
   "status": "partial",
   "theorems": [
    "c87_gaussian_refuted",
    "c87_marginal_refuted",
    "c87_copy_flag_refuted",
    "c87_sum_partial",
    "c87_product_partial",
    "c87_single_product",
    "c87_divide_partial",
    "c87_reduce"
   ],
   "note": "Products with Gaussians and marginals always raise TypeError, and a copy resets the split flag. Sums, products with mixtures, quotients by messages about y and observations are proved."
  },
  {
   "property": "C88",
   "status": "partial",
   "theorems": [
    "c88_stale_refuted",
    "c88_equal_partial"
   ],
   "note": "The joint last computed is compared, which can be an old one. Proved when it is up to date."
  },
  {
   "property": "C89",
   "status": "partial",
   "theorems": [
    "c89_ignored_refuted",
    "c89_template_partial",
    "c89_names_partial"
   ],
   "note": "Conditional names given together with a dictionary are ignored."
  },
  {
   "property": "C90",
   "status": "proved",
   "theorems": [
    "c90_evidence"
   ],
   "note": ""
  },
  {
   "property": "C91",
   "status": "proved",
   "theorems": [
    "c91_joint_kept",
    "c91_joint_kept_semidefinite"
   ],
   "note": "Also for semidefinite precisions when no cluster factor is marked as vacuous."
  },
  {
   "property": "C92",
   "status": "partial",
   "theorems": [
    "c92_joint_refuted",
    "c92_joint_partial",
    "c92_joint_missing"
   ],
   "note": "Raises AttributeError exactly while some path has not carried a message; exact afterwards."
  },
  {
   "property": "C93",
   "status": "proved",
   "theorems": [
    "c93_calibrated_exact",
    "c93_calibrated_exact_semidefinite"
   ],
   "note": "Also for semidefinite precisions when no cluster factor is marked as vacuous."
  },
  {
   "property": "C94",
   "status": "proved",
   "theorems": [
    "c94_two_sweeps_exact",
    "c94_two_sweeps_exact_semidefinite"
   ],
   "note": "Also for semidefinite precisions when no cluster factor is marked as vacuous."
  },
  {
   "property": "C95",
   "status": "partial",
   "theorems": [
    "c95_all_observed_refuted",
    "c95_semidefinite_refuted",
    "c95_construction_partial",
    "c95_all_observed_error",
    "c95_processing_partial"
   ],
   "note": "Evidence about all variables of a factor raises AssertionError, and a semidefinite factor that must be integrated along a flat direction raises. Proved for positive definite factors with an unobserved variable each."
  },
  {
   "property": "C96",
   "status": "proved",
   "theorems": [
    "c96_queries_answered",
    "c96_sweeps_answer"
   ],
   "note": ""
  },
  {
   "property": "C97",
   "status": "proved",
   "theorems": [
    "c97_messages_bounded",
    "c97_greedy_converges"
   ],
   "note": ""
  },
  {
   "property": "C98",
   "status": "partial",
   "theorems": [
    "c98_converged_exact_refuted",
    "c98_converged_exact_partial"
   ],
   "note": "kl_divergence is 0 for messages within the tolerance of equals, so a changed message can stay unsent for ever and the answer is then not proportional to the marginal. Exact when no waiting message differs from the one sent."
  },
  {
   "property": "C99",
   "status": "partial",
   "theorems": [
    "c99_messages_refuted",
    "c99_one_value_refuted",
    "c99_order_refuted",
    "c99_construction_partial",
    "c99_one_variable_edges",
    "c99_lined_construction_partial",
    "c99_messages_partial"
   ],
   "note": "Tables that list two shared variables in opposite orders make the construction raise AssertionError, or give a mislabelled message; a shared variable with one value raises ValueError. Whether the construction works can depend on the order in which Python lists a set of shared variables (hash seed). Proved for positive tables when every edge lists its variables in the order of the tables at both ends, in particular with at most one shared unobserved variable per pair."
  },
  {
   "property": "C100",
   "status": "partial",
   "theorems": [
    "c100_never_fails_refuted",
    "c100_zero_error",
    "c100_never_fails_partial",
    "c100_queries_partial",
    "c100_several_queries_partial"
   ],
   "note": "Sending a message with a zero a second time raises IndexError. Proved for positive tables and edges whose variables are in the order of the tables (C99)."
  },
  {
   "property": "C101",
   "status": "partial",
   "theorems": [
    "c101_query_order_refuted",
    "c101_flipped_query",
    "c101_mislabelled_query_refuted",
    "c101_exchanged_query",
    "c101_two_sweeps_exact_partial",
    "c101_sweeps_run_partial",
    "c101_several_variables_partial",
    "c101_stays_in_order",
    "c101_zeros_several_variables_partial",
    "c101_zeros_stays_in_order",
    "c101_zeros_two_sweeps_partial",
    "c101_zeros_schedule_partial",
    "c101_zeros_graph_partial",
    "c101_zeros_lined_graph_partial"
   ],
   "note": "False for edges whose variables are in another order than in the tables, see C99, and for queries that name two variables of different cardinalities in another order than the table (AssertionError). Proved for edges in order and queries about any number of variables in the order of the tables: positive tables after any history, tables with zeros from the freshly built graph."
  },
  {
   "property": "C102",
   "status": "partial",
   "theorems": [
    "c102_query_order_refuted",
    "c102_crossed_refuted",
    "c102_greedy_converges_partial",
    "c102_greedy_exact_partial",
    "c102_early_exact_partial",
    "c102_several_greedy_partial",
    "c102_several_early_partial"
   ],
   "note": "False for edges out of order and tables with zeros, see C99 and C100, and for queries whose variables are in another order than in the table. Proved for positive tables, edges in order and queries in order."
  },
  {
   "property": "C103",
   "status": "partial",
   "theorems": [
    "c103_joint_refuted",
    "c103_joint_partial"
   ],
   "note": "cancel broadcasts a table over fewer axes against the trailing axes, so ValueError with unequal cardinalities. Proved for equal cardinalities."
  },
  {
   "property": "C104",
   "status": "proved",
   "theorems": [
    "c104_tensor",
    "c104_probs",
    "c104_renamed",
    "c104_errors"
   ],
   "note": "Misuse is rejected, though with TypeError when neither names nor a dictionary are given."
  },
  {
   "property": "C105",
   "status": "proved",
   "theorems": [
    "c105_probs",
    "c105_errors",
    "c105_no_templates"
   ],
   "note": "Misuse is rejected, though with TypeError when templates exist but neither names nor a dictionary are given."
  },
  {
   "property": "C106",
   "status": "proved",
   "theorems": [
    "c106_argmax",
    "c106_argmin",
    "c106_ratio"
   ],
   "note": "The optimiser is a quantified function. argmax is within the number of components of the maximum if no search ends above its start; scipy's guarantees are not modelled."
  },
  {
   "property": "C107",
   "status": "proved",
   "theorems": [
    "c107_sklearn"
   ],
   "note": ""
  },
  {
   "property": "C108",
   "status": "partial",
   "theorems": [
    "c108_method1_refuted",
    "c108_method1_partial",
    "c108_several_variables_error",
    "c108_last_numerator"
   ],
   "note": "cancel_method 1 multiplies the log determinant with the log potential, so even with ideal optimisation the quotient is off by a factor; with several variables it raises on comparing arrays; only the last numerator component enters the inverse mixture. Proved: quotient up to a constant for one numerator component and denominators of equal shape."
  },
  {
   "property": "C109",
   "status": "partial",
   "theorems": [
    "c109_method2_refuted",
    "c109_terms_partial",
    "c109_method2_partial",
    "c109_other_methods"
   ],
   "note": "cancel_method 2 takes the modulus of the log constant, which loses its sign, so the quotient is off by a factor when a numerator component outweighs the denominator. Proved for one variable and denominators of equal shape: exact otherwise."
  },
  {
   "property": "C110",
   "status": "proved",
   "theorems": [
    "c110_columns",
    "c110_law",
    "c110_moments",
    "c110_errors"
   ],
   "note": "The standard normal numbers are arguments; their law enters as the density over which the expectation is taken."
  },
  {
   "property": "C111",
   "status": "partial",
   "theorems": [
    "c111_law",
    "c111_columns_partial",
    "c111_no_samples_refuted"
   ],
   "note": "sample(0) of a mixture raises ValueError (nothing to concatenate) where a Gaussian gives an array without columns. Everything else holds for at least one sample; a total weight of zero raises ValueError."
  },
  {
   "property": "C112",
   "status": "partial",
   "theorems": [
    "c112_columns",
    "c112_law",
    "c112_mixture_partial",
    "c112_mixture_refuted"
   ],
   "note": "Proved for a nonlinear Gaussian with an affine transform. The mixture draws the full number of samples from every component regardless of its weight and stacks the arrays below each other, so with two components it returns twice as many rows as variables."
  },
  {
   "property": "C113",
   "status": "proved",
   "theorems": [
    "c113_random"
   ],
   "note": "The uniform numbers are arguments."
  },
  {
   "property": "C114",
   "status": "partial",
   "theorems": [
    "c114_dense_array",
    "c114_sparse_array",
    "c114_sparse_weight_refuted"
   ],
   "note": "The arrays are right for both classes and any default. The weight property of the sparse class sums the stored values only, so with a default other than zero and missing entries it is not the sum of the array."
  },
  {
   "property": "C115",
   "status": "partial",
   "theorems": [
    "c115_square",
    "c115_column",
    "c115_scalar",
    "c115_square_sound",
    "c115_column_sound",
    "c115_scalar_sound",
    "c115_scalar_error",
    "c115_list_error",
    "c115_array_error",
    "c115_matrix_column_error",
    "c115_numpy_integers",
    "c115_numpy_integer_refuted",
    "c115_column_refuted",
    "c115_column_axes_refuted",
    "c115_scalar_refuted",
    "c115_scalar_list_refuted"
   ],
   "note": "All documented forms are converted correctly. A nested list holding one numpy integer raises UnboundLocalError; a matrix written as nested lists is flattened into a column; an array of shape (1, 3) passes as a scalar (its minimum), and a nested list passes as a scalar unchanged."
  },
  {
   "property": "C116",
   "status": "partial",
   "theorems": [
    "c116_covariance",
    "c116_canonical",
    "c116_missing_names",
    "c116_duplicates",
    "c116_incomplete",
    "c116_mean_size",
    "c116_covariance_size",
    "c116_name_refuted",
    "c116_name_duplicates_refuted",
    "c116_name_dimension_refuted",
    "c116_covariance_ignored",
    "c116_conflict_refuted"
   ],
   "note": "Proved for lists of names. A name given as a string gets the string's length as dimension, so 'ab' cannot be a one-dimensional factor (but can be a two-dimensional one with a single name) and 'foo' is rejected as having duplicates. Covariance parameters next to canonical ones are ignored without an error."
  },
  {
   "property": "C117",
   "status": "partial",
   "theorems": [
    "c117_node_colour_partial",
    "c117_missing_partial",
    "c117_node_colour_refuted"
   ],
   "note": "Proved for names without quotes, white space, equal signs and double dashes when no other cluster's name ends with the name. A name with a double dash is taken for an edge and raises ValueError; a name that is the end of another one recolours both; part of another name is accepted as a node. Names are taken literally in the regular expression (characters with a meaning there are not modelled)."
  },
  {
   "property": "C118",
   "status": "partial",
   "theorems": [
    "c118_edge_colour_partial",
    "c118_missing_edge_refuted",
    "c118_missing_partial"
   ],
   "note": "Proved for ids of the constructor with variable names without quotes, white space, equal signs, double dashes and hash signs. A missing edge is not noticed if both clusters have an edge to some other cluster: nothing is changed and no error raised."
  },
  {
   "property": "C119",
   "status": "partial",
   "theorems": [
    "c119_quoted_partial",
    "c119_occurs_partial",
    "c119_refuted"
   ],
   "note": "True for different names that occur in quotes. In general the answer can be wrong both ways (deleting one string can glue the other together or destroy it), the longer of two nested strings need not occur, and the documented example that should give False gives True."
  },
  {
   "property": "C120",
   "status": "partial",
   "theorems": [
    "c120_animation_partial",
    "c120_refuted"
   ],
   "note": "Proved for any sequence of messages along edges, with variable names as in C118. With a double dash in a name the first message raises ValueError; with a hash sign a second cluster can turn red."
  },
  {
   "property": "C121",
   "status": "proved",
   "theorems": [
    "c121_node_names"
   ],
   "note": ""
  },
  {
   "property": "C122",
   "status": "partial",
   "theorems": [
    "c122_joint",
    "c122_multiply",
    "c122_scope_refuted"
   ],
   "note": "The represented function is right; the variable names kept by the product are those before it, so a new variable is missing from them."
  },
  {
   "property": "C123",
   "status": "partial",
   "theorems": [
    "c123_quotient_partial",
    "c123_near_partial",
    "c123_uncovered_error",
    "c123_close_refuted",
    "c123_split_refuted"
   ],
   "note": "Exact for a divisor without zeros that is covered by one factor and close to none. A factor close to the divisor is dropped instead, which is right up to the tolerance (bound proved). A divisor covered only by the product is refused."
  },
  {
   "property": "C124",
   "status": "partial",
   "theorems": [
    "c124_marginal_refuted",
    "c124_reduce_refuted",
    "c124_marginal_never",
    "c124_reduce_error",
    "c124_vacuous_error",
    "c124_normalize_error",
    "c124_normalize_partial"
   ],
   "note": "marginalize never succeeds and reduce and is_vacuous raise AttributeError, since tables lack the methods called; normalize works for a single factor only."
  },
  {
   "property": "C125",
   "status": "partial",
   "theorems": [
    "c125_reflexive_partial",
    "c125_equal_partial",
    "c125_shapes_partial",
    "c125_scope_partial",
    "c125_table_partial",
    "c125_reflexive_refuted",
    "c125_different_refuted"
   ],
   "note": "As C53: matches are counted without removing them, so repeated factors make an object different from itself and different products can compare equal. Right if no factor is close to two others."
  },
  {
   "property": "C126",
   "status": "proved",
   "theorems": [
    "c126_divergence",
    "c126_distance"
   ],
   "note": ""
  },
  {
   "property": "C127",
   "status": "proved",
   "theorems": [
    "c127_still_edge",
    "c127_stopped_edge",
    "c127_gauss_edge",
    "c127_semi_edge"
   ],
   "note": "No restriction on the shape of the graph. For semidefinite Gaussians no reduced cluster factor may be vacuous, as in C93."
  },
  {
   "property": "C128",
   "status": "proved",
   "theorems": [
    "c128_still_holders",
    "c128_still_marginal",
    "c128_stopped_holders",
    "c128_stopped_marginal"
   ],
   "note": "No restriction on the shape of the graph; uses that the clusters holding a variable are joined by edges carrying it (C27)."
  },
  {
   "property": "C129",
   "status": "partial",
   "theorems": [
    "c129_dense_refuted",
    "c129_dense_holders_partial",
    "c129_dense_marginal_partial"
   ],
   "note": "Proved for positive tables and edges whose variables are in the order of the tables. Refuted for other edges: two clusters that share two variables in opposite orders stop early and disagree, because the first message is labelled with the wrong axes (C99)."
  },
  {
   "property": "C130",
   "status": "partial",
   "theorems": [
    "c130_values",
    "c130_named_partial",
    "c130_names_refuted",
    "c130_columns_refuted"
   ],
   "note": "The rows are proved for every table. Different assignments have different names if the names of each variable are distinct; the constructor only counts distinct names, so ['x', 'x', 'y'] passes for a variable with two values and both rows read 'x'. A variable called prob gives two columns of that name."
  },
  {
   "property": "C131",
   "status": "partial",
   "theorems": [
    "c131_rows_partial",
    "c131_lossless_partial",
    "c131_log_prob_refuted",
    "c131_assignment_refuted",
    "c131_empty_refuted"
   ],
   "note": "Proved for tables with at least one entry and no variable called assignment or log_prob. A variable called log_prob overwrites the values, one called assignment is dropped, an empty table raises KeyError."
  },
  {
   "property": "C132",
   "status": "partial",
   "theorems": [
    "c132_dense_partial",
    "c132_sparse_partial",
    "c132_wide_refuted",
    "c132_scalar_refuted"
   ],
   "note": "Proved for tables with variables and values of at most seven digits. A value of eight digits shifts the rest of its line; the header of a table without variables starts with a tab its row does not have."
  },
  {
   "property": "C133",
   "status": "proved",
   "theorems": [
    "c133_no_errors",
    "c133_marginals"
   ],
   "note": "Transforms are affine by variable name, noise covariances positive definite; the schedule is depth first (down an edge, through the branch, up again) and not the order of the information gains. Observed variables are in the evidence of the nonlinear Gaussians."
  },
  {
   "property": "C134",
   "status": "partial",
   "theorems": [
    "c134_marginals_partial",
    "c134_refuted",
    "c134_untold"
   ],
   "note": "Proved if each message to a nonlinear Gaussian from below is constant, has a positive definite precision, or says something about a variable with precision above 1e-8; branches without observations send constants. Without this condition it fails: a message with a small singular precision is marked vacuous and left out, here for an observation of 1e-5 times one of two variables. In trees that are not chains, children visited earlier have not heard from those visited later."
  },
  {
   "property": "C135",
   "status": "proved",
   "theorems": [
    "c135_filter"
   ],
   "note": "No condition on the messages and no constant: the weight of the last cluster is the likelihood of the observations made on the way."
  },
  {
   "property": "C136",
   "status": "proved",
   "theorems": [
    "c136_smoother"
   ],
   "note": "With the condition on messages of C134 (clear)."
  },
  {
   "property": "C137",
   "status": "proved",
   "theorems": [
    "c137_every_cluster"
   ],
   "note": "With the condition on messages of C134 (clear), for trees of any shape. The second message down an edge takes the place of the first: the nonlinear Gaussian divides it out of the distribution of its conditioning variables."
  },
  {
   "property": "C138",
   "status": "proved",
   "theorems": [
    "c138_converged"
   ],
   "note": "Under the same condition. Distributions are compared as functions; the objects (parameters cached in covariance or canonical form) may differ."
  },
  {
   "property": "C139",
   "status": "proved",
   "theorems": [
    "c139_posterior_joint"
   ],
   "note": "With the condition on messages of C134 (clear), after the two rounds of C137."
  },
  {
   "property": "C140",
   "status": "partial",
   "theorems": [
    "c140_division_refuted",
    "c140_division_error",
    "c140_sparse_product_partial",
    "c140_dense_product_partial",
    "c140_gaussian_product_partial",
    "c140_sparse_equal_partial",
    "c140_dense_equal_partial"
   ],
   "note": "False for quotients: the class defines __div__, which Python 3 does not use, and so a / b raises TypeError for all factors of all classes. Proved for products (sparse, dense, Gaussian), equality and difference (sparse, dense)."
  },
  {
   "property": "C141",
   "status": "proved",
   "theorems": [
    "c141_sparse_messages",
    "c141_sparse_copy",
    "c141_dense_messages",
    "c141_dense_copy"
   ],
   "note": "For sparse and dense tables. The equality of dense tables depends on the order for unequal tolerances (np.isclose is not symmetric), and is therefore stated for one order."
  },
  {
   "property": "C142",
   "status": "partial",
   "theorems": [
    "c142_mixture_graph_refuted",
    "c142_no_messages",
    "c142_separate_clusters_partial"
   ],
   "note": "False: GaussianMixture.distance_from_vacuous and kl_divergence raise NotImplementedError, and the constructor of every message path calls the former. Proved: a graph of mixtures can only be built if no two clusters share an unobserved variable, has no message paths then, and processing it changes no cluster."
  },
  {
   "property": "C143",
   "status": "partial",
   "theorems": [
    "c143_gaussian_curve",
    "c143_mixture_curve_partial",
    "c143_mixture_log_refuted",
    "c143_mixture_log_one_partial"
   ],
   "note": "Proved for Gaussians, for mixtures without log, and for mixtures of one component with log. False for mixtures of several components with log=True: the curve is the sum of the logarithms of the components instead of the logarithm of the sum."
  },
  {
   "property": "C144",
   "status": "partial",
   "theorems": [
    "c144_gaussian_contour",
    "c144_gaussian_other",
    "c144_mixture_contour_partial",
    "c144_mixture_limits_refuted",
    "c144_mixture_other"
   ],
   "note": "Proved for Gaussians, and for mixtures with both or neither of the limits. False for mixtures with one of the two limits given: it is ignored."
  },
  {
   "property": "C145",
   "status": "partial",
   "theorems": [
    "c145_joint_contour_refuted",
    "c145_new_factor",
    "c145_joint_contour_partial",
    "c145_mixture_contour"
   ],
   "note": "False: plot recomputes the joint distribution of a copy and then plots the attribute of the factor itself, which is vacuous for every new factor, and so the call raises. Proved where the attribute holds the current joint distribution. The plot of a mixture of nonlinear Gaussians shows the sum of the joint potentials of its components."
  },
  {
   "property": "C146",
   "status": "partial",
   "theorems": [
    "c146_convergence_partial",
    "c146_zero_refuted",
    "c146_low_refuted",
    "c146_none"
   ],
   "note": "Proved if the largest finite value is positive. False otherwise: with a largest value of zero the finite zeros are marked as infinite, with a negative one (logarithms) infinite values are drawn below finite ones, and without finite values the call raises ValueError."
  },
  {
   "property": "C147",
   "status": "partial",
   "theorems": [
    "c147_bars_partial",
    "c147_bars_refuted",
    "c147_default_names"
   ],
   "note": "Proved for tables whose names are strings. False with the default names, which are numbers: joining them to a label raises TypeError for every such table."
  },
  {
   "property": "C148",
   "status": "partial",
   "theorems": [
    "c148_curves",
    "c148_points",
    "c148_same_iterations_refuted"
   ],
   "note": "Proved: one curve for every path, with the legend in the same order and without repetitions, from the first gain to the current one, and the exact number of points of every curve. False: that the axis shows iterations. A path gets a point only when it is used or its sender receives a message, so that points drawn above each other belong to different iterations."
  },
  {
   "property": "C149",
   "status": "partial",
   "theorems": [
    "c149_last_partial",
    "c149_which",
    "c149_before_sending_refuted"
   ],
   "note": "Proved if every path has sent a message; then the entries are the messages that were waiting when the paths were last used. False otherwise: the property raises AttributeError."
  },
  {
   "property": "C150",
   "status": "proved",
   "theorems": [
    "c150_same_run",
    "c150_every_run",
    "c150_debug"
   ],
   "note": "For all kinds of factors. Graphs of a single cluster pass no messages; for them the statement on the messages assumes that there is no special evidence."
  },
  {
   "property": "C151",
   "status": "proved",
   "theorems": [
    "c151_gauss_parts",
    "c151_gauss_holders",
    "c151_gauss_marginal"
   ],
   "note": "Factors with positive definite precisions; converged means that every waiting message equals the last one passed."
  },
  {
   "property": "C152",
   "status": "partial",
   "theorems": [
    "c152_joint",
    "c152_multiply",
    "c152_scope_refuted"
   ],
   "note": "The represented function is right; the variable names kept by the product are those before it, so a new variable is missing from them."
  },
  {
   "property": "C153",
   "status": "partial",
   "theorems": [
    "c153_single_partial",
    "c153_near_partial",
    "c153_constant_error",
    "c153_uncovered_error",
    "c153_never_usable",
    "c153_unusable_refuted",
    "c153_close_refuted",
    "c153_split_refuted"
   ],
   "note": "Exact for a single factor. With two factors or more divide returns an object whose joint distribution always raises NotImplementedError (proved for every such quotient), because the divided table has the default NaN. A factor close to the divisor is dropped instead, which is right up to the tolerance (bound proved). A divisor covered only by the product, or without variables, is refused."
  },
  {
   "property": "C154",
   "status": "partial",
   "theorems": [
    "c154_marginal_refuted",
    "c154_marginalize_never",
    "c154_marginalize_error",
    "c154_marginalize_nothing_error",
    "c154_reduce_never",
    "c154_reduce_error",
    "c154_vacuous_error",
    "c154_show_error",
    "c154_normalize_error",
    "c154_normalize_partial"
   ],
   "note": "marginalize and reduce never succeed and is_vacuous raises AttributeError, since tables lack the methods called; show raises TypeError, since its loop unpacks a factor; normalize works for a single factor only."
  },
  {
   "property": "C155",
   "status": "partial",
   "theorems": [
    "c155_reflexive_partial",
    "c155_equal_partial",
    "c155_shapes_partial",
    "c155_scope_partial",
    "c155_table_partial",
    "c155_divergence",
    "c155_distance",
    "c155_reflexive_refuted",
    "c155_different_refuted"
   ],
   "note": "The divergences are exact. Equality is as in C53 and C125: matches are counted without removing them, so repeated factors make an object different from itself and different products can compare equal. Right if no factor is close to two others."
  },
  {
   "property": "C156",
   "status": "partial",
   "theorems": [
    "c156_repr_refuted",
    "c156_vacuous_error",
    "c156_singular_error",
    "c156_repr_partial",
    "c156_show",
    "c156_show_vis",
    "c156_show_vis_error"
   ],
   "note": "repr raises for every vacuous Gaussian, and for every Gaussian whose precision matrix is singular, since the covariance form is always printed. Exact for Gaussians with a positive definite matrix; show is exact for all well-formed ones. How numpy writes an array is not modelled."
  },
  {
   "property": "C157",
   "status": "partial",
   "theorems": [
    "c157_mixture",
    "c157_nonlinear",
    "c157_nonlinear_stale",
    "c157_message_refuted",
    "c157_message_partial",
    "c157_message_content"
   ],
   "note": "Proved for mixtures and nonlinear Gaussians. Messages are told apart by their text unless an id holds a line break (refuted there; ids without line breaks partial)."
  },
  {
   "property": "C158",
   "status": "partial",
   "theorems": [
    "c158_none",
    "c158_fresh_refuted",
    "c158_again_partial"
   ],
   "note": "The neighbours are gone, but messages received from them stay and are divided out of the messages to a neighbour that is added again (refuted); adding a neighbour again gives the messages as before the removal."
  },
  {
   "property": "C159",
   "status": "proved",
   "theorems": [
    "c159_standard",
    "c159_standard_error",
    "c159_inverse",
    "c159_inverse_error",
    "c159_weight"
   ],
   "note": "Proved for all lists of variables and all Gaussians in the stated forms; no variables, repeated variables and covariance-only factors raise."
  },
  {
   "property": "C160",
   "status": "partial",
   "theorems": [
    "c160_constructor",
    "c160_constructor_error",
    "c160_probabilities",
    "c160_dense",
    "c160_make_dense",
    "c160_both_refuted",
    "c160_both_partial"
   ],
   "note": "Construction, probabilities, the test for completeness and completion are proved. The rule \"both\", which no method uses, is wrong for tables with different variables (refuted) and right for tables with the same variables (partial)."
  },
  {
   "property": "C161",
   "status": "proved",
   "theorems": [
    "c161_steps",
    "c161_product",
    "c161_evidence_product",
    "c161_evidence_marginal",
    "c161_elimination",
    "c161_order"
   ],
   "note": "Proved for all lists of tables. The elimination program itself is a client of the library (it is not in the repository); its steps are the modelled operations. The evidence laws hold wherever every step succeeds (C08 says when a reduction fails)."
  },
  {
   "property": "C162",
   "status": "proved",
   "theorems": [
    "c162_elimination",
    "c162_order"
   ],
   "note": "Proved for all lists of positive definite Gaussians with ordinary weights. The elimination program is the same client as in C161."
  },
  {
   "property": "C163",
   "status": "proved",
   "theorems": [
    "c163_row",
    "c163_wide"
   ],
   "note": "Proved for all arrays with two axes; added after a mutation of make_column_vector survived."
  },
  {
   "property": "C164",
   "status": "proved",
   "theorems": [
    "c164_sparse",
    "c164_dense"
   ],
   "note": "Proved for all tables over the same variables; added after mutations of the clamping survived (with both factors normalised the divergence is never negative)."
  },
  {
   "property": "C165",
   "status": "proved",
   "theorems": [
    "c165_bad_covariance"
   ],
   "note": "Proved for all covariances of the right shape; added after a mutation of the logarithm survived."
  },
  {
   "property": "C166",
   "status": "proved",
   "theorems": [
    "c166_sparse",
    "c166_dense",
    "c166_gaussian",
    "c166_mixture",
    "c166_factorised",
    "c166_factorised_sparse",
    "c166_factorised_dense",
    "c166_nonlinear"
   ],
   "note": "Proved for all six classes; added after mutations of Gaussian.copy survived the theorems of the Gaussian file. The flag of a copied Gaussian is stated exactly."
  },
  {
   "property": "C167",
   "status": "proved",
   "theorems": [
    "c167_steps",
    "c167_evidence_product",
    "c167_elimination",
    "c167_order"
   ],
   "note": "Proved for all lists of dense tables with shared cardinalities (at least two values each) and names; entries may be zero. Marginals in a row are listed in the order of the table (C99); the law of evidence holds wherever every step succeeds. Potentials are compared at assignments within the cardinalities of the remaining variables. The elimination program is the same client as in C161."
  },
  {
   "property": "C168",
   "status": "proved",
   "theorems": [
    "c168_sparse",
    "c168_dense",
    "c168_gaussian"
   ],
   "note": "Proved for `observe` (the alias of `reduce` in the base class) of the three classes with closed-form results, with existence of every step. A Gaussian keeps at least one variable, because observing all of them fails (C41)."
  }
 ]
}