{"id": "C01", "title": "Sparse product is the pointwise product", "statement": "Multiplying two SparseCategorical factors whose missing entries mean probability zero, and whose shared variables have equal cardinalities, succeeds and gives a factor whose scope is exactly the union of the two scopes, without repetition, with each variable keeping its cardinality, and whose potential at every joint assignment is the product of the two potentials at that assignment.", "quantifier": "all well-formed sparse tables with zero default, all scopes (same, nested, overlapping, disjoint), all variable orders, every iteration order Python may choose for its sets", "why_tests_cant": "The claim ranges over unboundedly many scopes, cardinalities, tables and hash orders; tests sample a handful of two- or three-variable tables under one hash seed.", "anchors": ["veroku/factors/sparse_categorical.py:SparseCategorical.multiply", "veroku/factors/sparse_categorical.py:SparseCategorical._apply_binary_operator", "veroku/factors/sparse_categorical.py:_get_nested_sorted_probs", "veroku/factors/sparse_categorical.py:_any_scope_binary_operation", "veroku/factors/sparse_categorical.py:_same_scope_binary_operation", "veroku/factors/sparse_categorical.py:_flatten_ntd"]}
{"id": "C02", "title": "Sparse product with a non-zero default", "statement": "The product rule of C01 also holds for factors constructed with a finite default_log_prob (missing entries mean a positive probability).", "quantifier": "all pairs of sparse factors with one common default log probability", "why_tests_cant": "No test multiplies factors with a finite default and differing scopes; the claim is over all defaults and tables.", "anchors": ["veroku/factors/sparse_categorical.py:SparseCategorical.multiply", "veroku/factors/sparse_categorical.py:_apply_any_scope_binary_opp"]}
{"id": "C03", "title": "Order of multiplication does not matter", "statement": "Multiplying sparse (zero default) factors in any order and any grouping gives factors with the same scope as a set and the same potential at every assignment.", "quantifier": "all lists of well-formed sparse factors with consistent cardinalities and all permutations of them", "why_tests_cant": "The claim ranges over unboundedly many scopes, cardinalities, tables and hash orders; tests sample a handful of two- or three-variable tables under one hash seed.", "anchors": ["veroku/factors/sparse_categorical.py:SparseCategorical.multiply"]}
{"id": "C04", "title": "Sparse division is the pointwise quotient", "statement": "Dividing one SparseCategorical by another (equal defaults, consistent cardinalities) succeeds and the log potential of the result at every joint in-range assignment is the difference of the two log potentials, where missing entries have the default value, including the IEEE conventions for infinities.", "quantifier": "all pairs of well-formed sparse factors with the same (comparable) default, all scopes and orders", "why_tests_cant": "The claim ranges over unboundedly many scopes, cardinalities, tables and hash orders; tests sample a handful of two- or three-variable tables under one hash seed.", "anchors": ["veroku/factors/sparse_categorical.py:SparseCategorical.divide", "veroku/factors/sparse_categorical.py:_any_scope_bin_opp_none", "veroku/factors/sparse_categorical.py:_make_inner_dense", "veroku/factors/sparse_categorical.py:_make_dense_default_probs_dict"]}
{"id": "C05", "title": "Quotients can be used in further arithmetic", "statement": "The factor returned by dividing two ordinary (zero default) sparse factors can be multiplied with another ordinary sparse factor.", "quantifier": "all pairs of zero-default sparse factors", "why_tests_cant": "Tests only compare the quotient against an expected table; they never compose it with a further operation.", "anchors": ["veroku/factors/sparse_categorical.py:SparseCategorical.divide", "veroku/factors/sparse_categorical.py:SparseCategorical._apply_binary_operator"]}
{"id": "C06", "title": "Cancel undoes multiply", "statement": "For zero-default sparse factors a and b with the scope of b contained in the scope of a, cancelling b from a*b gives back the potential of a wherever b is non-zero and zero wherever b is zero; in particular 0/0 gives 0 and never an undefined value.", "quantifier": "all well-formed sparse factors a, b with scope(b) inside scope(a) and non-empty table b", "why_tests_cant": "The claim ranges over unboundedly many scopes, cardinalities, tables and hash orders; tests sample a handful of two- or three-variable tables under one hash seed.", "anchors": ["veroku/factors/sparse_categorical.py:SparseCategorical.cancel"]}
{"id": "C07", "title": "Sparse marginal is the sum over the removed variables", "statement": "Marginalising a zero-default SparseCategorical onto a sub-list of its variables (in any order, keep=True) or away from a list (keep=False) gives a factor over exactly the kept variables whose potential at each assignment is the sum of the original potential over all values of the removed variables; the total weight is unchanged.", "quantifier": "all well-formed sparse factors, all subsets and orders of kept variables, all set iteration orders", "why_tests_cant": "The claim ranges over unboundedly many scopes, cardinalities, tables and hash orders; tests sample a handful of two- or three-variable tables under one hash seed.", "anchors": ["veroku/factors/sparse_categorical.py:SparseCategorical.marginalize", "veroku/factors/_factor.py:Factor.get_marginal_vars"]}
{"id": "C08", "title": "Sparse reduce is restriction", "statement": "Observing values for some variables of a sparse factor returns a factor over the unobserved variables in their original order whose potential equals the original at the combined assignment; this holds for every in-range observation, including observations of zero probability.", "quantifier": "all well-formed sparse factors, all subsets of variables, all in-range values", "why_tests_cant": "The failing case is evidence that matches no stored entry; tests only observe values that occur in the table.", "anchors": ["veroku/factors/sparse_categorical.py:SparseCategorical.reduce"]}
{"id": "C09", "title": "Sparse potential look-up respects the given variable order", "statement": "SparseCategorical.potential(vrs, assignment) returns the factor's value at the assignment that gives vrs[i] the value assignment[i], for every ordering vrs of the scope and every in-range assignment.", "quantifier": "all factors, all permutations of the scope, all in-range assignments", "why_tests_cant": "The only test uses the factor's own order of two variables; two-variable permutations are self-inverse so they cannot expose an inverted permutation.", "anchors": ["veroku/factors/sparse_categorical.py:SparseCategorical.potential"]}
{"id": "C10", "title": "Sparse normalisation", "statement": "Normalising a zero-default sparse factor with positive total weight multiplies every potential by one common positive constant and makes the potentials sum to one over all assignments.", "quantifier": "all well-formed sparse factors of positive finite weight", "why_tests_cant": "The claim ranges over unboundedly many scopes, cardinalities, tables and hash orders; tests sample a handful of two- or three-variable tables under one hash seed.", "anchors": ["veroku/factors/sparse_categorical.py:SparseCategorical.normalize", "veroku/factors/sparse_categorical.py:SparseCategorical.weight"]}
{"id": "C11", "title": "Sparse KL divergence is the Kullback-Leibler divergence", "statement": "For zero-default sparse factors of positive weight with the same scope, kl_divergence returns the sum over all assignments of p*log(p/q) of the normalised factors (0 where p=0, +inf where p>0=q), is never negative, never raises the 'Negative KLD' error, and is zero exactly when the normalised factors are the same distribution.", "quantifier": "all pairs of well-formed sparse factors with the same scope in any order", "why_tests_cant": "The claim ranges over unboundedly many scopes, cardinalities, tables and hash orders; tests sample a handful of two- or three-variable tables under one hash seed.", "anchors": ["veroku/factors/sparse_categorical.py:SparseCategorical.kl_divergence", "veroku/factors/sparse_categorical.py:SparseCategorical._raw_kld"]}
{"id": "C12", "title": "Sparse distance from vacuous", "statement": "distance_from_vacuous of a zero-default sparse factor of positive weight is the KL divergence of its normalisation from the uniform distribution over all assignments; it is non-negative, and zero exactly when the factor is constant over all assignments.", "quantifier": "all well-formed sparse factors of positive weight", "why_tests_cant": "The claim ranges over unboundedly many scopes, cardinalities, tables and hash orders; tests sample a handful of two- or three-variable tables under one hash seed.", "anchors": ["veroku/factors/sparse_categorical.py:SparseCategorical.distance_from_vacuous", "veroku/factors/sparse_categorical.py:SparseCategorical._apply_to_probs"]}
{"id": "C13", "title": "Sparse reorder and equality", "statement": "Reordering the variables of a zero-default sparse factor does not change its potential; the factor equals each of its reorderings (finite or zero entries); equality is symmetric.", "quantifier": "all well-formed sparse factors and all permutations of the scope; all pairs for symmetry", "why_tests_cant": "The claim ranges over unboundedly many scopes, cardinalities, tables and hash orders; tests sample a handful of two- or three-variable tables under one hash seed.", "anchors": ["veroku/factors/sparse_categorical.py:SparseCategorical.reorder", "veroku/factors/sparse_categorical.py:SparseCategorical.equals", "veroku/factors/sparse_categorical.py:SparseCategorical._all_non_default_equal"]}
{"id": "C14", "title": "Sparse argmax", "statement": "argmax of a non-empty zero-default sparse factor returns an assignment whose potential is at least that of every assignment.", "quantifier": "all well-formed non-empty sparse factors", "why_tests_cant": "The claim ranges over unboundedly many scopes, cardinalities, tables and hash orders; tests sample a handful of two- or three-variable tables under one hash seed.", "anchors": ["veroku/factors/sparse_categorical.py:SparseCategorical.argmax"]}
{"id": "C15", "title": "Dense product and quotient are pointwise", "statement": "Multiplying (dividing) two dense Categorical factors with consistent cardinalities and assignment names gives a factor over the union of the scopes whose log potential at every joint assignment is the sum (difference) of the two log potentials, whatever the variable orders; division requires the divisor's scope to be inside the dividend's.", "quantifier": "all pairs of dense factors, all scopes and all variable orders", "why_tests_cant": "The claim ranges over unboundedly many scopes, cardinalities, tables and hash orders; tests sample a handful of two- or three-variable tables under one hash seed.", "anchors": ["veroku/factors/categorical.py:Categorical.tensor_operation", "veroku/factors/categorical.py:Categorical.multiply", "veroku/factors/categorical.py:Categorical.divide"]}
{"id": "C16", "title": "Dense marginal is the sum over the removed variables", "statement": "Marginalising a dense Categorical onto any list of its variables (any order), or away from any list, gives the factor over those variables whose potential is the sum over the removed variables.", "quantifier": "all dense factors, all kept sub-lists in all orders, all cardinalities including one, all set iteration orders", "why_tests_cant": "The tests keep one variable, or keep variables in the factor's own order, with all cardinalities at least two.", "anchors": ["veroku/factors/categorical.py:Categorical.marginalize", "veroku/factors/_factor.py:Factor.get_marginal_vars"]}
{"id": "C17", "title": "Dense reduce is restriction", "statement": "Observing in-range values for any subset of a dense factor's variables gives the factor over the unobserved variables (original order) with the original's values at the combined assignment; an out-of-range value raises an IndexError.", "quantifier": "all dense factors, all subsets and values", "why_tests_cant": "The claim ranges over unboundedly many scopes, cardinalities, tables and hash orders; tests sample a handful of two- or three-variable tables under one hash seed.", "anchors": ["veroku/factors/categorical.py:Categorical.reduce"]}
{"id": "C18", "title": "Dense reorder and potential respect names", "statement": "Reordering a dense factor to any permutation of its scope keeps the value at every named assignment, and potential(vrs, assignment) returns the value at the assignment vrs[i]=assignment[i] for every ordering of the scope.", "quantifier": "all dense factors and all permutations", "why_tests_cant": "The claim ranges over unboundedly many scopes, cardinalities, tables and hash orders; tests sample a handful of two- or three-variable tables under one hash seed.", "anchors": ["veroku/factors/categorical.py:Categorical.reorder", "veroku/factors/categorical.py:Categorical.potential"]}
{"id": "C19", "title": "Dense cancel is division with 0/0 = 0", "statement": "For dense factors a and b with consistent cardinalities and scope(b) inside scope(a), cancel succeeds and gives at every assignment the quotient of the potentials, with 0/0 = 0, whatever the variable orders.", "quantifier": "all pairs of dense factors with nested scopes, all orders, all patterns of zeros", "why_tests_cant": "Tests of cancel with zeros use identical scopes and orders; tests with different scopes have no zeros.", "anchors": ["veroku/factors/categorical.py:Categorical.cancel"]}
{"id": "C20", "title": "Dense equality", "statement": "Equality of dense factors does not depend on the order of variables, is reflexive on factors without undefined values, and is symmetric.", "quantifier": "all pairs of dense factors", "why_tests_cant": "Symmetry fails only for values straddling the relative tolerance; tests compare equal or clearly different factors.", "anchors": ["veroku/factors/categorical.py:Categorical.equals"]}
{"id": "C21", "title": "Dense argmax", "statement": "argmax of a dense factor with at least one assignment returns the first assignment in lexicographic order whose potential is at least that of every assignment.", "quantifier": "all dense factors without undefined values", "why_tests_cant": "The claim ranges over unboundedly many scopes, cardinalities, tables and hash orders; tests sample a handful of two- or three-variable tables under one hash seed.", "anchors": ["veroku/factors/categorical.py:Categorical.argmax", "veroku/factors/categorical.py:Categorical.argmax_assignment_names"]}
{"id": "C22", "title": "Dense KL divergence", "statement": "For dense factors over the same variables with positive finite weight, kl_divergence is the Kullback-Leibler divergence of the normalised factors: non-negative, never raising the 'Negative KLD' error, zero exactly for equal distributions, whatever the variable orders; distance_from_vacuous is the divergence from uniform.", "quantifier": "all pairs of dense factors with equal scope sets", "why_tests_cant": "The claim ranges over unboundedly many scopes, cardinalities, tables and hash orders; tests sample a handful of two- or three-variable tables under one hash seed.", "anchors": ["veroku/factors/categorical.py:Categorical.kl_divergence", "veroku/factors/categorical.py:Categorical._raw_kld", "veroku/factors/categorical.py:Categorical.distance_from_vacuous", "veroku/factors/categorical.py:Categorical.normalize"]}
{"id": "C23", "title": "Sparse and dense tables agree", "statement": "Building a SparseCategorical and a Categorical from the same probability dictionary gives the same potentials, and multiplication and restriction on the two representations give factors with the same potentials.", "quantifier": "all dictionaries with in-range keys and non-negative values; all pairs for the operations", "why_tests_cant": "The claim ranges over unboundedly many scopes, cardinalities, tables and hash orders; tests sample a handful of two- or three-variable tables under one hash seed.", "anchors": ["veroku/factors/sparse_categorical.py:SparseCategorical.__init__", "veroku/factors/categorical.py:Categorical.__init__"]}
{"id": "C24", "title": "Cluster identifiers are unique", "statement": "Whatever the factors' scopes and variable names (including names with commas, digits or '#'), the clusters of a ClusterGraph get pairwise different identifiers, so construction never fails with the 'Non-unique cluster ids' error.", "quantifier": "all lists of factors, all variable-name strings", "why_tests_cant": "Name collisions depend on adversarial strings; tests use a few short names.", "anchors": ["veroku/cluster_graph.py:ClusterGraph.__init__", "veroku/cluster_graph.py:ClusterGraph._build_graph", "veroku/_cg_helpers/_cluster.py:Cluster.__init__"]}
{"id": "C25", "title": "Absorbing sub-scope factors uses every factor exactly once", "statement": "The cluster factors built from the input factors are products of groups of input factors, the groups partition the input (every factor is used exactly once), and so the product of all cluster potentials equals the product of all input potentials.", "quantifier": "all lists of factors in all orders", "why_tests_cant": "The claim ranges over unboundedly many scopes, cardinalities, tables and hash orders; tests sample a handful of two- or three-variable tables under one hash seed.", "anchors": ["veroku/cluster_graph.py:_absorb_subset_factors"]}
{"id": "C26", "title": "No cluster scope is strictly inside another", "statement": "After construction no cluster's scope is a strict subset of another cluster's scope.", "quantifier": "all lists of factors in all orders", "why_tests_cant": "Depends on the order of the input list with at least three nested factors.", "anchors": ["veroku/cluster_graph.py:_absorb_subset_factors"]}
{"id": "C27", "title": "Running intersection", "statement": "For every unobserved variable, the edges of the graph whose sepset contains the variable connect exactly the clusters whose scope contains the variable, and they form a tree (connected, no cycle).", "quantifier": "all lists of cluster scopes, all evidence sets, all set iteration orders", "why_tests_cant": "Connectivity and acyclicity of a constructed graph for all scope families.", "anchors": ["veroku/cluster_graph.py:ClusterGraph._get_running_intersection_sepsets", "veroku/cluster_graph.py:ClusterGraph._get_vars_min_spanning_trees", "veroku/cluster_graph.py:ClusterGraph._set_non_rip_sepsets_dict"]}
{"id": "C28", "title": "Sepsets are sane", "statement": "Every edge's sepset is non-empty, has no repeated variable, is contained in the scopes of both end clusters, contains no observed variable, and both end clusters store the same sepset; the 'empty sepset' and 'cant add neighbour' assertions never fire.", "quantifier": "all lists of cluster scopes, all evidence sets, all set iteration orders", "why_tests_cant": "The claim ranges over unboundedly many scopes, cardinalities, tables and hash orders; tests sample a handful of two- or three-variable tables under one hash seed.", "anchors": ["veroku/cluster_graph.py:ClusterGraph._build_graph", "veroku/_cg_helpers/_cluster.py:Cluster.add_neighbour"]}
{"id": "C29", "title": "Evidence reduction is restriction of the joint", "statement": "The product of the cluster factors of a graph built with evidence equals the product of the original factors restricted to the observed values (when every restricted factor exists).", "quantifier": "all lists of sparse factors and all evidence dictionaries, including evidence on variables outside the graph", "why_tests_cant": "The claim ranges over unboundedly many scopes, cardinalities, tables and hash orders; tests sample a handful of two- or three-variable tables under one hash seed.", "anchors": ["veroku/cluster_graph.py:_evidence_reduce_factors", "veroku/factors/_factor_utils.py:get_subset_evidence"]}
{"id": "C30", "title": "No stale messages", "statement": "At every moment between message passes, the message waiting on each path equals the message its sending cluster would compute from its current state.", "quantifier": "all graphs, all factor types, all sequences of message passes along any paths (not only the scheduled ones)", "why_tests_cant": "A history property over unbounded schedules.", "anchors": ["veroku/cluster_graph.py:_GraphMessagePath.pass_next_message", "veroku/cluster_graph.py:_GraphMessagePath.recompute_next_message", "veroku/_cg_helpers/_cluster.py:Cluster.make_message", "veroku/_cg_helpers/_cluster.py:Cluster.receive_message"]}
{"id": "C31", "title": "Message passing never changes the joint distribution", "statement": "After any sequence of message passes along any paths, every cluster potential is its initial potential times the messages it last received, and the product of the cluster potentials divided (0/0=0) by the product of all last-sent messages equals the product of the initial cluster potentials at every assignment.", "quantifier": "all cluster graphs over non-negative (zeros allowed) tables, all finite sequences of passes in any order, including repeated passes", "why_tests_cant": "A history property over unbounded schedules and tables with zeros.", "anchors": ["veroku/_cg_helpers/_cluster.py:Cluster.make_message", "veroku/_cg_helpers/_cluster.py:Cluster.receive_message", "veroku/cluster_graph.py:_GraphMessagePath.pass_next_message"]}
{"id": "C32", "title": "get_posterior_joint returns the joint", "statement": "get_posterior_joint returns a factor equal to the product of the (evidence reduced) input factors, at any time: before processing, after processing, and after an early stop.", "quantifier": "all graphs and all histories", "why_tests_cant": "Tests call it only after full processing, when every path has been used.", "anchors": ["veroku/cluster_graph.py:ClusterGraph.get_posterior_joint", "veroku/cluster_graph.py:ClusterGraph._last_passed_message_factors"]}
{"id": "C33", "title": "Processing terminates within the advertised bound", "statement": "process_graph passes at most max_iter times (number of message paths) messages, increases num_messages_passed by exactly the number of passes, and records exactly one convergence distance per pass.", "quantifier": "all graphs, factor types, tolerances and iteration limits", "why_tests_cant": "Bound over all graphs and message values.", "anchors": ["veroku/cluster_graph.py:ClusterGraph.process_graph"]}
{"id": "C34", "title": "Greedy schedule", "statement": "Every message passed by process_graph is, at the moment it is passed, one with maximal information gain among all paths.", "quantifier": "all graphs and all steps of all runs with comparable gains", "why_tests_cant": "A property of each step of an unbounded run.", "anchors": ["veroku/cluster_graph.py:ClusterGraph.process_graph"]}
{"id": "C35", "title": "Early stop means converged", "statement": "If process_graph stops before the iteration limit, then every path's next information gain is at most tol; if it does not, the number of passes is exactly the limit.", "quantifier": "all graphs, tolerances and limits", "why_tests_cant": "A property of the final state of an unbounded run.", "anchors": ["veroku/cluster_graph.py:ClusterGraph.process_graph"]}
{"id": "C36", "title": "Calibrated trees give exact marginals", "statement": "If the cluster graph is a tree and no path has a changed message to send, then get_marginal returns exactly the marginal of the product of the input factors (unnormalised) for any variables contained in a cluster.", "quantifier": "all tree-shaped cluster graphs over non-negative tables, all calibrated states", "why_tests_cant": "Exactness of inference over all models; tests compare a few numbers.", "anchors": ["veroku/cluster_graph.py:ClusterGraph.get_marginal", "veroku/cluster_graph.py:ClusterGraph.process_graph", "veroku/_cg_helpers/_cluster.py:Cluster.make_message"]}
{"id": "C37", "title": "get_marginal look-up", "statement": "get_marginal(vrs) answers from the first cluster whose scope contains all of vrs and raises ValueError exactly when no cluster contains them; special evidence in that scope is observed first.", "quantifier": "all graphs and queries", "why_tests_cant": "All scope families.", "anchors": ["veroku/cluster_graph.py:ClusterGraph.get_marginal"]}
{"id": "C38", "title": "Processing a single-cluster graph twice", "statement": "Calling process_graph again on a graph with one cluster has no further effect.", "quantifier": "all single-cluster graphs with special evidence", "why_tests_cant": "Requires a second call, which no test makes.", "anchors": ["veroku/cluster_graph.py:ClusterGraph.process_graph"]}
{"id": "C39", "title": "Almost-sorted repair", "statement": "Given a sequence of at least two elements whose tail after the first element is in descending order, _sort_almost_sorted returns a descending rearrangement of the sequence.", "quantifier": "all sequences and keys", "why_tests_cant": "All lengths and key ties.", "anchors": ["veroku/cluster_graph.py:_sort_almost_sorted"]}
{"id": "C40", "title": "Gaussian product and quotient add and subtract log potentials", "statement": "Multiplying (dividing) two Gaussians gives a Gaussian over the union of the variables (for division: with the missing variables treated as vacuous) whose log potential at every real assignment is the sum (difference) of the log potentials, whatever the variable orders; multiplying then dividing by the same factor restores the log potential.", "quantifier": "all dimensions, all canonical parameters, all overlapping patterns and orders", "why_tests_cant": "All dimensions and real parameters.", "anchors": ["veroku/factors/gaussian.py:Gaussian._absorb_or_cancel", "veroku/factors/gaussian.py:Gaussian.multiply", "veroku/factors/gaussian.py:Gaussian.divide", "veroku/factors/_factor_utils.py:indexed_square_matrix_operation", "veroku/factors/_factor_utils.py:indexed_column_vector_operation"]}
{"id": "C41", "title": "Gaussian reduce is restriction", "statement": "Observing any proper subset of the variables of a Gaussian (symmetric precision) gives the Gaussian over the remaining variables whose log potential equals the original at the combined assignment; observing all variables gives the constant.", "quantifier": "all dimensions, parameters, subsets and values", "why_tests_cant": "All dimensions and real parameters.", "anchors": ["veroku/factors/gaussian.py:Gaussian.reduce"]}
{"id": "C42", "title": "Gaussian covariance and canonical forms agree", "statement": "Converting a Gaussian with invertible symmetric covariance to canonical form and back returns the same mean, covariance and log weight, and the log potential is the same in both forms.", "quantifier": "all dimensions and parameters", "why_tests_cant": "All dimensions and real parameters.", "anchors": ["veroku/factors/gaussian.py:Gaussian._update_canform", "veroku/factors/gaussian.py:Gaussian._update_covform", "veroku/factors/gaussian.py:Gaussian.log_potential"]}
{"id": "C43", "title": "Gaussian marginal does not depend on the representation", "statement": "Marginalising in canonical form (Schur complement) and marginalising in covariance form (dropping rows and columns) give the same Gaussian, with the log weight preserved.", "quantifier": "all dimensions, all kept subsets and orders, all parameters with invertible blocks", "why_tests_cant": "All dimensions and real parameters.", "anchors": ["veroku/factors/gaussian.py:Gaussian.marginalize", "veroku/factors/gaussian.py:Gaussian._canform_marginalise"]}
{"id": "C44", "title": "Gaussian reorder keeps the function", "statement": "Reordering the variables of a Gaussian keeps its log potential at every named assignment.", "quantifier": "all permutations and parameters", "why_tests_cant": "All dimensions.", "anchors": ["veroku/factors/gaussian.py:Gaussian._reorder_parameters"]}
{"id": "C45", "title": "Comparing Gaussians does not modify them", "statement": "equals never changes its arguments, and two Gaussians that compare equal have (up to tolerance) the same parameters.", "quantifier": "all pairs of Gaussians", "why_tests_cant": "Tests do not inspect the argument after comparison and do not compare vacuous factors with different parameters.", "anchors": ["veroku/factors/gaussian.py:Gaussian.equals"]}
{"id": "C46", "title": "Sigma points carry the moments", "statement": "The sigma points generated for a mean and a covariance factor L have exactly that mean and exactly the covariance L L^T (population covariance).", "quantifier": "all dimensions, means and factors L", "why_tests_cant": "All dimensions.", "anchors": ["veroku/factors/_sigma_points.py:get_sigma_points_array", "veroku/factors/_sigma_points.py:sigma_points_array_to_joint_params"]}
{"id": "C47", "title": "Splitting a Gaussian preserves its first three moments", "statement": "Splitting a one-dimensional Gaussian into a mixture preserves total weight, mean and variance.", "quantifier": "all means, variances and log weights", "why_tests_cant": "All real parameters; tests use weight one.", "anchors": ["veroku/factors/gaussian.py:Gaussian._split_gaussian"]}
{"id": "C48", "title": "Moment matching", "statement": "Collapsing a Gaussian mixture to a single Gaussian preserves total weight, mean and covariance of the mixture.", "quantifier": "all mixtures with positive weights, all dimensions", "why_tests_cant": "All sizes and parameters.", "anchors": ["veroku/factors/experimental/gaussian_mixture.py:GaussianMixture.moment_match_to_single_gaussian"]}
{"id": "C49", "title": "Mixture product distributes", "statement": "The potential of the product of two Gaussian mixtures at every assignment is the product of their potentials.", "quantifier": "all mixtures", "why_tests_cant": "All sizes and parameters.", "anchors": ["veroku/factors/experimental/gaussian_mixture.py:GaussianMixture.multiply", "veroku/factors/experimental/gaussian_mixture.py:GaussianMixture.potential"]}
{"id": "C50", "title": "Mixture equality", "statement": "Two mixtures with the same components in any order are equal, and equal mixtures have the same components.", "quantifier": "all pairs of mixtures", "why_tests_cant": "Needs permuted or duplicated components.", "anchors": ["veroku/factors/experimental/gaussian_mixture.py:GaussianMixture.equals"]}
{"id": "C51", "title": "Factorised product keeps the joint", "statement": "Multiplying a factorised factor by a factor multiplies its joint potential by that factor at every assignment.", "quantifier": "all lists of factors", "why_tests_cant": "All lists and scopes.", "anchors": ["veroku/factors/experimental/factorised_factor.py:FactorizedFactor.multiply", "veroku/factors/experimental/factorised_factor.py:FactorizedFactor.joint_distribution"]}
{"id": "C52", "title": "Factorised marginal is the marginal of the joint", "statement": "Marginalising a factorised factor represents the same function as marginalising its joint distribution.", "quantifier": "all lists of factors and kept variables", "why_tests_cant": "Needs chains of overlapping factors.", "anchors": ["veroku/factors/experimental/factorised_factor.py:FactorizedFactor.marginalize", "veroku/factors/experimental/factorised_factor.py:FactorizedFactor._merge_factors_with_shared_scope"]}
{"id": "C53", "title": "Factorised equality", "statement": "Factorised equality is reflexive, and equal factorised factors represent the same list of factors up to order.", "quantifier": "all lists of factors", "why_tests_cant": "Needs duplicates.", "anchors": ["veroku/factors/experimental/factorised_factor.py:FactorizedFactor.equals"]}
{"id": "C54", "title": "Indexed matrix and vector operations align by name", "statement": "indexed_square_matrix_operation and indexed_column_vector_operation return a variable list that is the union of the two lists without repetition, and entries equal to the operation applied to the operands' entries for the same variable names, with missing entries read as zero.", "quantifier": "all duplicate-free variable lists, matrices, vectors and operations", "why_tests_cant": "All sizes and orders.", "anchors": ["veroku/factors/_factor_utils.py:indexed_square_matrix_operation", "veroku/factors/_factor_utils.py:indexed_column_vector_operation"]}
{"id": "C55", "title": "Small list helpers", "statement": "get_subset_evidence returns exactly the observed variables among the given ones in the given order with their values; remove_duplicate_values keeps one representative of each value in order of first occurrence; format_list_elements formats every element.", "quantifier": "all lists and dictionaries", "why_tests_cant": "All lists.", "anchors": ["veroku/factors/_factor_utils.py:get_subset_evidence", "veroku/factors/_factor_utils.py:remove_duplicate_values", "veroku/factors/_factor_utils.py:format_list_elements"]}
{"id": "C56", "title": "Positive models never crash", "statement": "If some assignment consistent with the evidence has positive probability, then building a ClusterGraph of sparse factors never raises, and in any reachable state every message pass and every process_graph call succeeds (for a single cluster: when the special evidence lies in its scope).", "quantifier": "all lists of well formed sparse factors with consistent cardinalities, evidence, tolerances, limits and histories", "why_tests_cant": "The exception paths depend on the tables' zero patterns and on the schedule.", "anchors": ["veroku/cluster_graph.py:ClusterGraph.__init__", "veroku/cluster_graph.py:ClusterGraph.process_graph", "veroku/_cg_helpers/_cluster.py:Cluster.make_message"]}
{"id": "C57", "title": "Early stop with zero tolerance is exact on trees", "statement": "If process_graph with tol <= 0 stops before its limit on a tree-shaped graph, every marginal it answers is the true marginal up to one positive factor.", "quantifier": "all tree-shaped cluster graphs over non-negative tables with a positive assignment, all histories", "why_tests_cant": "Exactness of inference after an unbounded run.", "anchors": ["veroku/cluster_graph.py:ClusterGraph.process_graph", "veroku/cluster_graph.py:ClusterGraph.get_marginal"]}
{"id": "C58", "title": "Two sweeps calibrate a tree", "statement": "Passing a message along every edge of a tree towards a root and then back away from it makes every marginal exact, from any reachable state; such a schedule exists for every root and has two passes per edge.", "quantifier": "all tree-shaped cluster graphs over non-negative tables, all roots, all starting states", "why_tests_cant": "All trees and tables with zeros.", "anchors": ["veroku/cluster_graph.py:_GraphMessagePath.pass_next_message", "veroku/_cg_helpers/_cluster.py:Cluster.make_message", "veroku/_cg_helpers/_cluster.py:Cluster.receive_message"]}
{"id": "C59", "title": "Greedy message passing converges on trees", "statement": "On a tree-shaped graph there is a number N, depending only on the graph, such that no process_graph call with tol >= 0 passes more than N messages; with a limit above N all remaining information gains are at most tol, and with tol = 0 every marginal is then exact up to a positive factor.", "quantifier": "all tree-shaped cluster graphs over non-negative tables with a positive assignment, all tolerances >= 0, all histories", "why_tests_cant": "Termination of a data dependent schedule over all tables.", "anchors": ["veroku/cluster_graph.py:ClusterGraph.process_graph"]}
{"id": "C60", "title": "Sigma points are exact through affine maps", "statement": "For an affine transform y = A x + b the joint covariance and mean computed from transformed sigma points are exactly those of (x, y).", "quantifier": "all dimensions, means, positive definite covariances and affine maps", "why_tests_cant": "All dimensions and real parameters.", "anchors": ["veroku/factors/_sigma_points.py:sigma_points_array_to_joint_params", "veroku/factors/_sigma_points.py:get_sigma_points_array"]}
{"id": "C61", "title": "Normalising a mixture", "statement": "The log weight of a mixture is the logarithm of the sum of the component weights; normalising gives a mixture of log weight zero whose potential is the old potential divided by the old weight at every assignment.", "quantifier": "all mixtures with finite weights", "why_tests_cant": "All sizes and parameters.", "anchors": ["veroku/factors/experimental/gaussian_mixture.py:GaussianMixture.normalize", "veroku/factors/experimental/gaussian_mixture.py:GaussianMixture.get_log_weight"]}
{"id": "C62", "title": "Observing variables of a mixture", "statement": "Reducing a mixture to observed values of some of its variables gives the mixture over the other variables with the same potential at every consistent assignment.", "quantifier": "all mixtures with symmetric precisions, all proper subsets and values", "why_tests_cant": "All sizes and parameters.", "anchors": ["veroku/factors/experimental/gaussian_mixture.py:GaussianMixture.reduce"]}
{"id": "C63", "title": "Marginal of a mixture", "statement": "Marginalising a mixture marginalises every component (means and covariances restricted, component weights kept) and keeps the total weight.", "quantifier": "all mixtures of positive definite components, all kept subsets and orders", "why_tests_cant": "All sizes and parameters.", "anchors": ["veroku/factors/experimental/gaussian_mixture.py:GaussianMixture.marginalize", "veroku/factors/experimental/gaussian_mixture.py:GaussianMixture.get_log_weight"]}
{"id": "C64", "title": "Log potential of a mixture", "statement": "The log potential of a mixture is the logarithm of its potential at every assignment.", "quantifier": "all mixtures and assignments", "why_tests_cant": "All sizes and parameters.", "anchors": ["veroku/factors/experimental/gaussian_mixture.py:GaussianMixture.log_potential", "veroku/factors/experimental/gaussian_mixture.py:GaussianMixture.potential"]}
{"id": "C65", "title": "Mixture times or divided by a Gaussian", "statement": "Multiplying (dividing) a mixture by a Gaussian multiplies (divides) its potential at every assignment by the potential of the Gaussian.", "quantifier": "all mixtures and Gaussians, all overlaps of variables", "why_tests_cant": "All sizes and parameters.", "anchors": ["veroku/factors/experimental/gaussian_mixture.py:GaussianMixture.multiply", "veroku/factors/experimental/gaussian_mixture.py:GaussianMixture.divide"]}
{"id": "C66", "title": "A marginal is the integral of the potential", "statement": "Marginalising a Gaussian (or a mixture of Gaussians) with positive definite covariance gives the factor whose potential at every assignment of the kept variables is the iterated integral over the real line of the original potential in the other variables, in any order of integration; marginalising in two steps gives the same function as marginalising at once.", "quantifier": "all Gaussians and mixtures with positive definite parameters in any state of the two forms, all kept subsets and orders, all assignments", "why_tests_cant": "All dimensions and parameters.", "anchors": ["veroku/factors/gaussian.py:Gaussian.marginalize", "veroku/factors/experimental/gaussian_mixture.py:GaussianMixture.marginalize"]}
{"id": "C67", "title": "The weight is the total integral", "statement": "The weight of a Gaussian or mixture is the integral of its potential over all variables; normalising a Gaussian keeps mean and covariance, divides the potential by the weight at every assignment, and leaves a factor that integrates to one.", "quantifier": "all Gaussians and mixtures with positive definite parameters, all assignments", "why_tests_cant": "All dimensions and parameters.", "anchors": ["veroku/factors/gaussian.py:Gaussian.get_log_weight", "veroku/factors/gaussian.py:Gaussian.normalize", "veroku/factors/experimental/gaussian_mixture.py:GaussianMixture.get_log_weight"]}
{"id": "C68", "title": "The scope of a factorised product", "statement": "The variable names of the product of a factorised factor and a factor are the union of both scopes.", "quantifier": "all factorised factors and factors", "why_tests_cant": "Needs a factor with a new variable and a later use of the scope.", "anchors": ["veroku/factors/experimental/factorised_factor.py:FactorizedFactor.multiply", "veroku/factors/experimental/factorised_factor.py:FactorizedFactor.__init__"]}
{"id": "C69", "title": "Factorised reduction restricts the joint", "statement": "Reducing a factorised factor on observed variables succeeds and gives a factorised factor over the other variables whose joint potential is that of the original at every assignment that agrees with the observation.", "quantifier": "all factorised factors, observed variables and values", "why_tests_cant": "All lists, scopes and observed sets.", "anchors": ["veroku/factors/experimental/factorised_factor.py:FactorizedFactor.reduce"]}
{"id": "C70", "title": "Factorised normalisation", "statement": "Normalising a factorised factor succeeds and divides its joint by its total integral.", "quantifier": "all factorised factors", "why_tests_cant": "Needs dependent factors.", "anchors": ["veroku/factors/experimental/factorised_factor.py:FactorizedFactor.normalize", "veroku/factors/experimental/factorised_factor.py:FactorizedFactor._merge_dependent_factors"]}
{"id": "C71", "title": "Factorised division divides the joint", "statement": "Dividing a factorised factor by a factor divides the joint potential by that factor at every assignment.", "quantifier": "all factorised factors and divisors", "why_tests_cant": "Needs a divisor close to but different from a factor.", "anchors": ["veroku/factors/experimental/factorised_factor.py:FactorizedFactor.divide"]}
{"id": "C72", "title": "Vacuity of a factorised factor", "statement": "is_vacuous of a factorised factor is true exactly when every factor is vacuous, false exactly when none is, and raises NotImplementedError exactly when both kinds occur; its distance from vacuous is infinite when all factors are positive definite.", "quantifier": "all factorised factors", "why_tests_cant": "Lists of any length.", "anchors": ["veroku/factors/experimental/factorised_factor.py:FactorizedFactor.is_vacuous", "veroku/factors/experimental/factorised_factor.py:FactorizedFactor.distance_from_vacuous"]}
{"id": "C73", "title": "Gaussian mean and covariance are moments", "statement": "get_mean and get_cov of a positive definite Gaussian are, by variable name, the first moments and the central second moments of the potential integrated over the whole space, divided by its weight.", "quantifier": "all positive definite Gaussians of any dimension in any form", "why_tests_cant": "An integral over the whole space of an arbitrary dimension.", "anchors": ["veroku/factors/gaussian.py:Gaussian.get_mean", "veroku/factors/gaussian.py:Gaussian.get_cov", "veroku/factors/gaussian.py:Gaussian._update_covform"]}
{"id": "C74", "title": "Moment matching keeps the moments", "statement": "moment_match_to_single_gaussian gives a Gaussian whose integrals of 1, of each variable and of each product of two variables are those of the mixture.", "quantifier": "all mixtures of positive definite components", "why_tests_cant": "Any number of components and dimensions.", "anchors": ["veroku/factors/experimental/gaussian_mixture.py:GaussianMixture.moment_match_to_single_gaussian"]}
{"id": "C75", "title": "Factorised mean and covariance are moments of the product", "statement": "get_mean and get_cov of a factorised factor are the moments of the product of its factors, listed in the order of its variable names.", "quantifier": "all factorised factors with positive definite factors", "why_tests_cant": "All lists and scopes.", "anchors": ["veroku/factors/experimental/factorised_factor.py:FactorizedFactor.get_mean", "veroku/factors/experimental/factorised_factor.py:FactorizedFactor.get_cov", "veroku/factors/experimental/factorised_factor.py:FactorizedFactor.joint_distribution"]}
{"id": "C76", "title": "Gaussian divergence is the relative entropy", "statement": "kl_divergence of two positive definite Gaussians over the same variables is the integral of p(ln p - ln q) for the two normalised densities, and is never negative.", "quantifier": "all pairs of positive definite Gaussians over the same variables", "why_tests_cant": "All dimensions, forms and variable orders.", "anchors": ["veroku/factors/gaussian.py:Gaussian.kl_divergence"]}
{"id": "C77", "title": "Linear Gaussian construction", "statement": "make_linear_gaussian(A, N, xs, ys) is the conditional density of y = A x + noise with covariance N: its log potential is -1/2 ln det(2 pi N) - 1/2 (y - A x)' inv(N) (y - A x), and it integrates to one over ys for every x.", "quantifier": "all matrices A and positive definite N of any dimensions, all variable names", "why_tests_cant": "Any dimension, all assignments, and an integral.", "anchors": ["veroku/factors/gaussian.py:make_linear_gaussian"]}
{"id": "C78", "title": "Linear Gaussian template", "statement": "The factors made by a linear Gaussian template are conditional densities with the template's names filled in, so they integrate to one over the conditional variables.", "quantifier": "all square A, positive definite N and templates", "why_tests_cant": "Any dimension, templates and assignments.", "anchors": ["veroku/factors/gaussian.py:make_linear_gaussian_cpd_template", "veroku/factors/gaussian.py:GaussianTemplate.make_factor"]}
{"id": "C79", "title": "Template factors behave like ordinary factors", "statement": "A Gaussian made by a template is not treated as vacuous when its precision is positive definite: its marginals are integrals, and a copy of it has the same flag.", "quantifier": "all positive definite template parameters", "why_tests_cant": "All dimensions and subsets of variables.", "anchors": ["veroku/factors/gaussian.py:GaussianTemplate.make_factor", "veroku/factors/gaussian.py:Gaussian.marginalize", "veroku/factors/gaussian.py:Gaussian.copy"]}
{"id": "C80", "title": "Nonlinear Gaussian joint, affine transforms", "statement": "For a transform x -> A x + b the joint distribution is the conditioning factor times the density of y given x, times the messages received, with the observed variables fixed.", "quantifier": "all dimensions, matrices, offsets, noise covariances, conditioning factors, messages and observations", "why_tests_cant": "Any number of variables and all assignments.", "anchors": ["veroku/factors/experimental/nonlinear_gaussian.py:NonLinearGaussian._recompute_joint", "veroku/factors/experimental/nonlinear_gaussian.py:NonLinearGaussian.joint_distribution"]}
{"id": "C81", "title": "Nonlinear Gaussian joint, any transform", "statement": "For any transform the joint has the mean and covariance of the transformed sigma points with the noise added, the cross covariance of the points, and the conditioning factor as marginal.", "quantifier": "all transforms, dimensions and positive definite conditioning factors", "why_tests_cant": "Every function as transform, any dimension.", "anchors": ["veroku/factors/experimental/nonlinear_gaussian.py:NonLinearGaussian._recompute_joint", "veroku/factors/experimental/nonlinear_gaussian.py:NonLinearGaussian.marginalize"]}
{"id": "C82", "title": "The joint does not depend on how the conditioning factor lists its variables", "statement": "Two conditioning factors that are the same function of their variables give the same joint distribution.", "quantifier": "all transforms, and all pairs of conditioning factors that agree as functions", "why_tests_cant": "All orders of any number of variables.", "anchors": ["veroku/factors/experimental/nonlinear_gaussian.py:NonLinearGaussian._recompute_joint"]}
{"id": "C83", "title": "Nonlinear Gaussian marginals are integrals", "statement": "marginalize returns the integral of the joint over the other variables, whether the variables to keep or those to remove are given.", "quantifier": "all affine transforms, messages, observations and subsets of variables", "why_tests_cant": "An integral over any number of variables.", "anchors": ["veroku/factors/experimental/nonlinear_gaussian.py:NonLinearGaussian.marginalize"]}
{"id": "C84", "title": "Observing variables of a nonlinear Gaussian", "statement": "The joint of the reduced factor is the joint of the factor with the observed variables fixed at their values.", "quantifier": "all affine transforms, subsets of variables and values", "why_tests_cant": "All subsets and values, repeated observations.", "anchors": ["veroku/factors/experimental/nonlinear_gaussian.py:NonLinearGaussian.reduce", "veroku/factors/experimental/nonlinear_gaussian.py:NonLinearGaussian._recompute_joint"]}
{"id": "C85", "title": "Multiplying a nonlinear Gaussian", "statement": "The joint of the product with a Gaussian message is the product of the joint and the message.", "quantifier": "all affine transforms and Gaussian messages on a side of the factor", "why_tests_cant": "All messages and assignments.", "anchors": ["veroku/factors/experimental/nonlinear_gaussian.py:NonLinearGaussian.multiply"]}
{"id": "C86", "title": "Dividing a nonlinear Gaussian", "statement": "The joint of the quotient by a message is the joint divided by the message; dividing undoes multiplying.", "quantifier": "all affine transforms and messages", "why_tests_cant": "All messages and assignments.", "anchors": ["veroku/factors/experimental/nonlinear_gaussian.py:NonLinearGaussian.divide", "veroku/factors/experimental/nonlinear_gaussian.py:NonLinearGaussian.multiply"]}
{"id": "C87", "title": "Mixtures of nonlinear Gaussians", "statement": "The joint of a mixture is the sum of the joints; products with Gaussians and Gaussian mixtures multiply, observations fix variables, marginals are integrals, copies keep their settings.", "quantifier": "all mixtures, messages and observations", "why_tests_cant": "Any number of components, all assignments.", "anchors": ["veroku/factors/experimental/nonlinear_gaussian.py:NonLinearGaussianMixture.multiply", "veroku/factors/experimental/nonlinear_gaussian.py:NonLinearGaussianMixture.joint_distribution", "veroku/factors/experimental/nonlinear_gaussian.py:NonLinearGaussianMixture.reduce", "veroku/factors/experimental/nonlinear_gaussian.py:NonLinearGaussianMixture.marginalize", "veroku/factors/experimental/nonlinear_gaussian.py:NonLinearGaussianMixture.copy"]}
{"id": "C88", "title": "Nonlinear Gaussian equality", "statement": "equals answers True only if the joint distribution and the other factor agree up to the tolerances.", "quantifier": "all factors and tolerances", "why_tests_cant": "All states of the object.", "anchors": ["veroku/factors/experimental/nonlinear_gaussian.py:NonLinearGaussian.equals"]}
{"id": "C89", "title": "Nonlinear Gaussian templates", "statement": "make_factor gives a factor with the formatted or the given names, the template's transform and noise, and no information yet; given names are never ignored.", "quantifier": "all templates, dictionaries and names", "why_tests_cant": "All strings and dictionaries.", "anchors": ["veroku/factors/experimental/nonlinear_gaussian.py:NonLinearGaussianTemplate.make_factor"]}
{"id": "C90", "title": "Evidence restricts Gaussian models", "statement": "The clusters of a constructed graph of Gaussian factors multiply to the product of the input factors at every assignment that agrees with the evidence, and mention exactly the unobserved variables.", "quantifier": "all lists of Gaussian factors with symmetric positive semidefinite precisions, all evidence", "why_tests_cant": "Any number of factors and variables, all real assignments.", "anchors": ["veroku/cluster_graph.py:ClusterGraph.__init__", "veroku/cluster_graph.py:_evidence_reduce_factors", "veroku/cluster_graph.py:_absorb_subset_factors"]}
{"id": "C91", "title": "Gaussian message passing never changes the joint", "statement": "After any history each cluster potential is its initial potential times the messages last received, and the product of the clusters divided by the product of the messages last sent is the initial product.", "quantifier": "all graphs of positive definite Gaussian factors, all histories, all real assignments", "why_tests_cant": "A history property over unbounded schedules and real valued parameters.", "anchors": ["veroku/_cg_helpers/_cluster.py:Cluster.make_message", "veroku/_cg_helpers/_cluster.py:Cluster.receive_message", "veroku/cluster_graph.py:_GraphMessagePath.pass_next_message", "veroku/factors/gaussian.py:Gaussian.cancel"]}
{"id": "C92", "title": "get_posterior_joint of Gaussian graphs", "statement": "get_posterior_joint returns the product of the evidence reduced input factors at any time.", "quantifier": "all graphs of positive definite Gaussian factors and all histories", "why_tests_cant": "Tests call it only after full processing.", "anchors": ["veroku/cluster_graph.py:ClusterGraph.get_posterior_joint"]}
{"id": "C93", "title": "Calibrated Gaussian trees give exact marginals", "statement": "If the cluster graph is a tree and no path has a changed message to send, get_marginal returns the integral of the product of the input factors over all other variables.", "quantifier": "all tree-shaped graphs of positive definite Gaussian factors, all evidence, all calibrated states", "why_tests_cant": "Exactness of inference over all models: an integral over any number of variables.", "anchors": ["veroku/cluster_graph.py:ClusterGraph.get_marginal", "veroku/_cg_helpers/_cluster.py:Cluster.make_message", "veroku/factors/gaussian.py:Gaussian.marginalize"]}
{"id": "C94", "title": "Two sweeps calibrate a Gaussian tree", "statement": "Passing a message along every edge of a tree towards a root and then back makes every marginal answered the integral of the product of the input factors.", "quantifier": "all tree-shaped graphs of positive definite Gaussian factors, all roots, all starting states", "why_tests_cant": "All trees and all parameters.", "anchors": ["veroku/cluster_graph.py:_GraphMessagePath.pass_next_message", "veroku/_cg_helpers/_cluster.py:Cluster.make_message", "veroku/_cg_helpers/_cluster.py:Cluster.receive_message", "veroku/factors/gaussian.py:Gaussian.marginalize"]}
{"id": "C95", "title": "Gaussian graphs never crash", "statement": "Building a graph of Gaussian factors succeeds, and in any reachable state every message pass and every process_graph call succeeds.", "quantifier": "all lists of Gaussian factors, evidence, tolerances, limits and histories", "why_tests_cant": "Singular blocks and evidence patterns that tests do not reach.", "anchors": ["veroku/cluster_graph.py:ClusterGraph.__init__", "veroku/cluster_graph.py:ClusterGraph.process_graph", "veroku/_cg_helpers/_cluster.py:Cluster.make_message", "veroku/factors/gaussian.py:Gaussian.reduce", "veroku/factors/gaussian.py:Gaussian.kl_divergence"]}
{"id": "C96", "title": "Gaussian queries are answered", "statement": "get_marginal answers every query about unobserved variables of one cluster, in any reachable state; for every root there is a schedule with two passes per edge after which all these answers are exact.", "quantifier": "all tree-shaped graphs of positive definite Gaussian factors, all roots and queries", "why_tests_cant": "All models, histories and queries.", "anchors": ["veroku/cluster_graph.py:ClusterGraph.get_marginal", "veroku/cluster_graph.py:_GraphMessagePath.pass_next_message"]}
{"id": "C97", "title": "Greedy Gaussian message passing stops", "statement": "On a tree there is one number N such that every process_graph call with a non-negative tolerance sends at most N messages, and with a larger limit it stops with every information gain within the tolerance.", "quantifier": "all tree-shaped graphs of positive definite Gaussian factors, all histories, tolerances and limits", "why_tests_cant": "Termination of an adaptive schedule over real parameters; tests run it on a few models.", "anchors": ["veroku/cluster_graph.py:ClusterGraph.process_graph", "veroku/cluster_graph.py:_GraphMessagePath.pass_next_message", "veroku/factors/gaussian.py:Gaussian.equals", "veroku/factors/gaussian.py:Gaussian.kl_divergence"]}
{"id": "C98", "title": "Converged Gaussian trees give exact marginals", "statement": "When process_graph stops on a tree because no information gain exceeds a tolerance of zero, the marginals answered are proportional to the integral of the product of the input factors.", "quantifier": "all tree-shaped graphs of positive definite Gaussian factors, all histories", "why_tests_cant": "The stopping rule is decided by approximate equality; tests compare with the same approximate equality.", "anchors": ["veroku/cluster_graph.py:ClusterGraph.process_graph", "veroku/cluster_graph.py:ClusterGraph.get_marginal", "veroku/factors/gaussian.py:Gaussian.equals", "veroku/factors/gaussian.py:Gaussian.kl_divergence"]}
{"id": "C99", "title": "Dense cluster graphs: messages are marginals", "statement": "A cluster graph can be built over any consistent dense tables, and every message waiting on a path, times the message received over the same edge, is the sum of the sender's potential over the variables outside the edge.", "quantifier": "all lists of dense tables with consistent cardinalities and names, all evidence, all histories", "why_tests_cant": "Tensor axes are combined by broadcasting, so axis order decides whether messages land on the right variable; tests use few variable orders.", "anchors": ["veroku/cluster_graph.py:ClusterGraph.__init__", "veroku/_cg_helpers/_cluster.py:Cluster.make_message", "veroku/_cg_helpers/_cluster.py:Cluster.receive_message", "veroku/factors/categorical.py:Categorical.cancel", "veroku/factors/categorical.py:Categorical.marginalize"]}
{"id": "C100", "title": "Dense message passing never fails", "statement": "Once a cluster graph over dense tables is built, every message pass, every call of process_graph and every query about an unobserved variable succeeds.", "quantifier": "all dense tables with consistent cardinalities and names, all histories", "why_tests_cant": "Re-sent messages divide by the previous one, so zeros and axis order matter only on the second pass.", "anchors": ["veroku/cluster_graph.py:ClusterGraph.process_graph", "veroku/_cg_helpers/_cluster.py:Cluster.receive_message", "veroku/factors/categorical.py:Categorical.cancel"]}
{"id": "C101", "title": "Dense trees: two sweeps are exact", "statement": "On a tree-shaped cluster graph over dense tables, one inward and one outward sweep can be run and the marginals answered equal the sums of the product of the input factors with the evidence.", "quantifier": "all tree-shaped graphs of dense tables, all roots, all histories", "why_tests_cant": "The central correctness claim of message passing for the second factor class.", "anchors": ["veroku/cluster_graph.py:ClusterGraph.process_graph", "veroku/cluster_graph.py:ClusterGraph.get_marginal", "veroku/factors/categorical.py:Categorical.marginalize"]}
{"id": "C102", "title": "Dense trees: greedy message passing converges to exact marginals", "statement": "On a tree-shaped cluster graph over dense tables process_graph stops after a bounded number of messages for every tolerance, and at tolerance zero the marginals answered are proportional to the sums of the product of the input factors.", "quantifier": "all tree-shaped graphs of dense tables, all histories", "why_tests_cant": "The iteration bound hides non-termination in tests.", "anchors": ["veroku/cluster_graph.py:ClusterGraph.process_graph", "veroku/cluster_graph.py:ClusterGraph.get_marginal", "veroku/factors/categorical.py:Categorical.kl_divergence"]}
{"id": "C103", "title": "Dense posterior joint", "statement": "After all messages have been sent, get_posterior_joint of a cluster graph over dense tables equals the product of the input factors with the evidence.", "quantifier": "all dense tables, all evidence, all histories", "why_tests_cant": "The joint is built by multiplying and cancelling full tables whose axes are in different orders.", "anchors": ["veroku/cluster_graph.py:ClusterGraph.get_posterior_joint", "veroku/factors/categorical.py:Categorical.multiply", "veroku/factors/categorical.py:Categorical.cancel"]}
{"id": "C104", "title": "Dense templates make the described table", "statement": "make_factor of a CategoricalTemplate gives a table over the filled in (or given) names whose potential is the template's tensor or probability table with missing assignments zero; two factors of one template agree up to the names, and misuse is rejected.", "quantifier": "all templates, format dictionaries, name lists, tensors and probability tables", "why_tests_cant": "Templates are the way large models are built, so a misplaced name or shared table corrupts every factor made from them.", "anchors": ["veroku/factors/categorical.py:CategoricalTemplate.__init__", "veroku/factors/categorical.py:CategoricalTemplate.make_factor", "veroku/factors/categorical.py:Categorical.__init__"]}
{"id": "C105", "title": "Sparse templates make the described table", "statement": "make_factor of a SparseCategoricalTemplate gives a sparse table over the filled in (or given) names with the listed probabilities and zero elsewhere, which represents the same function as the dense template's factor; misuse is rejected.", "quantifier": "all templates, format dictionaries, name lists and probability tables", "why_tests_cant": "The two table classes are meant to be interchangeable when built from the same template.", "anchors": ["veroku/factors/sparse_categorical.py:SparseCategoricalTemplate.__init__", "veroku/factors/sparse_categorical.py:SparseCategoricalTemplate.make_factor", "veroku/factors/sparse_categorical.py:SparseCategorical.__init__"]}
{"id": "C106", "title": "argmax of a mixture returns the best point found", "statement": "argmax returns, among the end points of the successful searches started at the component means, one with the highest potential, and raises if no search succeeds; _argmin likewise with the lowest. If no search ends above its start, the potential at the result is at least that at every component mean and at least the maximum divided by the number of components.", "quantifier": "all mixtures and all optimisers", "why_tests_cant": "Callers use argmax as the most likely point.", "anchors": ["veroku/factors/experimental/gaussian_mixture.py:GaussianMixture.argmax", "veroku/factors/experimental/gaussian_mixture.py:GaussianMixture._argmin"]}
{"id": "C107", "title": "A fitted sklearn mixture keeps its density", "statement": "from_sklearn_gmm gives a mixture over the given names whose potential is the weighted sum of the component densities and whose integral is the sum of the weights.", "quantifier": "all lists of means, positive definite covariances and nonnegative weights", "why_tests_cant": "It is the bridge from learned models to inference.", "anchors": ["veroku/factors/experimental/gaussian_mixture.py:GaussianMixture.from_sklearn_gmm"]}
{"id": "C108", "title": "Division of mixtures by method 1", "statement": "Dividing a mixture by a mixture with cancel_method 1 gives the quotient of the potentials where that quotient is a Gaussian, given an exact optimiser and exact second derivatives.", "quantifier": "all mixtures over the same variables whose quotient is Gaussian", "why_tests_cant": "Message cancelling with mixtures relies on the approximation being right at least in the exact case.", "anchors": ["veroku/factors/experimental/gaussian_mixture.py:GaussianMixture.divide", "veroku/factors/experimental/gaussian_mixture.py:GaussianMixture._gm_division_m1", "veroku/factors/experimental/gaussian_mixture.py:GaussianMixture._get_inverse_gaussians"]}
{"id": "C109", "title": "Division of mixtures by method 2", "statement": "Dividing a mixture by a mixture with cancel_method 2 gives the quotient of the potentials where every inverse mixture is a single exponential of a quadratic; an unknown cancel_method is an error.", "quantifier": "all mixtures over the same variables with denominators of equal shape", "why_tests_cant": "Message cancelling with mixtures relies on the approximation being right at least in the exact case.", "anchors": ["veroku/factors/experimental/gaussian_mixture.py:GaussianMixture.divide", "veroku/factors/experimental/gaussian_mixture.py:GaussianMixture._gm_division_m2", "veroku/factors/experimental/gaussian_mixture.py:GaussianMixture._moment_match_complex_gaussian", "veroku/factors/experimental/gaussian_mixture.py:GaussianMixture._complex_cov_form_to_real_canform"]}
{"id": "C110", "title": "Samples of a Gaussian follow its density", "statement": "sample(n) returns one row per variable and one column per sample; each column is computed from its own n-vector of standard normal numbers, and the points so computed follow the normalised density of the factor (expectation of every function, in particular mean and covariance). A vacuous factor and a covariance that is not positive definite raise.", "quantifier": "all Gaussians with positive definite parameters, all numbers of samples, all random numbers", "why_tests_cant": "Sampling is the only way to use the factors for simulation.", "anchors": ["veroku/factors/gaussian.py:Gaussian.sample"]}
{"id": "C111", "title": "Samples of a mixture follow the mixture", "statement": "sample(n) returns one row per variable and one column per sample for every n>=0; the components are drawn with probabilities that sum to one, and the resulting law is the normalised mixture. A mixture of total weight zero raises.", "quantifier": "all mixtures of Gaussians with positive definite parameters, all draws", "why_tests_cant": "Sampling with wrong component weights would silently bias every estimate.", "anchors": ["veroku/factors/experimental/gaussian_mixture.py:GaussianMixture.sample", "veroku/factors/experimental/gaussian_mixture.py:GaussianMixture._get_weights"]}
{"id": "C112", "title": "Samples of nonlinear Gaussians follow the joint distribution", "statement": "sample(n) of a nonlinear Gaussian recomputes the joint and samples it, leaving everything else unchanged; sample(n) of a mixture of nonlinear Gaussians returns one row per variable and one column per sample of the mixture of the joints.", "quantifier": "all nonlinear Gaussians with information on the conditioning variables and affine transforms, all numbers of samples and random numbers", "why_tests_cant": "The joint must be the current one, not one computed before the last observation.", "anchors": ["veroku/factors/experimental/nonlinear_gaussian.py:NonLinearGaussian.sample", "veroku/factors/experimental/nonlinear_gaussian.py:NonLinearGaussianMixture.sample"]}
{"id": "C113", "title": "Random Gaussians are valid factors", "statement": "make_random_gaussian gives a Gaussian over the given names with the drawn means, the diagonal of the drawn numbers as covariance and total mass one; an empty list and repeated names are rejected.", "quantifier": "all lists of names and all drawn numbers that are positive on the diagonal", "why_tests_cant": "Tests and examples build their inputs with it.", "anchors": ["veroku/factors/gaussian.py:make_random_gaussian"]}
{"id": "C114", "title": "Distribution arrays list every assignment", "statement": "dense_distribution_array has one row per assignment of the variables, each assignment exactly once, followed by its potential, also for assignments a sparse table does not store; the dense class lists them in lexicographic order. The last column sums to the total weight, which is what the weight property reports.", "quantifier": "all well-formed dense and sparse tables, any default", "why_tests_cant": "The arrays are what users plot and export.", "anchors": ["veroku/factors/categorical.py:Categorical.dense_distribution_array", "veroku/factors/sparse_categorical.py:SparseCategorical.dense_distribution_array", "veroku/factors/sparse_categorical.py:SparseCategorical.weight"]}
{"id": "C115", "title": "Conversion of parameters", "statement": "make_square_matrix, make_column_vector and make_scalar accept numbers, lists and arrays in the documented forms and return the matrix, column or number they denote; whatever they return has the entries of the argument in order and the right shape; anything else is rejected with ValueError, TypeError or AssertionError.", "quantifier": "all Python numbers, strings, nested lists and tuples, and arrays of any shape", "why_tests_cant": "Every Gaussian is built through these functions.", "anchors": ["veroku/factors/_factor_utils.py:make_scalar", "veroku/factors/_factor_utils.py:make_column_vector", "veroku/factors/_factor_utils.py:list_to_square_matrix", "veroku/factors/_factor_utils.py:make_square_matrix"]}
{"id": "C116", "title": "The Gaussian constructor", "statement": "With a list of distinct names and complete parameters of matching sizes, the constructor makes the factor with exactly these names and parameters, in the form they are given in, flagged vacuous only if the precision is numerically zero; a single name may be given as a string. Missing names, duplicates, incomplete, conflicting or mismatched parameters are rejected.", "quantifier": "all lists of names and strings, all parameters in documented form", "why_tests_cant": "A factor whose number of names differs from its dimension breaks every later operation.", "anchors": ["veroku/factors/gaussian.py:Gaussian.__init__", "veroku/factors/_factor.py:Factor.__init__"]}
{"id": "C117", "title": "Node colours", "statement": "change_graph_node_color gives the node of the named cluster the new fill colour and leaves every other line of the graph as it is; it raises ValueError if there is no such node.", "quantifier": "all graphs as drawn by ClusterGraph, all names and colours", "why_tests_cant": "A wrong substitution shows a message at another cluster.", "anchors": ["veroku/_cg_helpers/_animation.py:change_graph_node_color"]}
{"id": "C118", "title": "Edge colours", "statement": "change_cluster_graph_edge_color gives both halves of the edge between two clusters the new colour, whichever order the clusters are named in, and leaves every other line as it is; it raises ValueError if there is no such edge.", "quantifier": "all graphs as drawn by ClusterGraph, all pairs of clusters and colours", "why_tests_cant": "The edge is found by text search and a regular expression.", "anchors": ["veroku/_cg_helpers/_animation.py:change_cluster_graph_edge_color", "veroku/_cg_helpers/_animation.py:change_graph_edge_color"]}
{"id": "C119", "title": "Separate substrings", "statement": "contains_non_overlapping_substrings is True exactly if both substrings occur in the main string at places that do not overlap.", "quantifier": "all strings", "why_tests_cant": "The search for edges relies on it, since names of clusters are part of names of sepsets.", "anchors": ["veroku/_cg_helpers/_animation.py:contains_non_overlapping_substrings", "veroku/_cg_helpers/_animation.py:sub_and_super_both_in"]}
{"id": "C120", "title": "Animation of messages", "statement": "Each message passed adds six frames: the sender red, then the edge, then the receiver, then each back to its colour in the same order; the graph is afterwards as it was, so the frames of a run are those of its messages in order.", "quantifier": "all graphs as drawn by ClusterGraph, all sequences of messages along edges", "why_tests_cant": "Colours left behind would accumulate over a run.", "anchors": ["veroku/_cg_helpers/_animation.py:add_message_pass_animation_frames", "veroku/cluster_graph.py:ClusterGraph.process_graph"]}
{"id": "C121", "title": "Names of nodes", "statement": "In the drawn graph the ids of clusters are different from each other; the name of a sepset is the same for both orders of its clusters, differs from the name of every other pair's sepset and from every cluster id.", "quantifier": "all lists of clusters with any variable names", "why_tests_cant": "Nodes with equal names would be drawn as one.", "anchors": ["veroku/_cg_helpers/_animation.py:make_sepset_node_name", "veroku/cluster_graph.py:ClusterGraph._build_graph", "veroku/_cg_helpers/_cluster.py:Cluster.__init__"]}
{"id": "C122", "title": "Factorised tables: product", "statement": "For a factorised factor of dense tables the joint distribution is the pointwise product of the factors over the union of their scopes, multiply multiplies it by the argument, and the object's variable names are the scope.", "quantifier": "all nonempty lists of tables with common cardinalities and assignment names, zero entries included", "why_tests_cant": "Keeping factors apart must not change the function represented.", "anchors": ["veroku/factors/experimental/factorised_factor.py:FactorizedFactor.__init__", "veroku/factors/experimental/factorised_factor.py:FactorizedFactor.joint_distribution", "veroku/factors/experimental/factorised_factor.py:FactorizedFactor.multiply"]}
{"id": "C123", "title": "Factorised tables: division", "statement": "divide gives a factorised factor whose joint distribution is the quotient of the joint distribution and the divisor.", "quantifier": "all factorised tables and all divisors without zeros whose scope is part of the scope", "why_tests_cant": "Used when messages are divided out.", "anchors": ["veroku/factors/experimental/factorised_factor.py:FactorizedFactor.divide", "veroku/factors/experimental/factorised_factor.py:FactorizedFactor._first_factor_with_vars_index"]}
{"id": "C124", "title": "Factorised tables: marginals, evidence, normalising", "statement": "marginalize, reduce, normalize and is_vacuous of a factorised factor of dense tables agree with those of its joint distribution.", "quantifier": "all factorised tables, all variables and in-range values", "why_tests_cant": "The class claims to accept any type of factor.", "anchors": ["veroku/factors/experimental/factorised_factor.py:FactorizedFactor.marginalize", "veroku/factors/experimental/factorised_factor.py:FactorizedFactor.reduce", "veroku/factors/experimental/factorised_factor.py:FactorizedFactor.normalize", "veroku/factors/experimental/factorised_factor.py:FactorizedFactor.is_vacuous"]}
{"id": "C125", "title": "Factorised tables: equality", "statement": "equals is reflexive and True exactly if the products are close.", "quantifier": "all pairs of factorised tables with common cardinalities", "why_tests_cant": "Convergence and tests compare factors.", "anchors": ["veroku/factors/experimental/factorised_factor.py:FactorizedFactor.equals"]}
{"id": "C126", "title": "Factorised tables: divergence", "statement": "kl_divergence is the Kullback-Leibler divergence of the normalised product from the normalised argument: nonnegative, infinite exactly where the argument is zero and the product is not, zero exactly if they agree. distance_from_vacuous is the divergence of the normalised product from the uniform table: finite, nonnegative, zero exactly for a constant product.", "quantifier": "all factorised tables and tables over the same scope with positive total weight", "why_tests_cant": "Convergence is measured with it.", "anchors": ["veroku/factors/experimental/factorised_factor.py:FactorizedFactor.kl_divergence"]}
{"id": "C127", "title": "Converged graphs: neighbours agree", "statement": "Once no path has anything left to send, any two neighbouring clusters, in a graph of any shape (loops included), have the same marginal over every part of their sepset; after a run that stopped early with tolerance 0 they agree up to one positive constant. For Gaussian clusters the marginals are integrals.", "quantifier": "all lists of sparse tables or of Gaussians with positive definite or semidefinite precisions, all evidence, all states reached by message passing, all edges", "why_tests_cant": "Local consistency is what a converged loopy graph guarantees when exactness is out of reach.", "anchors": ["veroku/cluster_graph.py:ClusterGraph.process_graph", "veroku/cluster_graph.py:ClusterGraph._pass_message_path", "veroku/cluster_graph.py:Cluster.make_message"]}
{"id": "C128", "title": "Converged graphs: every holder gives the same marginal", "statement": "In a converged graph of any shape all clusters that hold an unobserved variable have the same marginal over it, and get_marginal of that variable is it, whichever cluster is looked up.", "quantifier": "all lists of sparse tables, all evidence, all states reached by message passing, all variables", "why_tests_cant": "get_marginal uses the first cluster found; the answer must not depend on that.", "anchors": ["veroku/cluster_graph.py:ClusterGraph.get_marginal", "veroku/cluster_graph.py:ClusterGraph.process_graph"]}
{"id": "C129", "title": "Converged graphs of dense tables: every holder gives the same marginal", "statement": "After a run that stopped early with tolerance 0, all clusters of dense tables that hold an unobserved variable have the same marginal over it up to a positive constant, and so has get_marginal.", "quantifier": "all lists of dense tables with common cardinalities and names, all evidence, all variables", "why_tests_cant": "As C128 for the default class of tables.", "anchors": ["veroku/cluster_graph.py:ClusterGraph.get_marginal", "veroku/cluster_graph.py:ClusterGraph.process_graph"]}
{"id": "C130", "title": "Data frame of a dense table", "statement": "get_df gives one row per assignment in lexicographic order: the values of the variables, or their names, followed by the potential; the columns are the variables and prob, and rows of different assignments differ before the last column.", "quantifier": "all well formed dense tables, both settings of named_assignments", "why_tests_cant": "Data frames are how users read a factor and join it with other data.", "anchors": ["veroku/factors/categorical.py:Categorical.get_df"]}
{"id": "C131", "title": "Data frame of a sparse table", "statement": "_to_df gives one row per stored assignment in the stored order, with one column per variable and the log value last, and two tables with the same frame have the same variables and entries.", "quantifier": "all well formed sparse tables", "why_tests_cant": "The frame should lose nothing of the stored table.", "anchors": ["veroku/factors/sparse_categorical.py:SparseCategorical._to_df"]}
{"id": "C132", "title": "Printed tables line up", "statement": "Printing a table gives a header line with the variable names and prob and one line per (stored) assignment, and on a screen with tab stops every eight columns each value stands in the column where its heading starts.", "quantifier": "all well formed dense and sparse tables with names without tabs and line breaks, all formats of numbers", "why_tests_cant": "The spacing functions exist only for this.", "anchors": ["veroku/factors/categorical.py:Categorical.__repr__", "veroku/factors/sparse_categorical.py:SparseCategorical.__repr__", "veroku/factors/_factor_utils.py:tabs_to_cover_string", "veroku/factors/_factor_utils.py:space_assignments_and_probs"]}
{"id": "C133", "title": "Messages over a tree of nonlinear Gaussians succeed", "statement": "In a tree whose root has a proper distribution and whose other clusters wait for what their parent says about the shared variables, sending messages down, through each branch and up again raises nothing, changes no cluster's variables and leaves every cluster with a proper distribution, whose marginals are integrals.", "quantifier": "all trees of Gaussian clusters and nonlinear Gaussian clusters with affine transforms, any evidence, any number of clusters and variables", "why_tests_cant": "Nonlinear Gaussians exist for use in cluster graphs: a raised exception or an improper cluster makes them useless there.", "anchors": ["veroku/_cg_helpers/_cluster.py:Cluster.make_message", "veroku/_cg_helpers/_cluster.py:Cluster.receive_message", "veroku/factors/experimental/nonlinear_gaussian.py:NonLinearGaussian.multiply", "veroku/factors/experimental/nonlinear_gaussian.py:NonLinearGaussian.marginalize", "veroku/factors/gaussian.py:Gaussian.divide"]}
{"id": "C134", "title": "Trees of nonlinear Gaussians compute the posterior", "statement": "After such a visit the marginals of the root and of the clusters visited last are, up to one positive constant, the integrals of the product of all factors at the observed values.", "quantifier": "all trees as in C133", "why_tests_cant": "This is what message passing is for.", "anchors": ["veroku/cluster_graph.py:_GraphMessagePath.pass_next_message", "veroku/_cg_helpers/_cluster.py:Cluster.make_message", "veroku/_cg_helpers/_cluster.py:Cluster.receive_message", "veroku/factors/experimental/nonlinear_gaussian.py:NonLinearGaussian.multiply"]}
{"id": "C135", "title": "Filter", "statement": "After messages in one direction along a chain the last cluster holds exactly the integral of the product of all factors at the observed values.", "quantifier": "all chains as in C133, any length", "why_tests_cant": "The forward pass of a Kalman filter: the weight is the likelihood of the observations.", "anchors": ["veroku/_cg_helpers/_cluster.py:Cluster.make_message", "veroku/_cg_helpers/_cluster.py:Cluster.receive_message"]}
{"id": "C136", "title": "Smoother", "statement": "After messages there and back along a chain the marginals of every cluster are, up to one positive constant each, the integrals of the product of all factors at the observed values.", "quantifier": "all chains as in C133 in which no message up a branch has a singular precision matrix with entries of at most 1e-8 unless it is constant", "why_tests_cant": "Smoothed estimates of all states are read from the clusters.", "anchors": ["veroku/_cg_helpers/_cluster.py:Cluster.make_message", "veroku/_cg_helpers/_cluster.py:Cluster.receive_message"]}
{"id": "C137", "title": "Two rounds of messages make every cluster right", "statement": "After messages down, through each branch and up again, followed by one more message down every edge, every cluster of a tree of Gaussian and nonlinear Gaussian clusters gives marginals that are, up to one positive constant for the whole tree, the integrals of the product of all factors at the observed values.", "quantifier": "all trees as in C133 in which no message up a branch has a singular precision matrix with entries of at most 1e-8 unless it is constant", "why_tests_cant": "Beliefs are read from whichever cluster holds the wanted variables, so all of them have to be right. A second message has to replace the first one in the receiver.", "anchors": ["veroku/cluster_graph.py:ClusterGraph.process_graph", "veroku/_cg_helpers/_cluster.py:Cluster.make_message", "veroku/_cg_helpers/_cluster.py:Cluster.receive_message", "veroku/factors/experimental/nonlinear_gaussian.py:NonLinearGaussian.divide", "veroku/factors/experimental/nonlinear_gaussian.py:NonLinearGaussian.multiply"]}
{"id": "C138", "title": "Converged trees stay converged", "statement": "After these messages, any number of further messages over any edges in any order raises nothing and changes the distribution of no cluster.", "quantifier": "all trees as in C137, all finite sequences of edges and directions", "why_tests_cant": "process_graph sends messages in the order of their information gain until none changes: the result must not depend on when it stops.", "anchors": ["veroku/cluster_graph.py:ClusterGraph.process_graph", "veroku/_cg_helpers/_cluster.py:Cluster.make_message", "veroku/_cg_helpers/_cluster.py:Cluster.receive_message", "veroku/factors/experimental/nonlinear_gaussian.py:NonLinearGaussian.divide", "veroku/factors/experimental/nonlinear_gaussian.py:NonLinearGaussian.multiply"]}
{"id": "C139", "title": "Joint distribution of a processed tree of nonlinear Gaussians", "statement": "After the messages of C137, get_posterior_joint, which multiplies the joint distributions of all clusters and divides by the last message of every message path, returns a Gaussian that is, at every assignment, a positive constant times the product of all factors at the observed values.", "quantifier": "all trees as in C137, any order of the clusters and of the message paths", "why_tests_cant": "The joint distribution of the graph is read after processing; messages must be neither counted twice nor left out.", "anchors": ["veroku/cluster_graph.py:ClusterGraph.get_posterior_joint", "veroku/_cg_helpers/_cluster.py:Cluster.make_message", "veroku/_cg_helpers/_cluster.py:Cluster.receive_message", "veroku/factors/experimental/nonlinear_gaussian.py:NonLinearGaussian.joint_distribution"]}
{"id": "C140", "title": "Operators between factors", "statement": "For factors of one class, the operators for products, quotients, equality and difference do what multiply, divide and equals do: the product has the product of the values, equality holds if and only if the scopes and, within the default tolerances, the values are equal, and difference is its negation.", "quantifier": "all well formed sparse tables, dense tables and Gaussians with agreeing cardinalities", "why_tests_cant": "Operators are how users write products of factors; Python resolves them by method name.", "anchors": ["veroku/factors/_factor.py:Factor.__mul__", "veroku/factors/_factor.py:Factor.__div__", "veroku/factors/_factor.py:Factor.__eq__", "veroku/factors/_factor.py:Factor.__ne__", "veroku/factors/_factor.py:Factor.absorb"]}
{"id": "C141", "title": "Equality and copies of messages", "statement": "Two messages are equal if and only if sender and receiver are the same and the factors have the same scope and close values; a copy of a message has the sender, receiver and factor of the original and is equal to it.", "quantifier": "all messages with well formed sparse or dense tables, all tolerances", "why_tests_cant": "Convergence and message replacement rely on comparing messages.", "anchors": ["veroku/_cg_helpers/_cluster.py:Message.equals", "veroku/_cg_helpers/_cluster.py:Message.copy"]}
{"id": "C142", "title": "Cluster graphs of Gaussian mixtures", "statement": "A cluster graph can be built from Gaussian mixtures that share variables, and processing it passes messages between them.", "quantifier": "all lists of non-degenerate mixtures, with any evidence", "why_tests_cant": "Mixtures are factors like any other and inherit the interface the graph uses.", "anchors": ["veroku/cluster_graph.py:ClusterGraph.__init__", "veroku/factors/experimental/gaussian_mixture.py:GaussianMixture.distance_from_vacuous", "veroku/factors/experimental/gaussian_mixture.py:GaussianMixture.kl_divergence", "veroku/cluster_graph.py:ClusterGraph.process_graph"]}
{"id": "C143", "title": "Curves of one variable", "statement": "plot of a Gaussian or a Gaussian mixture over one variable draws its potential (with log its log potential) at 200 evenly spaced points between the given limits, or between three standard deviations below and above the mean (for a mixture: of the outermost components), and leaves the distribution as it was.", "quantifier": "all well formed Gaussians and mixtures of one variable, all limits, log or not, with or without individual components", "why_tests_cant": "Plots are read as the distribution itself; conversion to covariance form happens inside.", "anchors": ["veroku/factors/gaussian.py:Gaussian.plot", "veroku/factors/experimental/gaussian_mixture.py:GaussianMixture.plot"]}
{"id": "C144", "title": "Contours of two variables", "statement": "plot of a Gaussian or a Gaussian mixture over two variables evaluates it on a 100 by 100 grid, with the columns along the first variable and the rows along the second, within the limits given for each axis and three standard deviations around the means otherwise; other numbers of variables raise NotImplementedError.", "quantifier": "all non-degenerate Gaussians and mixtures, all limits, log or not", "why_tests_cant": "The mesh is flattened and reshaped, which is easy to transpose by mistake.", "anchors": ["veroku/factors/gaussian.py:Gaussian._get_limits_for_2d_plot", "veroku/factors/gaussian.py:Gaussian._plot_2d", "veroku/factors/gaussian.py:Gaussian.plot", "veroku/factors/experimental/gaussian_mixture.py:GaussianMixture._get_limits_for_2d_plot", "veroku/factors/experimental/gaussian_mixture.py:GaussianMixture._plot_2d", "veroku/factors/_factor_utils.py:plot_2d"]}
{"id": "C145", "title": "Contour of a nonlinear Gaussian", "statement": "plot of a NonLinearGaussian draws the joint distribution of the factor.", "quantifier": "all nonlinear Gaussians whose joint distribution over two variables can be computed", "why_tests_cant": "The joint distribution is computed lazily, so that a plot must compute it first.", "anchors": ["veroku/factors/experimental/nonlinear_gaussian.py:NonLinearGaussian.plot", "veroku/factors/experimental/nonlinear_gaussian.py:NonLinearGaussian._recompute_joint", "veroku/factors/experimental/nonlinear_gaussian.py:NonLinearGaussian.joint_distribution"]}
{"id": "C146", "title": "Plot of the convergence of the messages", "statement": "plot_message_convergence draws every distance of the message passing log as two points half a unit apart, at its value (or its logarithm) if it is finite and above all finite ones if it is infinite, marks exactly the infinite ones and shows the legend if and only if there are any.", "quantifier": "all lists of distances, log or not", "why_tests_cant": "Infinite distances occur in every graph, since first messages replace vacuous ones.", "anchors": ["veroku/cluster_graph.py:ClusterGraph.plot_message_convergence"]}
{"id": "C147", "title": "Bars of a table", "statement": "Categorical.plot draws one bar for every assignment, in lexicographic order, with the names of the assigned values as label and the probability as height.", "quantifier": "all well formed dense tables, with given or default names of the values", "why_tests_cant": "The plot goes through the data frame of names; default names are numbers.", "anchors": ["veroku/factors/categorical.py:Categorical.plot", "veroku/factors/categorical.py:Categorical.get_df"]}
{"id": "C148", "title": "Plot of the information gains", "statement": "plot_next_messages_info_gain draws one curve for every message path, over the iterations of the message passing, from the gain the path had when the graph was built to the gain it has now; the legend names each path by its two clusters.", "quantifier": "all graphs of all kinds of factors, after any sequence of messages and runs of process_graph", "why_tests_cant": "The queue is sorted again after every message, so that curves and legend must be taken in the same order.", "anchors": ["veroku/cluster_graph.py:ClusterGraph.plot_next_messages_info_gain", "veroku/cluster_graph.py:_GraphMessagePath.update_next_information_gain", "veroku/cluster_graph.py:_GraphMessagePath.pass_next_message"]}
{"id": "C149", "title": "Factors of the last messages", "statement": "_last_passed_message_factors lists, for every message path in the order of the queue, the factor of the message last passed along it.", "quantifier": "all graphs of all kinds of factors, after any sequence of messages and runs of process_graph", "why_tests_cant": "The posterior joint divides by exactly these factors.", "anchors": ["veroku/cluster_graph.py:ClusterGraph._last_passed_message_factors", "veroku/cluster_graph.py:_GraphMessagePath.pass_next_message", "veroku/cluster_graph.py:ClusterGraph.get_posterior_joint"]}
{"id": "C150", "title": "Record of the messages in debug mode", "statement": "In debug mode passed_messages lists the messages passed by process_graph in their order, each as it was when it was passed; num_messages_passed counts them, and keeping the record does not change the run.", "quantifier": "all graphs of all kinds of factors with several clusters, all tolerances and limits, debug mode or not", "why_tests_cant": "The unit tests compare the recorded messages with the expected schedule.", "anchors": ["veroku/cluster_graph.py:ClusterGraph.process_graph", "veroku/cluster_graph.py:_GraphMessagePath.pass_next_message"]}
{"id": "C151", "title": "Converged graphs of Gaussians", "statement": "When no message of a graph of Gaussians would change any more, neighbouring clusters have the same marginal over every part of their sepset, all clusters that hold an unobserved variable have the same positive marginal for it, and get_marginal returns it whichever cluster it finds first, in graphs with loops too.", "quantifier": "all graphs of Gaussians with positive definite precisions, trees or not, with and without evidence, after any sequence of messages", "why_tests_cant": "get_marginal takes the first cluster with the variable; without this the answer would depend on the order of the clusters.", "anchors": ["veroku/cluster_graph.py:ClusterGraph.get_marginal", "veroku/cluster_graph.py:ClusterGraph.process_graph", "veroku/cluster_graph.py:_GraphMessagePath.pass_next_message", "veroku/distributions/gaussian.py:Gaussian.marginalize"]}
{"id": "C152", "title": "Factorised sparse tables: product", "statement": "For a factorised factor of sparse tables the joint distribution is the pointwise product of the factors over the union of their scopes, multiply multiplies it by the argument, and the object's variable names are the scope.", "quantifier": "all nonempty lists of sparse tables with common cardinalities whose absent entries have potential zero", "why_tests_cant": "Keeping factors apart must not change the function represented.", "anchors": ["veroku/factors/experimental/factorised_factor.py:FactorizedFactor.__init__", "veroku/factors/experimental/factorised_factor.py:FactorizedFactor.joint_distribution", "veroku/factors/experimental/factorised_factor.py:FactorizedFactor.multiply"]}
{"id": "C153", "title": "Factorised sparse tables: division", "statement": "divide gives a factorised factor whose joint distribution is the quotient of the joint distribution and the divisor.", "quantifier": "all factorised sparse tables and all divisors whose scope is part of the scope, at the assignments where the divisor is not zero", "why_tests_cant": "Used when messages are divided out; a quotient may be returned and fail only when it is used.", "anchors": ["veroku/factors/experimental/factorised_factor.py:FactorizedFactor.divide", "veroku/factors/experimental/factorised_factor.py:FactorizedFactor._first_factor_with_vars_index", "veroku/factors/sparse_categorical.py:SparseCategorical.divide"]}
{"id": "C154", "title": "Factorised sparse tables: marginals, evidence, normalising, display", "statement": "marginalize, reduce, normalize and is_vacuous of a factorised factor of sparse tables agree with those of its joint distribution, and show displays its factors.", "quantifier": "all factorised sparse tables, all variables and in-range values", "why_tests_cant": "The class claims to accept any type of factor.", "anchors": ["veroku/factors/experimental/factorised_factor.py:FactorizedFactor.marginalize", "veroku/factors/experimental/factorised_factor.py:FactorizedFactor.reduce", "veroku/factors/experimental/factorised_factor.py:FactorizedFactor.normalize", "veroku/factors/experimental/factorised_factor.py:FactorizedFactor.is_vacuous", "veroku/factors/experimental/factorised_factor.py:FactorizedFactor.show"]}
{"id": "C155", "title": "Factorised sparse tables: equality and divergences", "statement": "equals holds of two factorised factors of sparse tables exactly when their factors correspond up to tolerance, and kl_divergence and distance_from_vacuous are those of the normalised product.", "quantifier": "all factorised sparse tables with the same variables; all tables as second argument", "why_tests_cant": "Equality counts matching pairs of factors; the divergence is taken of a product that is never stored.", "anchors": ["veroku/factors/experimental/factorised_factor.py:FactorizedFactor.equals", "veroku/factors/experimental/factorised_factor.py:FactorizedFactor.kl_divergence", "veroku/factors/experimental/factorised_factor.py:FactorizedFactor.distance_from_vacuous"]}
{"id": "C156", "title": "Display of Gaussians", "statement": "The text form of a Gaussian shows the parameters of both forms, each of which describes the factor; show prints the stored forms unchanged; show_vis draws covariance and mean with the variables as labels and does not change the factor.", "quantifier": "all well-formed Gaussians (vacuous, singular and positive definite)", "why_tests_cant": "Parameters are read off the printed text; printing converts between the forms.", "anchors": ["veroku/factors/gaussian.py:Gaussian.__repr__", "veroku/factors/gaussian.py:Gaussian._get_cov_repr_str", "veroku/factors/gaussian.py:Gaussian._get_can_repr_str", "veroku/factors/gaussian.py:Gaussian.show", "veroku/factors/gaussian.py:Gaussian.show_vis"]}
{"id": "C157", "title": "Display of mixtures, nonlinear Gaussians and messages", "statement": "show of a mixture prints its components in order; show of a nonlinear Gaussian prints its present joint distribution and leaves the answers of the object unchanged; different messages have different text forms.", "quantifier": "all mixtures of well-formed Gaussians; all nonlinear Gaussians with affine transforms and a conditioning distribution; all messages", "why_tests_cant": "Printing recomputes the joint distribution that the object keeps.", "anchors": ["veroku/factors/experimental/gaussian_mixture.py:GaussianMixture.show", "veroku/factors/experimental/nonlinear_gaussian.py:NonLinearGaussian.show", "veroku/_cg_helpers/_cluster.py:Message.__repr__"]}
{"id": "C158", "title": "Clusters whose neighbours were removed", "statement": "After remove_all_neighbours a cluster has no neighbours and makes no messages, and a neighbour added afterwards is treated as one that has sent nothing.", "quantifier": "all clusters of all classes of factors", "why_tests_cant": "Messages received are divided out of messages sent; stale ones make the messages wrong.", "anchors": ["veroku/_cg_helpers/_cluster.py:Cluster.remove_all_neighbours", "veroku/_cg_helpers/_cluster.py:Cluster.get_sepset", "veroku/_cg_helpers/_cluster.py:Cluster.neighbour_ids"]}
{"id": "C159", "title": "Standard, inverted and weighed Gaussians", "statement": "make_std_gaussian gives the density of independent standard normal variables, with weight one; _invert gives the reciprocal, whose product with the factor is one everywhere; get_weight is the integral of the factor over all its variables.", "quantifier": "all lists of variables; all well-formed Gaussians in canonical form; all positive definite Gaussians", "why_tests_cant": "Tests and the nonlinear factors build on these helpers; the weight of a mixture component is its share of the mixture.", "anchors": ["veroku/factors/gaussian.py:make_std_gaussian", "veroku/factors/gaussian.py:Gaussian._invert", "veroku/factors/gaussian.py:Gaussian.get_weight", "veroku/factors/gaussian.py:Gaussian.get_log_weight"]}
{"id": "C160", "title": "Construction and completion of sparse tables", "statement": "The constructor accepts distinct variables with one cardinality each and keeps the table; a table of probabilities gives the factor with these values; _is_dense holds exactly if every assignment is stored; _make_dense stores every assignment and changes no value; a binary operation with the rule \"both\" combines the values at every assignment.", "quantifier": "all tables; all binary operations on values", "why_tests_cant": "Every operation ends in the constructor and relies on missing assignments meaning the default.", "anchors": ["veroku/factors/sparse_categorical.py:SparseCategorical.__init__", "veroku/factors/sparse_categorical.py:_make_dense", "veroku/factors/sparse_categorical.py:SparseCategorical._is_dense", "veroku/factors/sparse_categorical.py:_any_scope_bin_opp_both"]}
{"id": "C161", "title": "Local computation with sparse tables", "statement": "Summing out in two steps is summing out at once; a table without the summed variables can be multiplied in before or after; evidence can be absorbed before or after products and marginals; multiplying the tables that mention a variable and summing it out, one variable after the other in any order, succeeds and gives tables whose product is the marginal of the product of all tables.", "quantifier": "all lists of sparse tables with default minus infinity over shared cardinalities; all orders of elimination", "why_tests_cant": "These laws are what makes message passing with the library's operations correct; users also eliminate variables by hand.", "anchors": ["veroku/factors/sparse_categorical.py:SparseCategorical.marginalize", "veroku/factors/sparse_categorical.py:SparseCategorical.multiply", "veroku/factors/sparse_categorical.py:SparseCategorical.reduce"]}
{"id": "C162", "title": "Elimination with Gaussians", "statement": "Multiplying the Gaussians that mention a variable and integrating it out, one variable after the other in any order, succeeds and gives Gaussians whose product is the integral of the product of all factors over the eliminated variables.", "quantifier": "all lists of positive definite Gaussians with ordinary weights; all orders of elimination", "why_tests_cant": "The same client program for continuous variables.", "anchors": ["veroku/factors/gaussian.py:Gaussian.marginalize", "veroku/factors/gaussian.py:Gaussian.multiply"]}
{"id": "C163", "title": "Rows and columns as parameters", "statement": "A Gaussian given its mean or h vector as a row is the Gaussian given the same numbers as a column; an array with several rows and several columns is refused.", "quantifier": "all variables, matrices and rows", "why_tests_cant": "Users pass means as lists in either orientation.", "anchors": ["veroku/factors/gaussian.py:Gaussian.__init__", "veroku/factors/_factor_utils.py:make_column_vector"]}
{"id": "C164", "title": "Divergence from a factor that is not normalised", "statement": "With normalize_factor=False, kl_divergence is the sum of p log(p/q) with p normalised and q as it stands; it is infinite if q vanishes where p does not; a negative sum down to -1e-4 is reported as zero and a smaller one raises ValueError.", "quantifier": "all pairs of well-formed sparse or dense tables over the same variables", "why_tests_cant": "The distance from vacuous and the convergence tests use this form.", "anchors": ["veroku/factors/sparse_categorical.py:SparseCategorical.kl_divergence", "veroku/factors/categorical.py:Categorical.kl_divergence"]}
{"id": "C165", "title": "Bad covariances", "statement": "The canonical form of a Gaussian given by a covariance with negative determinant raises Warning, and with a singular covariance raises LinAlgError; no silent NaN is produced.", "quantifier": "all covariances of the right shape", "why_tests_cant": "Every product of Gaussians goes through the canonical form.", "anchors": ["veroku/factors/gaussian.py:Gaussian._update_canform", "veroku/factors/_factor_utils.py:log"]}
{"id": "C166", "title": "Copies of factors", "statement": "A copy of a factor succeeds and has the same variables, parameters and values as the factor; for Gaussians the vacuous flag is taken anew from the canonical parameters.", "quantifier": "all well-formed sparse and dense tables, Gaussians, mixtures, factorised and nonlinear factors", "why_tests_cant": "Almost every operation starts from a copy; a parameter lost there is lost silently.", "anchors": ["veroku/factors/sparse_categorical.py:SparseCategorical.copy", "veroku/factors/categorical.py:Categorical.copy", "veroku/factors/gaussian.py:Gaussian.copy", "veroku/factors/experimental/gaussian_mixture.py:GaussianMixture.copy", "veroku/factors/experimental/factorised_factor.py:FactorisedFactor.copy", "veroku/factors/experimental/nonlinear_gaussian.py:NonLinearGaussian.copy"]}
{"id": "C167", "title": "Local computation with dense tables", "statement": "Summing out in two steps is summing out at once when variables are listed in the order of the table; evidence can be absorbed before or after products; multiplying the dense tables that mention a variable and summing it out, one variable after the other in any order, succeeds and gives tables whose product is the marginal of the product of all tables.", "quantifier": "all lists of dense tables over shared cardinalities and names, zeros allowed; all orders of elimination", "why_tests_cant": "Shapes, numbers of tables and orders of elimination are unbounded; tests compare a few small tables.", "anchors": ["veroku/factors/categorical.py:Categorical.marginalize", "veroku/factors/categorical.py:Categorical.multiply", "veroku/factors/categorical.py:Categorical.reduce"]}
{"id": "C168", "title": "Observations one after the other", "statement": "Observing some variables of a factor and then others gives the function of observing all of them at once, whatever the order in which they are listed, and agrees with the factor wherever the observed values are met.", "quantifier": "all sparse tables at assignments of non-zero potential, all dense tables at values in range, all Gaussians with one variable left; all disjoint lists of observed variables", "why_tests_cant": "Evidence often arrives in pieces; tests try one split of one factor, while the splits, orders, scopes and values are unbounded.", "anchors": ["veroku/factors/_factor.py:Factor.observe", "veroku/factors/sparse_categorical.py:SparseCategorical.reduce", "veroku/factors/categorical.py:Categorical.reduce", "veroku/factors/gaussian.py:Gaussian.reduce"]}
