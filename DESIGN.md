# Formal model of veroku in Rocq (Coq 8.16.1)

Source: `/repo` (package `veroku`), read as text only. All line numbers refer to that pinned source.
Properties are in `properties.jsonl`, their theorems in the files `rocq/theories/Prop*.v` (each such file contains only
theorem statements, `Print Assumptions` and the examples showing that the hypotheses can be met). `MANIFEST.json` maps
properties to theorems; `seeded/LOG.jsonl` records the mutation runs.

## 1. How the code is modelled

* **Exceptions are values.** Every function that can raise returns `res A := Ok a | Err e`, where `e` names the
  Python exception class (`ValueError`, `KeyError`, `IndexError`, `AssertionError`, `TypeError`, `NotImplementedError`,
  `AttributeError`, `UnboundLocalError`, `LinAlgError`, `InconsistentAssignmentNamesError`, plain `Exception`).
* **Floats are exact extended reals.** A float is `NInf | Fin (r : R) | PInf | NaN` with the IEEE-754 rules for
  infinities and NaN, and exact (Coq `R`) arithmetic on finite values. Rounding, overflow and underflow are not
  modelled: theorems are about the algorithm, not about floating-point error. Tables hold *log* values exactly like the
  code does; the specifications speak about potentials (`exp`).
* **Dictionaries** are insertion-ordered association lists with Python's update rule (`d[k]=v` keeps the position of an
  existing key and appends a new key at the end).
* **Sets.** The iteration order of a Python `set` is unspecified (hash randomisation). Wherever the code turns a set into
  a list or iterates a set, the model calls an *order oracle* and every theorem holds for **all** oracles that return a
  rearrangement of the set.
* **numpy arrays** of tables are a shape and an index function (`Numpy.v`); memory layout is abstracted; `transpose`,
  `expand_dims`, broadcasting, `squeeze`, basic/fancy indexing, `argmax` are modelled from the numpy documentation.
  Two-dimensional real arrays (`Mat.v`, `MatOps.v`) are dimensions and an entry function; inverse and determinant are
  those of mathcomp matrices over the Coq reals (`Rfield.v` makes `R` a mathcomp field); `np.linalg.inv` of a singular
  array is `LinAlgError`.
* **Mutation.** Factor operations return fresh objects; the model returns new values. Where the code mutates an argument
  (`Gaussian.equals`) the model returns the mutated argument as well. The cluster graph, clusters and message paths are a
  state record, one transition per message pass.
* **networkx.** `minimum_spanning_tree` is modelled by Kruskal's algorithm over the edges in the order networkx reports them.
* **Integrals** (properties of Gaussian marginals, weights, moments, divergence) are improper Riemann integrals over the
  whole line, iterated over the variables (`IntGauss.v`, `IntMarg.v`: `is_int`, `iint`), defined with Coquelicot's
  `is_RInt_gen`; the Gaussian integral itself is proved, not assumed.

## 2. Trusted base

* Coq's kernel (8.16.1).
* The axioms printed by `Print Assumptions` under each theorem (section 6). Only axioms of Coq's standard library occur:
  `ClassicalDedekindReals.sig_forall_dec` (SF), `ClassicalDedekindReals.sig_not_dec` (SN),
  `FunctionalExtensionality.functional_extensionality_dep` (FE), `Classical_Prop.classic` (CL) and
  `ClassicalEpsilon.constructive_indefinite_description` (CI, used to make `R` a mathcomp `choiceType` and by Coquelicot).
* `coqchk -o` over the whole development additionally lists constants of mathcomp and of the standard library's reals
  that are sealed behind module types. They have definitions, `Print Assumptions` does not report them, and
  no theorem here rests on them as axioms.
* The reading of the code: every definition cites its file and lines, and its comment states what is simplified.

Marginals onto the empty list of variables are meaningful in the model only as the last step of an integral (the total);
no claim about the code is drawn from that case.

## 3. What is modelled and what is not

| source file | modelled in | functions modelled | not modelled |
|---|---|---|---|
| `factors/sparse_categorical.py` | `SparseModel.v`, `TemplateModel.v`, `ArrModel.v`, `ShowModel.v` | module helpers, the template, `__init__`, `copy`, `equals`, `reorder`, `marginalize`, `reduce`, `_apply_binary_operator` and all product/quotient paths, `multiply`, `divide`, `cancel`, `argmax`, `normalize`, `is_vacuous`, `kl_divergence`, `distance_from_vacuous`, `potential`, `cardinalities`, `get_default...`, `dense_distribution_array`, `_to_df`, `__repr__` | `show` |
| `factors/categorical.py` | `DenseModel.v` on `Numpy.v`, `TemplateModel.v`, `ArrModel.v`, `ShowModel.v` | the template, `__init__`, `copy`, `reorder`, `equals`, `marginalize`, `reduce`, `multiply`, `divide`, `cancel`, `argmax`, `normalize`, `is_vacuous`, `kl_divergence`, `distance_from_vacuous`, `potential`, `dense_distribution_array`, `get_df`, `__repr__`, `plot` (`PlotModel.v`) | `show` |
| `cluster_graph.py` | `GraphModel.v`, `AnimModel.v` (lines of the drawn graph, ids) | evidence reduction, absorption, construction, RIP sepsets, message paths, `process_graph`, `get_marginal`, `get_posterior_joint`, `_sort_almost_sorted`, `plot_message_convergence` (`PlotModel.v`), `plot_next_messages_info_gain`, `_last_passed_message_factors` and the record of debug mode (`TraceModel.v`) | printing, saving of animations |
| `_cg_helpers/_cluster.py` | `GraphModel.v`, `OperModel.v` | `Cluster` construction, `add_neighbour`, `make_message`, `receive_message`, the `Message` record, `Message.equals/copy`, `Message.__repr__`, `remove_all_neighbours`, `get_sepset`, `neighbour_ids` (`DisplayModel.v`) | `_neighbour_references` |
| `_cg_helpers/_animation.py` | `AnimModel.v` | names of nodes, substring tests, the two colour changes with the regular expressions they use, the six frames of a message | rendering of a frame to an image; characters of names that have a meaning in regular expressions or that graphviz escapes |
| `factors/gaussian.py` | `GaussModel.v`, `LinModel.v`, `MixModel.v` (split), `SampleModel.v` | both constructors, form conversion, `copy`, `equals`, `reorder`, `multiply`, `divide`, `marginalize`, `reduce`, `log_potential`, `potential`, weights, `normalize`, vacuity, `kl_divergence`, `distance_from_vacuous`, `make_vacuous`, `make_linear_gaussian`, templates, `_split_gaussian`; `_get_complex_weight` for one variable (`MixOptModel.v`), `sample`, `make_random_gaussian` (random numbers are arguments) ; `plot` (`PlotModel.v`), `__repr__`, `show`, `show_vis` (`DisplayModel.v`) | complex weights of several variables, how numpy writes arrays |
| `factors/_sigma_points.py` | `SigmaModel.v` | `sigma_points_array_to_joint_params`, `get_sigma_points_array` | - |
| `factors/_factor_utils.py` | `UtilsModel.v`, `GraphModel.v` (`get_subset_evidence`), `ConvModel.v`, `ShowModel.v` | index-aligned matrix/vector operations, `remove_duplicate_values`, `format_list_elements`, `make_scalar`, `make_column_vector`, `list_to_square_matrix`, `make_square_matrix`, `tabs_to_cover_string`, `space_assignments_and_probs`, `plot_2d` (`PlotModel.v`) | - |
| `factors/_factor_template.py` | `UtilsModel.v`, `LinModel.v`, `NlgModel.v`, `TemplateModel.v` | template formatting, the Gaussian, nonlinear and table templates | - |
| `factors/experimental/gaussian_mixture.py` | `MixModel.v`, `MixOptModel.v`, `SampleModel.v` | `__init__`, `copy`, `equals`, `reduce`, `marginalize`, `multiply`, `divide` (one component), `normalize`, `log_potential`, `potential`, weights, `moment_match_to_single_gaussian`, `argmax`, `_argmin`, `from_sklearn_gmm`, `_get_inverse_gaussians`, `_gm_division_m1`, `_gm_division_m2` and the complex moment matching for one variable (`scipy.optimize.minimize` and `nd.Hessian` are quantified functions), `sample`, `plot` (`PlotModel.v`), as factors of a graph (`MixGraphModel.v`), `show` (`DisplayModel.v`) | complex moment matching of several variables |
| `factors/experimental/factorised_factor.py` | `FactModel.v`, `FactTabModel.v`, `FactSparseModel.v` | whole class for Gaussian factors, dense tables and sparse tables; `show` | factors of other classes and lists mixing classes |
| `factors/experimental/nonlinear_gaussian.py` | `NlgModel.v`, `SampleModel.v`, `NlgGraphModel.v`, `NlgSpreadModel.v`, `NlgJointModel.v` | both classes and the template, `sample`, as factors of clusters next to Gaussians, `plot` (`PlotModel.v`), `show` (`DisplayModel.v`) | the text of the transformation |
| `factors/_factor.py` | the `fops` record of `GraphModel.v`, `ConvModel.v`, `OperModel.v`, `ObserveModel.v` | the operations the graph uses, the constructor, operator overloads, `absorb`, `observe`, `cancel` (the field `f_cancel`; division for Gaussians) | — |

Not modelled anywhere: floating-point rounding, warnings, memory and time, pandas, tqdm.

## 4. Plan per property

| property | what is modelled | how it is proved |
|---|---|---|
| C01 | `_get_nested_sorted_probs`, `_same_scope_binary_operation`, `_apply_any_scope_binary_opp`, `_flatten_ntd`, `_apply_binary_operator`, `multiply` of the sparse table | characterise the dictionary look-ups of each function, then pointwise equality of potentials under every environment |
| C02 | same, finite default | refutation with witness; same-scope part proved |
| C03 | chains of `multiply` | from C01 and commutativity of the pointwise product |
| C04/C05 | `divide` with rule "none"; the result's default | look-up lemmas; refutation for every zero-default pair (NaN default) |
| C06 | `cancel`, `special_divide` | look-up lemmas + arithmetic |
| C07 | `get_marginal_vars`, `marginalize`, `logsumexp` | sums over assignments, regrouping by kept part |
| C08 | `reduce` | look-up lemma; refutation for evidence without a stored entry |
| C09 | `potential` | permutation argument; refutation with a 3-cycle |
| C10-C12 | `normalize`, `_raw_kld`, `kl_divergence`, `_apply_to_probs`, `distance_from_vacuous` | Gibbs inequality over R |
| C13 | `reorder`, `_all_non_default_equal`, `equals`, `_is_dense` | look-up lemmas, symmetry of the two-way check |
| C14 | `argmax` | induction over the table |
| C15-C22 | `Categorical` on the tensor model | index algebra of transpose/expand/broadcast; refutations for `marginalize`, `cancel`, `equals` |
| C23 | both constructors | refinement between the two representations |
| C24 | id strings | string lemma: the first `#` ends the decimal index |
| C25/C26 | `_absorb_subset_factors` | invariant of the mask loop; refutation for maximality |
| C27/C28 | `_set_non_rip_sepsets_dict`, Kruskal, `_get_running_intersection_sepsets`, `_build_graph` | Kruskal invariant: forest and same connectivity |
| C29 | `_evidence_reduce_factors`, `get_subset_evidence` | by C08 and C25 |
| C30-C32 | `Cluster`, `Message`, `_GraphMessagePath`, `get_posterior_joint` over an abstract factor interface, instantiated with the sparse factor | invariants by induction over arbitrary lists of passes |
| C33-C35 | `process_graph` | induction on the loop |
| C36/C37 | `get_marginal` + calibration | induction on the tree removing leaves |
| C38 | single-cluster branch of `process_graph` | refutation |
| C39 | `_sort_almost_sorted` | case analysis and stable sort lemmas |
| C40-C45 | `Gaussian` on exact real arrays | matrix algebra (Schur complement, block determinants) |
| C46-C48, C60 | sigma points, split, moment matching | sums in matrix algebra |
| C49/C50, C61-C65 | `GaussianMixture` | distributivity, sums over components; refutation of equality |
| C51-C53, C68-C72, C75 | `FactorizedFactor` | list products, merging invariant; refutations |
| C54/C55 | `_factor_utils` | list induction |
| C56 | totality of message passing for positive tables | invariant: all operations succeed |
| C57-C59 | convergence on trees | messages determined by the sub-tree behind them; weight argument for the greedy schedule |
| C66/C67, C73/C74, C76 | Gaussian marginals, weight, moments, divergence as integrals | the Gaussian integral, completing the square one variable at a time |
| C77-C79 | linear Gaussians and templates | block algebra; refutations |
| C80-C89 | nonlinear Gaussians, their mixtures and templates | sigma-point exactness (affine), closure of state invariants |
| C90-C98 | cluster graphs over Gaussian factors | invariant over histories with positive potentials, iterated integrals on junction trees |
| C99-C103 | cluster graphs over dense tables | an axis-aligned variant of the table operations satisfies the same laws; simulation over histories while every edge lists its variables in the order of the tables at its ends, and all entries are positive |
| C104/C105 | templates for dense and sparse tables | reduction to the constructors; dense and sparse factors of one template represent the same function |
| C106-C109 | mixture optimisation: argmax, sklearn mixtures, approximate divisions | optimiser and second derivatives as quantified functions; fold invariant for the searches; closed form of both divisions for denominators of equal shape |
| C110-C113 | samples and random Gaussians | change of variables by a triangular map in iterated integrals; determinant and quadratic form of the Cholesky factor |
| C114-C116 | distribution arrays, conversion of arguments, the Gaussian constructor | enumeration of assignments; case analysis over Python objects, with the documented forms as an inductive predicate |
| C117-C121 | names and colours of the drawn graph | matcher with backtracking for the expressions used; a line matches only at its own name; graph as list of lines, frames as drawings with colours per node and edge; induction over the messages |
| C122-C126 | factorised dense tables | induction over the list of factors; matching argument as for C53; case analysis of the methods tables lack |
| C127-C129 | converged graphs of any shape | marginal of the sender's belief over the sepset equals the product of the two last messages; induction along the edges that carry a variable |
| C130-C132 | data frames and printed tables | enumeration of assignments; invariants of the loops; reader of lines and tab stops, induction over the columns; length of decimal numerals |
| C133-C136 | trees of Gaussians and nonlinear Gaussians | induction over the tree: the message up is the quotient of integrals, semidefinite by splitting the factor that came down; integrals over all but some variables composed in any order |
| C137-C138 | every cluster of such a tree; convergence | what a visit leaves at each edge as an invariant; the rest of the tree integrated down to an edge equals the new message; agreement of both ends of every edge is kept by any message |
| C139 | joint distribution of such a tree | each cluster's factor times what it received is an invariant of visits; the messages cancel in the product over the tree |
| C140-C141 | operators, messages as objects | resolution of operators by method name; reduction to the theorems on multiply and equals |
| C142 | graphs of mixtures | no path can be built if the distance from a vacuous factor always fails; running intersection then forbids shared variables |
| C143-C147 | plots | the data handed to matplotlib as the value of the model; `samples` and `mesh_of` state where a function is evaluated; refutations by computing one instance |
| C148-C150 | record of the message passing | the record is carried beside the graph (`TraceModel.v`); a simulation shows that the run is the one of `GraphModel.v`; points are counted along the list of passed messages |
| C151 | converged graphs of Gaussians of any shape | as C127-C129 with iterated improper integrals: marginals over a part of a sepset follow by splitting the integral |
| C152-C155 | factorised sparse tables | induction over the list of factors on top of the sparse laws (C03-C14); matching argument as for C53 |
| C156-C158 | display; removed neighbours | a text is a list of labelled arrays (`DisplayModel.v`); the printed parameters are fed back into the constructors; texts of messages are split at the line breaks |
| C159-C160 | helpers of Gaussians and sparse tables | unfolding to the potentials; weight by the iterated integral of C66; rule "both" through the general law of the table operations (`SparseBinop.v`) |
| C161-C163 | elimination of variables; shapes of parameters | a client program over the operations (`ElimFacts.v` for lawful operations, `ElimGauss.v` for Gaussians), induction on the list of variables; sums commute, integrals by the order theorem of C66; constructors unfolded |
| C164-C165 | divergence from unnormalised tables; bad covariances | the raw sums of C12 and C22 without Gibbs' inequality, cases of the clamp; unfolding of the canonical form |
| C166 | `copy` of all classes | unfolding of the constructors; induction over components |
| C167 | elimination with dense tables | `ElimDense.v`: the elimination of `ElimFacts.v` at the lawful dense operations of C101; sums over assignments in range |
| C168 | observations in steps | `ObserveFacts.v`: two uses of the law of `reduce`, and equality outside the scope |

Properties that cannot be expressed: rounding behaviour of floats, rendering, and timing have no counterpart in the model
and are not claimed.

## 5. Findings

A property with status "partial" is false of the code in full. The `_refuted` (or error) theorem exhibits the failure, the
`_partial` theorem states what does hold.

| property | what fails and what holds | refuting theorems |
|---|---|---|
| C02 Sparse product with a non-zero default | False of the code: outer assignments missing from a table are skipped, so the product of the defaults is not what the result stores. Proved for factors over the same variables. | `c02_sparse_product_default_refuted` |
| C04 Sparse division is the pointwise quotient | False without a shared variable (TypeError from list * numpy.float64); proved for all other scopes. | `c04_sparse_divide_refuted`, `c04_sparse_divide_disjoint_fails` |
| C05 Quotients can be used in further arithmetic | False: the quotient's default is NaN, so every further binary operation raises NotImplementedError. | `c05_sparse_quotient_usable_refuted` |
| C08 Sparse reduce is restriction | False for observations matching no stored entry (KeyError); exactly characterised. | `c08_sparse_reduce_refuted`, `c08_sparse_reduce_missing_fails` |
| C09 Sparse potential look-up respects the given variable order | False: the permutation is applied in the wrong direction (3-cycles), and unstored assignments raise KeyError. Proved for self-inverse orderings and stored entries. | `c09_sparse_potential_refuted`, `c09_sparse_potential_missing_refuted` |
| C11 Sparse KL divergence is the Kullback-Leibler divergence | False only for factors without variables (TypeError); proved for every non-empty scope. | `c11_sparse_kl_refuted` |
| C12 Sparse distance from vacuous | As C11. | `c12_sparse_vacuous_refuted` |
| C13 Sparse reorder and equality | Proved for zero-default factors; symmetry is false for factors with a common finite default listed in different orders. | `c13_sparse_equals_default_refuted` |
| C16 Dense marginal is the sum over the removed variables | False when the kept variables are listed in another order than the factor's (axes are mislabelled or an assertion fails) and when a kept variable has one value (squeezed away, ValueError). Holds when the kept list is in the factor's order and no kept variable has one value. | `c16_dense_marginal_refuted`, `c16_dense_marginal_order_raises_refuted`, `c16_dense_marginal_card_one_refuted`, `c16_dense_marginal_away_refuted` |
| C17 Dense reduce is restriction | The restriction part and the IndexError for values >= c or < -c hold for all inputs; the negative values -c..-1 are accepted and counted from the end. | `c17_dense_reduce_negative_refuted` |
| C19 Dense cancel is division with 0/0 = 0 | The zero mask compares the tensors axis by axis without aligning names: ValueError or IndexError for nested scopes, NaN for permuted scopes. Holds for identical variable lists, and for nested scopes with a positive divisor when numpy can broadcast the shapes. | `c19_dense_cancel_nested_refuted`, `c19_dense_cancel_nested_zero_refuted`, `c19_dense_cancel_order_refuted` |
| C20 Dense equality | Order independence and reflexivity hold; symmetry fails for a positive relative tolerance; cardinalities 1 and n compare equal by broadcasting. | `c20_dense_equality_symmetric_refuted`, `c20_dense_equality_cardinalities_refuted` |
| C23 Sparse and dense tables agree | Construction and multiplication agree for all inputs; restriction agrees when some stored entry matches the evidence, otherwise the sparse factor raises KeyError. | `c23_sparse_dense_reduce_refuted` |
| C26 No cluster scope is strictly inside another | False for [ab, a, abc]: a factor that has absorbed another one is never absorbed itself. Holds when no middle factor of a chain of three nested scopes comes before the largest one. | `c26_nested_clusters_refuted` |
| C31 Message passing never changes the joint distribution | Holds at every assignment consistent with the special evidence (so fully when there is none); false at assignments that contradict it. | `c31_joint_kept_refuted` |
| C32 get_posterior_joint returns the joint | AttributeError while some path has not carried a message; otherwise the joint at all assignments consistent with the special evidence. | `c32_posterior_joint_refuted`, `c32_posterior_joint_unsent_fails` |
| C38 Processing a single-cluster graph twice | With special evidence the second call always raises, because the evidence variables have already been removed; holds without special evidence. | `c38_process_twice_refuted`, `c38_process_twice_fails` |
| C41 Gaussian reduce is restriction | Observing a proper subset is restriction; observing all variables always raises AssertionError instead of giving the constant. | `c41_reduce_all_refuted`, `c41_reduce_all_fails` |
| C45 Comparing Gaussians does not modify them | equals reorders its argument in place; two vacuous factors always compare equal; a covariance form against a vacuous factor raises. What holds: the argument keeps its value at every assignment, and equal factors not flagged vacuous have close parameters by name. | `c45_argument_unchanged_refuted`, `c45_equal_parameters_refuted`, `c45_answers_refuted` |
| C47 Splitting a Gaussian preserves its first three moments | The total weight is lost: the result always has weight one. Mean and variance are preserved. | `c47_weight_refuted` |
| C50 Mixture equality | The same components in another order compare different, and different mixtures can compare equal. What holds: same components in the same order compare equal; equal mixtures have the same number of components and every left component is close to one at the same or a later place on the right. | `c50_order_refuted`, `c50_different_refuted` |
| C52 Factorised marginal is the marginal of the joint | Merging compares factors only with the first of a group, so a chain f1(x), f2(x,y), f3(y,a) marginalised onto a gives another function. Proved when sharing an integrated variable is transitive between the factors, in particular for one variable at a time. | `c52_chain_refuted` |
| C53 Factorised equality | All matching pairs are counted: a repeated factor makes an object different from itself, and different products can compare equal. Proved for factors in canonical form when no factor matches two, for different scopes, and for lists of different lengths. | `c53_reflexive_refuted`, `c53_different_refuted` |
| C68 The scope of a factorised product | The names are not updated when the factor is appended. Right when the factor brings no new variable. | `c68_scope_refuted` |
| C69 Factorised reduction restricts the joint | Fails with AssertionError when a factor's scope lies strictly inside the observed variables, and with IndexError when every factor is fully observed; otherwise proved. | `c69_inside_refuted`, `c69_inside_error`, `c69_all_error` |
| C70 Factorised normalisation | Always fails with two factors or more; proved for one factor. | `c70_normalize_refuted`, `c70_always_fails` |
| C71 Factorised division divides the joint | A factor that is only close to the divisor is removed; a divisor whose scope is inside no single factor is refused. Proved otherwise. | `c71_close_refuted`, `c71_spanning_refuted` |
| C75 Factorised mean and covariance are moments of the product | The arrays follow the variable order of the joint, which can differ from the factor's own names; proved by the joint's names. | `c75_order_refuted` |
| C76 Gaussian divergence is the relative entropy | Wrong when the variables are listed in different orders and the weights differ, zero for close densities, and a number for different variables. Proved for one variable order whenever the equality check answers false. | `c76_order_refuted`, `c76_close_refuted`, `c76_scope_refuted` |
| C77 Linear Gaussian construction | Every transform between different dimensions raises ValueError. Proved in full for square transforms. | `c77_nonsquare_refuted`, `c77_nonsquare_error` |
| C78 Linear Gaussian template | The constant term is replaced by 0, so the mass over the conditional variables is the square root of det(2 pi N). Proved up to that constant. | `c78_mass_refuted` |
| C79 Template factors behave like ordinary factors | The flag is always set, so every marginal is the constant 1 and never the integral; a copy is not flagged but has the same potential. | `c79_marginal_refuted`, `c79_names_error` |
| C80 Nonlinear Gaussian joint, affine transforms | With all conditioning variables observed the joint raises UnboundLocalError or AssertionError. Proved whenever one conditioning variable is not observed, also for the canonical and covariance parameters and the normalised joint; a log weight added to the factor is added to the joint (`c80_add_log_weight_partial`, which a mutation of `add_log_weight` asked for). | `c80_observed_refuted`, `c80_unfactored_error`, `c80_observed_error` |
| C82 The joint does not depend on how the conditioning factor lists its variables | A transform that goes by position sees the rows in the conditioning factor's order. Proved for affine transforms that go by name. | `c82_order_refuted` |
| C83 Nonlinear Gaussian marginals are integrals | After an observation, naming the variables to remove raises ValueError. Proved for variables to keep that are not observed; without full information the parts' marginals, or vacuous ones, are returned. | `c83_removed_refuted`, `c83_observed_error` |
| C84 Observing variables of a nonlinear Gaussian | Observing the whole conditioning factor makes the joint fail. Proved otherwise. | `c84_reduce_refuted` |
| C85 Multiplying a nonlinear Gaussian | The weight of a vacuous message is dropped and messages about both sides are refused. Proved for positive definite messages about one side. | `c85_vacuous_refuted`, `c85_both_sides_error` |
| C86 Dividing a nonlinear Gaussian | Division fails when no message was multiplied in before, and for every mixture. Proved for messages about either side. | `c86_no_message_refuted`, `c86_no_conditioning_refuted`, `c86_mixture_refuted` |
| C87 Mixtures of nonlinear Gaussians | Products with Gaussians and marginals always raise TypeError, and a copy resets the split flag. Sums, products with mixtures, quotients by messages about y and observations are proved. | `c87_gaussian_refuted`, `c87_marginal_refuted`, `c87_copy_flag_refuted` |
| C88 Nonlinear Gaussian equality | The joint last computed is compared, which can be an old one. Proved when it is up to date. | `c88_stale_refuted` |
| C89 Nonlinear Gaussian templates | Conditional names given together with a dictionary are ignored. | `c89_ignored_refuted` |
| C92 get_posterior_joint of Gaussian graphs | Raises AttributeError exactly while some path has not carried a message; exact afterwards. | `c92_joint_refuted` |
| C95 Gaussian graphs never crash | Evidence about all variables of a factor raises AssertionError, and a semidefinite factor that must be integrated along a flat direction raises. Proved for positive definite factors with an unobserved variable each. | `c95_all_observed_refuted`, `c95_semidefinite_refuted`, `c95_all_observed_error` |
| C98 Converged Gaussian trees give exact marginals | kl_divergence is 0 for messages within the tolerance of equals, so a changed message can stay unsent for ever and the answer is then not proportional to the marginal. Exact when no waiting message differs from the one sent. | `c98_converged_exact_refuted` |
| C99 Dense cluster graphs: messages are marginals | Tables that list two shared variables in opposite orders make the construction raise AssertionError, or give a mislabelled message; a shared variable with one value raises ValueError. Whether the construction works can depend on the order in which Python lists a set of shared variables (hash seed). Proved for positive tables when every edge lists its variables in the order of the tables at both ends, in particular with at most one shared unobserved variable per pair. | `c99_messages_refuted`, `c99_one_value_refuted`, `c99_order_refuted` |
| C100 Dense message passing never fails | Sending a message with a zero a second time raises IndexError. Proved for positive tables and edges whose variables are in the order of the tables (C99). | `c100_never_fails_refuted`, `c100_zero_error` |
| C101 Dense trees: two sweeps are exact | False for edges whose variables are in another order than in the tables, see C99, and for queries that name two variables of different cardinalities in another order than the table (AssertionError). Proved for edges in order and queries about any number of variables in the order of the tables: positive tables after any history, tables with zeros from the freshly built graph. | `c101_query_order_refuted`, `c101_mislabelled_query_refuted` |
| C102 Dense trees: greedy message passing converges to exact marginals | False for edges out of order and tables with zeros, see C99 and C100, and for queries whose variables are in another order than in the table. Proved for positive tables, edges in order and queries in order. | `c102_query_order_refuted`, `c102_crossed_refuted` |
| C103 Dense posterior joint | cancel broadcasts a table over fewer axes against the trailing axes, so ValueError with unequal cardinalities. Proved for equal cardinalities. | `c103_joint_refuted` |
| C108 Division of mixtures by method 1 | cancel_method 1 multiplies the log determinant with the log potential, so even with ideal optimisation the quotient is off by a factor; with several variables it raises on comparing arrays; only the last numerator component enters the inverse mixture. Proved: quotient up to a constant for one numerator component and denominators of equal shape. | `c108_method1_refuted`, `c108_several_variables_error` |
| C109 Division of mixtures by method 2 | cancel_method 2 takes the modulus of the log constant, which loses its sign, so the quotient is off by a factor when a numerator component outweighs the denominator. Proved for one variable and denominators of equal shape: exact otherwise. | `c109_method2_refuted` |
| C111 Samples of a mixture follow the mixture | sample(0) of a mixture raises ValueError (nothing to concatenate) where a Gaussian gives an array without columns. Everything else holds for at least one sample; a total weight of zero raises ValueError. | `c111_no_samples_refuted` |
| C112 Samples of nonlinear Gaussians follow the joint distribution | Proved for a nonlinear Gaussian with an affine transform. The mixture draws the full number of samples from every component regardless of its weight and stacks the arrays below each other, so with two components it returns twice as many rows as variables. | `c112_mixture_refuted` |
| C114 Distribution arrays list every assignment | The arrays are right for both classes and any default. The weight property of the sparse class sums the stored values only, so with a default other than zero and missing entries it is not the sum of the array. | `c114_sparse_weight_refuted` |
| C115 Conversion of parameters | All documented forms are converted correctly. A nested list holding one numpy integer raises UnboundLocalError; a matrix written as nested lists is flattened into a column; an array of shape (1, 3) passes as a scalar (its minimum), and a nested list passes as a scalar unchanged. | `c115_scalar_error`, `c115_list_error`, `c115_array_error`, `c115_matrix_column_error`, `c115_numpy_integer_refuted`, `c115_column_refuted`, `c115_column_axes_refuted`, `c115_scalar_refuted`, `c115_scalar_list_refuted` |
| C116 The Gaussian constructor | Proved for lists of names. A name given as a string gets the string's length as dimension, so 'ab' cannot be a one-dimensional factor (but can be a two-dimensional one with a single name) and 'foo' is rejected as having duplicates. Covariance parameters next to canonical ones are ignored without an error. | `c116_name_refuted`, `c116_name_duplicates_refuted`, `c116_name_dimension_refuted`, `c116_conflict_refuted` |
| C117 Node colours | Proved for names without quotes, white space, equal signs and double dashes when no other cluster's name ends with the name. A name with a double dash is taken for an edge and raises ValueError; a name that is the end of another one recolours both; part of another name is accepted as a node. Names are taken literally in the regular expression (characters with a meaning there are not modelled). | `c117_node_colour_refuted` |
| C118 Edge colours | Proved for ids of the constructor with variable names without quotes, white space, equal signs, double dashes and hash signs. A missing edge is not noticed if both clusters have an edge to some other cluster: nothing is changed and no error raised. | `c118_missing_edge_refuted` |
| C119 Separate substrings | True for different names that occur in quotes. In general the answer can be wrong both ways (deleting one string can glue the other together or destroy it), the longer of two nested strings need not occur, and the documented example that should give False gives True. | `c119_refuted` |
| C120 Animation of messages | Proved for any sequence of messages along edges, with variable names as in C118. With a double dash in a name the first message raises ValueError; with a hash sign a second cluster can turn red. | `c120_refuted` |
| C122 Factorised tables: product | The represented function is right; the variable names kept by the product are those before it, so a new variable is missing from them. | `c122_scope_refuted` |
| C123 Factorised tables: division | Exact for a divisor without zeros that is covered by one factor and close to none. A factor close to the divisor is dropped instead, which is right up to the tolerance (bound proved). A divisor covered only by the product is refused. | `c123_uncovered_error`, `c123_close_refuted`, `c123_split_refuted` |
| C124 Factorised tables: marginals, evidence, normalising | marginalize never succeeds and reduce and is_vacuous raise AttributeError, since tables lack the methods called; normalize works for a single factor only. | `c124_marginal_refuted`, `c124_reduce_refuted`, `c124_reduce_error`, `c124_vacuous_error`, `c124_normalize_error` |
| C125 Factorised tables: equality | As C53: matches are counted without removing them, so repeated factors make an object different from itself and different products can compare equal. Right if no factor is close to two others. | `c125_reflexive_refuted`, `c125_different_refuted` |
| C129 Converged graphs of dense tables: every holder gives the same marginal | Proved for positive tables and edges whose variables are in the order of the tables. Refuted for other edges: two clusters that share two variables in opposite orders stop early and disagree, because the first message is labelled with the wrong axes (C99). | `c129_dense_refuted` |
| C130 Data frame of a dense table | The rows are proved for every table. Different assignments have different names if the names of each variable are distinct; the constructor only counts distinct names, so ['x', 'x', 'y'] passes for a variable with two values and both rows read 'x'. A variable called prob gives two columns of that name. | `c130_names_refuted`, `c130_columns_refuted` |
| C131 Data frame of a sparse table | Proved for tables with at least one entry and no variable called assignment or log_prob. A variable called log_prob overwrites the values, one called assignment is dropped, an empty table raises KeyError. | `c131_log_prob_refuted`, `c131_assignment_refuted`, `c131_empty_refuted` |
| C132 Printed tables line up | Proved for tables with variables and values of at most seven digits. A value of eight digits shifts the rest of its line; the header of a table without variables starts with a tab its row does not have. | `c132_wide_refuted`, `c132_scalar_refuted` |
| C134 Trees of nonlinear Gaussians compute the posterior | Proved if each message to a nonlinear Gaussian from below is constant, has a positive definite precision, or says something about a variable with precision above 1e-8; branches without observations send constants. Without this condition it fails: a message with a small singular precision is marked vacuous and left out, here for an observation of 1e-5 times one of two variables. In trees that are not chains, children visited earlier have not heard from those visited later. | `c134_refuted` |
| C140 Operators between factors | False for quotients: the class defines __div__, which Python 3 does not use, and so a / b raises TypeError for all factors of all classes. Proved for products (sparse, dense, Gaussian), equality and difference (sparse, dense). | `c140_division_refuted`, `c140_division_error` |
| C142 Cluster graphs of Gaussian mixtures | False: GaussianMixture.distance_from_vacuous and kl_divergence raise NotImplementedError, and the constructor of every message path calls the former. Proved: a graph of mixtures can only be built if no two clusters share an unobserved variable, has no message paths then, and processing it changes no cluster. | `c142_mixture_graph_refuted` |
| C143 Curves of one variable | Proved for Gaussians, for mixtures without log, and for mixtures of one component with log. False for mixtures of several components with log=True: the curve is the sum of the logarithms of the components instead of the logarithm of the sum. | `c143_mixture_log_refuted` |
| C144 Contours of two variables | Proved for Gaussians, and for mixtures with both or neither of the limits. False for mixtures with one of the two limits given: it is ignored. | `c144_mixture_limits_refuted` |
| C145 Contour of a nonlinear Gaussian | False: plot recomputes the joint distribution of a copy and then plots the attribute of the factor itself, which is vacuous for every new factor, and so the call raises. Proved where the attribute holds the current joint distribution. The plot of a mixture of nonlinear Gaussians shows the sum of the joint potentials of its components. | `c145_joint_contour_refuted` |
| C146 Plot of the convergence of the messages | Proved if the largest finite value is positive. False otherwise: with a largest value of zero the finite zeros are marked as infinite, with a negative one (logarithms) infinite values are drawn below finite ones, and without finite values the call raises ValueError. | `c146_zero_refuted`, `c146_low_refuted` |
| C147 Bars of a table | Proved for tables whose names are strings. False with the default names, which are numbers: joining them to a label raises TypeError for every such table. | `c147_bars_refuted` |
| C148 Plot of the information gains | Proved: one curve for every path, with the legend in the same order and without repetitions, from the first gain to the current one, and the exact number of points of every curve. False: that the axis shows iterations. A path gets a point only when it is used or its sender receives a message, so that points drawn above each other belong to different iterations. | `c148_same_iterations_refuted` |
| C149 Factors of the last messages | Proved if every path has sent a message; then the entries are the messages that were waiting when the paths were last used. False otherwise: the property raises AttributeError. | `c149_before_sending_refuted` |
| C152 Factorised sparse tables: product | The represented function is right; the variable names kept by the product are those before it, so a new variable is missing from them. | `c152_scope_refuted` |
| C153 Factorised sparse tables: division | Exact for a single factor. With two factors or more divide returns an object whose joint distribution always raises NotImplementedError (proved for every such quotient), because the divided table has the default NaN. A factor close to the divisor is dropped instead, which is right up to the tolerance (bound proved). A divisor covered only by the product, or without variables, is refused. | `c153_constant_error`, `c153_uncovered_error`, `c153_unusable_refuted`, `c153_close_refuted`, `c153_split_refuted` |
| C154 Factorised sparse tables: marginals, evidence, normalising, display | marginalize and reduce never succeed and is_vacuous raises AttributeError, since tables lack the methods called; show raises TypeError, since its loop unpacks a factor; normalize works for a single factor only. | `c154_marginal_refuted`, `c154_marginalize_error`, `c154_marginalize_nothing_error`, `c154_reduce_error`, `c154_vacuous_error`, `c154_show_error`, `c154_normalize_error` |
| C155 Factorised sparse tables: equality and divergences | The divergences are exact. Equality is as in C53 and C125: matches are counted without removing them, so repeated factors make an object different from itself and different products can compare equal. Right if no factor is close to two others. | `c155_reflexive_refuted`, `c155_different_refuted` |
| C156 Display of Gaussians | repr raises for every vacuous Gaussian, and for every Gaussian whose precision matrix is singular, since the covariance form is always printed. Exact for Gaussians with a positive definite matrix; show is exact for all well-formed ones. How numpy writes an array is not modelled. | `c156_repr_refuted`, `c156_vacuous_error`, `c156_singular_error`, `c156_show_vis_error` |
| C157 Display of mixtures, nonlinear Gaussians and messages | Proved for mixtures and nonlinear Gaussians. Messages are told apart by their text unless an id holds a line break (refuted there; ids without line breaks partial). | `c157_message_refuted` |
| C158 Clusters whose neighbours were removed | The neighbours are gone, but messages received from them stay and are divided out of the messages to a neighbour that is added again (refuted); adding a neighbour again gives the messages as before the removal. | `c158_fresh_refuted` |
| C160 Construction and completion of sparse tables | Construction, probabilities, the test for completeness and completion are proved. The rule "both", which no method uses, is wrong for tables with different variables (refuted) and right for tables with the same variables (partial). | `c160_constructor_error`, `c160_both_refuted` |

Further behaviour met while modelling (visible in the model, each with its exception or value):

* Tables: the sparse `divide`, `kl_divergence` and `distance_from_vacuous` raise `TypeError` without a shared variable or
  with an empty scope; the dense class does not check the cardinalities against the tensor's shape; assignment names are
  not compared by `equals`; a sparse message from an empty table raises `KeyError`.
* Cluster graph: factors `[ab, a, abc]` leave nested clusters; `get_posterior_joint` raises `AttributeError` until every
  path has carried a message; `process_graph` with special evidence on a single cluster succeeds once only.
* Helpers: `remove_duplicate_values` raises `IndexError` on an empty list.
* Gaussian: observing every variable raises `AssertionError`; a covariance form compared with a vacuous factor raises;
  a linear Gaussian with a large enough noise matrix has all precision entries below 1e-8 and is flagged vacuous; a factor from a template is always flagged vacuous while its copy is not.
* Linear Gaussian: `make_linear_gaussian` broadcasts a 1 by 1 noise array; sigma points of a one-row array give a 0-d
  covariance.
* Factorised factor: `is_vacuous` raises `NotImplementedError` for a mixture of vacuous and informative factors; `show`
  iterates over Gaussians as if they were tuples; `divide` removes a factor that is merely close to the divisor.
* Nonlinear Gaussian: `equals` compares a stale joint; reducing with a name outside the scope is accepted, and with a
  duplicated name counts the observation twice; marginals without full information drop the weight on the conditioning
  side; a template ignores `conditional_vars` given together with a dictionary.
* Mixtures: every operation returns a mixture with `cancel_method` 0, whatever that of the operands; from scipy 1.11 on
  the column vector passed as start of `argmax` and `_argmin` is rejected; `_get_inverse_gaussians` empties its list of
  inverse mixtures in every round.
* Samples: `sample(0)` of a mixture raises ValueError; `sample` of a mixture of nonlinear Gaussians draws from every
  component regardless of weight and stacks the arrays below each other (twice as many rows as variables for two
  components); `normalize` of that mixture is not implemented.
* Arguments: a nested list holding one numpy integer raises UnboundLocalError in `list_to_square_matrix`; `make_column_vector`
  flattens a matrix given as nested lists (the same matrix as an array is refused) and arrays with three axes one of which
  has length one; `make_scalar` returns the minimum of an array of shape (1, n) and returns nested lists unchanged; a name
  given as a string has the string's length as dimension; covariance parameters next to canonical ones are ignored.
* `weight` of a sparse table with a default other than zero leaves out the assignments that are not stored.
* Drawing: `change_graph_edge_color` reports a missing edge only if one of the clusters has no edge at all;
  `change_graph_node_color` also recolours clusters whose name ends with the given one, does not find names with a double
  dash and accepts part of a name; `contains_non_overlapping_substrings` can be wrong both ways and contradicts its first
  documented example.
* `FactorizedFactor` over `Categorical` tables: `marginalize`, `reduce` and `is_vacuous` cannot succeed, because tables have
  no `_add_log_weight`, `get_log_weight`, `log_potential` or `_is_vacuous`; `normalize` fails with two factors or more; `divide`
  drops a factor that is only close to the divisor and refuses a divisor covered by the product but by no single factor.
* `get_df(named_assignments=True)` can show two assignments under one name, because the constructor compares the cardinality
  with the number of distinct names only. `_to_df` loses the values of a factor with a variable called `log_prob`, drops a
  variable called `assignment` and raises `KeyError` for an empty table. `__repr__` misaligns values of eight digits and
  tables without variables.
- C134: `NonLinearGaussian.multiply` leaves out messages marked vacuous, and `Gaussian.__init__` marks every singular precision
  matrix whose entries are at most 1e-8 in size (`np.allclose`). An observation that depends faintly on one of two variables
  (coefficient 1e-5) is lost, however far the observed value is from what was expected. The weight of left-out messages is
  lost in any case, so that beliefs are proportional to the posterior and not equal to it.
- **C140** (`_factor.py:Factor.__div__`): dividing factors with `/` always raises `TypeError`. Python 3 looks for
  `__truediv__`; the class defines `__div__` only, the name in Python 2. The method `divide` (or `cancel`) has to be called.
- **C99** (`cluster_graph.py`, `categorical.py`): three tables over (a,b,c), (b,c,d), (d,e) (three values for b, two for the others) build and
  propagate exactly when Python lists the set of shared variables as b, c and fail with `AssertionError` when it lists
  them as c, b. String hashes are randomised, so the same program can work in one run and fail in the next.
- **C142** (`gaussian_mixture.py`, `cluster_graph.py`): a cluster graph of Gaussian mixtures that share a variable cannot be built: the first
  message path calls `distance_from_vacuous`, which raises `NotImplementedError`.
- **C143** (`gaussian_mixture.py:394-426`): with `log=True` the curve of a mixture of several components is the sum of their log potentials.
- **C144** (`gaussian_mixture.py:718-740`): the limits of one axis are ignored unless those of the other axis are given too.
- **C145** (`nonlinear_gaussian.py:481-487`): `plot` computes the joint distribution of a copy but draws the attribute of the factor, which is
  vacuous in a new factor; the call then raises.
- **C146** (`cluster_graph.py:275-310`): infinite distances are drawn at 1.5 times the largest finite one, and found again by comparing heights;
  this fails when the largest finite value is zero (finite points are marked as infinite) or negative (infinite ones are drawn
  below finite ones), and raises `ValueError` when all are infinite.
- **C147** (`categorical.py:577-604`): `plot` raises `TypeError` for every table with default names of values, since these are integers.
- **C101, C102** (`cluster_graph.py`, `categorical.py`): `get_marginal(["c", "b"])` raises AssertionError when the table lists b before c and the two have different cardinalities, because `Categorical.marginalize` labels the axes with the caller's list without moving them; `get_marginal(["b", "c"])` on the same graph is exact. When the two have the same cardinality nothing is raised: the answer is the table of the other order under the new labels, so the probabilities of the two variables are exchanged (`c101_mislabelled_query_refuted`, `c101_exchanged_query`). Messages move the variables of an edge to the end of the table, so the order in which a query may name its variables can change while messages are passed (`stays_in_order` is the condition under which it does not).
- **C148** (`cluster_graph.py:248-273, 519-554`): the horizontal axis of `plot_next_messages_info_gain` is labelled "iteration", but a path gets a point only when it is used or its sender receives a message. After one message on a chain of three clusters, the curves of the paths have one or two points.
- **C149** (`cluster_graph.py:475-480`): `_last_passed_message_factors` raises `AttributeError` while any path has not sent a message.
- **C153** (`factorised_factor.py:83-105`, `sparse_categorical.py`): dividing a factorised factor of two or more sparse tables returns an object that cannot be used: the divided table's default is `-inf - -inf` = NaN, and the product of tables with different defaults raises `NotImplementedError`. Nothing is raised by `divide` itself.
- **C154** (`factorised_factor.py:366-373`): `show` raises `TypeError` for every nonempty factorised factor: `for i, factor in self.factors` lacks `enumerate`.
- **C156** (`gaussian.py:904-919`): `repr` of a vacuous Gaussian raises, and with it `repr` of any message that holds one. The test `if not self._is_vacuous` guards the canonical form, which a vacuous Gaussian has, instead of the covariance form, which it lacks. A singular precision matrix raises `LinAlgError`.
- **C158** (`_cluster.py:50-54`): `remove_all_neighbours` empties the sepsets only. `_neighbour_references` and `_received_message_factors` stay, so a neighbour that is added again has its old message divided out of the next message to it.
- **C160** (`sparse_categorical.py:243-302`): the default rule "both" pools the outer assignments of the two tables and uses the pool for each of them. With different variables the result gets assignments of the wrong length and lacks right ones. No method of the library uses the rule at present.
- **C102, C129** (`cluster_graph.py:process_graph`, `categorical.py:marginalize`): two positive tables over (a, b, c) and (c, b, d), the first uniform. The message from the second is the marginal with b and c exchanged, the message back is uniform and so never sent, and process_graph with tolerance 0 stops after one message with clusters that disagree about b; get_marginal answers a wrong marginal without an error (`c129_dense_refuted`, `c102_crossed_refuted`).

## 6. Assumptions of each theorem

As printed by `Print Assumptions` (SF, SN, FE, CL, CI as in section 2; "none" is "Closed under the global context").

**PropAnim.v**

* none: `c117_node_colour_partial`, `c117_missing_partial`, `c117_node_colour_refuted`, `c118_edge_colour_partial`, `c118_missing_edge_refuted`, `c118_missing_partial`, `c119_quoted_partial`, `c119_occurs_partial`, `c119_refuted`, `c120_animation_partial`, `c120_refuted`, `c121_node_names`

**PropColumn.v**

* SF, FE, CL, CI: `c163_row`, `c163_wide`

**PropConv.v**

* SF, SN, FE: `c114_dense_array`, `c114_sparse_array`
* SF, SN, FE, CL: `c114_sparse_weight_refuted`
* SF: `c115_square`, `c115_column`, `c115_column_refuted`, `c115_column_axes_refuted`
* SF, FE: `c115_scalar`, `c115_scalar_sound`, `c115_scalar_error`, `c115_numpy_integer_refuted`, `c115_scalar_refuted`, `c115_scalar_list_refuted`
* none: `c115_square_sound`, `c115_column_sound`, `c115_list_error`, `c115_array_error`, `c115_matrix_column_error`, `c115_numpy_integers`, `c116_missing_names`
* SF, FE, CL, CI: `c116_covariance`, `c116_canonical`, `c116_duplicates`, `c116_incomplete`, `c116_mean_size`, `c116_covariance_size`, `c116_name_refuted`, `c116_name_duplicates_refuted`, `c116_name_dimension_refuted`, `c116_covariance_ignored`, `c116_conflict_refuted`

**PropCopy.v**

* none: `c166_sparse`, `c166_dense`, `c166_factorised_sparse`, `c166_factorised_dense`
* SF, SN, FE, CL, CI: `c166_gaussian`, `c166_mixture`, `c166_factorised`, `c166_nonlinear`

**PropDense.v**

* SF, SN, FE: `c15_dense_product_pointwise`, `c15_dense_quotient_pointwise`, `c18_dense_potential`, `c19_dense_cancel_nested_refuted`, `c19_dense_cancel_nested_zero_refuted`, `c19_dense_cancel_order_refuted`, `c19_dense_cancel_same_order_partial`, `c19_dense_cancel_positive_partial`, `c23_sparse_dense_multiply_partial`, `c23_sparse_dense_reduce_partial`
* SF: `c15_dense_quotient_needs_nested_scopes`, `c15_dense_inconsistent_cardinalities`, `c15_dense_inconsistent_names`, `c17_dense_reduce_negative_refuted`
* SF, SN, FE, CL: `c16_dense_marginal_refuted`, `c16_dense_marginal_order_raises_refuted`, `c16_dense_marginal_card_one_refuted`, `c16_dense_marginal_away_refuted`, `c16_dense_marginal_partial`, `c16_dense_marginal_empty_axis`, `c21_dense_argmax`, `c21_dense_argmax_names`, `c22_dense_kl_divergence`, `c22_dense_distance_from_vacuous`, `c22_dense_normalize`, `c23_sparse_dense_reduce_refuted`, `c23_sparse_dense_construction_partial`
* none: `c17_dense_reduce_restricts_partial`, `c17_dense_reduce_out_of_range_partial`, `c18_dense_reorder`, `c18_dense_reorder_wrong_scope`
* SF, FE: `c20_dense_equality_symmetric_refuted`, `c20_dense_equality_cardinalities_refuted`, `c20_dense_equality_order_partial`, `c20_dense_equality_meaning_partial`, `c20_dense_equality_reflexive_partial`, `c20_dense_equality_symmetric_partial`, `c21_dense_argmax_nan`

**PropDenseGraph.v**

* SF, SN, FE, CL: `c99_messages_refuted`, `c99_one_value_refuted`, `c99_order_refuted`, `c99_construction_partial`, `c99_one_variable_edges`, `c99_lined_construction_partial`, `c99_messages_partial`, `c100_never_fails_refuted`, `c100_zero_error`, `c100_never_fails_partial`, `c100_queries_partial`, `c100_several_queries_partial`, `c101_query_order_refuted`, `c101_flipped_query`, `c101_mislabelled_query_refuted`, `c101_exchanged_query`, `c101_two_sweeps_exact_partial`, `c101_sweeps_run_partial`, `c101_several_variables_partial`, `c101_stays_in_order`, `c101_zeros_two_sweeps_partial`, `c101_zeros_several_variables_partial`, `c101_zeros_stays_in_order`, `c101_zeros_schedule_partial`, `c101_zeros_graph_partial`, `c101_zeros_lined_graph_partial`, `c102_query_order_refuted`, `c102_greedy_converges_partial`, `c102_greedy_exact_partial`, `c102_early_exact_partial`, `c102_several_greedy_partial`, `c102_several_early_partial`, `c103_joint_refuted`, `c103_joint_partial`

**PropDisplay.v**

* SF, SN, FE, CL, CI: `c156_repr_refuted`, `c156_vacuous_error`, `c156_singular_error`, `c156_repr_partial`, `c156_show`, `c156_show_vis`, `c156_show_vis_error`, `c157_mixture`, `c157_nonlinear`, `c157_nonlinear_stale`
* none: `c157_message_refuted`, `c157_message_partial`, `c157_message_content`, `c158_none`, `c158_again_partial`
* SF, SN, FE, CL: `c158_fresh_refuted`

**PropElim.v**

* SF, SN, FE, CL: `c161_steps`, `c161_product`, `c161_evidence_product`, `c161_evidence_marginal`, `c161_elimination`, `c161_order`
* SF, SN, FE, CL, CI: `c162_elimination`, `c162_order`

**PropElimDense.v**

* SF, SN, FE, CL: `c167_steps`, `c167_evidence_product`, `c167_elimination`, `c167_order`

**PropFact.v**

* SF, SN, FE, CL, CI: `c51_multiply`, `c52_chain_refuted`, `c52_marginal_partial`, `c52_one_variable_partial`, `c53_reflexive_refuted`, `c53_different_refuted`, `c53_reflexive_partial`, `c53_equal_partial`, `c53_scope_partial`, `c53_shapes_partial`, `c68_scope_refuted`, `c68_scope_partial`, `c69_inside_refuted`, `c69_inside_error`, `c69_all_error`, `c69_reduce_partial`, `c70_normalize_refuted`, `c70_always_fails`, `c70_one_factor_partial`, `c71_close_refuted`, `c71_spanning_refuted`, `c71_divide_partial`, `c72_distance`
* none: `c72_is_vacuous`

**PropFactSparse.v**

* SF, SN, FE: `c152_joint`, `c152_multiply`, `c152_scope_refuted`, `c153_unusable_refuted`, `c153_split_refuted`, `c153_never_usable`, `c153_single_partial`, `c154_reduce_error`, `c155_shapes_partial`, `c155_table_partial`
* SF, SN, FE, CL: `c153_close_refuted`, `c153_near_partial`, `c154_marginal_refuted`, `c154_marginalize_never`, `c154_marginalize_error`, `c154_marginalize_nothing_error`, `c154_normalize_error`, `c154_normalize_partial`, `c155_divergence`, `c155_distance`
* SF, FE: `c153_constant_error`, `c153_uncovered_error`, `c155_scope_partial`
* none: `c154_reduce_never`, `c154_vacuous_error`, `c154_show_error`
* SF, FE, CL, CI: `c155_reflexive_refuted`, `c155_reflexive_partial`, `c155_equal_partial`
* SF, SN, FE, CL, CI: `c155_different_refuted`

**PropFactTab.v**

* SF, SN, FE: `c122_joint`, `c122_multiply`, `c122_scope_refuted`, `c123_split_refuted`, `c123_quotient_partial`, `c124_reduce_refuted`, `c125_shapes_partial`, `c125_table_partial`
* SF, SN, FE, CL: `c123_close_refuted`, `c123_near_partial`, `c124_marginal_refuted`, `c124_marginal_never`, `c124_normalize_error`, `c124_normalize_partial`, `c126_divergence`, `c126_distance`
* SF, FE: `c123_uncovered_error`, `c125_scope_partial`
* none: `c124_reduce_error`, `c124_vacuous_error`
* SF, SN, FE, CL, CI: `c125_reflexive_refuted`, `c125_different_refuted`
* SF, FE, CL, CI: `c125_reflexive_partial`, `c125_equal_partial`

**PropGauss.v**

* SF, SN, FE, CL, CI: `c40_multiply`, `c40_divide`, `c40_multiply_divide`, `c41_reduce_all_refuted`, `c41_reduce_all_fails`, `c41_reduce_partial`, `c42_cov_can_cov`, `c42_can_cov_can`, `c42_cov_can_cov_indefinite`, `c43_marginal`, `c43_marginal_drop`, `c44_reorder`, `c45_argument_unchanged_refuted`, `c45_equal_parameters_refuted`, `c45_answers_refuted`, `c45_argument_partial`, `c45_equal_parameters_partial`
* SF, FE, CL, CI: `c40_constructed_canonical`, `c40_constructed_covariance`, `c44_parameters`

**PropGaussGraph.v**

* SF, SN, FE, CL, CI: `c90_evidence`, `c91_joint_kept`, `c91_joint_kept_semidefinite`, `c92_joint_refuted`, `c92_joint_partial`, `c92_joint_missing`, `c93_calibrated_exact`, `c93_calibrated_exact_semidefinite`, `c94_two_sweeps_exact`, `c94_two_sweeps_exact_semidefinite`, `c95_all_observed_refuted`, `c95_semidefinite_refuted`, `c95_construction_partial`, `c95_all_observed_error`, `c95_processing_partial`, `c96_queries_answered`, `c96_sweeps_answer`, `c97_messages_bounded`, `c97_greedy_converges`, `c98_converged_exact_refuted`, `c98_converged_exact_partial`

**PropGraph.v**

* none: `c24_cluster_ids_unique`, `c24_cluster_id_injective`, `c24_construction_errors`, `c25_absorb_partition`, `c27_running_intersection`, `c28_sepsets_sane`, `c28_no_assertion_fires`
* SF, SN, FE, CL: `c25_absorb_product`, `c26_nested_clusters_refuted`, `c26_nested_clusters_partial`, `c28_sparse_construction`, `c29_evidence_restricts`

**PropIntegral.v**

* SF, SN, FE, CL, CI: `c66_marginal_is_integral`, `c66_order`, `c66_mixture`, `c66_two_steps`, `c67_weight_is_integral`, `c67_normalize`, `c67_normalize_integral`, `c67_mixture_weight`

**PropKlRaw.v**

* SF, SN, FE, CL: `c164_sparse`, `c164_dense`
* SF, SN, FE, CL, CI: `c165_bad_covariance`

**PropLinear.v**

* SF, SN, FE, CL, CI: `c77_linear_partial`, `c77_nonsquare_error`, `c77_nonsquare_refuted`, `c77_columns`, `c78_template_partial`, `c78_mass_partial`, `c78_mass_refuted`, `c79_marginal_refuted`, `c79_copy_partial`
* SF, FE, CL, CI: `c79_names_error`

**PropLocal.v**

* SF, SN, FE, CL: `c127_still_edge`, `c127_stopped_edge`, `c128_still_holders`, `c128_still_marginal`, `c128_stopped_holders`, `c128_stopped_marginal`, `c129_dense_holders_partial`, `c129_dense_marginal_partial`
* SF, SN, FE, CL, CI: `c127_gauss_edge`, `c127_semi_edge`, `c151_gauss_parts`, `c151_gauss_holders`, `c151_gauss_marginal`

**PropMessage.v**

* SF, FE: `c30_no_stale_messages`, `c33_bounded_passes`, `c33_queue_is_all_paths`, `c33_single_cluster`, `c34_greedy_schedule`, `c35_early_stop_converged`, `c38_process_twice_partial`
* SF, SN, FE, CL: `c31_joint_kept_refuted`, `c31_joint_kept_partial`, `c32_posterior_joint_refuted`, `c32_posterior_joint_unsent_fails`, `c32_posterior_joint_partial`, `c34_c35_gains_comparable`, `c36_calibrated_marginal`, `c36_marginal_exists`, `c37_lookup_error_iff`, `c38_process_twice_refuted`, `c38_process_twice_fails`, `c56_construction_never_fails`, `c56_processing_never_fails`, `c57_early_stop_exact`, `c58_two_sweeps_exact`, `c58_two_sweeps_exist`, `c59_messages_bounded`, `c59_greedy_converges`, `c59_greedy_exact`
* none: `c37_lookup_none`, `c37_lookup_first`, `c39_almost_sorted`

**PropMix.v**

* SF, SN, FE, CL, CI: `c43_marginal_any_state`, `c47_weight_refuted`, `c47_split_partial`, `c48_moment_match`, `c49_multiply`, `c50_order_refuted`, `c50_different_refuted`, `c50_same_partial`, `c50_equal_partial`, `c50_answers_partial`, `c61_normalize`, `c61_weight`, `c62_reduce`, `c63_marginalize`, `c64_log_potential`, `c65_multiply`, `c65_divide`

**PropMixOpt.v**

* SF, SN, FE, CL, CI: `c106_argmax`, `c106_argmin`, `c106_ratio`, `c107_sklearn`, `c108_method1_refuted`, `c108_method1_partial`, `c108_several_variables_error`, `c108_last_numerator`, `c109_method2_refuted`, `c109_terms_partial`, `c109_method2_partial`, `c109_other_methods`

**PropMoment.v**

* SF, SN, FE, CL, CI: `c73_mean`, `c73_covariance`, `c74_moment_match`, `c75_moments_partial`, `c75_order_refuted`, `c76_divergence_partial`, `c76_degenerate`, `c76_order_refuted`, `c76_close_refuted`, `c76_scope_refuted`

**PropNlg.v**

* SF, SN, FE, CL, CI: `c80_joint_partial`, `c80_add_log_weight_partial`, `c80_canonical_partial`, `c80_covariance_partial`, `c80_normalize_partial`, `c80_unfactored_error`, `c80_observed_error`, `c80_observed_refuted`, `c81_moments`, `c81_no_output_error`, `c81_conditioning_marginal`, `c82_order_partial`, `c82_order_refuted`, `c83_marginal_partial`, `c83_observed_error`, `c83_removed_refuted`, `c83_no_info_x`, `c83_no_info_y`, `c83_no_info_rest`, `c84_reduce_partial`, `c84_reduce_refuted`, `c85_multiply_partial`, `c85_first_message`, `c85_both_sides_error`, `c85_vacuous_refuted`, `c86_divide_partial`, `c86_quotient_partial`, `c86_conditioning_partial`, `c86_conditioning_quotient_partial`, `c86_no_message_refuted`, `c86_no_conditioning_refuted`, `c86_mixture_refuted`, `c87_sum_partial`, `c87_product_partial`, `c87_single_product`, `c87_reduce`, `c87_divide_partial`, `c87_marginal_refuted`, `c87_copy_flag_refuted`, `c88_equal_partial`, `c88_stale_refuted`, `c89_template_partial`, `c89_names_partial`, `c89_ignored_refuted`
* none: `c87_gaussian_refuted`

**PropNlgJoint.v**

* SF, SN, FE, CL, CI: `c139_posterior_joint`

**PropNlgSpread.v**

* SF, SN, FE, CL, CI: `c137_every_cluster`, `c138_converged`

**PropNlgTree.v**

* SF, SN, FE, CL, CI: `c133_no_errors`, `c133_marginals`, `c134_marginals_partial`, `c134_refuted`, `c134_untold`, `c135_filter`, `c136_smoother`

**PropObserve.v**

* SF, SN, FE, CL: `c168_sparse`
* none: `c168_dense`
* SF, SN, FE, CL, CI: `c168_gaussian`

**PropOper.v**

* SF, SN, FE: `c140_division_refuted`, `c140_sparse_product_partial`, `c140_dense_product_partial`
* none: `c140_division_error`
* SF, SN, FE, CL, CI: `c140_gaussian_product_partial`
* SF, FE: `c140_sparse_equal_partial`, `c140_dense_equal_partial`, `c141_sparse_messages`, `c141_sparse_copy`, `c141_dense_messages`, `c141_dense_copy`

**PropParts.v**

* SF, SN, FE, CL, CI: `c159_standard`, `c159_inverse`, `c159_weight`
* SF: `c159_standard_error`
* SF, FE, CL, CI: `c159_inverse_error`
* none: `c160_constructor`, `c160_constructor_error`, `c160_dense`, `c160_make_dense`
* SF, SN, FE, CL: `c160_probabilities`
* SF, FE: `c160_both_refuted`, `c160_both_partial`

**PropPlot.v**

* SF, SN, FE, CL, CI: `c142_mixture_graph_refuted`, `c142_no_messages`, `c142_separate_clusters_partial`, `c143_gaussian_curve`, `c143_mixture_curve_partial`, `c143_mixture_log_refuted`, `c143_mixture_log_one_partial`, `c144_gaussian_contour`, `c144_gaussian_other`, `c144_mixture_contour_partial`, `c144_mixture_limits_refuted`, `c144_mixture_other`, `c145_joint_contour_refuted`, `c145_new_factor`, `c145_joint_contour_partial`, `c145_mixture_contour`, `c146_convergence_partial`
* SF, SN, FE, CL: `c146_zero_refuted`, `c146_low_refuted`, `c146_none`
* SF, SN, FE: `c147_bars_partial`, `c147_bars_refuted`, `c147_default_names`

**PropSample.v**

* SF, SN, FE, CL, CI: `c110_columns`, `c110_law`, `c110_moments`, `c110_errors`, `c111_law`, `c111_columns_partial`, `c111_no_samples_refuted`, `c112_columns`, `c112_law`, `c112_mixture_partial`, `c112_mixture_refuted`, `c113_random`

**PropShow.v**

* SF, SN, FE: `c130_values`, `c130_named_partial`, `c130_names_refuted`, `c130_columns_refuted`, `c132_dense_partial`, `c132_sparse_partial`, `c132_wide_refuted`, `c132_scalar_refuted`
* SF: `c131_rows_partial`, `c131_empty_refuted`
* SF, FE: `c131_lossless_partial`, `c131_log_prob_refuted`, `c131_assignment_refuted`

**PropSigma.v**

* SF, SN, FE, CL, CI: `c46_moments`, `c46_gaussian`, `c46_cholesky`, `c60_affine`

**PropSparse.v**

* SF, SN, FE: `c01_sparse_product_pointwise`, `c02_sparse_product_default_partial`, `c03_sparse_product_order_irrelevant`, `c06_sparse_cancel_undoes_multiply`, `c06_sparse_cancel_pointwise`, `c06_sparse_cancel_pole`, `c08_sparse_reduce_partial`, `c09_sparse_potential_missing_refuted`, `c09_sparse_potential_partial`
* SF, SN, FE, CL: `c02_sparse_product_default_refuted`, `c07_sparse_marginal_keep`, `c07_sparse_marginal_remove`, `c07_sparse_weight_property`, `c09_sparse_potential_refuted`, `c10_sparse_normalize`, `c11_sparse_kl_refuted`, `c11_sparse_kl_partial`, `c12_sparse_vacuous_refuted`, `c12_sparse_vacuous_partial`, `c14_sparse_argmax`
* SF, FE: `c04_sparse_divide_refuted`, `c04_sparse_divide_pointwise_partial`, `c04_sparse_divide_disjoint_fails`, `c05_sparse_quotient_usable_refuted`, `c05_sparse_quotient_never_usable`, `c13_sparse_equals_reorder`, `c13_sparse_equals_symmetric`, `c13_sparse_equals_meaning`, `c13_sparse_equals_default_refuted`
* SF: `c08_sparse_reduce_refuted`
* none: `c08_sparse_reduce_missing_fails`, `c13_sparse_reorder`

**PropStopped.v**

* SF, SN, FE, CL: `c129_dense_refuted`, `c102_crossed_refuted`

**PropTemplate.v**

* SF, SN, FE, CL: `c104_tensor`, `c104_probs`, `c104_renamed`, `c104_errors`, `c105_probs`, `c105_errors`, `c105_no_templates`

**PropTrace.v**

* SF, FE: `c148_curves`, `c148_points`, `c149_last_partial`, `c149_which`, `c150_same_run`, `c150_every_run`, `c150_debug`
* SF, SN, FE, CL: `c148_same_iterations_refuted`, `c149_before_sending_refuted`

**PropUtils.v**

* SF: `c54_indexed_matrix`, `c54_indexed_vector`, `c54_name_order`, `c54_same_names`, `c54_bad_shapes`
* none: `c55_subset_evidence`, `c55_remove_duplicates_empty`, `c55_format_list`, `c55_formattable`, `c55_formattable_conditional`, `c55_template_one_sided`
* SF, FE: `c55_remove_duplicates`, `c55_remove_close_values`

