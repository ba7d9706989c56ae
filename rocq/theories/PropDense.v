(** Property theorems for the dense Categorical (C15 - C23).  Only statements: the proofs are in
    DenseProofs*.v and DenseExamples.v, the vocabulary is in TableSpec.v and DenseSpec.v. *)
From Coq Require Import ZArith.
From Verif Require Import DenseExamples DenseEmpty DenseNan.
Local Open Scope string_scope.
Local Open Scope nat_scope.

(** ** C15 *)
Theorem c15_dense_product_pointwise : forall a b : dense,
  wf_dense a -> wf_dense b -> d_cards_agree a b -> names_agree a b ->
  exists r, d_multiply a b = Ok r /\ wf_dense r /\
    (forall v, In v (dvars r) <-> In v (dvars a) \/ In v (dvars b)) /\
    (forall v c, d_has_card r v c <-> d_has_card a v c \/ d_has_card b v c) /\
    (forall v ns, dget (dnames r) v = Some ns <->
                  dget (dnames a) v = Some ns \/ dget (dnames b) v = Some ns) /\
    (forall e, d_in_range r e ->
       dval r e = vadd (dval a e) (dval b e) /\ dpot r e = (dpot a e * dpot b e)%R).
Proof. exact d_multiply_spec. Qed.
Print Assumptions c15_dense_product_pointwise.
Theorem c15_dense_quotient_pointwise : forall a b : dense,
  wf_dense a -> wf_dense b -> d_cards_agree a b -> names_agree a b -> incl (dvars b) (dvars a) ->
  exists r, d_divide a b = Ok r /\ wf_shape r /\
    (forall v c, d_has_card r v c <-> d_has_card a v c) /\
    (forall v ns, dget (dnames r) v = Some ns <-> dget (dnames a) v = Some ns) /\
    (forall e, d_in_range a e -> dval r e = vsub (dval a e) (dval b e)) /\
    (forall e, d_in_range a e -> dpot b e <> 0%R -> dpot r e = (dpot a e / dpot b e)%R).
Proof. exact d_divide_pot. Qed.
Print Assumptions c15_dense_quotient_pointwise.
Theorem c15_dense_quotient_needs_nested_scopes : forall a b : dense,
  wf_shape a -> wf_shape b -> d_cards_agree a b -> names_agree a b -> ~ incl (dvars b) (dvars a) ->
  d_divide a b = Err KeyError.
Proof. exact d_divide_extra. Qed.
Print Assumptions c15_dense_quotient_needs_nested_scopes.
Theorem c15_dense_inconsistent_cardinalities : forall a b : dense,
  wf_shape a -> wf_shape b -> ~ d_cards_agree a b ->
  d_multiply a b = Err AssertionError /\ d_divide a b = Err AssertionError.
Proof. exact d_multiply_bad_cards. Qed.
Print Assumptions c15_dense_inconsistent_cardinalities.
Theorem c15_dense_inconsistent_names : forall a b : dense,
  wf_shape a -> wf_shape b -> d_cards_agree a b -> ~ names_agree a b ->
  d_multiply a b = Err InconsistentAssignmentNamesError /\
  d_divide a b = Err InconsistentAssignmentNamesError.
Proof. exact d_multiply_bad_names. Qed.
Print Assumptions c15_dense_inconsistent_names.
Example c15_nonvacuous : wf_dense ed_ab /\ wf_dense ed_bc /\ d_cards_agree ed_ab ed_bc /\ names_agree ed_ab ed_bc /\
  ~ incl (dvars ed_bc) (dvars ed_ab).
Proof.
  split; [exact ed_ab_wf|]. split; [exact ed_bc_wf|]. split; [exact ed_ab_bc_cards|]. split; [exact ed_ab_bc_names|].
  intros H. specialize (H "c"). cbn in H. intuition congruence.
Qed.
Example c15_nonvacuous_quotient : wf_dense ed_ab /\ wf_dense ed_b /\ d_cards_agree ed_ab ed_b /\ names_agree ed_ab ed_b /\
  incl (dvars ed_b) (dvars ed_ab).
Proof.
  split; [exact ed_ab_wf|]. split; [exact ed_b_wf|]. split; [exact ed_ab_b_cards|]. split; [exact ed_ab_b_names|].
  intros v [<-|[]]. cbn. tauto.
Qed.

(** ** C16: false when the kept variables are listed in another order than the factor's, or a
    kept variable has one value. *)
Theorem c16_dense_marginal_refuted : exists f vrs, wf_dense f /\ NoDup vrs /\ incl vrs (dvars f) /\
  forall o, exists r e, d_marginalize o f vrs true = Ok r /\ d_in_range f e /\
    (forall v, In v (dvars f) -> In v vrs) /\ dpot r e <> dpot f e.
Proof. exact d_marginal_order_refuted. Qed.
Print Assumptions c16_dense_marginal_refuted.
Theorem c16_dense_marginal_order_raises_refuted : exists f vrs, wf_dense f /\ NoDup vrs /\ incl vrs (dvars f) /\
  forall o, d_marginalize o f vrs true = Err AssertionError.
Proof. exact d_marginal_order_raises. Qed.
Print Assumptions c16_dense_marginal_order_raises_refuted.
Theorem c16_dense_marginal_card_one_refuted : exists f vrs, wf_dense f /\ vrs = dvars f /\
  forall o, d_marginalize o f vrs true = Err ValueError.
Proof. exact d_marginal_card_one_raises. Qed.
Print Assumptions c16_dense_marginal_card_one_refuted.
Theorem c16_dense_marginal_away_refuted : exists f vrs o, oracle_ok o /\ wf_dense f /\ NoDup vrs /\
  incl vrs (dvars f) /\ d_marginalize o f vrs false = Err AssertionError.
Proof. exact d_marginal_away_raises. Qed.
Print Assumptions c16_dense_marginal_away_refuted.
(** Missing for the full claim: kept variables in another order than the factor's and kept
    variables with one value (there the claim is false). *)
Theorem c16_dense_marginal_partial :
  forall (o : oracle) (f : dense) (vrs : list string) (keep : bool) (kept : list string),
  wf_dense f -> kept = (if keep then vrs else so o (set_diff (dvars f) vrs)) ->
  kept = filter (fun v => mem v kept) (dvars f) ->
  (forall v c, d_has_card f v c -> In v kept -> c <> 1) ->
  (forall v c, d_has_card f v c -> ~ In v kept -> c <> 0) ->
  exists r, d_marginalize o f vrs keep = Ok r /\ wf_dense r /\ dvars r = kept /\
    (forall v c, d_has_card r v c <-> d_has_card f v c /\ In v kept) /\
    (forall v ns, dget (dnames r) v = Some ns <-> dget (dnames f) v = Some ns /\ In v kept) /\
    (forall (e : env) rm, d_in_range r e -> NoDup rm ->
       (forall v, In v rm <-> In v (dvars f) /\ ~ In v kept) ->
       dpot r e = sum_over (d_card_of f) rm (dpot f) e).
Proof. exact d_marginalize_spec. Qed.
Print Assumptions c16_dense_marginal_partial.
(** A variable without values cannot be summed out (the maximum of an empty axis, as scipy 1.5
    takes it; see Numpy.v). *)
Theorem c16_dense_marginal_empty_axis : forall o (f : dense) vrs v, wf_shape f -> d_has_card f v 0 -> ~ In v vrs ->
  d_marginalize o f vrs true = Err ValueError.
Proof. exact empty_axis. Qed.
Print Assumptions c16_dense_marginal_empty_axis.
Example c16_empty_axis_nonvacuous : wf_shape (dtab ["a"; "b"] [2; 0] []) /\ d_has_card (dtab ["a"; "b"] [2; 0] []) "b" 0 /\ ~ In "b" ["a"].
Proof. exact empty_axis_ex. Qed.
Example c16_nonvacuous : wf_dense ed_abc /\ ["a"; "c"] = filter (fun v => mem v ["a"; "c"]) (dvars ed_abc) /\
  (forall v c, d_has_card ed_abc v c -> In v ["a"; "c"] -> c <> 1) /\
  (forall v c, d_has_card ed_abc v c -> ~ In v ["a"; "c"] -> c <> 0).
Proof.
  split; [exact ed_abc_wf|]. split; [reflexivity|].
  split; intros v c H _; unfold d_has_card in H; cbn in H; intuition congruence.
Qed.

(** ** C17: the restriction part holds; a negative value is taken to count from the end. *)
Theorem c17_dense_reduce_negative_refuted : exists f vrs values v z c, wf_dense f /\ NoDup vrs /\
  length values = length vrs /\ In (v, z) (combine vrs values) /\ d_has_card f v c /\
  ~ (0 <= z < Z.of_nat c)%Z /\ exists r, d_reduce f vrs values = Ok r.
Proof. exact d_reduce_negative_refuted. Qed.
Print Assumptions c17_dense_reduce_negative_refuted.
(** Missing for the full claim: an IndexError for the negative values -c ... -1. *)
Theorem c17_dense_reduce_restricts_partial : forall (f : dense) (vrs : list string) (values : list Z),
  wf_dense f -> NoDup vrs -> length values = length vrs ->
  (forall v z c, In (v, z) (combine vrs values) -> d_has_card f v c -> (0 <= z < Z.of_nat c)%Z) ->
  exists r, d_reduce f vrs values = Ok r /\ wf_dense r /\
    dvars r = filter (fun v => negb (mem v vrs)) (dvars f) /\
    (forall v c, d_has_card r v c <-> d_has_card f v c /\ ~ In v vrs) /\
    (forall v ns, dget (dnames r) v = Some ns <-> dget (dnames f) v = Some ns /\ ~ In v vrs) /\
    (forall e : env, (forall v z, In (v, z) (combine vrs values) -> In v (dvars f) -> Z.of_nat (e v) = z) ->
       dval r e = dval f e).
Proof. exact d_reduce_spec. Qed.
Print Assumptions c17_dense_reduce_restricts_partial.
Theorem c17_dense_reduce_out_of_range_partial :
  forall (f : dense) (vrs : list string) (values : list Z) v z c,
  wf_shape f -> NoDup vrs -> length values = length vrs -> In (v, z) (combine vrs values) ->
  d_has_card f v c -> (z >= Z.of_nat c)%Z \/ (z < - Z.of_nat c)%Z ->
  d_reduce f vrs values = Err IndexError.
Proof. exact d_reduce_out_of_range. Qed.
Print Assumptions c17_dense_reduce_out_of_range_partial.
Example c17_nonvacuous : wf_dense ed_abc /\ NoDup ["c"; "a"] /\ length [1; 0]%Z = length ["c"; "a"] /\
  (forall v z c, In (v, z) (combine ["c"; "a"] [1; 0]%Z) -> d_has_card ed_abc v c -> (0 <= z < Z.of_nat c)%Z) /\
  d_has_card ed_abc "b" 3 /\ In ("b", 3%Z) (combine ["b"] [3%Z]) /\ (3 >= Z.of_nat 3)%Z.
Proof.
  split; [exact ed_abc_wf|]. split; [repeat (constructor; [cbn; intuition congruence|]); constructor|].
  split; [reflexivity|]. split; [|split; [right; left; reflexivity|split; [left; reflexivity|lia]]].
  intros v z c H Hc. unfold d_has_card in Hc. cbn in H, Hc.
  destruct H as [H|[H|[]]]; injection H as <- <-;
    (destruct Hc as [Hc|[Hc|[Hc|[]]]]; try discriminate; injection Hc as <-; lia).
Qed.

(** ** C18 *)
Theorem c18_dense_reorder : forall (f : dense) (order : list string),
  wf_shape f -> Permutation (dvars f) order ->
  exists r, d_reorder f order = Ok r /\ wf_shape r /\ dvars r = order /\
    (forall v c, d_has_card r v c <-> d_has_card f v c) /\
    (forall v ns, dget (dnames r) v = Some ns <-> dget (dnames f) v = Some ns) /\
    (forall e, dval r e = dval f e).
Proof. exact d_reorder_spec. Qed.
Print Assumptions c18_dense_reorder.
Theorem c18_dense_potential : forall (f : dense) (vrs : list string) (e : env),
  wf_dense f -> Permutation (dvars f) vrs -> d_in_range f e ->
  exists t, d_potential f vrs (map (fun v => Z.of_nat (e v)) vrs) = Ok t /\ tshape t = [] /\
    tget t [] = Fin (dpot f e).
Proof. exact d_potential_spec. Qed.
Print Assumptions c18_dense_potential.
Theorem c18_dense_reorder_wrong_scope : forall (f : dense) (order : list string),
  wf_shape f -> ~ (forall v, In v order <-> In v (dvars f)) -> d_reorder f order = Err ValueError.
Proof. exact d_reorder_err. Qed.
Print Assumptions c18_dense_reorder_wrong_scope.
Example c18_nonvacuous : wf_dense ed_abc /\ Permutation (dvars ed_abc) ["b"; "c"; "a"] /\
  d_in_range ed_abc (fun v => if string_dec v "b" then 2 else 1).
Proof.
  split; [exact ed_abc_wf|]. split; [cbn; apply (perm_trans (l' := ["b"; "a"; "c"])); repeat constructor|]. solve_drange.
Qed.

(** ** C19: three ways in which cancel fails although the scopes are nested and every zero of
    the divisor is a zero of the dividend. *)
Theorem c19_dense_cancel_nested_refuted : exists a b, wf_dense a /\ wf_dense b /\ incl (dvars b) (dvars a) /\
  d_cards_agree a b /\ names_agree a b /\ (forall e, d_in_range b e -> dpot b e <> 0%R) /\
  d_cancel a b = Err ValueError.
Proof. exact d_cancel_nested_raises. Qed.
Print Assumptions c19_dense_cancel_nested_refuted.
Theorem c19_dense_cancel_nested_zero_refuted : exists a b, wf_dense a /\ wf_dense b /\ incl (dvars b) (dvars a) /\
  d_cards_agree a b /\ names_agree a b /\
  (forall e, d_in_range a e -> dpot b e = 0%R -> dpot a e = 0%R) /\
  (exists s, broadcast_shapes (tshape (dtens b)) (tshape (dtens a)) = Ok s) /\
  d_cancel a b = Err IndexError.
Proof. exact d_cancel_nested_zero_raises. Qed.
Print Assumptions c19_dense_cancel_nested_zero_refuted.
Theorem c19_dense_cancel_order_refuted : exists a b, wf_dense a /\ wf_dense b /\ Permutation (dvars a) (dvars b) /\
  d_cards_agree a b /\ names_agree a b /\
  (forall e, d_in_range a e -> dpot b e = 0%R -> dpot a e = 0%R) /\
  exists r e, d_cancel a b = Ok r /\ d_in_range a e /\ dpot a e = 0%R /\ dpot b e = 0%R /\ dval r e = NaN.
Proof. exact d_cancel_order_refuted. Qed.
Print Assumptions c19_dense_cancel_order_refuted.
(** Missing for the full claim: different orders or proper sub-scopes with zeros, empty scopes,
    and shapes that numpy cannot broadcast (there the claim is false). *)
Theorem c19_dense_cancel_same_order_partial : forall a b : dense,
  wf_dense a -> wf_dense b -> dvars a = dvars b -> dvars a <> [] -> d_cards_agree a b -> names_agree a b ->
  (forall e, d_in_range a e -> dpot b e = 0%R -> dpot a e = 0%R) ->
  exists r, d_cancel a b = Ok r /\ wf_dense r /\
    (forall v c, d_has_card r v c <-> d_has_card a v c) /\
    (forall v ns, dget (dnames r) v = Some ns <-> dget (dnames a) v = Some ns) /\
    (forall e, d_in_range a e -> dpot b e <> 0%R -> dpot r e = (dpot a e / dpot b e)%R) /\
    (forall e, d_in_range a e -> dpot b e = 0%R -> dpot r e = 0%R).
Proof. exact d_cancel_same_vars. Qed.
Print Assumptions c19_dense_cancel_same_order_partial.
Theorem c19_dense_cancel_positive_partial : forall a b : dense,
  wf_dense a -> wf_dense b -> incl (dvars b) (dvars a) -> d_cards_agree a b -> names_agree a b ->
  (exists s, broadcast_shapes (tshape (dtens b)) (tshape (dtens a)) = Ok s) ->
  (forall e, d_in_range b e -> dpot b e <> 0%R) ->
  exists r, d_cancel a b = Ok r /\ wf_dense r /\
    (forall v c, d_has_card r v c <-> d_has_card a v c) /\
    (forall v ns, dget (dnames r) v = Some ns <-> dget (dnames a) v = Some ns) /\
    (forall e, d_in_range a e -> dpot r e = (dpot a e / dpot b e)%R).
Proof. exact d_cancel_positive. Qed.
Print Assumptions c19_dense_cancel_positive_partial.
Example c19_nonvacuous : wf_dense ed_za /\ wf_dense ed_zc /\ dvars ed_za = dvars ed_zc /\ dvars ed_za <> [] /\
  d_cards_agree ed_za ed_zc /\ names_agree ed_za ed_zc /\
  (forall e, d_in_range ed_za e -> dpot ed_zc e = 0%R -> dpot ed_za e = 0%R) /\
  d_in_range ed_za e_b1 /\ dpot ed_zc e_b1 = 0%R.
Proof.
  split; [exact ed_za_wf|]. split; [exact ed_zc_wf|]. split; [reflexivity|]. split; [discriminate|].
  split; [solve_dagree|]. split; [solve_nagree|]. split; [exact ed_zeros|]. split; [solve_drange|reflexivity].
Qed.
Example c19_nonvacuous_positive : wf_dense ed_ab /\ wf_dense ed_b /\ incl (dvars ed_b) (dvars ed_ab) /\
  d_cards_agree ed_ab ed_b /\ names_agree ed_ab ed_b /\
  (exists s, broadcast_shapes (tshape (dtens ed_b)) (tshape (dtens ed_ab)) = Ok s) /\
  (forall e, d_in_range ed_b e -> dpot ed_b e <> 0%R).
Proof.
  split; [exact ed_ab_wf|]. split; [exact ed_b_wf|]. split; [intros v [<-|[]]; cbn; tauto|].
  split; [exact ed_ab_b_cards|]. split; [exact ed_ab_b_names|]. split; [eexists; reflexivity|].
  intros e He. unfold dpot, dval. cbn [ed_b dtab dvars dtens tget map].
  assert (e "b" < 3) by (apply He; left; reflexivity).
  destruct (e "b") as [|[|[|n]]]; [| | |lia]; cbn; apply Rgt_not_eq, exp_pos.
Qed.

(** ** C20: order independence and reflexivity hold, symmetry fails. *)
Theorem c20_dense_equality_symmetric_refuted : exists f g, wf_dense f /\ wf_dense g /\ d_cards_agree f g /\
  d_equals f g (1/10000) (1/10000) = Ok true /\ d_equals g f (1/10000) (1/10000) = Ok false.
Proof. exact d_equals_sym_refuted. Qed.
Print Assumptions c20_dense_equality_symmetric_refuted.
Theorem c20_dense_equality_cardinalities_refuted : exists f g v, wf_dense f /\ wf_dense g /\
  d_has_card f v 1 /\ d_has_card g v 2 /\ d_equals f g (1/10000) (1/10000) = Ok true.
Proof. exact d_equals_cards_ignored. Qed.
Print Assumptions c20_dense_equality_cardinalities_refuted.
Theorem c20_dense_equality_order_partial : forall (f g : dense) (o1 o2 : list string) (rtol atol : R),
  wf_dense f -> wf_dense g -> d_cards_agree f g -> Permutation (dvars f) o1 -> Permutation (dvars g) o2 ->
  exists f' g' b, d_reorder f o1 = Ok f' /\ d_reorder g o2 = Ok g' /\
    d_equals f g rtol atol = Ok b /\ d_equals f' g' rtol atol = Ok b.
Proof. exact d_equals_reorder. Qed.
Print Assumptions c20_dense_equality_order_partial.
Theorem c20_dense_equality_meaning_partial : forall (f g : dense) (rtol atol : R),
  wf_shape f -> wf_shape g -> d_cards_agree f g ->
  exists b, d_equals f g rtol atol = Ok b /\
    (b = true <-> (forall v, In v (dvars f) <-> In v (dvars g)) /\
       (forall e, d_in_range f e -> visclose (dval f e) (dval g e) rtol atol = true)).
Proof. exact d_equals_spec. Qed.
Print Assumptions c20_dense_equality_meaning_partial.
Theorem c20_dense_equality_reflexive_partial : forall (f : dense) (rtol atol : R),
  wf_dense f -> (0 <= rtol)%R -> (0 <= atol)%R -> d_equals f f rtol atol = Ok true.
Proof. exact d_equals_refl. Qed.
Print Assumptions c20_dense_equality_reflexive_partial.
(** Missing for the full claim: symmetry for a positive relative tolerance (false). *)
Theorem c20_dense_equality_symmetric_partial : forall (f g : dense) (atol : R),
  wf_dense f -> wf_dense g -> d_cards_agree f g -> d_equals f g 0 atol = d_equals g f 0 atol.
Proof. exact d_equals_sym_abs. Qed.
Print Assumptions c20_dense_equality_symmetric_partial.
Example c20_nonvacuous : wf_dense ed_ab /\ wf_dense ed_ba /\ d_cards_agree ed_ab ed_ba /\
  Permutation (dvars ed_ab) ["b"; "a"] /\ Permutation (dvars ed_ba) ["b"; "a"].
Proof.
  split; [exact ed_ab_wf|]. split; [exact ed_ba_wf|]. split; [exact ed_ab_ba_cards|]. split; repeat constructor.
Qed.

(** ** C21 *)
Theorem c21_dense_argmax : forall f : dense, wf_dense f -> (exists e, d_in_range f e) ->
  exists e, d_argmax f = Ok (map e (dvars f)) /\ d_in_range f e /\
    (forall e', d_in_range f e' -> (dpot f e' <= dpot f e)%R) /\
    (forall e', d_in_range f e' -> lex_lt (map e' (dvars f)) (map e (dvars f)) -> (dpot f e' < dpot f e)%R).
Proof. exact d_argmax_spec. Qed.
Print Assumptions c21_dense_argmax.
(** An undefined entry counts as the maximum. *)
Theorem c21_dense_argmax_nan : forall (f : dense) e, wf_shape f -> d_in_range f e -> dval f e = NaN ->
  exists e', d_argmax f = Ok (map e' (dvars f)) /\ d_in_range f e' /\ dval f e' = NaN.
Proof. exact argmax_nan. Qed.
Print Assumptions c21_dense_argmax_nan.
Example c21_argmax_nan_nonvacuous : let f := dtab ["a"] [3] [([0], Fin 5%R); ([1], NaN)] in wf_shape f /\ d_in_range f (fun _ => 1) /\ dval f (fun _ => 1) = NaN.
Proof. exact argmax_nan_ex. Qed.
Theorem c21_dense_argmax_names : forall f : dense, wf_dense f -> (exists e, d_in_range f e) ->
  exists e l, d_argmax f = Ok (map e (dvars f)) /\ d_argmax_names f = Ok l /\ length l = length (dvars f) /\
    (forall i v, nth_error (dvars f) i = Some v ->
       exists ns, dget (dnames f) v = Some ns /\ nth_error l i = nth_error ns (e v) /\ nth_error l i <> None).
Proof. exact d_argmax_names_spec. Qed.
Print Assumptions c21_dense_argmax_names.
Example c21_nonvacuous : wf_dense ed_ab /\ exists e, d_in_range ed_ab e.
Proof. split; [exact ed_ab_wf|]. exists (fun _ => 1). solve_drange. Qed.

(** ** C22 *)
Theorem c22_dense_kl_divergence : forall p q : dense,
  wf_dense p -> wf_dense q -> Permutation (dvars p) (dvars q) -> d_cards_agree p q -> names_agree p q ->
  (0 < d_weight_of p)%R -> (0 < d_weight_of q)%R ->
  exists d, d_kl_divergence p q true = Ok d /\
    ((exists e, d_in_range p e /\ 0 < dpot p e /\ dpot q e = 0)%R -> d = PInf) /\
    (~ (exists e, d_in_range p e /\ 0 < dpot p e /\ dpot q e = 0)%R ->
       d = Fin (d_kl_of p q) /\ (0 <= d_kl_of p q)%R) /\
    (d = Fin 0 <-> forall e, d_in_range p e ->
                   (dpot p e / d_weight_of p = dpot q e / d_weight_of q)%R).
Proof. exact d_kl_spec. Qed.
Print Assumptions c22_dense_kl_divergence.
Theorem c22_dense_distance_from_vacuous : forall f : dense, wf_dense f -> (0 < d_weight_of f)%R ->
  let D := sum_over (d_card_of f) (dvars f)
             (fun e => kl_term (dpot f e / d_weight_of f) (1 / INR (d_n_assignments f)))%R (fun _ => 0) in
  d_distance_from_vacuous f = Ok (Fin D) /\ (0 <= D)%R /\
  (D = 0%R <-> forall e e', d_in_range f e -> d_in_range f e' -> dpot f e = dpot f e').
Proof. exact d_vacuous_spec. Qed.
Print Assumptions c22_dense_distance_from_vacuous.
Theorem c22_dense_normalize : forall f : dense, wf_dense f -> (0 < d_weight_of f)%R ->
  exists r, d_normalize f = Ok r /\ wf_dense r /\ dvars r = dvars f /\
    tshape (dtens r) = tshape (dtens f) /\
    (forall v c, d_has_card r v c <-> d_has_card f v c) /\
    (forall v ns, dget (dnames r) v = Some ns <-> dget (dnames f) v = Some ns) /\
    (forall e, d_in_range f e -> dpot r e = (dpot f e / d_weight_of f)%R) /\
    d_weight_of r = 1%R.
Proof. exact d_normalize_spec. Qed.
Print Assumptions c22_dense_normalize.
Example c22_nonvacuous : wf_dense ed_ab /\ wf_dense ed_ba /\ Permutation (dvars ed_ab) (dvars ed_ba) /\
  d_cards_agree ed_ab ed_ba /\ names_agree ed_ab ed_ba /\ (0 < d_weight_of ed_ab)%R /\ (0 < d_weight_of ed_ba)%R.
Proof.
  split; [exact ed_ab_wf|]. split; [exact ed_ba_wf|]. split; [constructor|].
  split; [exact ed_ab_ba_cards|]. split; [exact ed_ab_ba_names|]. split; [exact ed_ab_pos|exact ed_ba_pos].
Qed.

(** ** C23: false for restriction when the evidence matches no stored entry. *)
Theorem c23_sparse_dense_reduce_refuted : exists vars cards p vrs values s d,
  mk_sparse_probs vars cards p NInf = Ok s /\ mk_dense_probs vars cards p None = Ok d /\
  (forall k x, In (k, x) p -> Forall2 (fun i c => i < c) k cards /\ (0 <= x)%R) /\
  NoDup vrs /\ incl vrs vars /\
  s_reduce s vrs values = Err KeyError /\ exists r, d_reduce d vrs (map Z.of_nat values) = Ok r.
Proof. exact sparse_dense_reduce_refuted. Qed.
Print Assumptions c23_sparse_dense_reduce_refuted.
Theorem c23_sparse_dense_construction_partial : forall vars cards (p : dict (list nat) R),
  NoDup vars -> length cards = length vars -> NoDup (dkeys p) ->
  (forall k x, In (k, x) p -> Forall2 (fun i c => i < c) k cards /\ (0 <= x)%R) ->
  exists s d, mk_sparse_probs vars cards p NInf = Ok s /\ mk_dense_probs vars cards p None = Ok d /\
    wf_sparse s /\ zero_default s /\ wf_dense d /\ svars s = vars /\ dvars d = vars /\
    (forall v c, has_card s v c <-> d_has_card d v c) /\
    (forall e, d_in_range d e -> sval s e = dval d e) /\
    (forall k x e, In (k, x) p -> map e vars = k -> dpot d e = x) /\
    (forall e, d_in_range d e -> ~ In (map e vars) (dkeys p) -> dpot d e = 0%R).
Proof. exact same_dict. Qed.
Print Assumptions c23_sparse_dense_construction_partial.
(** [represent s d]: same variables and cardinalities, same potential everywhere. *)
Theorem c23_sparse_dense_multiply_partial : forall (o : oracle) s1 s2 d1 d2,
  oracle_ok o -> wf_sparse s1 -> wf_sparse s2 -> zero_default s1 -> zero_default s2 ->
  wf_dense d1 -> wf_dense d2 -> represent s1 d1 -> represent s2 d2 -> cards_agree s1 s2 -> names_agree d1 d2 ->
  exists s d, s_multiply o s1 s2 = Ok s /\ d_multiply d1 d2 = Ok d /\ represent s d.
Proof. exact represent_multiply. Qed.
Print Assumptions c23_sparse_dense_multiply_partial.
(** Missing for the full claim: evidence that matches no stored entry (false). *)
Theorem c23_sparse_dense_reduce_partial : forall s d vrs (values : list nat),
  wf_sparse s -> zero_default s -> wf_dense d -> represent s d -> NoDup vrs -> incl vrs (svars s) ->
  (exists k v, In (k, v) (stbl s) /\ map (env_of (svars s) k) vrs = values) ->
  exists s' d', s_reduce s vrs values = Ok s' /\ d_reduce d vrs (map Z.of_nat values) = Ok d' /\ represent s' d'.
Proof. exact represent_reduce. Qed.
Print Assumptions c23_sparse_dense_reduce_partial.
Example c23_nonvacuous : NoDup ["a"; "b"] /\ length [2; 3] = length ["a"; "b"] /\
  NoDup (dkeys [([0; 1], 1%R); ([1; 2], 0%R)]) /\
  (forall k x, In (k, x) [([0; 1], 1%R); ([1; 2], 0%R)] -> Forall2 (fun i c => i < c) k [2; 3] /\ (0 <= x)%R).
Proof.
  split; [repeat (constructor; [cbn; intuition congruence|]); constructor|]. split; [reflexivity|].
  split; [cbn; repeat (constructor; [cbn; intuition congruence|]); constructor|].
  intros k x [H|[H|[]]]; injection H as <- <-; (split; [repeat constructor|]).
  - apply Rle_0_1.
  - apply Rle_refl.
Qed.
Example c23_nonvacuous_ops : wf_sparse ex_ab /\ zero_default ex_ab /\
  wf_dense (dtab ["a"; "b"] [2; 3] (stbl ex_ab)) /\ represent ex_ab (dtab ["a"; "b"] [2; 3] (stbl ex_ab)) /\
  (exists k v, In (k, v) (stbl ex_ab) /\ map (env_of (svars ex_ab) k) ["b"] = [1]).
Proof.
  split; [exact ex_ab_wf|]. split; [reflexivity|]. split; [solve_dwf|]. split.
  - split; [intros v c; reflexivity|]. intros e _. reflexivity.
  - exists [0; 1], (Fin 1). split; [left; reflexivity|reflexivity].
Qed.
