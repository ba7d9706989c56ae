(** Properties C80 to C89: nonlinear Gaussians, their mixtures and templates. *)
From Verif Require Import NlgMore NlgWeight.
Local Open Scope string_scope.
Local Open Scope list_scope.
Local Open Scope R_scope.

(** C80, for transforms that are affine and go by name: the joint's density is the conditioning
    factor times the Gaussian noise around A x + b times the messages received, at every point that
    agrees with the observations.  Missing from the full statement: all conditioning variables
    observed. *)
Theorem c80_joint_partial o f A b c w : oracle_ok o -> nl_good A b c f -> nl_w f = Fin w ->
  exists j, nl_joint_distribution o f = Ok j /\
    (forall v, In v (ga_vars j) <-> (In v (ga_vars c) \/ In v (nl_cal f)) /\ ~ In v (dkeys (nl_ev f))) /\
    (match nl_upd f with Some u => solid u | None => True end -> solid j) /\
    forall e, (forall v x, dget (nl_ev f) v = Some x -> e v = x) ->
      exists l u, lp c e = Ok l /\ match nl_upd f with Some g => lp g e | None => Ok (Fin 0) end = Ok u /\
        lp j e = Ok (vadd (vadd l (Fin (w - 1 / 2 * ln ((2 * PI) ^ length (nl_cal f) * mdet (nl_Q f)) -
          1 / 2 * qsum (length (nl_cal f)) (minv (nl_Q f)) (fun i =>
            e (nth i (nl_cal f) "") - (Rsum (map (fun v => A (nth i (nl_cal f) "") v * e v) (nl_cing f)) + b (nth i (nl_cal f) "")))))) u).
Proof. exact (nl_joint_explicit o f A b c w). Qed.
Print Assumptions c80_joint_partial.
(** Adding a log weight adds it to the joint's log density, whatever was received or observed before. *)
Theorem c80_add_log_weight_partial o f A b c w x : oracle_ok o -> nl_good A b c f -> nl_w f = Fin w ->
  exists j j', nl_joint_distribution o f = Ok j /\ nl_joint_distribution o (nl_add_log_weight f (Fin x)) = Ok j' /\
    (forall v, In v (ga_vars j') <-> In v (ga_vars j)) /\
    forall e, (forall v y, dget (nl_ev f) v = Some y -> e v = y) -> exists l, lp j e = Ok l /\ lp j' e = Ok (vadd l (Fin x)).
Proof. exact (nl_add_weight o f A b c w x). Qed.
Print Assumptions c80_add_log_weight_partial.
Example c80_nonvacuous : exists o A b c f, oracle_ok o /\ mk_nlg ["x1"; "x2"] ["y"] exT (meye 1) (Fin 0) None (Some exu) (Some exc) [("x1", 5)] = Ok f /\ nl_good A b c f /\ nl_plain f c /\
  A "y" "x1" = 2 /\ A "y" "x2" = 3 /\ b "y" = 1 /\ ga_vars c = ["x2"; "x1"] /\ dkeys (nl_ev f) = ["x1"] /\ nl_upd f = Some exu.
Proof. exact good_instance. Qed.
(** With every conditioning variable observed there is no joint at all. *)
(** The canonical and covariance parameters are those of the current joint, and normalising divides it by its integral. *)
Theorem c80_canonical_partial o f A b c : oracle_ok o -> nl_good A b c f ->
  exists f' K h g, nl_get_can o f = Ok (f', (K, h, g)) /\ shaped (length (ga_vars (nl_joint f'))) (K, h, g) /\
    (forall v, In v (ga_vars (nl_joint f')) <-> (In v (ga_vars c) \/ In v (nl_cal f)) /\ ~ In v (dkeys (nl_ev f))) /\
    forall e, obeys (nl_ev f) e -> exists l1 l2 l3, lp c e = Ok l1 /\ noise_lp f A b e = Ok l2 /\ upd_lp f e = Ok l3 /\
      vadd (Fin (can_form (ga_vars (nl_joint f')) K h e)) g = vadd (vadd l1 l2) l3.
Proof. exact (nl_get_can_spec o f A b c). Qed.
Print Assumptions c80_canonical_partial.
Theorem c80_covariance_partial o f A b c : oracle_ok o -> nl_good A b c f -> (forall u, nl_upd f = Some u -> solid u) ->
  exists f' C m w, nl_get_cov o f = Ok (f', (C, m, w)) /\ shaped (length (ga_vars (nl_joint f'))) (C, m, w) /\ posdef C /\
    (forall v, In v (ga_vars (nl_joint f')) <-> (In v (ga_vars c) \/ In v (nl_cal f)) /\ ~ In v (dkeys (nl_ev f))) /\
    forall e, obeys (nl_ev f) e -> exists l1 l2 l3, lp c e = Ok l1 /\ noise_lp f A b e = Ok l2 /\ upd_lp f e = Ok l3 /\
      cov_log_potential C m w (mcol (map e (ga_vars (nl_joint f')))) = Ok (vadd (vadd l1 l2) l3).
Proof. exact (nl_get_cov_spec o f A b c). Qed.
Print Assumptions c80_covariance_partial.
Theorem c80_normalize_partial o f A b c j : oracle_ok o -> nl_good A b c f -> (forall u, nl_upd f = Some u -> solid u) -> nl_joint_distribution o f = Ok j -> (exists e l, lp j e = Ok (Fin l)) ->
  exists r w, nl_normalize o f = Ok r /\ ga_vars r = ga_vars j /\ (forall e, iint (ga_vars r) (gval r) e 1) /\ forall e l, lp j e = Ok l -> lp r e = Ok (vsub l (Fin w)).
Proof. exact (nl_normalize_spec o f A b c j). Qed.
Print Assumptions c80_normalize_partial.
Example c80_parameters_nonvacuous : exists o A b c f j, oracle_ok o /\ nl_good A b c f /\ (forall u, nl_upd f = Some u -> solid u) /\ nl_upd f = Some exu /\ nl_joint_distribution o f = Ok j /\ (exists e l, lp j e = Ok (Fin l)) /\ nl_ev f = [("x1", 5)].
Proof. exact params_instance. Qed.
Theorem c80_unfactored_error o f : nl_wf f -> NoDup (dkeys (nl_ev f)) -> nl_cond f = None -> incl (nl_cing f) (dkeys (nl_ev f)) ->
  nl_joint_distribution o f = Err UnboundLocalError.
Proof. exact (nl_joint_no_factor o f). Qed.
Print Assumptions c80_unfactored_error.
Theorem c80_observed_error o f c : oracle_ok o -> nl_wf f -> NoDup (dkeys (nl_ev f)) -> nl_cond f = Some c -> solid c -> ga_vars c <> [] ->
  incl (ga_vars c) (nl_cing f) -> incl (nl_cing f) (dkeys (nl_ev f)) -> nl_joint_distribution o f = Err AssertionError.
Proof. exact (nl_joint_observed o f c). Qed.
Print Assumptions c80_observed_error.
Theorem c80_observed_refuted : exists o f g, oracle_ok o /\
  mk_nlg ["x1"; "x2"] ["y"] exT (meye 1) (Fin 0) None None None [("x1", 5); ("x2", 6)] = Ok f /\ nl_joint_distribution o f = Err UnboundLocalError /\
  mk_nlg ["x1"; "x2"] ["y"] exT (meye 1) (Fin 0) None None (Some exc) [("x1", 5); ("x2", 6)] = Ok g /\ nl_joint_distribution o g = Err AssertionError.
Proof. exact observed_refuted. Qed.
Print Assumptions c80_observed_refuted.

(** C81: for any transform of the right shape the joint has the moments of the transformed sigma
    points with the noise added, and its marginal on x is the conditioning factor. *)
Theorem c81_moments o f c : oracle_ok o -> nl_wf f -> nl_cal f <> [] -> posdef (nl_Q f) -> shapes_by_name (nl_T f) (nl_cing f) (nl_cal f) ->
  nl_ev f = [] -> nl_upd f = None -> nl_cond f = Some c -> solid c -> Permutation (ga_vars c) (nl_cing f) -> ga_vars c <> [] ->
  exists c' C m w X Y j J mj, get_cov c = Ok (c', (C, m, w)) /\ get_sigma_points_array c = Ok (c', X) /\ nl_T f X (ga_vars c) = Ok Y /\
    nl_joint_distribution o f = Ok j /\ solid j /\ ga_vars j = ga_vars c ++ nl_cal f /\ get_cov j = Ok (j, (J, mj, vadd (nl_w f) w)) /\
    nr X = length (ga_vars c) /\ nr Y = length (nl_cal f) /\ joint_of_points X Y (nl_Q f) C m J mj.
Proof. exact (nl_general o f c). Qed.
Print Assumptions c81_moments.
(** Without conditional variables and with one conditioning variable there is no joint. *)
Theorem c81_no_output_error o f c : oracle_ok o -> nl_wf f -> nl_cal f = [] -> shapes_by_name (nl_T f) (nl_cing f) [] ->
  nl_ev f = [] -> nl_cond f = Some c -> solid c -> Permutation (ga_vars c) (nl_cing f) -> length (nl_cing f) = 1%nat ->
  nl_joint_distribution o f = Err IndexError.
Proof. exact (nl_no_output o f c). Qed.
Print Assumptions c81_no_output_error.
Example c81_no_output_nonvacuous : exists o f, oracle_ok o /\ mk_nlg ["x"] [] (fun X _ => Ok (mzeros 0 (nc X))) (meye 0) (Fin 0) None None (Some (stdg ["x"] [1] 0)) [] = Ok f /\
  nl_wf f /\ nl_cal f = [] /\ shapes_by_name (nl_T f) (nl_cing f) [] /\ nl_ev f = [] /\ nl_cond f = Some (stdg ["x"] [1] 0) /\ solid (stdg ["x"] [1] 0) /\
  nl_cing f = ["x"].
Proof. exact no_output_ex. Qed.
Theorem c81_conditioning_marginal o f c : oracle_ok o -> nl_wf f -> nl_cal f <> [] -> posdef (nl_Q f) -> shapes_by_name (nl_T f) (nl_cing f) (nl_cal f) ->
  nl_ev f = [] -> nl_upd f = None -> nl_cond f = Some c -> solid c -> Permutation (ga_vars c) (nl_cing f) -> ga_vars c <> [] ->
  exists r, nl_marginalize o f (ga_vars c) true = Ok r /\ ga_vars r = ga_vars c /\ forall e, exists l, lp c e = Ok l /\ lp r e = Ok (vadd (nl_w f) l).
Proof. exact (nl_general_marginal o f c). Qed.
Print Assumptions c81_conditioning_marginal.
(** A transform that is not affine: the square of the first row plus the second. *)
Example c81_nonvacuous : exists o T f c, oracle_ok o /\ mk_nlg ["x1"; "x2"] ["y"] T (meye 1) (Fin 0) None None (Some c) [] = Ok f /\
  (forall X names, exists Y, T X names = Ok Y /\ forall k, ent Y 0 k = ent X 0 k * ent X 0 k + ent X 1 k) /\
  nl_wf f /\ nl_cal f <> [] /\ posdef (nl_Q f) /\ shapes_by_name (nl_T f) (nl_cing f) (nl_cal f) /\ nl_ev f = [] /\ nl_upd f = None /\ nl_cond f = Some c /\ solid c /\
  Permutation (ga_vars c) (nl_cing f) /\ ga_vars c <> [].
Proof. exact square_instance. Qed.

(** C82, for transforms that go by name: the joint depends on the conditioning factor as a function
    only.  A transform that ignores the names, which the documentation allows, sees the rows in
    the conditioning factor's order instead of the order of the conditioning variables. *)
Theorem c82_order_partial o f1 f2 A b c1 c2 j1 j2 : oracle_ok o -> nl_good A b c1 f1 -> nl_good A b c2 f2 ->
  nl_cing f1 = nl_cing f2 -> nl_cal f1 = nl_cal f2 -> nl_Q f1 = nl_Q f2 -> nl_w f1 = nl_w f2 -> nl_upd f1 = nl_upd f2 -> nl_ev f1 = nl_ev f2 ->
  (forall e, lp c1 e = lp c2 e) -> nl_joint_distribution o f1 = Ok j1 -> nl_joint_distribution o f2 = Ok j2 ->
  forall e, obeys (nl_ev f1) e -> lp j1 e = lp j2 e.
Proof. exact (nl_order_free o f1 f2 A b c1 c2 j1 j2). Qed.
Print Assumptions c82_order_partial.
Example c82_nonvacuous : exists o A b c1 c2 f1 f2 j1 j2, oracle_ok o /\ nl_good A b c1 f1 /\ nl_good A b c2 f2 /\
  nl_cing f1 = nl_cing f2 /\ nl_cal f1 = nl_cal f2 /\ nl_Q f1 = nl_Q f2 /\ nl_w f1 = nl_w f2 /\ nl_upd f1 = nl_upd f2 /\ nl_ev f1 = nl_ev f2 /\
  (forall e, lp c1 e = lp c2 e) /\ nl_joint_distribution o f1 = Ok j1 /\ nl_joint_distribution o f2 = Ok j2 /\ ga_vars c1 = ["x2"; "x1"] /\ ga_vars c2 = ["x1"; "x2"].
Proof. exact order_instance. Qed.
Theorem c82_order_refuted : exists o T c1 c2 f1 f2 j1 j2 J1 J2 m1 m2 w1 w2, oracle_ok o /\ solid c1 /\ solid c2 /\ (forall e, lp c1 e = lp c2 e) /\
  mk_nlg ["x1"; "x2"] ["y"] T (meye 1) (Fin 0) None None (Some c1) [] = Ok f1 /\ mk_nlg ["x1"; "x2"] ["y"] T (meye 1) (Fin 0) None None (Some c2) [] = Ok f2 /\
  nl_joint_distribution o f1 = Ok j1 /\ nl_joint_distribution o f2 = Ok j2 /\ get_cov j1 = Ok (j1, (J1, m1, w1)) /\ get_cov j2 = Ok (j2, (J2, m2, w2)) /\
  named_coord m1 (ga_vars j1) "y" = 1 /\ named_coord m2 (ga_vars j2) "y" = 5.
Proof. exact nl_positional. Qed.
Print Assumptions c82_order_refuted.

(** C83: marginals are integrals of the joint.  Missing: marginals after an observation that name
    an observed variable, or that are given by the variables to remove. *)
Theorem c83_marginal_partial o f A b c j xs ys : oracle_ok o -> nl_wf f -> nl_ok f A b -> nl_cond f = Some c -> informed f c -> nl_plain f c ->
  nl_joint_distribution o f = Ok j -> Permutation (ys ++ xs) (ga_vars j) ->
  exists r, nl_marginalize o f xs true = Ok r /\ ga_vars r = xs /\ solid r /\ plain r /\
    forall e, obeys (nl_ev f) e -> iint ys (nval f A b c) e (gval r e).
Proof. exact (nl_marginal_integral o f A b c j xs ys). Qed.
Print Assumptions c83_marginal_partial.
Theorem c83_observed_error o f A b c xs : oracle_ok o -> nl_good A b c f -> incl xs (nl_vars f) -> (exists x, In x xs /\ In x (dkeys (nl_ev f))) ->
  (match nl_upd f with Some u => solid u | None => True end) -> nl_marginalize o f xs true = Err ValueError.
Proof. exact (nl_marginal_observed o f A b c xs). Qed.
Print Assumptions c83_observed_error.
Theorem c83_removed_refuted o f A b c vrs : oracle_ok o -> nl_good A b c f -> (exists x, In x (nl_vars f) /\ In x (dkeys (nl_ev f)) /\ ~ In x vrs) ->
  (match nl_upd f with Some u => solid u | None => True end) -> nl_marginalize o f vrs false = Err ValueError.
Proof. exact (nl_marginal_removed o f A b c vrs). Qed.
Print Assumptions c83_removed_refuted.
Example c83_nonvacuous : exists o A b c f j, oracle_ok o /\ nl_good A b c f /\ nl_plain f c /\ nl_joint_distribution o f = Ok j /\ Permutation (["y"] ++ ["x2"]) (ga_vars j) /\
  (exists x, In x (nl_vars f) /\ In x (dkeys (nl_ev f)) /\ ~ In x ["y"]) /\ match nl_upd f with Some u => solid u | None => True end /\
  nl_marginalize o f ["y"] false = Err ValueError.
Proof. exact marginal_instance. Qed.
(** Without full information on x the marginals come from the parts; only the y side counts the weight. *)
Theorem c83_no_info_x o f c xs : nl_wf f -> NoDup (dkeys (nl_ev f)) -> no_info f -> nl_cond f = Some c -> solid c -> incl xs (nl_cing f) -> incl xs (ga_vars c) ->
  nl_marginalize o f xs true = g_marginalize o c xs true.
Proof. exact (nl_no_info_cond o f c xs). Qed.
Print Assumptions c83_no_info_x.
Theorem c83_no_info_y o f u xs : nl_wf f -> NoDup (dkeys (nl_ev f)) -> no_info f -> nl_upd f = Some u -> solid u -> xs <> [] -> incl xs (nl_cal f) -> incl xs (ga_vars u) ->
  nl_marginalize o f xs true = let* m := g_marginalize o u xs true in Ok (add_log_weight m (nl_w f)).
Proof. exact (nl_no_info_upd o f u xs). Qed.
Print Assumptions c83_no_info_y.
Example c83_no_info_nonvacuous : exists f c u, mk_nlg ["x1"; "x2"] ["y"] exT (meye 1) (Fin 2) None (Some u) (Some c) [] = Ok f /\ nl_wf f /\ NoDup (dkeys (nl_ev f)) /\ no_info f /\
  nl_cond f = Some c /\ solid c /\ incl ["x1"] (nl_cing f) /\ incl ["x1"] (ga_vars c) /\ nl_upd f = Some u /\ solid u /\ incl ["y"] (nl_cal f) /\ incl ["y"] (ga_vars u).
Proof. exact no_info_instance. Qed.

(** Where nothing is known the marginal is vacuous. *)
Theorem c83_no_info_rest o f xs : nl_wf f -> NoDup (dkeys (nl_ev f)) -> no_info f -> NoDup xs -> incl xs (nl_vars f) -> ~ incl xs (nl_cal f) ->
  (~ incl xs (nl_cing f) \/ nl_cond f = None \/ exists c, nl_cond f = Some c /\ ~ incl xs (ga_vars c)) ->
  exists r, nl_marginalize o f xs true = Ok r /\ ga_vars r = xs /\ ga_vac r = true /\ forall e, lp r e = Ok (Fin 0).
Proof. exact (nl_no_info_rest o f xs). Qed.
Print Assumptions c83_no_info_rest.
Example c83_no_info_rest_nonvacuous : exists f, nl_wf f /\ NoDup (dkeys (nl_ev f)) /\ no_info f /\
  (forall xs, In xs [["x2"]; ["x2"; "y"]; ["y"; "x1"]] -> NoDup xs /\ incl xs (nl_vars f) /\ ~ incl xs (nl_cal f) /\ (~ incl xs (nl_cing f) \/ nl_cond f = None \/ exists c, nl_cond f = Some c /\ ~ incl xs (ga_vars c))).
Proof. exact rest_instance. Qed.

(** C84: observing fixes variables of the joint.  Missing: observing the whole conditioning factor. *)
Theorem c84_reduce_partial o f A b c j vrs values : oracle_ok o -> nl_wf f -> nl_ok f A b -> nl_cond f = Some c -> informed f c -> nl_joint_distribution o f = Ok j ->
  NoDup vrs -> length values = length vrs -> ~ incl (ga_vars c) (vrs ++ dkeys (nl_ev f)) ->
  exists r jr, nl_reduce f vrs values = Ok r /\ nl_joint_distribution o r = Ok jr /\
    (forall v, In v (ga_vars jr) <-> In v (ga_vars j) /\ ~ In v vrs) /\
    forall e, map e vrs = values -> obeys (nl_ev f) e -> exists l, lp j e = Ok l /\ lp jr e = Ok l.
Proof. exact (nl_reduce_joint o f A b c j vrs values). Qed.
Print Assumptions c84_reduce_partial.
Example c84_nonvacuous : exists o A b c f j, oracle_ok o /\ nl_good A b c f /\ nl_joint_distribution o f = Ok j /\ ~ incl (ga_vars c) (["y"] ++ dkeys (nl_ev f)) /\ dkeys (nl_ev f) = ["x1"].
Proof. exact reduce_instance. Qed.
Theorem c84_reduce_refuted : exists o f j r, oracle_ok o /\ mk_nlg ["x1"; "x2"] ["y"] exT (meye 1) (Fin 0) None None (Some exc) [] = Ok f /\ nl_joint_distribution o f = Ok j /\
  nl_reduce f ["x1"; "x2"] [5; 6] = Ok r /\ nl_joint_distribution o r = Err AssertionError.
Proof. exact reduce_refuted. Qed.
Print Assumptions c84_reduce_refuted.

(** C85: multiplying with a message about x or about y multiplies the joint.  Missing: messages
    flagged vacuous (their weight is dropped) and messages about both sides (refused). *)
Theorem c85_multiply_partial o f g A b c j : oracle_ok o -> nl_wf f -> nl_ok f A b -> nl_cond f = Some c -> informed f c -> nl_joint_distribution o f = Ok j ->
  solid g -> incl (ga_vars g) (nl_cal f) \/ (incl (ga_vars g) (nl_cing f) /\ incl (ga_vars g) (ga_vars c) /\ ga_vars g <> []) ->
  exists r jr, nl_multiply_gauss f g = Ok r /\ nl_joint_distribution o r = Ok jr /\ nl_ev r = nl_ev f /\
    (forall v, In v (ga_vars jr) <-> In v (ga_vars j)) /\
    forall e, obeys (nl_ev f) e -> exists l lg, lp j e = Ok l /\ lp g e = Ok lg /\ lp jr e = Ok (vadd l lg).
Proof. exact (nl_multiply_joint o f g A b c j). Qed.
Print Assumptions c85_multiply_partial.
Theorem c85_first_message f g : nl_wf f -> wf_gauss g -> ga_vac g = false -> incl (ga_vars g) (nl_cing f) -> ga_vars g <> [] ->
  exists r c, nl_multiply_gauss f g = Ok r /\ nl_wf r /\ same_kind f r /\ nl_ev r = nl_ev f /\ opt_same (nl_upd f) (nl_upd r) /\ nl_cond r = Some c /\
    (forall v, In v (ga_vars c) <-> In v (ga_vars g) \/ exists c0, nl_cond f = Some c0 /\ In v (ga_vars c0)) /\
    (solid g -> (forall c0, nl_cond f = Some c0 -> solid c0) -> solid c) /\
    (forall A b, nl_ok f A b -> nl_ok r A b) /\
    forall e l, cond_lp f e = Ok l -> exists lg, lp g e = Ok lg /\ cond_lp r e = Ok (vadd l lg).
Proof. exact (nl_multiply_cing f g). Qed.
Print Assumptions c85_first_message.
Theorem c85_both_sides_error f g : nl_wf f -> ga_vac g = false -> ~ incl (ga_vars g) (nl_cal f) -> ~ incl (ga_vars g) (nl_cing f) -> nl_multiply_gauss f g = Err ValueError.
Proof. exact (nl_multiply_mixed f g). Qed.
Print Assumptions c85_both_sides_error.
Theorem c85_vacuous_refuted : exists o f g r j jr e, oracle_ok o /\ mk_nlg ["x1"; "x2"] ["y"] exT (meye 1) (Fin 0) None None (Some exc) [] = Ok f /\ make_vacuous ["y"] (Fin 5) = Ok g /\
  nl_multiply_gauss f g = Ok r /\ nl_joint_distribution o f = Ok j /\ nl_joint_distribution o r = Ok jr /\ lp g e = Ok (Fin 5) /\ (exists l, lp j e = Ok (Fin l) /\ lp jr e = Ok (Fin l)).
Proof. exact vacuous_message. Qed.
Print Assumptions c85_vacuous_refuted.
Example c85_nonvacuous : exists o A b c f j g, oracle_ok o /\ nl_good A b c f /\ nl_joint_distribution o f = Ok j /\ solid g /\ ga_vars g = ["x2"] /\
  (incl (ga_vars g) (nl_cal f) \/ (incl (ga_vars g) (nl_cing f) /\ incl (ga_vars g) (ga_vars c) /\ ga_vars g <> [])).
Proof. exact multiply_instance. Qed.

(** C86: dividing by a message about y that was multiplied in gives the joint back.  Missing:
    divisors that leave no proper distribution on x, absent factors, and mixtures. *)
Theorem c86_divide_partial o f g A b c j r : oracle_ok o -> nl_wf f -> nl_ok f A b -> nl_cond f = Some c -> informed f c -> nl_joint_distribution o f = Ok j ->
  solid g -> incl (ga_vars g) (nl_cal f) -> nl_multiply_gauss f g = Ok r ->
  exists q, nl_divide_gauss o r g = Ok q /\ same_kind f q /\ nl_ev q = nl_ev f /\ (forall v, In v (ga_vars (nl_joint q)) <-> In v (ga_vars j)) /\
    forall e lg, obeys (nl_ev f) e -> lp g e = Ok (Fin lg) -> lp (nl_joint q) e = lp j e.
Proof. exact (nl_divide_back o f g A b c j r). Qed.
Print Assumptions c86_divide_partial.
Theorem c86_quotient_partial o f g A b c u j : oracle_ok o -> nl_wf f -> nl_ok f A b -> nl_cond f = Some c -> informed f c -> nl_joint_distribution o f = Ok j ->
  nl_upd f = Some u -> wf_gauss g -> sym_prec g -> ga_vac g = false -> incl (ga_vars g) (nl_cal f) ->
  exists r jr, nl_divide_gauss o f g = Ok r /\ nl_joint r = jr /\ same_kind f r /\ nl_ev r = nl_ev f /\
    (forall v, In v (ga_vars jr) <-> In v (ga_vars j)) /\
    forall e, obeys (nl_ev f) e -> exists l1 l2 lu lg, lp c e = Ok l1 /\ noise_lp f A b e = Ok l2 /\ lp u e = Ok lu /\ lp g e = Ok lg /\
      lp j e = Ok (vadd (vadd l1 l2) lu) /\ lp jr e = Ok (vadd (vadd l1 l2) (vsub lu lg)).
Proof. exact (nl_divide_cal o f g A b c u j). Qed.
Print Assumptions c86_quotient_partial.
Theorem c86_conditioning_partial o f g A b c j r : oracle_ok o -> nl_good A b c f -> nl_joint_distribution o f = Ok j -> finite c ->
  solid g -> finite g -> incl (ga_vars g) (ga_vars c) -> ga_vars g <> [] -> nl_multiply_gauss f g = Ok r ->
  exists q, nl_divide_gauss o r g = Ok q /\ same_kind f q /\ nl_ev q = nl_ev f /\ (forall v, In v (ga_vars (nl_joint q)) <-> In v (ga_vars j)) /\
    forall e, obeys (nl_ev f) e -> lp (nl_joint q) e = lp j e.
Proof. exact (nl_divide_back_cing o f g A b c j r). Qed.
Print Assumptions c86_conditioning_partial.
Theorem c86_conditioning_quotient_partial o f g A b c j q : oracle_ok o -> nl_good A b c f -> nl_joint_distribution o f = Ok j ->
  wf_gauss g -> ga_vac g = false -> incl (ga_vars g) (ga_vars c) -> ga_vars g <> [] -> g_divide c g = Ok q -> solid q ->
  exists r, nl_divide_gauss o f g = Ok r /\ same_kind f r /\ nl_ev r = nl_ev f /\ nl_cond r = Some q /\
    (forall v, In v (ga_vars (nl_joint r)) <-> In v (ga_vars j)) /\
    forall e, obeys (nl_ev f) e -> exists l1 l2 l3 lg, lp c e = Ok l1 /\ noise_lp f A b e = Ok l2 /\ upd_lp f e = Ok l3 /\ lp g e = Ok lg /\
      lp j e = Ok (vadd (vadd l1 l2) l3) /\ lp (nl_joint r) e = Ok (vadd (vadd (vsub l1 lg) l2) l3).
Proof. exact (nl_divide_cing o f g A b c j q). Qed.
Print Assumptions c86_conditioning_quotient_partial.
Example c86_conditioning_nonvacuous : exists o A b c f j g r c' jr q, oracle_ok o /\ nl_good A b c f /\ nl_joint_distribution o f = Ok j /\ finite c /\ solid g /\ finite g /\ incl (ga_vars g) (ga_vars c) /\ ga_vars g = ["x2"] /\
  nl_multiply_gauss f g = Ok r /\ nl_good A b c' r /\ nl_joint_distribution o r = Ok jr /\ incl (ga_vars g) (ga_vars c') /\ g_divide c' g = Ok q /\ solid q.
Proof. exact cing_instance. Qed.
Theorem c86_no_message_refuted o f g : nl_wf f -> ga_vac g = false -> incl (ga_vars g) (nl_cal f) -> nl_upd f = None -> nl_divide_gauss o f g = Err AttributeError.
Proof. exact (nl_divide_no_update o f g). Qed.
Print Assumptions c86_no_message_refuted.
Theorem c86_no_conditioning_refuted o f g : nl_wf f -> ga_vac g = false -> incl (ga_vars g) (nl_cing f) -> ga_vars g <> [] -> nl_cond f = None ->
  nl_divide_gauss o f g = Err NotImplementedError.
Proof. exact (nl_divide_no_cond o f g). Qed.
Print Assumptions c86_no_conditioning_refuted.
Theorem c86_mixture_refuted o f m : nl_wf f -> nl_divide o f (AMix m) = Err AttributeError.
Proof. exact (nl_divide_mix_error o f m). Qed.
Print Assumptions c86_mixture_refuted.
Example c86_nonvacuous : exists o A b c f j g r, oracle_ok o /\ nl_good A b c f /\ nl_joint_distribution o f = Ok j /\ solid g /\ sym_prec g /\ incl (ga_vars g) (nl_cal f) /\
  nl_upd f = Some exu /\ nl_multiply_gauss f g = Ok r /\ forall e, exists lg, lp g e = Ok (Fin lg).
Proof. exact divide_instance. Qed.
Example c86_errors_nonvacuous : exists f, mk_nlg ["x1"; "x2"] ["y"] exT (meye 1) (Fin 0) None None None [] = Ok f /\ nl_wf f /\ nl_upd f = None /\ nl_cond f = None /\
  ga_vac exg = false /\ incl (ga_vars exg) (nl_cal f) /\ ga_vac exc = false /\ incl (ga_vars exc) (nl_cing f).
Proof. exact bare_instance. Qed.

(** C87: a mixture of nonlinear Gaussians is the sum of its joints, products with Gaussian mixtures
    multiply, observations fix variables.  Missing: products with Gaussians and marginals, which
    always fail, and the split of a single Gaussian before a product. *)
Theorem c87_sum_partial o f A b cvs a : oracle_ok o -> nm_good f A b cvs a ->
  exists jm, nm_joint_distribution o a = Ok jm /\ wf_mix jm /\ gm_vars jm = jorder o cvs (nl_cal f) (nl_ev f) /\ length (gm_comps jm) = length (nm_nlgs a) /\
    (forall e ls, Forall2 (fun h l => joint_lp o h e = Ok l) (nm_nlgs a) ls -> (forall l, In l ls -> is_lp l) -> mixpot jm e = Ok (Fin (Rsum (map pot ls)))) /\
    (forall e p, mixpot jm e = Ok (Fin p) -> exists ls, Forall2 (fun h l => joint_lp o h e = Ok l) (nm_nlgs a) ls /\ (forall l, In l ls -> is_lp l) /\ p = Rsum (map pot ls)).
Proof. exact (nm_joint_spec o f A b cvs a). Qed.
Print Assumptions c87_sum_partial.
Theorem c87_product_partial o f A b cvs a m ja : oracle_ok o -> NoDup (nl_vars f) -> nm_good f A b cvs a -> nm_joint_distribution o a = Ok ja -> wf_mix m ->
  (forall g, In g (gm_comps m) -> solid g) -> message_for f cvs (gm_vars m) -> not_split a m ->
  exists r jr, nm_multiply a (AMix m) = Ok r /\ nm_good f A b cvs r /\ length (nm_nlgs r) = (length (nm_nlgs a) * length (gm_comps m))%nat /\
    nm_joint_distribution o r = Ok jr /\ gm_vars jr = gm_vars ja /\
    forall e p q, obeys (nl_ev f) e -> mixpot ja e = Ok (Fin p) -> mixpot m e = Ok (Fin q) -> mixpot jr e = Ok (Fin (p * q)).
Proof. exact (nm_multiply_mix o f A b cvs a m ja). Qed.
Print Assumptions c87_product_partial.
Theorem c87_single_product o f A b c m j : oracle_ok o -> nl_good A b c f -> nl_joint_distribution o f = Ok j -> wf_mix m -> (forall g, In g (gm_comps m) -> solid g) ->
  message_for f (ga_vars c) (gm_vars m) ->
  exists r jr, nl_multiply f (AMix m) = Ok (Datatypes.inr r) /\ nm_good f A b (ga_vars c) r /\ length (nm_nlgs r) = length (gm_comps m) /\
    nm_joint_distribution o r = Ok jr /\ gm_vars jr = ga_vars j /\
    forall e l q, obeys (nl_ev f) e -> lp j e = Ok l -> is_lp l -> mixpot m e = Ok (Fin q) -> mixpot jr e = Ok (Fin (pot l * q)).
Proof. exact (nl_multiply_mix o f A b c m j). Qed.
Print Assumptions c87_single_product.
Theorem c87_reduce o f A b cvs a vrs values ja : oracle_ok o -> NoDup (nl_vars f) -> nm_good f A b cvs a -> nm_joint_distribution o a = Ok ja ->
  NoDup vrs -> length values = length vrs -> ~ incl cvs (vrs ++ dkeys (nl_ev f)) ->
  exists r jr, nm_reduce a vrs values = Ok r /\ nm_good (with_values f vrs values) A b cvs r /\ length (nm_nlgs r) = length (nm_nlgs a) /\ nm_joint_distribution o r = Ok jr /\
    (forall v, In v (gm_vars jr) <-> In v (gm_vars ja) /\ ~ In v vrs) /\
    forall e p, map e vrs = values -> obeys (nl_ev f) e -> mixpot ja e = Ok (Fin p) -> mixpot jr e = Ok (Fin p).
Proof. exact (nm_reduce_joint o f A b cvs a vrs values ja). Qed.
Print Assumptions c87_reduce.
Example c87_nonvacuous : exists o f1 f2 a A b m ja, oracle_ok o /\ mk_nlgm [f1; f2] true = Ok a /\ NoDup (nl_vars f1) /\ nm_good f1 A b ["x2"; "x1"] a /\ nm_joint_distribution o a = Ok ja /\
  wf_mix m /\ (forall g, In g (gm_comps m) -> solid g) /\ message_for f1 ["x2"; "x1"] (gm_vars m) /\ not_split a m /\ length (gm_comps m) = 2%nat /\
  A "y" "x1" = 2 /\ ~ incl ["x2"; "x1"] (["y"] ++ dkeys (nl_ev f1)) /\ dkeys (nl_ev f1) = ["x1"] /\
  (forall e, obeys (nl_ev f1) e -> exists p q, mixpot ja e = Ok (Fin p) /\ mixpot m e = Ok (Fin q)).
Proof. exact pair_instance. Qed.
Theorem c87_divide_partial o f A b cvs a g ja : oracle_ok o -> NoDup (nl_vars f) -> nm_good f A b cvs a -> nm_joint_distribution o a = Ok ja -> (forall h, In h (nm_nlgs a) -> nl_upd h <> None) ->
  wf_gauss g -> sym_prec g -> ga_vac g = false -> incl (ga_vars g) (nl_cal f) ->
  exists r jr, nm_divide o a (AGauss g) = Ok r /\ nm_good f A b cvs r /\ length (nm_nlgs r) = length (nm_nlgs a) /\ nm_joint_distribution o r = Ok jr /\
    forall e p lg, obeys (nl_ev f) e -> mixpot ja e = Ok (Fin p) -> lp g e = Ok (Fin lg) -> mixpot jr e = Ok (Fin (p / exp lg)).
Proof. exact (nm_divide_joint o f A b cvs a g ja). Qed.
Print Assumptions c87_divide_partial.
Example c87_divide_nonvacuous : exists o f A b cvs a g ja, oracle_ok o /\ NoDup (nl_vars f) /\ nm_good f A b cvs a /\ nm_joint_distribution o a = Ok ja /\ (forall h, In h (nm_nlgs a) -> nl_upd h <> None) /\
  wf_gauss g /\ sym_prec g /\ ga_vac g = false /\ ga_vars g = ["y"] /\ incl (ga_vars g) (nl_cal f) /\ finite g /\ length (nm_nlgs a) = 2%nat /\ forall e, obeys (nl_ev f) e -> exists p, mixpot ja e = Ok (Fin p).
Proof. exact divide_mix_instance. Qed.
Theorem c87_gaussian_refuted a g : nm_multiply a (AGauss g) = Err TypeError.
Proof. exact (nm_multiply_gauss_error a g). Qed.
Print Assumptions c87_gaussian_refuted.
Theorem c87_marginal_refuted o f A b cvs a xs : oracle_ok o -> nm_good f A b cvs a -> (forall h, In h (nm_nlgs a) -> exists g, nl_marginalize o h xs true = Ok g) ->
  nm_marginalize o a xs true = Err TypeError.
Proof. exact (nm_marginalize_type o f A b cvs a xs). Qed.
Print Assumptions c87_marginal_refuted.
Theorem c87_copy_flag_refuted : exists f a r, mk_nlgm [f] false = Ok a /\ nm_copy a = Ok r /\ nm_split a = false /\ nm_split r = true.
Proof. exact copy_flag. Qed.
Print Assumptions c87_copy_flag_refuted.

(** C88: a comparison of an object whose joint is up to date is a comparison of its joint; otherwise
    the joint of some earlier state is compared. *)
Theorem c88_equal_partial o f A b c f' g rtol atol x y : oracle_ok o -> nl_good A b c f -> nl_recompute o f = Ok f' -> wf_gauss g -> regular g -> ga_vac (nl_joint f') = false ->
  nl_equals f' g rtol atol = Ok (true, x, y) ->
  is_joint f A b c (nl_joint f') /\ Permutation (ga_vars (nl_joint f')) (ga_vars g) /\
  ((exists p g' q, ga_can (nl_joint f') = Some p /\ get_can g = Ok (g', q) /\ visclose (snd p) (snd q) rtol atol = true /\ close_params rtol atol (ga_vars (nl_joint f')) (ga_vars g) p q) \/
   (exists p g' q, ga_can (nl_joint f') = None /\ ga_cov (nl_joint f') = Some p /\ get_cov g = Ok (g', q) /\ visclose (vexp (snd p)) (vexp (snd q)) rtol atol = true /\
      close_params rtol atol (ga_vars (nl_joint f')) (ga_vars g) p q)).
Proof. exact (nl_equals_fresh o f A b c f' g rtol atol x y). Qed.
Print Assumptions c88_equal_partial.
Example c88_nonvacuous : exists o A b c f f' g x y, oracle_ok o /\ nl_good A b c f /\ nl_recompute o f = Ok f' /\ wf_gauss g /\ regular g /\ ga_vac (nl_joint f') = false /\
  nl_equals f' g default_tol default_tol = Ok (true, x, y).
Proof. exact fresh_instance. Qed.
Theorem c88_stale_refuted : exists o f g j x y, oracle_ok o /\ mk_nlg ["x1"; "x2"] ["y"] exT (meye 1) (Fin 0) None None (Some exc) [] = Ok f /\
  make_vacuous ["x1"; "x2"; "y"] (Fin 5) = Ok g /\ nl_equals f g default_tol default_tol = Ok (true, x, y) /\ nl_joint_distribution o f = Ok j /\ solid j /\ exists e, lp g e <> lp j e.
Proof. exact nl_equals_stale. Qed.
Print Assumptions c88_stale_refuted.

(** C89: factors made from a template have the formatted names, the template's transform and noise,
    and no information.  Missing: names given together with a dictionary (the names of the
    conditional variables are silently ignored). *)
Theorem c89_template_partial cing cal T Q t d a b x : mk_nltemplate cing cal T Q = Ok t -> format_list_elements cing d = Ok a -> format_list_elements cal d = Ok b ->
  NoDup (a ++ b) -> nr Q = length b -> nc Q = length b ->
  exists f, nt_make_factor t (Some d) None x = Ok f /\ nl_wf f /\ nl_cing f = a /\ nl_cal f = b /\ nl_T f = T /\ nl_Q f = Q /\ nl_w f = Fin 0 /\ nl_upd f = None /\ nl_cond f = None /\ nl_ev f = [].
Proof. exact (nt_factor_spec cing cal T Q t d a b x). Qed.
Print Assumptions c89_template_partial.
Theorem c89_names_partial cing cal T Q t a b : mk_nltemplate cing cal T Q = Ok t -> NoDup (a ++ b) -> nr Q = length b -> nc Q = length b ->
  exists f, nt_make_factor t None (Some a) (Some b) = Ok f /\ nl_wf f /\ nl_cing f = a /\ nl_cal f = b /\ nl_T f = T /\ nl_Q f = Q /\ nl_w f = Fin 0 /\ nl_upd f = None /\ nl_cond f = None /\ nl_ev f = [].
Proof. exact (nt_factor_names cing cal T Q t a b). Qed.
Print Assumptions c89_names_partial.
Example c89_nonvacuous : exists t d, mk_nltemplate ["x{i}"] ["y{i}"] exT (meye 1) = Ok t /\ format_list_elements ["x{i}"] d = Ok ["x7"] /\ format_list_elements ["y{i}"] d = Ok ["y7"] /\
  NoDup (["x7"] ++ ["y7"]) /\ nr (meye 1) = 1%nat /\ nc (meye 1) = 1%nat.
Proof. exact nt_instance. Qed.
Theorem c89_ignored_refuted : exists t d f, mk_nltemplate ["x{i}"] ["y{i}"] exT (meye 1) = Ok t /\ nt_make_factor t (Some d) None (Some ["z"]) = Ok f /\ nl_cal f = ["y7"].
Proof. exact nt_ignored_names. Qed.
Print Assumptions c89_ignored_refuted.
