(** Properties C47-C50 and C61-C65: Gaussian mixtures, and a stronger form of C43. *)
From Verif Require Import MixExamples.
Local Open Scope string_scope.
Local Open Scope R_scope.

(** C43 for an object in any state of its two forms (canonical, covariance or both). *)
Theorem c43_marginal_any_state o f xs : oracle_ok o -> solid f -> NoDup xs -> incl xs (ga_vars f) ->
  exists f' C m w r r' C1 m1, get_cov f = Ok (f', (C, m, w)) /\ g_marginalize o f xs true = Ok r /\ solid r /\ ga_vars r = xs /\
    ga_vac r = false /\ get_cov r = Ok (r', (C1, m1, w)) /\ restricted C C1 (ga_vars f) xs /\ restricted1 m m1 (ga_vars f) xs.
Proof. exact (marg_solid o f xs). Qed.
Print Assumptions c43_marginal_any_state.
Example c43_any_state_nonvacuous : (exists o, oracle_ok o) /\ solid ex_ab /\ NoDup ["b"] /\ incl ["b"] (ga_vars ex_ab).
Proof. exact ex_ab_marg. Qed.

(** C47: splitting.  The total weight is lost (the result always has weight one); the mean and the
    second moment are kept. *)
Theorem c47_weight_refuted : exists f a, wf_gauss f /\ get_log_weight f = Ok (Fin 1) /\ split_gaussian f = Ok a /\ mix_get_log_weight a = Ok (Fin 0).
Proof. exact split_loses_weight. Qed.
Print Assumptions c47_weight_refuted.
Theorem c47_split_partial f f' C m w : wf_gauss f -> length (ga_vars f) = 1%nat -> get_cov f = Ok (f', (C, m, w)) -> 0 <= ent C 0 0 ->
  exists a ps, split_gaussian f = Ok a /\ gm_vars a = ga_vars f /\ length (gm_comps a) = 3%nat /\ Forall2 has_params (gm_comps a) ps /\
    weight_sum ps = 1 /\ first_sum ps 0 = ent m 0 0 /\ second_sum ps 0 0 = ent C 0 0 + ent m 0 0 * ent m 0 0 /\
    mix_get_log_weight a = Ok (Fin 0).
Proof. exact (split_full f f' C m w). Qed.
Print Assumptions c47_split_partial.
Example c47_nonvacuous : wf_gauss (wg 3 0) /\ length (ga_vars (wg 3 0)) = 1%nat /\
  get_cov (wg 3 0) = Ok (wg 3 0, (meye 1, Mat 1 1 (fun _ _ => 3), Fin 0)) /\ 0 <= ent (meye 1) 0 0.
Proof. exact (conj (wg_wf 3 0) (conj eq_refl (conj (wg_cov 3 0) Rle_0_1))). Qed.

(** C48: moment matching keeps the weight and the first and second moments. *)
Theorem c48_moment_match a ps : wf_mix a -> Forall2 has_params (gm_comps a) ps ->
  exists r C m w, mix_moment_match a = Ok r /\ ga_vars r = gm_vars a /\ get_cov r = Ok (r, (C, m, Fin w)) /\
    shaped (length (gm_vars a)) (C, m, Fin w) /\
    exp w = weight_sum ps /\
    (forall i, (i < length (gm_vars a))%nat -> weight_sum ps * ent m i 0 = first_sum ps i) /\
    (forall i j, (i < length (gm_vars a))%nat -> (j < length (gm_vars a))%nat ->
       weight_sum ps * (ent C i j + ent m i 0 * ent m j 0) = second_sum ps i j).
Proof. exact (moment_match a ps). Qed.
Print Assumptions c48_moment_match.
Example c48_nonvacuous : wf_mix (mixw [(1, 0); (5, 2)]) /\
  Forall2 has_params (gm_comps (mixw [(1, 0); (5, 2)])) [(meye 1, Mat 1 1 (fun _ _ => 1), 0); (meye 1, Mat 1 1 (fun _ _ => 5), 2)].
Proof. exact (conj (mixw_wf _ _) (mixw_params _)). Qed.

(** C49: the product of two mixtures, at every assignment where the potentials are numbers. *)
Theorem c49_multiply a b : wf_mix a -> wf_mix b ->
  exists r, mix_multiply a b = Ok r /\ wf_mix r /\ length (gm_comps r) = (length (gm_comps a) * length (gm_comps b))%nat /\
    union_scope (gm_vars r) (gm_vars a) (gm_vars b) /\
    forall e p q, mixpot a e = Ok (Fin p) -> mixpot b e = Ok (Fin q) -> mixpot r e = Ok (Fin (p * q)).
Proof. exact (mix_multiply_full a b). Qed.
Print Assumptions c49_multiply.
Example c49_nonvacuous : wf_mix (mixc [0; 100]) /\ wf_mix (mixc [7]) /\
  forall e, mixpot (mixc [0; 100]) e = Ok (Fin (exp (cgl (e "a") 0) + (exp (cgl (e "a") 100) + 0))) /\ mixpot (mixc [7]) e = Ok (Fin (exp (cgl (e "a") 7) + 0)).
Proof. exact (conj (mixc_wf _ _) (conj (mixc_wf _ _) (fun e => conj (mixc_pot 0 [100] e) (mixc_pot 7 [] e)))). Qed.

(** C50: mixture equality.  Both halves are false. *)
Theorem c50_order_refuted : exists a b sa sb, mk_mix [cg 0; cg 100] = Ok a /\ mk_mix [cg 100; cg 0] = Ok b /\
  mix_equals a b default_tol default_tol = Ok (false, sa, sb) /\ Permutation (gm_comps a) (gm_comps b).
Proof. exact mix_equals_order. Qed.
Print Assumptions c50_order_refuted.
Theorem c50_different_refuted : exists a b sa sb, mk_mix [cg 100; cg 100] = Ok a /\ mk_mix [cg 0; cg 100] = Ok b /\
  mix_equals a b default_tol default_tol = Ok (true, sa, sb) /\
  exists p q, mixpot a (fun _ => 1) = Ok (Fin p) /\ mixpot b (fun _ => 1) = Ok (Fin q) /\ q < p.
Proof. exact mix_equals_different. Qed.
Print Assumptions c50_different_refuted.
(** What holds: components with the same parameters in the same order compare equal (missing: any
    other order). *)
Theorem c50_same_partial a b rtol atol : cmp_mix a -> cmp_mix b -> gm_vars a = gm_vars b ->
  Forall2 (fun fi bi => no_nan fi /\ holds fi bi) (gm_comps a) (gm_comps b) ->
  exists sb, mix_equals a b rtol atol = Ok (true, gm_comps a, sb) /\ Forall2 ext (gm_comps b) sb.
Proof. exact (mix_equals_refl a b rtol atol). Qed.
Print Assumptions c50_same_partial.
(** Equal mixtures have the same number of components and every component on the left is close to
    one on the right (missing: the other way round). *)
Theorem c50_equal_partial a b rtol atol sa sb : cmp_mix a -> cmp_mix b -> gm_vars a = gm_vars b -> mix_equals a b rtol atol = Ok (true, sa, sb) ->
  length (gm_comps a) = length (gm_comps b) /\
  (forall i fi, nth_error (gm_comps a) i = Some fi ->
     exists j bj b', (i <= j)%nat /\ nth_error (gm_comps b) j = Some bj /\ (forall e, lp b' e = lp bj e) /\ close_gauss fi b').
Proof. exact (mix_equals_close a b rtol atol sa sb). Qed.
Print Assumptions c50_equal_partial.
Theorem c50_answers_partial a b rtol atol : cmp_mix a -> cmp_mix b -> gm_vars a = gm_vars b ->
  exists r sb, mix_equals a b rtol atol = Ok (r, gm_comps a, sb) /\ Forall2 (fun c c' => ga_vars c' = ga_vars c /\ forall e, lp c' e = lp c e) (gm_comps b) sb.
Proof. exact (mix_equals_answers a b rtol atol). Qed.
Print Assumptions c50_answers_partial.
Example c50_nonvacuous : cmp_mix (mixc [0; 100]) /\ Forall2 (fun fi bi => no_nan fi /\ holds fi bi) (gm_comps (mixc [0; 100])) (gm_comps (mixc [0; 100])) /\
  exists sb, mix_equals (mixc [0; 100]) (mixc [0; 100]) default_tol default_tol = Ok (true, gm_comps (mixc [0; 100]), sb).
Proof. exact mixc_reflexive. Qed.

(** C61: normalising a mixture gives weight one and divides the potential by the old weight. *)
Theorem c61_normalize a ps : wf_mix a -> (forall c, In c (gm_comps a) -> regular c) -> Forall2 has_params (gm_comps a) ps ->
  exists r, mix_normalize a = Ok r /\ wf_mix r /\ gm_vars r = gm_vars a /\ mix_get_log_weight r = Ok (Fin 0) /\
    forall e p, mixpot a e = Ok (Fin p) -> mixpot r e = Ok (Fin (p / weight_sum ps)).
Proof. exact (mix_normalize_spec a ps). Qed.
Print Assumptions c61_normalize.
Theorem c61_weight a ps : wf_mix a -> Forall2 has_params (gm_comps a) ps -> mix_get_log_weight a = Ok (Fin (ln (weight_sum ps))).
Proof. exact (mix_log_weight a ps). Qed.
Print Assumptions c61_weight.
Example c61_nonvacuous : wf_mix (mixw [(1, 0); (5, 2)]) /\ (forall c, In c (gm_comps (mixw [(1, 0); (5, 2)])) -> regular c) /\
  Forall2 has_params (gm_comps (mixw [(1, 0); (5, 2)])) [(meye 1, Mat 1 1 (fun _ _ => 1), 0); (meye 1, Mat 1 1 (fun _ _ => 5), 2)].
Proof. exact (conj (mixw_wf _ _) (conj (mixw_regular _) (mixw_params _))). Qed.

(** C62: observing some of the variables of a mixture is restriction. *)
Theorem c62_reduce a vrs values : wf_mix a -> (forall c, In c (gm_comps a) -> sym_prec c) -> NoDup vrs -> incl vrs (gm_vars a) ->
  ~ incl (gm_vars a) vrs -> length values = length vrs ->
  exists r, mix_reduce a vrs values = Ok r /\ wf_mix r /\ (forall v, In v (gm_vars r) <-> In v (gm_vars a) /\ ~ In v vrs) /\
    forall e p, map e vrs = values -> mixpot a e = Ok (Fin p) -> mixpot r e = Ok (Fin p).
Proof. exact (mix_reduce_spec a vrs values). Qed.
Print Assumptions c62_reduce.
Example c62_nonvacuous : wf_mix mix_ab /\ (forall c, In c (gm_comps mix_ab) -> sym_prec c) /\ NoDup ["b"] /\ incl ["b"] (gm_vars mix_ab) /\
  ~ incl (gm_vars mix_ab) ["b"] /\ exists p, mixpot mix_ab (fun _ => 1) = Ok (Fin p).
Proof. exact mix_ab_facts. Qed.

(** C63: the marginal of a mixture is the mixture of the marginals, with the same total weight. *)
Theorem c63_marginalize o a xs : oracle_ok o -> wf_mix a -> (forall c, In c (gm_comps a) -> solid c) -> NoDup xs -> incl xs (gm_vars a) ->
  exists r, mix_marginalize o a xs true = Ok r /\ wf_mix r /\ gm_vars r = xs /\ (forall c, In c (gm_comps r) -> solid c) /\
    Forall2 (marg_comp (gm_vars a) xs) (gm_comps a) (gm_comps r) /\
    mix_get_log_weight r = mix_get_log_weight a.
Proof. exact (mix_marg_spec o a xs). Qed.
Print Assumptions c63_marginalize.
Example c63_nonvacuous : (exists o, oracle_ok o) /\ wf_mix mix_ab /\ (forall c, In c (gm_comps mix_ab) -> solid c) /\ NoDup ["b"] /\ incl ["b"] (gm_vars mix_ab).
Proof. exact mix_ab_solid. Qed.

(** C64: the log potential of a mixture is the logarithm of its potential. *)
Theorem c64_log_potential a e p : wf_mix a -> mixpot a e = Ok (Fin p) -> mixlp a e = Ok (rlog p).
Proof. exact (mixlp_rlog a e p). Qed.
Print Assumptions c64_log_potential.
Example c64_nonvacuous : wf_mix (mixc [7]) /\ forall e, mixpot (mixc [7]) e = Ok (Fin (exp (cgl (e "a") 7) + 0)).
Proof. exact (conj (mixc_wf _ _) (mixc_pot 7 [])). Qed.

(** C65: multiplying or dividing a mixture by one Gaussian. *)
Theorem c65_multiply a f : wf_mix a -> wf_gauss f ->
  exists r, mix_multiply_gauss a f = Ok r /\ wf_mix r /\ union_scope (gm_vars r) (gm_vars a) (ga_vars f) /\
    forall e p l, mixpot a e = Ok (Fin p) -> lp f e = Ok (Fin l) -> mixpot r e = Ok (Fin (p * exp l)).
Proof. exact (mix_multiply_gauss_full a f). Qed.
Print Assumptions c65_multiply.
Theorem c65_divide a f : wf_mix a -> wf_gauss f ->
  exists r, mix_divide_gauss a f = Ok r /\ wf_mix r /\ union_scope (gm_vars r) (gm_vars a) (ga_vars f) /\
    forall e p l, mixpot a e = Ok (Fin p) -> lp f e = Ok (Fin l) -> mixpot r e = Ok (Fin (p / exp l)).
Proof. exact (mix_divide_gauss_full a f). Qed.
Print Assumptions c65_divide.
Example c65_nonvacuous : wf_mix (mixc [0; 100]) /\ wf_gauss ex_ab /\ lp ex_ab (fun _ => 1) = Ok (Fin 0).
Proof. exact mix_div_example. Qed.
