(** Properties C66 and C67: marginals and weights of Gaussians and mixtures are integrals.
    [iint ys F e I] says that the iterated improper Riemann integral of [F] over the whole line in
    each of the variables [ys], the others fixed by [e], exists and equals [I]. *)
From Verif Require Import IntFull.
Local Open Scope string_scope.
Local Open Scope R_scope.

Theorem c66_marginal_is_integral o ys f xs : oracle_ok o -> solid f -> plain f -> Permutation (ys ++ xs) (ga_vars f) ->
  exists r, g_marginalize o f xs true = Ok r /\ ga_vars r = xs /\ solid r /\ plain r /\ forall e, iint ys (gval f) e (gval r e).
Proof. exact (marg_integral o ys f xs). Qed.
Print Assumptions c66_marginal_is_integral.
Example c66_nonvacuous : (exists o, oracle_ok o) /\ solid ex_ab /\ plain ex_ab /\ Permutation (["a"] ++ ["b"]) (ga_vars ex_ab).
Proof. exact ex_ab_int. Qed.
(** The integral is unique and its value does not depend on the order of integration. *)
Theorem c66_order f xs ys ys' e I J : solid f -> plain f -> Permutation (ys ++ xs) (ga_vars f) -> Permutation ys ys' ->
  iint ys (gval f) e I -> iint ys' (gval f) e J -> I = J.
Proof. exact (integral_order f xs ys ys' e I J). Qed.
Print Assumptions c66_order.
Theorem c66_mixture o a xs ys : oracle_ok o -> wf_mix a -> (forall c, In c (gm_comps a) -> solid c /\ plain c) -> Permutation (ys ++ xs) (gm_vars a) ->
  exists r, mix_marginalize o a xs true = Ok r /\ wf_mix r /\ gm_vars r = xs /\ (forall c, In c (gm_comps r) -> solid c /\ plain c) /\
    forall e, iint ys (mval a) e (mval r e).
Proof. exact (mix_integral o a xs ys). Qed.
Print Assumptions c66_mixture.
Example c66_mixture_nonvacuous : (exists o, oracle_ok o) /\ wf_mix mix_ab /\ (forall c, In c (gm_comps mix_ab) -> solid c /\ plain c) /\
  Permutation (["a"] ++ ["b"]) (gm_vars mix_ab).
Proof. exact mix_ab_int. Qed.
Theorem c66_two_steps o f xs zs r1 r2 r : oracle_ok o -> solid f -> NoDup xs -> NoDup zs -> incl xs (ga_vars f) -> incl zs xs ->
  g_marginalize o f xs true = Ok r1 -> g_marginalize o r1 zs true = Ok r2 -> g_marginalize o f zs true = Ok r -> forall e, lp r2 e = lp r e.
Proof. exact (marg_marg o f xs zs r1 r2 r). Qed.
Print Assumptions c66_two_steps.

Theorem c67_weight_is_integral f f' C m w ys e : solid f -> plain f -> get_cov f = Ok (f', (C, m, w)) -> Permutation ys (ga_vars f) ->
  is_lp w /\ iint ys (gval f) e (pot w).
Proof. exact (weight_integral f f' C m w ys e). Qed.
Print Assumptions c67_weight_is_integral.
Theorem c67_normalize f f' C m w : solid f -> get_cov f = Ok (f', (C, m, Fin w)) ->
  exists r, g_normalize f = Ok r /\ solid r /\ plain r /\ ga_vars r = ga_vars f /\ get_cov r = Ok (r, (C, m, Fin 0)) /\
    (forall e l, lp f e = Ok l -> lp r e = Ok (vsub l (Fin w))).
Proof. exact (normalize_full f f' C m w). Qed.
Print Assumptions c67_normalize.
Theorem c67_normalize_integral f f' C m w ys e : solid f -> get_cov f = Ok (f', (C, m, Fin w)) -> Permutation ys (ga_vars f) ->
  exists r, g_normalize f = Ok r /\ iint ys (gval r) e 1.
Proof. exact (normalize_integral f f' C m w ys e). Qed.
Print Assumptions c67_normalize_integral.
Theorem c67_mixture_weight a ys e : wf_mix a -> (forall c, In c (gm_comps a) -> solid c /\ plain c) -> Permutation ys (gm_vars a) ->
  exists w, mix_get_log_weight a = Ok w /\ is_lp w /\ iint ys (mval a) e (pot w).
Proof. exact (mix_weight_integral a ys e). Qed.
Print Assumptions c67_mixture_weight.
Example c67_nonvacuous : solid ex_ab /\ plain ex_ab /\ (exists f' C m w, get_cov ex_ab = Ok (f', (C, m, Fin w))) /\ Permutation ["b"; "a"] (ga_vars ex_ab).
Proof. exact (conj ex_ab_solid (conj ex_ab_plain (conj ex_ab_weight (perm_swap "a" "b" [])))). Qed.
