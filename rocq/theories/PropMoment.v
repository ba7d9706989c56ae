(** Properties C73 to C76: the means and covariances that Gaussians, mixtures and factorised
    factors report are moments, and the divergence is the relative entropy.  [iint ys F e I] is
    the iterated integral of [F] over the whole line in each of [ys], as in PropIntegral. *)
From Verif Require Import IntKL2.
Local Open Scope string_scope.
Local Open Scope R_scope.

(** C73 *)
Theorem c73_mean f f' C m w ys e u : solid f -> plain f -> get_cov f = Ok (f', (C, m, w)) -> Permutation ys (ga_vars f) -> In u (ga_vars f) ->
  iint ys (gval f) e (pot w) /\ iint ys (fun e => e u * gval f e) e (named_coord m (ga_vars f) u * pot w).
Proof. exact (fun S P G HP Hu => conj (proj2 (weight_integral f f' C m w ys e S P G HP)) (raw_moment1 f f' C m w ys e u S P G HP Hu)). Qed.
Print Assumptions c73_mean.
Theorem c73_covariance f f' C m w ys e u v : solid f -> plain f -> get_cov f = Ok (f', (C, m, w)) -> Permutation ys (ga_vars f) -> In u (ga_vars f) -> In v (ga_vars f) ->
  iint ys (fun e => (e u - named_coord m (ga_vars f) u) * (e v - named_coord m (ga_vars f) v) * gval f e) e (named_entry C (ga_vars f) u v * pot w).
Proof. exact (cov_moment ys f f' C m w e u v). Qed.
Print Assumptions c73_covariance.
Example c73_nonvacuous : solid ex_ab /\ plain ex_ab /\ (exists f' C m w, get_cov ex_ab = Ok (f', (C, m, Fin w))) /\ Permutation ["b"; "a"] (ga_vars ex_ab).
Proof. exact (conj ex_ab_solid (conj ex_ab_plain (conj ex_ab_weight (perm_swap "a" "b" [])))). Qed.

(** C74 *)
Theorem c74_moment_match a ps : wf_mix a -> (forall c, In c (gm_comps a) -> solid c /\ plain c) -> Forall2 has_params (gm_comps a) ps ->
  exists r, mix_moment_match a = Ok r /\ solid r /\ plain r /\ ga_vars r = gm_vars a /\
    forall ys e, Permutation ys (gm_vars a) ->
      (exists W, iint ys (mval a) e W /\ iint ys (gval r) e W) /\
      (forall u, In u (gm_vars a) -> exists M, iint ys (fun e => e u * mval a e) e M /\ iint ys (fun e => e u * gval r e) e M) /\
      (forall u v, In u (gm_vars a) -> In v (gm_vars a) -> exists S, iint ys (fun e => e u * e v * mval a e) e S /\ iint ys (fun e => e u * e v * gval r e) e S).
Proof. exact (match_moments a ps). Qed.
Print Assumptions c74_moment_match.
Example c74_nonvacuous : wf_mix mix_ab /\ (forall c, In c (gm_comps mix_ab) -> solid c /\ plain c) /\ exists ps, Forall2 has_params (gm_comps mix_ab) ps.
Proof. exact (conj (proj1 (proj2 mix_ab_int)) (conj (proj1 (proj2 (proj2 mix_ab_int))) mix_ab_params)). Qed.

(** C75: the product's moments, listed in the variable order of the joint. *)
Theorem c75_moments_partial a : fg_factors a <> [] -> (forall f, In f (fg_factors a) -> solid f /\ plain f) ->
  exists j C m W, fg_joint a = Ok j /\ fg_get_cov a = Ok C /\ fg_get_mean a = Ok m /\
    nr C = length (ga_vars j) /\ nc C = length (ga_vars j) /\ nr m = length (ga_vars j) /\ nc m = 1%nat /\
    forall ys e, Permutation ys (ga_vars j) ->
      iint ys (gvals (fg_factors a)) e W /\
      (forall u, In u (ga_vars j) -> iint ys (fun e => e u * gvals (fg_factors a) e) e (named_coord m (ga_vars j) u * W)) /\
      (forall u v, In u (ga_vars j) -> In v (ga_vars j) ->
        iint ys (fun e => (e u - named_coord m (ga_vars j) u) * (e v - named_coord m (ga_vars j) v) * gvals (fg_factors a) e) e (named_entry C (ga_vars j) u v * W)).
Proof. exact (fg_moments a). Qed.
Print Assumptions c75_moments_partial.
Example c75_nonvacuous : fg_factors two_fg <> [] /\ forall f, In f (fg_factors two_fg) -> solid f /\ plain f.
Proof. split; [discriminate|apply shapes_hyps]. Qed.

(** The factor's own list of variable names can be in another order. *)
Theorem c75_order_refuted : exists o f a m, oracle_ok o /\ solid f /\ plain f /\ mk_fg o [f] = Ok a /\ fg_get_mean a = Ok m /\ fg_vars a = ["b"; "a"] /\
  named_coord m (fg_vars a) "b" = 1 /\
  forall ys e, Permutation ys (fg_vars a) -> iint ys (gvals (fg_factors a)) e 1 /\ iint ys (fun e => e "b" * gvals (fg_factors a) e) e 0.
Proof. exact fg_mean_order. Qed.
Print Assumptions c75_order_refuted.

(** C76: the divergence of the first from the second argument, over the same variables in the
    same order; the equality check answers first. *)
Theorem c76_divergence_partial f1 f2 f1' C1 m1 w1 f2' C2 m2 w2 : solid f1 -> solid f2 -> ga_vars f1 = ga_vars f2 ->
  get_cov f1 = Ok (f1', (C1, m1, Fin w1)) -> get_cov f2 = Ok (f2', (C2, m2, Fin w2)) ->
  exists b g2 k p q, g_equals f1 f2 default_tol default_tol = Ok (b, f1, g2) /\ g_kl_divergence f1 f2 = Ok (Fin k, f1, g2) /\
    g_normalize f1 = Ok p /\ g_normalize f2 = Ok q /\ 0 <= k /\ (b = true -> k = 0) /\
    (b = false -> forall ys e, Permutation ys (ga_vars f1) -> iint ys (fun e => gval p e * (ln (gval p e) - ln (gval q e))) e k).
Proof. exact (g_kl_spec f1 f2 f1' C1 m1 w1 f2' C2 m2 w2). Qed.
Print Assumptions c76_divergence_partial.
Example c76_nonvacuous : exists f1 f2 g2, solid f1 /\ solid f2 /\ ga_vars f1 = ga_vars f2 /\ ga_vars f1 = ["a"; "b"] /\
  g_equals f1 f2 default_tol default_tol = Ok (false, f1, g2) /\ (exists C m, get_cov f1 = Ok (f1, (C, m, Fin 0))) /\ (exists C m, get_cov f2 = Ok (f2, (C, m, Fin 1))).
Proof. exact kl_instance. Qed.
Theorem c76_degenerate f1 f2 :
  (length (ga_vars f1) <> length (ga_vars f2) -> g_kl_divergence f1 f2 = Err ValueError) /\
  (length (ga_vars f1) = length (ga_vars f2) -> ga_vac f1 = true -> ga_vac f2 = true -> g_kl_divergence f1 f2 = Ok (Fin 0, f1, f2)) /\
  (length (ga_vars f1) = length (ga_vars f2) -> ga_vac f1 <> ga_vac f2 -> g_kl_divergence f1 f2 = Ok (PInf, f1, f2)).
Proof. exact (kl_vacuous f1 f2). Qed.
Print Assumptions c76_degenerate.
(** Variables listed in another order: the same density, and the answer is 1. *)
Theorem c76_order_refuted : exists f1 f2 p q f1' f2', solid f1 /\ solid f2 /\ Permutation (ga_vars f1) (ga_vars f2) /\
  g_normalize f1 = Ok p /\ g_normalize f2 = Ok q /\ (forall e, gval p e = gval q e) /\
  g_kl_divergence f1 f2 = Ok (Fin 1, f1', f2') /\
  forall ys e, Permutation ys (ga_vars f1) -> iint ys (fun e => gval p e * (ln (gval p e) - ln (gval q e))) e 0.
Proof. exact kl_order_refuted. Qed.
Print Assumptions c76_order_refuted.
(** Close densities: the integral is positive, and the answer is 0. *)
Theorem c76_close_refuted : exists f1 f2 p q f1' f2' k, solid f1 /\ solid f2 /\ ga_vars f1 = ga_vars f2 /\ g_normalize f1 = Ok p /\ g_normalize f2 = Ok q /\
  g_kl_divergence f1 f2 = Ok (Fin 0, f1', f2') /\ 0 < k /\
  forall ys e, Permutation ys (ga_vars f1) -> iint ys (fun e => gval p e * (ln (gval p e) - ln (gval q e))) e k.
Proof. exact kl_close_refuted. Qed.
Print Assumptions c76_close_refuted.
(** Different variables: a number, not an error. *)
Theorem c76_scope_refuted : exists f1 f2 f1' f2', solid f1 /\ solid f2 /\ ga_vars f1 = ["a"] /\ ga_vars f2 = ["b"] /\ g_kl_divergence f1 f2 = Ok (Fin 0, f1', f2').
Proof. exact kl_scope_refuted. Qed.
Print Assumptions c76_scope_refuted.
