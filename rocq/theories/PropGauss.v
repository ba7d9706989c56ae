(** Properties C40 to C45: Gaussian factors.
    [lp f e] is the answer of log_potential at the assignment [e] of real values to names. *)
From Verif Require Import GaussExamples.
Local Open Scope string_scope.

(** C40: products and quotients.  No assumption on the parameters of canonical forms; a
    covariance form needs a symmetric covariance with positive determinant ([wf_gauss]). *)
Theorem c40_multiply f1 f2 : wf_gauss f1 -> wf_gauss f2 ->
  exists r, g_multiply f1 f2 = Ok r /\ wf_gauss r /\ (forall v, In v (ga_vars r) <-> In v (ga_vars f1) \/ In v (ga_vars f2)) /\
    forall e vs, Permutation vs (ga_vars r) -> exists l1 l2, lp f1 e = Ok l1 /\ lp f2 e = Ok l2 /\
      log_potential r (map e vs) (Some vs) = Ok (vadd l1 l2) /\ lp r e = Ok (vadd l1 l2).
Proof. exact (multiply_full f1 f2). Qed.
Print Assumptions c40_multiply.
Theorem c40_divide f1 f2 : wf_gauss f1 -> wf_gauss f2 ->
  exists r, g_divide f1 f2 = Ok r /\ wf_gauss r /\ (forall v, In v (ga_vars r) <-> In v (ga_vars f1) \/ In v (ga_vars f2)) /\
    forall e vs, Permutation vs (ga_vars r) -> exists l1 l2, lp f1 e = Ok l1 /\ lp f2 e = Ok l2 /\
      log_potential r (map e vs) (Some vs) = Ok (vsub l1 l2) /\ lp r e = Ok (vsub l1 l2).
Proof. exact (divide_full f1 f2). Qed.
Print Assumptions c40_divide.
Theorem c40_multiply_divide f1 f2 : wf_gauss f1 -> wf_gauss f2 ->
  exists r q, g_multiply f1 f2 = Ok r /\ g_divide r f2 = Ok q /\
    (forall v, In v (ga_vars q) <-> In v (ga_vars f1) \/ In v (ga_vars f2)) /\
    forall e l1 x, lp f1 e = Ok l1 -> lp f2 e = Ok (Fin x) -> lp q e = Ok l1.
Proof. exact (multiply_divide f1 f2). Qed.
Print Assumptions c40_multiply_divide.
(** What the constructors build is well formed. *)
Theorem c40_constructed_canonical vars K h g : NoDup vars -> shaped (length vars) (K, h, g) ->
  exists f, mk_can vars K h g = Ok f /\ wf_gauss f /\ ga_vars f = vars.
Proof. exact (mk_can_wf vars K h g). Qed.
Print Assumptions c40_constructed_canonical.
Theorem c40_constructed_covariance vars C m w : NoDup vars -> shaped (length vars) (C, m, w) -> symm C -> (0 < mdet C)%R ->
  exists f, mk_cov vars C m w = Ok f /\ wf_gauss f /\ ga_vars f = vars.
Proof. exact (mk_cov_wf vars C m w). Qed.
Print Assumptions c40_constructed_covariance.
Example c40_nonvacuous : wf_gauss ex_ab /\ wf_gauss ex_bc /\ ga_vars ex_ab = ["a"; "b"] /\ ga_vars ex_bc = ["c"; "b"] /\
  mk_can ["a"; "b"] exK exh (Fin 0) = Ok ex_ab /\ mk_cov ["c"; "b"] exK exh (Fin 0) = Ok ex_bc /\
  log_potential ex_ab [1; 2]%R None = Ok (Fin (-2)).
Proof. exact (conj wf_ab (conj wf_bc (conj eq_refl (conj eq_refl (conj ex_ab_made (conj ex_bc_made ex_ab_value)))))). Qed.

(** C41: observing some variables.  The property is false for all variables. *)
Theorem c41_reduce_all_refuted : exists f, wf_gauss f /\ sym_prec f /\ g_reduce f ["a"; "b"] [1; 2]%R = Err AssertionError.
Proof. exact reduce_all_refuted. Qed.
Print Assumptions c41_reduce_all_refuted.
Theorem c41_reduce_all_fails f vrs values : wf_gauss f -> NoDup vrs -> incl vrs (ga_vars f) -> incl (ga_vars f) vrs ->
  length values = length vrs -> g_reduce f vrs values = Err AssertionError.
Proof. exact (g_reduce_all f vrs values). Qed.
Print Assumptions c41_reduce_all_fails.
(** Missing from the full statement: the case that all variables are observed. *)
Theorem c41_reduce_partial f vrs values : wf_gauss f -> sym_prec f -> NoDup vrs -> incl vrs (ga_vars f) ->
  ~ incl (ga_vars f) vrs -> length values = length vrs ->
  exists r, g_reduce f vrs values = Ok r /\ wf_gauss r /\ (forall v, In v (ga_vars r) <-> In v (ga_vars f) /\ ~ In v vrs) /\
    forall e, map e vrs = values -> exists l, lp f e = Ok l /\ lp r e = Ok l.
Proof. exact (reduce_full f vrs values). Qed.
Print Assumptions c41_reduce_partial.
Example c41_nonvacuous : wf_gauss ex_ab /\ sym_prec ex_ab /\ NoDup ["b"] /\ incl ["b"] (ga_vars ex_ab) /\ ~ incl (ga_vars ex_ab) ["b"].
Proof.
  split; [exact wf_ab|]. split; [intros p Hp; injection Hp as <-; exact exK_symm|]. split; [constructor; [intros []|constructor]|].
  split; [intros v [<-|[]]; right; now left|]. intros H. destruct (H "a" (or_introl eq_refl)) as [E|[]]. discriminate.
Qed.

(** C42: covariance form, canonical form and back. *)
Theorem c42_cov_can_cov vars C m w : NoDup vars -> shaped (length vars) (C, m, w) -> posdef C ->
  exists f f' K h g fc fc' C' m', mk_cov vars C m w = Ok f /\ get_can f = Ok (f', (K, h, g)) /\
    mk_can vars K h g = Ok fc /\ get_cov fc = Ok (fc', (C', m', w)) /\ meq C' C /\ meq m' m /\
    (forall e, exists l, lp f e = Ok l /\ lp f' e = Ok l /\ lp fc e = Ok l /\ lp fc' e = Ok l).
Proof. exact (cov_can_cov_posdef vars C m w). Qed.
Print Assumptions c42_cov_can_cov.
Theorem c42_can_cov_can vars K h g : NoDup vars -> shaped (length vars) (K, h, g) -> posdef K ->
  exists fc fc' C m w f f' K' h', mk_can vars K h g = Ok fc /\ get_cov fc = Ok (fc', (C, m, w)) /\
    mk_cov vars C m w = Ok f /\ get_can f = Ok (f', (K', h', g)) /\ meq K' K /\ meq h' h /\
    (forall e, log_potential f (map e vars) None = log_potential fc (map e vars) None).
Proof. exact (can_cov_can_full vars K h g). Qed.
Print Assumptions c42_can_cov_can.
(** Symmetric covariances that are not positive definite but have a positive determinant. *)
Theorem c42_cov_can_cov_indefinite vars C m w : NoDup vars -> shaped (length vars) (C, m, w) -> symm C -> (0 < mdet C)%R ->
  prec_vacuous (minv C) = false ->
  exists f K h g fc C' m' f' fc', mk_cov vars C m w = Ok f /\ get_can f = Ok (f', (K, h, g)) /\
    mk_can vars K h g = Ok fc /\ get_cov fc = Ok (fc', (C', m', w)) /\ meq C' C /\ meq m' m /\
    K = minv C /\ h = mmul0 (minv C) m /\ wf_gauss f /\ wf_gauss fc /\ ga_vac fc = false.
Proof. exact (cov_can_cov vars C m w). Qed.
Print Assumptions c42_cov_can_cov_indefinite.
Example c42_nonvacuous : NoDup ["a"; "b"] /\ shaped 2 (exK, exh, Fin 0) /\ posdef exK.
Proof. split; [now apply nd2|]. split; [now repeat split|exact exK_posdef]. Qed.

(** C43: the marginal of the covariance form and of the canonical form, whether the canonical
    form is a second form of the same object ([f']) or a factor of its own ([fc]). *)
Theorem c43_marginal o vars C m w f K h g f' fc xs :
  oracle_ok o -> NoDup vars -> shaped (length vars) (C, m, w) -> posdef C -> NoDup xs -> incl xs vars ->
  mk_cov vars C m w = Ok f -> get_can f = Ok (f', (K, h, g)) -> mk_can vars K h g = Ok fc ->
  forall f2, f2 = f' \/ f2 = fc ->
  exists r r2 C1 m1 r2' C2 m2, g_marginalize o f xs true = Ok r /\ g_marginalize o f2 xs true = Ok r2 /\
    ga_vars r = xs /\ ga_vars r2 = xs /\
    get_cov r = Ok (r, (C1, m1, w)) /\ get_cov r2 = Ok (r2', (C2, m2, w)) /\ meq C1 C2 /\ meq m1 m2 /\
    restricted C C1 vars xs /\ restricted1 m m1 vars xs /\
    (forall e, exists l, lp r e = Ok l /\ lp r2 e = Ok l).
Proof. exact (marginal_full o vars C m w f K h g f' fc xs). Qed.
Print Assumptions c43_marginal.
(** Naming the variables to sum out is the same as keeping the others. *)
Theorem c43_marginal_drop o f vrs :
  g_marginalize o f vrs false = g_marginalize o f (so o (set_diff (ga_vars f) vrs)) true.
Proof. exact (marginal_drop o f vrs). Qed.
Print Assumptions c43_marginal_drop.
Example c43_nonvacuous : (exists o, oracle_ok o) /\ posdef exK /\ NoDup ["b"] /\ incl ["b"] ["a"; "b"].
Proof.
  exact (conj id_oracle_ok (conj exK_posdef (conj (NoDup_cons "b" (fun H : In "b" [] => H) (NoDup_nil string)) (incl_tl "a" (incl_refl ["b"]))))).
Qed.

(** C44: reordering. *)
Theorem c44_reorder f vars : wf_gauss f -> Permutation vars (ga_vars f) ->
  exists r, g_reorder f vars = Ok r /\ wf_gauss r /\ ga_vars r = vars /\ ga_vac r = ga_vac f /\
    (forall e, log_potential r (map e vars) None = log_potential f (map e (ga_vars f)) None).
Proof. exact (g_reorder_spec f vars). Qed.
Print Assumptions c44_reorder.
(** The parameters stay with their names. *)
Theorem c44_parameters f vars r : wf_gauss f -> Permutation vars (ga_vars f) -> g_reorder f vars = Ok r ->
  (forall p, ga_can f = Some p -> exists q, ga_can r = Some q /\ shaped (length vars) q /\ same_params (ga_vars f) vars p q) /\
  (forall p, ga_cov f = Some p -> exists q, ga_cov r = Some q /\ shaped (length vars) q /\ same_params (ga_vars f) vars p q).
Proof. exact (reorder_named f vars r). Qed.
Print Assumptions c44_parameters.
Example c44_nonvacuous : wf_gauss ex_ab /\ Permutation ["b"; "a"] (ga_vars ex_ab).
Proof. exact (conj wf_ab (perm_swap "a" "b" [])). Qed.

(** C45: comparison.  Both halves of the property are false. *)
Theorem c45_argument_unchanged_refuted : exists f1 f2 f1' f2', wf_gauss f1 /\ wf_gauss f2 /\
  g_equals f1 f2 default_tol default_tol = Ok (true, f1', f2') /\ f2' <> f2 /\ ga_vars f2' <> ga_vars f2.
Proof. exact equals_mutates. Qed.
Print Assumptions c45_argument_unchanged_refuted.
Theorem c45_equal_parameters_refuted : exists f1 f2 f1' f2',
  make_vacuous ["a"] (Fin 0) = Ok f1 /\ make_vacuous ["a"] (Fin 5) = Ok f2 /\
  g_equals f1 f2 default_tol default_tol = Ok (true, f1', f2') /\
  log_potential f1 [0%R] None = Ok (Fin 0) /\ log_potential f2 [0%R] None = Ok (Fin 5).
Proof. exact equals_vacuous. Qed.
Print Assumptions c45_equal_parameters_refuted.
(** The comparison of a covariance form with a vacuous factor has no answer. *)
Theorem c45_answers_refuted : exists f1 f2,
  mk_cov ["a"] (meye 1) (mzeros 1 1) (Fin 0) = Ok f1 /\ make_vacuous ["a"] (Fin 0) = Ok f2 /\
  wf_gauss f1 /\ wf_gauss f2 /\ g_equals f1 f2 default_tol default_tol = Err PyException.
Proof. exact equals_raises. Qed.
Print Assumptions c45_answers_refuted.
(** What holds: the first operand is unchanged and the second keeps its value at every
    assignment (its variables may be in another order and a form may have been added). *)
Theorem c45_argument_partial f1 f2 rtol atol b f1' f2' : wf_gauss f1 -> wf_gauss f2 -> (ga_can f1 = None -> regular f2) ->
  g_equals f1 f2 rtol atol = Ok (b, f1', f2') ->
  f1' = f1 /\ wf_gauss f2' /\ Permutation (ga_vars f2') (ga_vars f2) /\ (forall e, exists l, lp f2 e = Ok l /\ lp f2' e = Ok l).
Proof. exact (equals_partial f1 f2 rtol atol b f1' f2'). Qed.
Print Assumptions c45_argument_partial.
(** Missing from the full statement: factors flagged vacuous. *)
Theorem c45_equal_parameters_partial f1 f2 rtol atol f1' f2' : wf_gauss f1 -> wf_gauss f2 -> (ga_can f1 = None -> regular f2) ->
  g_equals f1 f2 rtol atol = Ok (true, f1', f2') -> ga_vac f1 = false ->
  Permutation (ga_vars f1) (ga_vars f2) /\
  ((exists p f' q, ga_can f1 = Some p /\ get_can f2 = Ok (f', q) /\
      visclose (snd p) (snd q) rtol atol = true /\ close_params rtol atol (ga_vars f1) (ga_vars f2) p q) \/
   (exists p f' q, ga_can f1 = None /\ ga_cov f1 = Some p /\ get_cov f2 = Ok (f', q) /\
      visclose (vexp (snd p)) (vexp (snd q)) rtol atol = true /\ close_params rtol atol (ga_vars f1) (ga_vars f2) p q)).
Proof. exact (g_equals_true f1 f2 rtol atol f1' f2'). Qed.
Print Assumptions c45_equal_parameters_partial.
Example c45_nonvacuous : wf_gauss ex_ab /\ wf_gauss ex_ba /\ ga_vac ex_ab = false /\
  exists f1' f2', g_equals ex_ab ex_ba default_tol default_tol = Ok (true, f1', f2').
Proof. exact (conj wf_ab (conj wf_ba (conj eq_refl ex_ab_ba_equal))). Qed.
