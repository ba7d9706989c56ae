(** Properties C106 to C109: the mixture functions that use numerical optimisation, and the
    mixture read from a fitted sklearn model. *)
From Verif Require Import MixOptEx.
Local Open Scope R_scope.

(** C106: argmax (and the minimum search of the division) returns the best end point of the
    successful searches from the component means and raises if there is none. *)
Theorem c106_argmax opt a rs : searches opt (neg_log a) a rs -> (forall r, In r rs -> snd r = true -> exists p, mix_potential a (fst r) = Ok (Fin p)) ->
  ((forall r, In r rs -> snd r = false) -> mix_argmax opt a = Err PyException) /\
  (forall r, In r rs -> snd r = true -> exists x p, mix_argmax opt a = Ok (Some x) /\ In (x, true) rs /\ mix_potential a x = Ok (Fin p) /\
     forall y q, In (y, true) rs -> mix_potential a y = Ok (Fin q) -> q <= p).
Proof. exact (argmax_best opt a rs). Qed.
Print Assumptions c106_argmax.
Theorem c106_argmin opt a rs : searches opt (mix_potential a) a rs -> (forall r, In r rs -> snd r = true -> exists p, mix_potential a (fst r) = Ok (Fin p)) ->
  ((forall r, In r rs -> snd r = false) -> mix_argmin opt a = Err PyException) /\
  (forall r, In r rs -> snd r = true -> exists x p, mix_argmin opt a = Ok (Some x) /\ In (x, true) rs /\ mix_potential a x = Ok (Fin p) /\
     forall y q, In (y, true) rs -> mix_potential a y = Ok (Fin q) -> p <= q).
Proof. exact (argmin_best opt a rs). Qed.
Print Assumptions c106_argmin.
(** If no search ends above its start, the returned point is at least as good as every component
    mean, and within the number of components of the maximum. *)
Theorem c106_ratio opt a ps rs : wf_mix a -> (forall c, In c (gm_comps a) -> solid c) -> Forall2 has_params (gm_comps a) ps ->
  searches opt (neg_log a) a rs -> (forall r, In r rs -> snd r = true) -> descends opt (neg_log a) ->
  exists x p, mix_argmax opt a = Ok (Some x) /\ length x = length (gm_vars a) /\ mix_potential a x = Ok (Fin p) /\ 0 < p /\
    (forall c y q, In c (gm_comps a) -> mean_of c y -> mix_potential a y = Ok (Fin q) -> q <= p) /\
    forall e q, mixpot a e = Ok (Fin q) -> q <= INR (length (gm_comps a)) * p.
Proof. exact (argmax_ratio opt a ps rs). Qed.
Print Assumptions c106_ratio.
(** Two components of different weight and an optimiser that stays at its start. *)
Example c106_example : wf_mix two_modes /\ (forall c, In c (gm_comps two_modes) -> solid c) /\ (exists ps, Forall2 has_params (gm_comps two_modes) ps) /\
  searches stay (neg_log two_modes) two_modes [([0], true); ([3], true)] /\ descends stay (neg_log two_modes).
Proof. exact two_modes_hyps. Qed.

(** C107: the mixture made from a fitted sklearn model is the weighted sum of the densities and
    integrates to the sum of the weights. *)
Theorem c107_sklearn params vars : NoDup vars -> params <> [] ->
  (forall m C w, In (m, C, w) params -> length m = length vars /\ nr C = length vars /\ nc C = length vars /\ posdef C /\ 0 <= w) ->
  exists r, from_sklearn params vars = Ok r /\ wf_mix r /\ gm_vars r = vars /\ length (gm_comps r) = length params /\
    (forall e, mixpot r e = Ok (Fin (Rsum (map (fun p : list R * mat * R => let '(m, C, w) := p in w * density vars m C e) params)))) /\
    forall ys e, Permutation ys vars -> iint ys (mval r) e (Rsum (map snd params)).
Proof. exact (sklearn_spec params vars). Qed.
Print Assumptions c107_sklearn.
Example c107_example : let params := [([0], meye 1, 1 / 4); ([3], meye 1, 3 / 4)] in NoDup ["a"%string] /\ params <> [] /\
  forall m C w, In (m, C, w) params -> length m = 1%nat /\ nr C = 1%nat /\ nc C = 1%nat /\ posdef C /\ 0 <= w.
Proof. exact sklearn_hyps. Qed.

(** C108: the division with cancel_method 1 gives the quotient of the potentials.  False: even with
    an ideal optimiser and exact second derivatives, the result is off by a factor. *)
Theorem c108_method1_refuted opt hess : exact_opt opt -> exact_hess hess ->
  exists a b r, wf_mix a /\ wf_mix b /\ gm_vars a = gm_vars b /\ mix_divide_method opt hess 1 a b = Ok r /\ forall e, mixpot r e <> Ok (Fin (mval a e / mval b e)).
Proof. exact (m1_wrong opt hess). Qed.
Print Assumptions c108_method1_refuted.
(** What holds, for one variable, one numerator component and denominators that differ in weight
    only: the result is the quotient times a constant.  Missing: the constant 1, and the other
    mixtures, where the method only approximates. *)
Theorem c108_method1_partial opt hess v a b p k h gs : exact_opt opt -> exact_hess hess -> wf_mix a -> wf_mix b ->
  Forall2 (one_dim v) (gm_comps a) [p] -> Forall2 (one_dim v) (gm_comps b) (map (fun g => (k, h, g)) gs) -> k + 1 / 100000000 < fst (fst p) ->
  exists r, mix_division_m1 opt hess a b = Ok r /\ wf_mix r /\ gm_vars r = [v] /\ forall e, mixpot r e = Ok (Fin (exp (m1_const p k h gs) * (mval a e / mval b e))).
Proof. exact (m1_spec opt hess v a b p k h gs). Qed.
Print Assumptions c108_method1_partial.
(** With two or more variables the method never returns a mixture. *)
Theorem c108_several_variables_error opt hess a b r : keeps_length opt -> wf_mix a -> wf_mix b -> gm_vars b = gm_vars a -> (2 <= length (gm_vars a))%nat ->
  mix_division_m1 opt hess a b <> Ok r.
Proof. exact (m1_several opt hess a b r). Qed.
Print Assumptions c108_several_variables_error.
(** Only the last numerator component enters the function whose second derivatives and values
    describe the result. *)
Theorem c108_last_numerator opt a b cs c ms zs : gm_comps a = (cs ++ [c])%list -> inverse_gaussians opt a b = Ok (ms, zs) ->
  exists inv m, mapM (fun gb => g_divide gb c) (gm_comps b) = Ok inv /\ mk_mix inv = Ok m /\ ms = [m].
Proof. exact (inverse_last opt a b cs c ms zs). Qed.
Print Assumptions c108_last_numerator.
Example c108_example : (exists opt hess, exact_opt opt /\ exact_hess hess /\ wf_mix num /\ wf_mix (den 0) /\ Forall2 (one_dim "a") (gm_comps num) [(2, 0, 0)] /\
    Forall2 (one_dim "a") (gm_comps (den 0)) (map (fun g => (1, 0, g)) [0; 0]) /\ 1 + 1 / 100000000 < fst (fst (2, 0, 0))) /\
  (keeps_length stay /\ wf_mix mix_ab /\ gm_vars mix_ab = gm_vars mix_ab /\ (2 <= length (gm_vars mix_ab))%nat) /\
  (exists opt hess zs ms, exact_opt opt /\ exact_hess hess /\ gm_comps num = ([] ++ [can1 (2%R, 0%R, 0%R)])%list /\ inverse_gaussians opt num (den 0) = Ok (ms, zs)).
Proof. exact (conj m1_hyps (conj m1_several_hyps inverse_last_hyps)). Qed.

(** C109: the division with cancel_method 2 gives the quotient of the potentials.  False: the
    modulus taken of the log constant loses its sign. *)
Theorem c109_method2_refuted : exists a b r, wf_mix a /\ wf_mix b /\ gm_vars a = gm_vars b /\ (forall opt hess, mix_divide_method opt hess 2 a b = Ok r) /\
  forall e, mixpot r e = Ok (Fin (1 / 4 * (mval a e / mval b e))) /\ mixpot r e <> Ok (Fin (mval a e / mval b e)).
Proof. exact m2_wrong. Qed.
Print Assumptions c109_method2_refuted.
(** What holds, for one variable and denominators that differ in weight only: each numerator
    component contributes its quotient times a factor, which is 1 if the denominator outweighs it
    (then the result is exact).  Missing: denominators of different shapes, several variables. *)
Theorem c109_terms_partial v a b pa k h gs : wf_mix a -> wf_mix b -> Forall2 (one_dim v) (gm_comps a) pa -> Forall2 (one_dim v) (gm_comps b) (map (fun g => (k, h, g)) gs) ->
  (forall p, In p pa -> fst (fst p) <> k) ->
  exists r, mix_division_m2 a b = Ok r /\ wf_mix r /\ gm_vars r = [v] /\
    forall e, mixpot r e = Ok (Fin (Rsum (map (fun p => exp (gap gs p - Rabs (gap gs p)) * (exp (line p (e v)) / mval b e)) pa))) /\
      mixpot a e = Ok (Fin (Rsum (map (fun p => exp (line p (e v))) pa))).
Proof. exact (m2_spec v a b pa k h gs). Qed.
Print Assumptions c109_terms_partial.
Theorem c109_method2_partial v a b pa k h gs : wf_mix a -> wf_mix b -> Forall2 (one_dim v) (gm_comps a) pa -> Forall2 (one_dim v) (gm_comps b) (map (fun g => (k, h, g)) gs) ->
  (forall p, In p pa -> fst (fst p) <> k /\ 0 <= gap gs p) ->
  exists r, mix_division_m2 a b = Ok r /\ wf_mix r /\ gm_vars r = [v] /\ forall e, mixpot r e = Ok (Fin (mval a e / mval b e)).
Proof. exact (m2_exact v a b pa k h gs). Qed.
Print Assumptions c109_method2_partial.
(** Any other cancel_method fails on the unset variable. *)
Theorem c109_other_methods opt hess n a b : length (gm_comps b) <> 1%nat -> (3 <= n)%nat -> mix_divide_method opt hess n a b = Err UnboundLocalError.
Proof. exact (method_unknown opt hess n a b). Qed.
Print Assumptions c109_other_methods.
Example c109_example : wf_mix num /\ wf_mix (den 0) /\ Forall2 (one_dim "a") (gm_comps num) [(2, 0, 0)] /\ Forall2 (one_dim "a") (gm_comps (den 0)) (map (fun g => (1, 0, g)) [0; 0]) /\
  forall p, In p [(2, 0, 0)] -> fst (fst p) <> 1 /\ 0 <= gap [0; 0] p.
Proof. exact m2_hyps. Qed.
