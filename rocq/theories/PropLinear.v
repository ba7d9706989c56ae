(** Properties C77 to C79: linear Gaussians and Gaussian templates. *)
From Verif Require Import LinExamples.
Local Open Scope string_scope.
Local Open Scope list_scope.
Local Open Scope R_scope.

(** C77, square transforms: the density of y given x, and it integrates to one over y. *)
Theorem c77_linear_partial a N xs ys : let n := length xs in NoDup (xs ++ ys) -> length ys = n -> nr a = n -> nc a = n ->
  nr N = n -> nc N = n -> posdef N ->
  exists f, make_linear_gaussian a N xs ys = Ok f /\ wf_gauss f /\ sym_prec f /\ ga_vars f = xs ++ ys /\
    (forall e, lp f e = Ok (Fin (- (1 / 2) * ln ((2 * PI) ^ n * mdet N) -
       1 / 2 * qsum n (minv N) (fun i => e (nth i ys "") - rsum n (fun l => ent a i l * e (nth l xs "")))))) /\
    (forall zs e, Permutation zs ys -> iint zs (gval f) e 1).
Proof. exact (linear_density a N xs ys). Qed.
Print Assumptions c77_linear_partial.
Example c77_nonvacuous : exists a N (xs ys : list string), NoDup (xs ++ ys) /\ length ys = length xs /\ nr a = length xs /\ nc a = length xs /\ nr N = length xs /\ nc N = length xs /\
  posdef N /\ length xs = 2%nat /\ ent a 0 1 = 1 /\ ent a 1 0 = 0.
Proof. exact lin_example. Qed.
(** Every transform between different dimensions is refused. *)
Theorem c77_nonsquare_error a N xs ys : nc a = length xs -> nr a = length ys -> nr N = nr a -> nc N = nr a -> posdef N -> length xs <> length ys ->
  make_linear_gaussian a N xs ys = Err ValueError.
Proof. exact (lin_nonsquare_all a N xs ys). Qed.
Print Assumptions c77_nonsquare_error.
Theorem c77_nonsquare_refuted : exists a N (xs ys : list string), NoDup (xs ++ ys) /\ nc a = length xs /\ nr a = length ys /\ nr N = nr a /\ nc N = nr a /\ posdef N /\
  make_linear_gaussian a N xs ys = Err ValueError.
Proof. exact lin_nonsquare. Qed.
Print Assumptions c77_nonsquare_refuted.
Theorem c77_columns a N xs ys : nc a <> length xs -> make_linear_gaussian a N xs ys = Err ValueError.
Proof. exact (lin_wrong_columns a N xs ys). Qed.
Print Assumptions c77_columns.

(** C78: the template's factors have the names filled in and the right shape in x and y, but
    the normalising constant is missing: the mass over y is the square root of det (2 pi N). *)
Theorem c78_template_partial a N xs ys xs' ys' d : let n := length xs in NoDup (xs ++ ys) -> length ys = n -> nr a = n -> nc a = n ->
  nr N = n -> nc N = n -> posdef N -> format_list_elements xs d = Ok xs' -> format_list_elements ys d = Ok ys' -> NoDup (xs' ++ ys') ->
  exists t f, make_linear_gaussian_cpd_template a N xs ys = Ok t /\ gt_make_factor t (Some d) None = Ok f /\
    gt_make_factor t None (Some (xs' ++ ys')) = Ok f /\ wf_gauss f /\ ga_vars f = xs' ++ ys' /\ ga_vac f = true /\
    (forall e, lp f e = Ok (Fin (- (1 / 2) * qsum n (minv N) (fun i => e (nth i ys' "") - rsum n (fun l => ent a i l * e (nth l xs' "")))))).
Proof. exact (template_density a N xs ys xs' ys' d). Qed.
Print Assumptions c78_template_partial.
Theorem c78_mass_partial a N xs ys xs' ys' d t f zs e : let n := length xs in NoDup (xs ++ ys) -> length ys = n -> nr a = n -> nc a = n ->
  nr N = n -> nc N = n -> posdef N -> format_list_elements xs d = Ok xs' -> format_list_elements ys d = Ok ys' -> NoDup (xs' ++ ys') ->
  make_linear_gaussian_cpd_template a N xs ys = Ok t -> gt_make_factor t (Some d) None = Ok f -> Permutation zs ys' ->
  iint zs (gval f) e (exp (1 / 2 * ln ((2 * PI) ^ n * mdet N))).
Proof. exact (template_mass a N xs ys xs' ys' d t f zs e). Qed.
Print Assumptions c78_mass_partial.
Example c78_nonvacuous : exists a N (xs ys xs' ys' : list string) d, NoDup (xs ++ ys) /\ length ys = length xs /\ nr a = length xs /\ nc a = length xs /\ nr N = length xs /\ nc N = length xs /\
  posdef N /\ format_list_elements xs d = Ok xs' /\ format_list_elements ys d = Ok ys' /\ NoDup (xs' ++ ys') /\ length xs = 2%nat.
Proof. exact template_example. Qed.
Theorem c78_mass_refuted : exists a N (xs ys xs' ys' : list string) d t f, NoDup (xs ++ ys) /\ length ys = length xs /\ nr a = length xs /\ nc a = length xs /\ nr N = length xs /\ nc N = length xs /\
  posdef N /\ format_list_elements xs d = Ok xs' /\ format_list_elements ys d = Ok ys' /\ NoDup (xs' ++ ys') /\
  make_linear_gaussian_cpd_template a N xs ys = Ok t /\ gt_make_factor t (Some d) None = Ok f /\ forall e, ~ iint ys' (gval f) e 1.
Proof. exact template_mass_refuted. Qed.
Print Assumptions c78_mass_refuted.

(** C79: a template's factor is flagged vacuous whatever its precision, so its marginals are
    the constant 1, which is never the integral; a copy has the right flag. *)
Theorem c79_marginal_refuted o K h g vars xs ys : oracle_ok o -> NoDup vars -> shaped (length vars) (K, h, Fin g) -> posdef K -> Permutation (ys ++ xs) vars -> xs <> [] ->
  exists f r, g_template_factor K h (Fin g) vars = Ok f /\ g_marginalize o f xs true = Ok r /\ (forall e, gval r e = 1) /\ ~ (forall e, iint ys (gval f) e (gval r e)).
Proof. exact (template_marginal_wrong o K h g vars xs ys). Qed.
Print Assumptions c79_marginal_refuted.
Theorem c79_copy_partial K h g vars : NoDup vars -> shaped (length vars) (K, h, g) -> posdef K ->
  exists f c, g_template_factor K h g vars = Ok f /\ g_copy f = Ok c /\ ga_vac f = true /\ ga_vac c = false /\ (forall e, lp c e = lp f e) /\
    g_distance_from_vacuous f = Fin 0 /\ g_distance_from_vacuous c = PInf.
Proof. exact (template_copy K h g vars). Qed.
Print Assumptions c79_copy_partial.
Example c79_nonvacuous : exists o K h g (vars xs ys : list string), oracle_ok o /\ NoDup vars /\ shaped (length vars) (K, h, Fin g) /\ posdef K /\ Permutation (ys ++ xs) vars /\ xs <> [] /\ ys <> [].
Proof. exact template_flag_instance. Qed.
(** The names of a template's factor are given by a dictionary or as a list, not both and not
    neither. *)
Theorem c79_names_error t d l : gt_make_factor t (Some d) (Some l) = Err AssertionError /\ gt_make_factor t None None = Err ValueError.
Proof. exact (conj (template_both_ways t d l) (template_no_names t)). Qed.
Print Assumptions c79_names_error.
