(** Properties C110 to C113: samples of Gaussians, of mixtures and of nonlinear Gaussians, and
    random Gaussians. *)
From Verif Require Import SampleEx IntFull MixExamples GaussExamples.
Local Open Scope string_scope.
Local Open Scope list_scope.
Local Open Scope R_scope.

(** C110: every column of the array is the point [sampled] computed from that column's random
    numbers; those points follow the normalised density: for every function F, the expectation
    of F at the sampled point under independent standard normal numbers is I exactly when the
    integral of F times the factor is I times the factor's total mass. *)
Theorem c110_columns f f' C m w num Z : solid f -> get_cov f = Ok (f', (C, m, w)) ->
  exists X, g_sample f num Z = Ok (f', X) /\ nr X = length (ga_vars f) /\ nc X = num /\
    forall t z, (t < num)%nat -> (forall i, (i < length (ga_vars f))%nat -> z (nth i (ga_vars f) "") = Z i t) ->
      forall v, In v (ga_vars f) -> named_coord (Mat (nr X) 1 (fun i _ => ent X i t)) (ga_vars f) v = sampled f z v.
Proof. exact (g_sample_columns f f' C m w num Z). Qed.
Print Assumptions c110_columns.
Theorem c110_law f f' C m w F e I : solid f -> get_cov f = Ok (f', (C, m, Fin w)) ->
  (iint (ga_vars f) (fun z => F (sampled f z) * std_density (ga_vars f) z) e I <->
   iint (ga_vars f) (fun x => F x * gval f x) e (I * exp w)).
Proof. exact (sample_law f f' C m w F e I). Qed.
Print Assumptions c110_law.
Theorem c110_moments f f' C m w e : solid f -> get_cov f = Ok (f', (C, m, Fin w)) ->
  iint (ga_vars f) (std_density (ga_vars f)) e 1 /\
  (forall u, In u (ga_vars f) -> iint (ga_vars f) (fun z => sampled f z u * std_density (ga_vars f) z) e (named_coord m (ga_vars f) u)) /\
  (forall u v, In u (ga_vars f) -> In v (ga_vars f) ->
     iint (ga_vars f) (fun z => (sampled f z u - named_coord m (ga_vars f) u) * (sampled f z v - named_coord m (ga_vars f) v) * std_density (ga_vars f) z) e
          (named_entry C (ga_vars f) u v)).
Proof. exact (sample_moments f f' C m w e). Qed.
Print Assumptions c110_moments.
Theorem c110_errors f num Z :
  (ga_vac f = true -> g_sample f num Z = Err PyException) /\
  (forall f' C m w, get_cov f = Ok (f', (C, m, w)) -> symm C -> ~ posdef C -> g_sample f num Z = Err LinAlgError).
Proof. exact (g_sample_errors f num Z). Qed.
Print Assumptions c110_errors.
Example c110_nonvacuous : solid ex_ab /\ ga_vars ex_ab = ["a"; "b"] /\ (exists f' C m w, get_cov ex_ab = Ok (f', (C, m, Fin w))) /\
  exists f f' C m w, mk_cov ["a"; "b"] (Mat 2 2 (fun _ _ => 1)) (mzeros 2 1) (Fin 0) = Ok f /\ get_cov f = Ok (f', (C, m, w)) /\ symm C /\ ~ posdef C.
Proof. exact (conj ex_ab_solid (conj eq_refl (conj ex_ab_weight flat_cov))). Qed.

(** C111: a sample of a mixture draws components with the probabilities [mix_probs] and then
    samples the component; the law that this gives is the normalised mixture, and the columns
    are the components' samples. *)
Theorem c111_law a : wf_mix a -> (forall c, In c (gm_comps a) -> solid c /\ plain c) ->
  exists s, 0 <= s /\ (forall ys e, Permutation ys (gm_vars a) -> iint ys (mval a) e s) /\
    (s = 0 -> forall pick Zs, mix_sample a pick Zs = Err ValueError) /\
    (0 < s -> exists ps, mix_probs a = Ok ps /\ length ps = length (gm_comps a) /\ (forall p, In p ps -> 0 <= p) /\ Rsum ps = 1 /\
       forall F e Js, Forall2 (fun c J => iint (gm_vars a) (fun z => F (sampled c z) * std_density (gm_vars a) z) e J) (gm_comps a) Js ->
         iint (gm_vars a) (fun x => F x * mval a x) e (Rsum (map (fun pJ => fst pJ * snd pJ) (combine ps Js)) * s)).
Proof. exact (mix_law a). Qed.
Print Assumptions c111_law.
Theorem c111_columns_partial a pick Zs ps : wf_mix a -> (forall c, In c (gm_comps a) -> solid c /\ plain c) -> mix_probs a = Ok ps ->
  (forall k, In k pick -> (k < length (gm_comps a))%nat) -> pick <> [] ->
  exists X, mix_sample a pick Zs = Ok X /\ nr X = length (gm_vars a) /\ nc X = length pick /\
    forall t k c z, nth_error pick t = Some k -> nth_error (gm_comps a) k = Some c ->
      (forall i, (i < length (gm_vars a))%nat -> z (nth i (gm_vars a) "") = Zs t i 0%nat) ->
      forall v, In v (gm_vars a) -> named_coord (Mat (nr X) 1 (fun i _ => ent X i t)) (gm_vars a) v = sampled c z v.
Proof. exact (fun W HS E H => proj2 (mix_sample_ok a pick Zs ps W HS E H)). Qed.
Print Assumptions c111_columns_partial.
(** No samples: an exception, where a Gaussian gives an array without columns. *)
Theorem c111_no_samples_refuted : exists a c ps, wf_mix a /\ (forall c, In c (gm_comps a) -> solid c /\ plain c) /\ In c (gm_comps a) /\ mix_probs a = Ok ps /\
  (forall Zs, mix_sample a [] Zs = Err ValueError) /\ forall Z, exists c' X, g_sample c 0 Z = Ok (c', X) /\ nr X = length (gm_vars a) /\ nc X = 0%nat.
Proof. exact no_samples. Qed.
Print Assumptions c111_no_samples_refuted.
Example c111_nonvacuous : (wf_mix mix_ab /\ (forall c, In c (gm_comps mix_ab) -> solid c /\ plain c) /\ length (gm_comps mix_ab) = 2%nat /\ exists ps, mix_probs mix_ab = Ok ps) /\
  exists a, wf_mix a /\ (forall c, In c (gm_comps a) -> solid c /\ plain c) /\ iint (gm_vars a) (mval a) (fun _ => 0) 0.
Proof. exact (conj (conj (proj1 (proj2 mix_ab_int)) (conj (proj1 (proj2 (proj2 mix_ab_int))) (conj eq_refl mix_ab_probs))) zero_mix). Qed.

(** C112: a sample of a nonlinear Gaussian is one of the joint distribution that the object
    reports, whatever joint it had computed before. *)
Theorem c112_columns o f A b c j num Z : oracle_ok o -> nl_good A b c f -> (forall u, nl_upd f = Some u -> solid u) -> nl_joint_distribution o f = Ok j ->
  exists f' X, nl_sample o f num Z = Ok (f', X) /\ same_kind f f' /\ nl_ev f' = nl_ev f /\ nl_upd f' = nl_upd f /\ nl_cond f' = nl_cond f /\
    nr X = length (ga_vars j) /\ nc X = num /\
    forall t z, (t < num)%nat -> (forall i, (i < length (ga_vars j))%nat -> z (nth i (ga_vars j) "") = Z i t) ->
      forall v, In v (ga_vars j) -> named_coord (Mat (nr X) 1 (fun i _ => ent X i t)) (ga_vars j) v = sampled j z v.
Proof. exact (nl_sample_spec o f A b c j num Z). Qed.
Print Assumptions c112_columns.
Theorem c112_law o f A b c j e0 l0 : oracle_ok o -> nl_good A b c f -> (forall u, nl_upd f = Some u -> solid u) -> nl_joint_distribution o f = Ok j -> lp j e0 = Ok (Fin l0) ->
  exists s, 0 < s /\ (forall e, iint (ga_vars j) (gval j) e s) /\
    forall F e I, iint (ga_vars j) (fun z => F (sampled j z) * std_density (ga_vars j) z) e I <-> iint (ga_vars j) (fun x => F x * gval j x) e (I * s).
Proof. exact (nl_sample_law o f A b c j e0 l0). Qed.
Print Assumptions c112_law.
Example c112_nonvacuous : exists o A b c f j, oracle_ok o /\ nl_good A b c f /\ (forall u, nl_upd f = Some u -> solid u) /\ nl_upd f = Some exu /\ nl_joint_distribution o f = Ok j /\
  (exists e l, lp j e = Ok (Fin l)) /\ nl_ev f = [("x1", 5)].
Proof. exact params_instance. Qed.
(** The mixture of nonlinear Gaussians draws from every component and puts the arrays one below
    the other: the rows of component k start at row k d, with d the number of variables. *)
Theorem c112_mixture_partial o f A b cvs a jm num Zs : oracle_ok o -> nm_good f A b cvs a -> (forall h u, In h (nm_nlgs a) -> nl_upd h = Some u -> solid u) ->
  nm_joint_distribution o a = Ok jm ->
  exists X, nm_sample o a num Zs = Ok X /\ nr X = (length (gm_vars jm) * length (nm_nlgs a))%nat /\ nc X = num /\
    forall k h j, nth_error (nm_nlgs a) k = Some h -> nl_joint_distribution o h = Ok j -> ga_vars j = gm_vars jm /\
      forall t z, (t < num)%nat -> (forall i, (i < length (gm_vars jm))%nat -> z (nth i (gm_vars jm) "") = Zs k i t) ->
        forall v, In v (gm_vars jm) -> named_coord (Mat (length (gm_vars jm)) 1 (fun i _ => ent X (length (gm_vars jm) * k + i)%nat t)) (gm_vars jm) v = sampled j z v.
Proof. exact (nm_sample_spec o f A b cvs a jm num Zs). Qed.
Print Assumptions c112_mixture_partial.
Theorem c112_mixture_refuted : exists o a jm, oracle_ok o /\ nm_joint_distribution o a = Ok jm /\ length (nm_nlgs a) = 2%nat /\
  forall num Zs, exists X, nm_sample o a num Zs = Ok X /\ nr X = (2 * length (gm_vars jm))%nat /\ nr X <> length (gm_vars jm).
Proof. exact nm_sample_stacked. Qed.
Print Assumptions c112_mixture_refuted.
Example c112_mixture_nonvacuous : exists o f A b cvs a jm, oracle_ok o /\ nm_good f A b cvs a /\ (forall h u, In h (nm_nlgs a) -> nl_upd h = Some u -> solid u) /\
  nm_joint_distribution o a = Ok jm /\ length (nm_nlgs a) = 2%nat /\ gm_vars jm <> [] /\ exists u, In u (map nl_upd (nm_nlgs a)) /\ u <> None.
Proof. exact nm_two. Qed.

(** C113: a random Gaussian has the given variables, the drawn means, the drawn diagonal as
    covariance, and total mass one. *)
Theorem c113_random vars U V : (vars = [] -> make_random_gaussian vars U V = Err AssertionError) /\
  (vars <> [] -> ~ NoDup vars -> make_random_gaussian vars U V = Err ValueError) /\
  (vars <> [] -> NoDup vars -> (forall i, (i < length vars)%nat -> 0 < U i i) ->
   exists f f' C m, make_random_gaussian vars U V = Ok f /\ ga_vars f = vars /\ solid f /\ plain f /\ get_cov f = Ok (f', (C, m, Fin 0)) /\
     (forall i u, nth_error vars i = Some u -> named_coord m vars u = V i 0%nat) /\
     (forall i u v, nth_error vars i = Some u -> In v vars -> named_entry C vars u v = if string_dec u v then U i i else 0) /\
     forall ys e, Permutation ys vars -> iint ys (gval f) e 1).
Proof. exact (random_spec vars U V). Qed.
Print Assumptions c113_random.
Example c113_nonvacuous : exists f, make_random_gaussian ["a"; "b"] (fun i j => INR (i + j + 1)) (fun i _ => INR i) = Ok f /\ solid f /\ ga_vars f = ["a"; "b"].
Proof. exact random_ab. Qed.
