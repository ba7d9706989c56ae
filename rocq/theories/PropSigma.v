(** Properties C46 and C60: sigma points. *)
From Verif Require Import SigmaJoint.
Local Open Scope string_scope.

(** C46: the points generated from a mean [m] and a factor [L] (any square array) have mean [m]
    and population covariance L L^T; first with the sums written out, then as computed by
    [sigma_point_array_to_gaussian_params]. *)
Theorem c46_moments n m L : nr L = n -> nc L = n -> nr m = n -> nc m = 1%nat ->
  exists X, sigma_array m L = Ok X /\ nr X = n /\ nc X = (2 * n + 1)%nat /\
    (forall i, (i < n)%nat -> rsum (2 * n + 1) (fun k => ent X i k) = INR (2 * n + 1) * ent m i 0)%R /\
    (forall i j, (i < n)%nat -> (j < n)%nat ->
       rsum (2 * n + 1) (fun k => (ent X i k - ent m i 0) * (ent X j k - ent m j 0)) = INR (2 * n + 1) * rsum n (fun l => ent L i l * ent L j l))%R /\
    meq (snd (array_to_params X)) m /\ meq (fst (array_to_params X)) (mmul0 L (mtr L)).
Proof. exact (sigma_explicit n m L). Qed.
Print Assumptions c46_moments.
(** The whole function on a factor whose covariance is positive definite: it succeeds and the
    points have the mean and the covariance of the factor. *)
Theorem c46_gaussian f f' C m w : wf_gauss f -> regular f -> get_cov f = Ok (f', (C, m, w)) -> posdef C ->
  exists X, get_sigma_points_array f = Ok (f', X) /\ nr X = length (ga_vars f) /\ nc X = (2 * length (ga_vars f) + 1)%nat /\
    meq (mean_cols X) m /\ meq (cov_bias X) C.
Proof. exact (sigma_points_gauss f f' C m w). Qed.
Print Assumptions c46_gaussian.
(** The Cholesky factor exists for every positive definite array, is lower triangular and
    L L^T is the array. *)
Theorem c46_cholesky A : nc A = nr A -> posdef A ->
  exists L, np_cholesky A = Ok L /\ nr L = nr A /\ nc L = nr A /\
    (forall i j, (i < j < nr A)%nat -> ent L i j = 0%R) /\ meq (mmul0 L (mtr L)) A.
Proof. exact (np_cholesky_ok A). Qed.
Print Assumptions c46_cholesky.
Example c46_nonvacuous : wf_gauss ex_bc /\ regular ex_bc /\ get_cov ex_bc = Ok (ex_bc, (exK, exh, Fin 0)) /\ posdef exK.
Proof. exact ex_bc_sigma. Qed.

(** C60: through an affine transform the joint parameters are exact. *)
Theorem c60_affine f f' C m w A b names : wf_gauss f -> regular f -> get_cov f = Ok (f', (C, m, w)) -> posdef C ->
  nc A = length (ga_vars f) ->
  exists X Cj mj, get_sigma_points_array f = Ok (f', X) /\
    joint_params X (fun X _ => Ok (affine A b X)) names = Ok (Cj, mj) /\ joint_blocks A b C m Cj mj.
Proof. exact (sigma_joint_affine f f' C m w A b names). Qed.
Print Assumptions c60_affine.
Example c60_nonvacuous : wf_gauss ex_bc /\ regular ex_bc /\ get_cov ex_bc = Ok (ex_bc, (exK, exh, Fin 0)) /\ posdef exK /\
  nc (Mat 1 2 (fun _ _ => 1%R)) = length (ga_vars ex_bc).
Proof. destruct ex_bc_sigma as (A & B & C & D). exact (conj A (conj B (conj C (conj D eq_refl)))). Qed.
