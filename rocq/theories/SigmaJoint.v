(** Joint parameters of sigma points and their affine images. *)
From Verif Require Export SigmaChol GaussEq GaussExamples.
#[global] Set Bullet Behavior "Strict Subproofs".
Local Open Scope R_scope.

Lemma mean_cols_row X Y i j : nc X = nc Y -> (forall k, (k < nc X)%nat -> ent X i k = ent Y j k) -> ent (mean_cols X) i 0 = ent (mean_cols Y) j 0.
Proof. intros Hc H. cbn. rewrite <- Hc. f_equal. now apply rsum_ext. Qed.
Lemma vcat_ok X T : nc X = nc T -> exists J, vcat X T = Ok J /\ nr J = (nr X + nr T)%nat /\ nc J = nc X /\
  (forall i k, (i < nr X)%nat -> ent J i k = ent X i k) /\ (forall i k, ent J (nr X + i) k = ent T i k).
Proof.
  intros H. unfold vcat. rewrite H, Nat.eqb_refl. eexists. split; [reflexivity|]. cbn [nr nc ent]. split; [reflexivity|]. split; [reflexivity|]. split.
  - intros i k Hi. now rewrite (proj2 (Nat.ltb_lt i (nr X)) Hi).
  - intros i k. rewrite (proj2 (Nat.ltb_ge (nr X + i) (nr X))) by lia. now replace (nr X + i - nr X)%nat with i by lia.
Qed.
(** Blocks of the joint mean and covariance for the transform x -> A x + b. *)
Definition joint_blocks (A b C m Cj mj : mat) : Prop :=
  let n := nc A in let p := nr A in
  nr Cj = (n + p)%nat /\ nc Cj = (n + p)%nat /\ nr mj = (n + p)%nat /\ nc mj = 1%nat /\
  (forall i, (i < n)%nat -> ent mj i 0 = ent m i 0) /\
  (forall i, (i < p)%nat -> ent mj (n + i) 0 = rsum n (fun l => ent A i l * ent m l 0) + ent b i 0) /\
  (forall i j, (i < n)%nat -> (j < n)%nat -> ent Cj i j = ent C i j) /\
  (forall i j, (i < p)%nat -> (j < n)%nat -> ent Cj (n + i) j = rsum n (fun l => ent A i l * ent C l j)) /\
  (forall i j, (i < p)%nat -> (j < n)%nat -> ent Cj j (n + i) = rsum n (fun l => ent A i l * ent C l j)) /\
  (forall i j, (i < p)%nat -> (j < p)%nat -> ent Cj (n + i) (n + j) = rsum n (fun l => rsum n (fun q => ent A i l * ent C l q * ent A j q))).
Lemma joint_affine A b X names : (0 < nc X)%nat -> nr X = nc A ->
  exists Cj mj, joint_params X (fun X _ => Ok (affine A b X)) names = Ok (Cj, mj) /\
    joint_blocks A b (cov_bias X) (mean_cols X) Cj mj.
Proof.
  intros Hp Hx. unfold joint_params. cbn [bind]. destruct (vcat_ok X (affine A b X) eq_refl) as (J & E & N1 & N2 & J1 & J2). rewrite E. cbn [bind].
  do 2 eexists. split; [reflexivity|]. cbn [affine nr] in N1. rewrite Hx in *.
  assert (M1 : forall i, (i < nc A)%nat -> ent (mean_cols J) i 0 = ent (mean_cols X) i 0) by (intros i Hi; apply mean_cols_row; [exact N2|intros; now apply J1]).
  assert (M2 : forall i, (i < nr A)%nat -> ent (mean_cols J) (nc A + i) 0 = ent (mean_cols (affine A b X)) i 0)
    by (intros i Hi; apply mean_cols_row; [exact N2|intros; apply J2]).
  unfold joint_blocks. split; [exact N1|]. split; [exact N1|]. split; [exact N1|]. split; [reflexivity|].
  split; [exact M1|]. split; [intros i Hi; rewrite M2 by exact Hi; now apply mean_affine|]. split; [|split; [|split]].
  - intros i j Hi Hj. cbn [cov_bias ent]. rewrite !M1, N2 by assumption. f_equal. apply rsum_ext. intros k Hk. now rewrite !J1.
  - intros i j Hi Hj. rewrite <- (cov_affine_cross A b X i j Hp Hx Hi). cbn [cov_bias ent]. rewrite (M1 j), (M2 i), N2 by assumption.
    f_equal. apply rsum_ext. intros k Hk. now rewrite J2, J1.
  - intros i j Hi Hj. rewrite <- (cov_affine_cross A b X i j Hp Hx Hi). cbn [cov_bias ent]. rewrite (M1 j), (M2 i), N2 by assumption.
    f_equal. apply rsum_ext. intros k Hk. rewrite J2, J1 by assumption. ring.
  - intros i j Hi Hj. rewrite <- (cov_affine_both A b X i j Hp Hx Hi Hj). cbn [cov_bias ent]. rewrite !M2, N2 by assumption.
    change (nc (affine A b X)) with (nc X). f_equal. apply rsum_ext. intros k Hk. now rewrite !J2.
Qed.
Lemma joint_blocks_meq A b C C' m m' Cj mj : (nc A <= nr C)%nat -> (nc A <= nc C)%nat -> (nc A <= nr m)%nat -> (1 <= nc m)%nat -> meq C C' -> meq m m' ->
  joint_blocks A b C m Cj mj -> joint_blocks A b C' m' Cj mj.
Proof.
  intros L1 L2 L3 L4 (_ & _ & HC) (_ & _ & Hm) (H1 & H2 & H3 & H4 & H5 & H6 & H7 & H8 & H9 & H10).
  split; [exact H1|]. split; [exact H2|]. split; [exact H3|]. split; [exact H4|]. split; [|split; [|split; [|split; [|split]]]].
  - intros i Hi. rewrite <- Hm by lia. auto.
  - intros i Hi. rewrite H6 by exact Hi. f_equal. apply rsum_ext. intros l Hl. rewrite Hm by lia. reflexivity.
  - intros i j Hi Hj. rewrite <- HC by lia. auto.
  - intros i j Hi Hj. rewrite H8 by assumption. apply rsum_ext. intros l Hl. rewrite HC by lia. reflexivity.
  - intros i j Hi Hj. rewrite H9 by assumption. apply rsum_ext. intros l Hl. rewrite HC by lia. reflexivity.
  - intros i j Hi Hj. rewrite H10 by assumption. apply rsum_ext. intros l Hl. apply rsum_ext. intros q Hq. rewrite HC by lia. reflexivity.
Qed.

(** The points of a Gaussian with a positive definite covariance. *)
Lemma sigma_points_gauss f f' C m w : wf_gauss f -> regular f -> get_cov f = Ok (f', (C, m, w)) -> posdef C ->
  exists X, get_sigma_points_array f = Ok (f', X) /\ nr X = length (ga_vars f) /\ nc X = (2 * length (ga_vars f) + 1)%nat /\
    meq (mean_cols X) m /\ meq (cov_bias X) C.
Proof.
  intros W HR E P. destruct (get_cov_same f f' _ W HR E) as ((Wf' & _) & V & Cf & _). destruct Wf' as (_ & _ & _ & Hv).
  destruct (Hv _ Cf) as ((H1 & H2 & H3 & H4) & _). rewrite V in H1, H2, H3. set (n := length (ga_vars f)) in *.
  destruct (np_cholesky_ok C) as (L & EL & L1 & L2 & _ & LL); [congruence|exact P|]. rewrite H1 in *.
  destruct (sigma_array_ok n m L L1 L2 H3 H4) as (X & EX & X1 & X2 & _). exists X. unfold get_sigma_points_array. rewrite E. cbn [bind fst snd].
  rewrite EL. cbn [bind]. rewrite EX. cbn [bind]. split; [reflexivity|]. split; [exact X1|]. split; [lia|].
  split; [now apply (sigma_mean n m L)|]. pose proof (sigma_cov n m L X L1 L2 H3 H4 EX) as (S1 & S2 & S3). destruct LL as (_ & _ & LL).
  split; [cbn; congruence|]. split; [cbn; congruence|]. intros i j Hi Hj. rewrite S3 by assumption. apply LL; cbn in *; congruence.
Qed.
(** The array for given parameters, any factor L. *)
Lemma sigma_moments n m L : nr L = n -> nc L = n -> nr m = n -> nc m = 1%nat ->
  exists X, sigma_array m L = Ok X /\ nc X = (2 * n + 1)%nat /\ array_to_params X = (cov_bias X, mean_cols X) /\
    meq (mean_cols X) m /\ meq (cov_bias X) (mmul0 L (mtr L)).
Proof.
  intros H1 H2 H3 H4. destruct (sigma_array_ok n m L H1 H2 H3 H4) as (X & E & X1 & X2 & _). exists X. split; [exact E|]. split; [lia|].
  split; [reflexivity|]. split; [now apply (sigma_mean n m L)|now apply (sigma_cov n m L)].
Qed.
Lemma sigma_joint_affine f f' C m w A b names : wf_gauss f -> regular f -> get_cov f = Ok (f', (C, m, w)) -> posdef C ->
  nc A = length (ga_vars f) ->
  exists X Cj mj, get_sigma_points_array f = Ok (f', X) /\
    joint_params X (fun X _ => Ok (affine A b X)) names = Ok (Cj, mj) /\ joint_blocks A b C m Cj mj.
Proof.
  intros W HR E P HA. destruct (sigma_points_gauss f f' C m w W HR E P) as (X & EX & X1 & X2 & MX & CX).
  destruct (joint_affine A b X names) as (Cj & mj & EJ & B); [lia|congruence|]. exists X, Cj, mj. split; [exact EX|]. split; [exact EJ|].
  eapply joint_blocks_meq; [| | | |exact CX|exact MX|exact B]; cbn; lia.
Qed.
(** Restatement with explicit sums, and examples. *)
Lemma sigma_explicit n m L : nr L = n -> nc L = n -> nr m = n -> nc m = 1%nat ->
  exists X, sigma_array m L = Ok X /\ nr X = n /\ nc X = (2 * n + 1)%nat /\
    (forall i, (i < n)%nat -> rsum (2 * n + 1) (fun k => ent X i k) = INR (2 * n + 1) * ent m i 0) /\
    (forall i j, (i < n)%nat -> (j < n)%nat ->
       rsum (2 * n + 1) (fun k => (ent X i k - ent m i 0) * (ent X j k - ent m j 0)) = INR (2 * n + 1) * rsum n (fun l => ent L i l * ent L j l)) /\
    meq (snd (array_to_params X)) m /\ meq (fst (array_to_params X)) (mmul0 L (mtr L)).
Proof.
  intros H1 H2 H3 H4. destruct (sigma_array_ok n m L H1 H2 H3 H4) as (X & E & X1 & X2 & _). exists X. split; [exact E|]. split; [exact X1|].
  assert (X2' : nc X = (2 * n + 1)%nat) by lia. split; [exact X2'|].
  pose proof (sigma_mean n m L X H1 H2 H3 H4 E) as M. pose proof (sigma_cov n m L X H1 H2 H3 H4 E) as Cc.
  assert (Hn : INR (2 * n + 1) <> 0) by (apply not_0_INR; lia).
  assert (Mi : forall i, (i < n)%nat -> ent (mean_cols X) i 0 = ent m i 0) by (intros i Hi; apply M; cbn; lia).
  split; [|split; [|split; [exact M|exact Cc]]].
  - intros i Hi. rewrite <- (Mi i Hi). cbn [mean_cols ent]. rewrite X2'. field. exact Hn.
  - intros i j Hi Hj. destruct Cc as (_ & _ & Cc). specialize (Cc i j ltac:(cbn; lia) ltac:(cbn; lia)).
    cbn [cov_bias mmul0 mtr ent nr nc] in Cc. rewrite H2, X2' in Cc. rewrite <- Cc. change (rsum (nc X) (fun k => ent X i k) / INR (nc X)) with (ent (mean_cols X) i 0) in *.
    field_simplify; [|exact Hn]. apply rsum_ext. intros k Hk.
    rewrite <- (Mi i Hi), <- (Mi j Hj). cbn [mean_cols ent]. rewrite X2'. ring.
Qed.
Lemma ex_bc_sigma : wf_gauss ex_bc /\ regular ex_bc /\ get_cov ex_bc = Ok (ex_bc, (exK, exh, Fin 0)) /\ posdef exK.
Proof.
  split; [exact wf_bc|]. split; [intros K h g E; discriminate E|]. split; [reflexivity|exact exK_posdef].
Qed.
