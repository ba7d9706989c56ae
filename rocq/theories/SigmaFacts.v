(** Sigma points. *)
From Verif Require Export SigmaModel GaussFacts MxFacts.
#[global] Set Bullet Behavior "Strict Subproofs".

Lemma rsum_app n m f : rsum (n + m) f = (rsum n f + rsum m (fun i => f (n + i)%nat))%R.
Proof.
  induction m as [|m IH]; [rewrite Nat.add_0_r; unfold rsum at 3, Rsum; cbn; ring|].
  rewrite Nat.add_succ_r, !rsum_S, IH. ring.
Qed.
Lemma rsum_const n c : rsum n (fun _ => c) = (INR n * c)%R.
Proof. induction n as [|n IH]; [unfold rsum, Rsum; cbn; ring|]. rewrite rsum_S, IH, S_INR. ring. Qed.
Lemma rsum_1 f : rsum 1 f = f 0.
Proof. unfold rsum, Rsum. cbn. ring. Qed.

Lemma sigma_array_ok n m L : nr L = n -> nc L = n -> nr m = n -> nc m = 1 ->
  exists X, sigma_array m L = Ok X /\ nr X = n /\ nc X = n + 1 + n /\
    (forall i j, i < n -> j < n -> ent X i j = (ent m i 0 - sqrt (INR n + 1 / 2) * ent L i j)%R) /\
    (forall i, i < n -> ent X i n = ent m i 0) /\
    (forall i j, i < n -> j < n -> ent X i (n + 1 + j) = (ent m i 0 + sqrt (INR n + 1 / 2) * ent L i j)%R).
Proof.
  intros H1 H2 H3 H4. unfold sigma_array, msub, madd, mzip. cbn [mscal nr nc]. rewrite H1, H2, H3, H4.
  assert (B1 : bdim n n = Ok n) by (unfold bdim; now rewrite Nat.eqb_refl).
  assert (B2 : bdim 1 n = Ok n) by (unfold bdim; destruct n as [|[|n]]; reflexivity).
  rewrite B1, B2. cbn [bind]. unfold hcat. cbn [nr nc ent]. rewrite H3, H4, Nat.eqb_refl. cbn [bind nr nc ent].
  rewrite Nat.eqb_refl. eexists. split; [reflexivity|]. cbn [nr nc ent]. split; [reflexivity|]. split; [lia|].
  assert (Bx : forall i, i < n -> bix n i = i).
  { intros i Hi. unfold bix. destruct (Nat.eqb_spec n 1); [lia|reflexivity]. }
  split; [|split].
  - intros i j Hi Hj. rewrite (proj2 (Nat.ltb_lt j (n + 1))) by lia. rewrite (proj2 (Nat.ltb_lt j n)) by lia. cbn. now rewrite !Bx.
  - intros i Hi. rewrite (proj2 (Nat.ltb_lt n (n + 1))) by lia. rewrite Nat.ltb_irrefl. now rewrite Nat.sub_diag.
  - intros i j Hi Hj. rewrite (proj2 (Nat.ltb_ge (n + 1 + j) (n + 1))) by lia. replace (n + 1 + j - (n + 1)) with j by lia. cbn. now rewrite !Bx.
Qed.
Lemma INR_pos n : (0 < INR (n + 1 + n))%R.
Proof. apply lt_0_INR. lia. Qed.
Lemma sigma_mean n m L X : nr L = n -> nc L = n -> nr m = n -> nc m = 1 -> sigma_array m L = Ok X -> meq (mean_cols X) m.
Proof.
  intros H1 H2 H3 H4 E. destruct (sigma_array_ok n m L H1 H2 H3 H4) as (X' & E' & N1 & N2 & X1 & X2 & X3).
  rewrite E in E'. injection E' as <-. split; [cbn; congruence|]. split; [cbn; congruence|]. cbn [mean_cols nr nc ent].
  intros i j Hi Hj. rewrite N1 in Hi. assert (j = 0) as -> by lia. rewrite N2, !rsum_app, rsum_1. rewrite Nat.add_0_r, X2 by exact Hi.
  rewrite (rsum_ext n _ (fun k => ent m i 0 - sqrt (INR n + 1 / 2) * ent L i k)%R) by (intros; now apply X1).
  rewrite (rsum_ext n (fun k => ent X i (n + 1 + k)) (fun k => ent m i 0 + sqrt (INR n + 1 / 2) * ent L i k)%R) by (intros; now apply X3).
  rewrite rsum_minus, rsum_plus, rsum_const. rewrite !plus_INR. cbn [INR]. field. pose proof (pos_INR n). lra.
Qed.
Lemma sigma_cov n m L X : nr L = n -> nc L = n -> nr m = n -> nc m = 1 -> sigma_array m L = Ok X -> meq (cov_bias X) (mmul0 L (mtr L)).
Proof.
  intros H1 H2 H3 H4 E. destruct (sigma_mean n m L X H1 H2 H3 H4 E) as (M1 & M2 & M3).
  destruct (sigma_array_ok n m L H1 H2 H3 H4) as (X' & E' & N1 & N2 & X1 & X2 & X3). rewrite E in E'. injection E' as <-.
  split; [cbn; congruence|]. split; [cbn; congruence|]. intros i j Hi Hj. cbn [cov_bias nr nc] in Hi, Hj.
  cbn [cov_bias ent]. rewrite !M3 by (cbn; lia). rewrite N1 in Hi, Hj. rewrite N2, !rsum_app, rsum_1. rewrite Nat.add_0_r, !X2 by assumption.
  set (k := sqrt (INR n + 1 / 2)).
  rewrite (rsum_ext n _ (fun l => (k * k) * (ent L i l * ent L j l))%R) by (intros l Hl; rewrite !X1 by assumption; unfold k; ring).
  rewrite (rsum_ext n (fun l => (ent X i (n + 1 + l) - _) * _)%R (fun l => (k * k) * (ent L i l * ent L j l))%R)
    by (intros l Hl; rewrite !X3 by assumption; unfold k; ring).
  rewrite rsum_scal. cbn [mmul0 mtr ent]. rewrite H2. assert (Hk : (k * k = INR n + 1 / 2)%R) by (apply sqrt_sqrt; pose proof (pos_INR n); lra).
  rewrite Hk. rewrite !plus_INR. cbn [INR]. field. pose proof (pos_INR n). lra.
Qed.

(** Affine transforms of any points. *)
Definition affine (A b X : mat) : mat := Mat (nr A) (nc X) (fun i k => (rsum (nc A) (fun l => ent A i l * ent X l k) + ent b i 0)%R).
Lemma mean_affine A b X i : 0 < nc X -> nr X = nc A -> i < nr A ->
  ent (mean_cols (affine A b X)) i 0 = (rsum (nc A) (fun l => ent A i l * ent (mean_cols X) l 0) + ent b i 0)%R.
Proof.
  intros Hp Hx Hi. cbn [mean_cols affine nr nc ent]. rewrite rsum_plus, rsum_const, rsum_swap.
  assert (INR (nc X) <> 0)%R by (apply not_0_INR; lia).
  rewrite (rsum_ext (nc A) (fun l => ent A i l * (rsum (nc X) (fun k => ent X l k) / INR (nc X)))%R
             (fun l => / INR (nc X) * rsum (nc X) (fun k => ent A i l * ent X l k))%R).
  - rewrite rsum_scal. field. assumption.
  - intros l Hl. rewrite (rsum_scal (nc X) (ent A i l) (fun k => ent X l k)). field. assumption.
Qed.
Lemma centred A b X i k : 0 < nc X -> nr X = nc A -> i < nr A ->
  (ent (affine A b X) i k - ent (mean_cols (affine A b X)) i 0)%R = rsum (nc A) (fun l => ent A i l * (ent X l k - ent (mean_cols X) l 0))%R.
Proof.
  intros Hp Hx Hi. rewrite mean_affine by assumption.
  rewrite (rsum_ext (nc A) (fun l => ent A i l * (ent X l k - ent (mean_cols X) l 0))%R (fun l => ent A i l * ent X l k - ent A i l * ent (mean_cols X) l 0)%R)
    by (intros; ring).
  rewrite rsum_minus. cbn [affine ent]. ring.
Qed.
Lemma cov_affine_cross A b X i j : 0 < nc X -> nr X = nc A -> i < nr A ->
  (rsum (nc X) (fun k => (ent (affine A b X) i k - ent (mean_cols (affine A b X)) i 0) * (ent X j k - ent (mean_cols X) j 0)) / INR (nc X) =
   rsum (nc A) (fun l => ent A i l * ent (cov_bias X) l j))%R.
Proof.
  intros Hp Hx Hi. assert (INR (nc X) <> 0)%R by (apply not_0_INR; lia).
  transitivity (rsum (nc A) (fun l => / INR (nc X) *
     rsum (nc X) (fun k => ent A i l * ((ent X l k - ent (mean_cols X) l 0) * (ent X j k - ent (mean_cols X) j 0))))%R).
  - rewrite rsum_scal, rsum_swap. unfold Rdiv. rewrite Rmult_comm. f_equal. apply rsum_ext. intros k Hk.
    rewrite centred by assumption. rewrite <- rsum_scal_r. apply rsum_ext. intros l Hl. ring.
  - apply rsum_ext. intros l Hl. rewrite (rsum_scal (nc X) (ent A i l) (fun k => (ent X l k - ent (mean_cols X) l 0) * (ent X j k - ent (mean_cols X) j 0))%R).
    cbn [cov_bias ent]. field. assumption.
Qed.
Lemma cov_affine_both A b X i j : 0 < nc X -> nr X = nc A -> i < nr A -> j < nr A ->
  ent (cov_bias (affine A b X)) i j =
   rsum (nc A) (fun l => rsum (nc A) (fun q => ent A i l * ent (cov_bias X) l q * ent A j q))%R.
Proof.
  intros Hp Hx Hi Hj. assert (INR (nc X) <> 0)%R by (apply not_0_INR; lia).
  transitivity (rsum (nc A) (fun q => / INR (nc X) *
     rsum (nc X) (fun k => ent A j q * ((ent (affine A b X) i k - ent (mean_cols (affine A b X)) i 0) * (ent X q k - ent (mean_cols X) q 0)))))%R.
  - rewrite rsum_scal, rsum_swap. cbn [cov_bias ent]. change (nc (affine A b X)) with (nc X). unfold Rdiv. rewrite Rmult_comm. f_equal.
    apply rsum_ext. intros k Hk. rewrite (centred A b X j k) by assumption. rewrite <- rsum_scal. apply rsum_ext. intros l Hl. ring.
  - rewrite (rsum_swap (nc A) (nc A)). apply rsum_ext. intros q Hq.
    rewrite (rsum_scal (nc X) (ent A j q) (fun k => (ent (affine A b X) i k - ent (mean_cols (affine A b X)) i 0) * (ent X q k - ent (mean_cols X) q 0))%R).
    pose proof (cov_affine_cross A b X i q Hp Hx Hi) as Hc.
    rewrite (rsum_ext (nc A) (fun l => ent A i l * ent (cov_bias X) l q * ent A j q)%R (fun l => ent A j q * (ent A i l * ent (cov_bias X) l q))%R) by (intros; ring).
    rewrite (rsum_scal (nc A) (ent A j q) (fun l => ent A i l * ent (cov_bias X) l q)%R), <- Hc. field. assumption.
Qed.
