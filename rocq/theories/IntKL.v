(** The Kullback-Leibler divergence of Gaussians as an integral. *)
From Verif Require Export IntMoment2.
#[global] Set Bullet Behavior "Strict Subproofs".
Local Open Scope R_scope.

(** * Integrals of nonnegative functions *)
Lemma iint_nonneg ys : forall F e I, (forall e, 0 <= F e) -> iint ys F e I -> 0 <= I.
Proof.
  induction ys as [|y ys IH]; intros F e I HF; cbn [iint]; [intros ->; apply HF|].
  intros (G & HG & HI). apply (is_int_nonneg G); [|exact HI]. intros t. now apply (IH F (setv e y t)).
Qed.

(** * The mean of a quadratic form *)
Theorem quad_moment f f' C m w ys e (A : string -> string -> R) (a : string -> R) : solid f -> plain f -> get_cov f = Ok (f', (C, m, w)) -> Permutation ys (ga_vars f) ->
  let vars := ga_vars f in
  iint ys (fun e => Rsum (map (fun u => Rsum (map (fun v => (e u - a u) * A u v * (e v - a v)) vars)) vars) * gval f e) e
    (Rsum (map (fun u => Rsum (map (fun v => A u v * (named_entry C vars u v + (named_coord m vars u - a u) * (named_coord m vars v - a v))) vars)) vars) * pot w).
Proof.
  intros S Pl G HP vars.
  apply (iint_ext _ (fun e => Rsum (map (fun u => Rsum (map (fun v => A u v * ((e u - a u) * (e v - a v) * gval f e)) vars)) vars))).
  { intros e'. rewrite (Rmult_comm _ (gval f e')), <- Rsum_scal. apply Rsum_ext. intros u _. rewrite <- Rsum_scal. apply Rsum_ext. intros v _. ring. }
  rewrite (Rmult_comm _ (pot w)), <- Rsum_scal.
  apply (iint_sum vars (fun u e => Rsum (map (fun v => A u v * ((e u - a u) * (e v - a v) * gval f e)) vars)) (fun u => pot w * Rsum (map (fun v => A u v * (named_entry C vars u v + (named_coord m vars u - a u) * (named_coord m vars v - a v))) vars))).
  intros u Hu. rewrite <- Rsum_scal.
  apply (iint_sum vars (fun v e => A u v * ((e u - a u) * (e v - a v) * gval f e)) (fun v => pot w * (A u v * (named_entry C vars u v + (named_coord m vars u - a u) * (named_coord m vars v - a v))))).
  intros v Hv. set (mu := named_coord m vars u). set (mv := named_coord m vars v).
  pose proof (cov_moment ys f f' C m w e u v S Pl G HP Hu Hv) as H2. fold vars mu mv in H2.
  pose proof (iint_const ys (mv - a v) _ e _ (mean_moment ys f f' C m w e u S Pl G HP Hu)) as Ha. fold vars mu in Ha.
  pose proof (iint_const ys (mu - a u) _ e _ (mean_moment ys f f' C m w e v S Pl G HP Hv)) as Hb. fold vars mv in Hb.
  pose proof (iint_const ys ((mu - a u) * (mv - a v)) _ e _ (proj2 (weight_integral f f' C m w ys e S Pl G HP))) as Hc.
  pose proof (iint_const ys (A u v) _ e _ (iint_plus ys _ _ e _ _ H2 (iint_plus ys _ _ e _ _ Ha (iint_plus ys _ _ e _ _ Hb Hc)))) as H.
  replace (pot w * (A u v * (named_entry C vars u v + (mu - a u) * (mv - a v)))) with (A u v * (named_entry C vars u v * pot w + ((mv - a v) * 0 + ((mu - a u) * 0 + (mu - a u) * (mv - a v) * pot w)))) by ring.
  revert H. apply iint_ext. intros e'. ring.
Qed.
(** * The divergence of two normalised Gaussians *)
Definition kl_raw (n : nat) (Cp mp Cq mq : mat) : R :=
  1 / 2 * ln (mdet (minv Cp) / mdet (minv Cq)) +
  (1 / 2 * mtrace (mmul0 (minv Cq) Cp) + 1 / 2 * qsum n (minv Cq) (fun i => ent mp i 0 - ent mq i 0) - 1 / 2 * INR n).
Lemma rsum_names vars (F : nat -> nat -> R) : NoDup vars ->
  rsum (length vars) (fun i => rsum (length vars) (fun j => F i j)) = Rsum (map (fun u => Rsum (map (fun v => F (pos vars u) (pos vars v)) vars)) vars).
Proof. intros Hd. rewrite rsum_pos by exact Hd. apply Rsum_ext. intros u _. now rewrite rsum_pos. Qed.
Lemma solid_cov vars C m w : NoDup vars -> shaped (length vars) (C, m, w) -> posdef C -> solid (cov_obj vars (C, m, w)).
Proof.
  intros Hd Sh P. split; [apply wf_cov_obj; [exact Hd|exact Sh|split; [apply P|now apply posdef_det]]|]. split; [reflexivity|]. split; [intros p q Hp; discriminate Hp|]. split; cbn; intros K0 h0 g0 Hk; [discriminate Hk|]. injection Hk as <- _ _. exact P.
Qed.
Lemma get_cov_obj vars p : get_cov (cov_obj vars p) = Ok (cov_obj vars p, p).
Proof. reflexivity. Qed.
Lemma cov_lp vars C m w e : NoDup vars -> shaped (length vars) (C, m, Fin w) -> posdef C ->
  lp (cov_obj vars (C, m, Fin w)) e = Ok (Fin (w - 1 / 2 * ln ((2 * PI) ^ length vars * mdet C)
    - / 2 * Rsum (map (fun u => Rsum (map (fun v => (e u - named_coord m vars u) * named_entry (minv C) vars u v * (e v - named_coord m vars v)) vars)) vars))).
Proof.
  intros Hd Sh P. unfold lp, cov_obj. cbn [ga_vars]. rewrite lp_cov_only.
  rewrite (cov_log_potential_ok (length vars)) by (exact Sh || apply map_length || (split; [apply P|now apply posdef_det])). cbn [vsub vopp vadd]. do 2 f_equal.
  unfold qsum. rewrite (rsum_names vars (fun i j => (ent m i 0 - nth i (map e vars) 0) * ent (minv C) i j * (ent m j 0 - nth j (map e vars) 0)) Hd).
  match goal with |- ?a + - (1 / 2) * ?x = ?b - / 2 * ?y => enough (x = y) by lra end. apply Rsum_ext. intros u Hu. apply Rsum_ext. intros v Hv.
  destruct (pos_nth vars u Hu) as (Pu & Nu). destruct (pos_nth vars v Hv) as (Pv & Nv). rewrite !nth_map_e, Nu, Nv, !named_pos1, named_pos by assumption. ring.
Qed.
Lemma cov_plain vars C m w : NoDup vars -> shaped (length vars) (C, m, Fin w) -> posdef C -> plain (cov_obj vars (C, m, Fin w)).
Proof. intros Hd Sh P e l L. rewrite cov_lp in L by assumption. injection L as <-. exact I. Qed.
Theorem kl_integral vars Cp mp Cq mq ys e : NoDup vars -> shaped (length vars) (Cp, mp, Fin 0) -> shaped (length vars) (Cq, mq, Fin 0) -> posdef Cp -> posdef Cq ->
  Permutation ys vars -> let p := cov_obj vars (Cp, mp, Fin 0) in let q := cov_obj vars (Cq, mq, Fin 0) in
  iint ys (fun e => gval p e * (ln (gval p e) - ln (gval q e))) e (kl_raw (length vars) Cp mp Cq mq).
Proof.
  intros Hd Sp Sq Pp Pq HP p q. pose proof (solid_cov vars Cp mp (Fin 0) Hd Sp Pp) as Solp. pose proof (cov_plain vars Cp mp 0 Hd Sp Pp) as Plp.
  set (cp := 0 - 1 / 2 * ln ((2 * PI) ^ length vars * mdet Cp)). set (cq := 0 - 1 / 2 * ln ((2 * PI) ^ length vars * mdet Cq)).
  set (Qp := fun e : string -> R => Rsum (map (fun u => Rsum (map (fun v => (e u - named_coord mp vars u) * named_entry (minv Cp) vars u v * (e v - named_coord mp vars v)) vars)) vars)).
  set (Qq := fun e : string -> R => Rsum (map (fun u => Rsum (map (fun v => (e u - named_coord mq vars u) * named_entry (minv Cq) vars u v * (e v - named_coord mq vars v)) vars)) vars)).
  assert (Lp : forall e, ln (gval p e) = cp - / 2 * Qp e) by (intros e'; rewrite (lp_gval p e' _ (cov_lp vars Cp mp 0 e' Hd Sp Pp)); cbn [pot]; apply ln_exp).
  assert (Lq : forall e, ln (gval q e) = cq - / 2 * Qq e) by (intros e'; rewrite (lp_gval q e' _ (cov_lp vars Cq mq 0 e' Hd Sq Pq)); cbn [pot]; apply ln_exp).
  pose proof (proj2 (weight_integral p p Cp mp (Fin 0) ys e Solp Plp (get_cov_obj _ _) HP)) as I0.
  pose proof (quad_moment p p Cp mp (Fin 0) ys e (named_entry (minv Cp) vars) (named_coord mp vars) Solp Plp (get_cov_obj _ _) HP) as I1. cbv zeta in I1. change (ga_vars p) with vars in I1.
  pose proof (quad_moment p p Cp mp (Fin 0) ys e (named_entry (minv Cq) vars) (named_coord mq vars) Solp Plp (get_cov_obj _ _) HP) as I2. cbv zeta in I2. change (ga_vars p) with vars in I2.
  pose proof (iint_plus ys _ _ e _ _ (iint_const ys (cp - cq) _ e _ I0) (iint_plus ys _ _ e _ _ (iint_const ys (- / 2) _ e _ I1) (iint_const ys (/ 2) _ e _ I2))) as H.
  match type of H with iint _ _ _ ?J => replace (kl_raw (length vars) Cp mp Cq mq) with J end.
  { revert H. apply iint_ext. intros e'. rewrite Lp, Lq. fold (Qp e') (Qq e'). ring. }
  clear H I0 I1 I2. cbn [pot]. rewrite exp_0, !Rmult_1_r.
  assert (Ep : Rsum (map (fun u => Rsum (map (fun v => named_entry (minv Cp) vars u v * (named_entry Cp vars u v + (named_coord mp vars u - named_coord mp vars u) * (named_coord mp vars v - named_coord mp vars v))) vars)) vars) = INR (length vars)).
  { rewrite (Rsum_ext _ (fun _ => 1)); [rewrite Rsum_const; ring|]. intros u Hu.
    rewrite (Rsum_ext _ (fun v => named_entry (minv Cp) vars u v * named_entry Cp vars v u)) by (intros v Hv; rewrite (named_symm Cp vars u v) by (assumption || apply Pp || apply Sp); ring).
    rewrite (named_inverse Cp vars u u Hd ltac:(apply Sp) ltac:(apply Rgt_not_eq, posdef_det, Pp) Hu Hu). destruct (string_dec u u); [reflexivity|congruence]. }
  rewrite Ep. clear Ep. unfold kl_raw, mtrace. pose proof Sp as (S1 & S2 & S3 & S4). pose proof Sq as (T1 & T2 & T3 & T4).
  assert (Eq : Rsum (map (fun u => Rsum (map (fun v => named_entry (minv Cq) vars u v * (named_entry Cp vars u v + (named_coord mp vars u - named_coord mq vars u) * (named_coord mp vars v - named_coord mq vars v))) vars)) vars)
    = rsum (nr (mmul0 (minv Cq) Cp)) (fun i => ent (mmul0 (minv Cq) Cp) i i) + qsum (length vars) (minv Cq) (fun i => ent mp i 0 - ent mq i 0)).
  { cbn [mmul0 ent nr]. change (nr (minv Cq)) with (nr Cq). change (nc (minv Cq)) with (nr Cq). rewrite T1. unfold qsum. rewrite (rsum_names vars (fun i k => ent (minv Cq) i k * ent Cp k i) Hd).
    rewrite (rsum_names vars (fun i j => (ent mp i 0 - ent mq i 0) * ent (minv Cq) i j * (ent mp j 0 - ent mq j 0)) Hd), <- Rsum_plus. apply Rsum_ext. intros u Hu. rewrite <- Rsum_plus. apply Rsum_ext. intros v Hv.
    rewrite (named_symm Cp vars u v) by (assumption || apply Pp). rewrite !named_pos, !named_pos1 by assumption. ring. }
  rewrite Eq. clear Eq. set (tr := rsum _ _). set (mah := qsum _ _ _).
  pose proof (posdef_det Cp Pp) as Dp. pose proof (posdef_det Cq Pq) as Dq. assert (Hpi : 0 < (2 * PI) ^ length vars) by (apply pow_lt; pose proof PI_RGT_0; lra).
  assert (El : cp - cq = 1 / 2 * ln (mdet (minv Cp) / mdet (minv Cq))).
  { unfold cp, cq. rewrite !mdet_minv by lra. replace (/ mdet Cp / / mdet Cq) with (mdet Cq / mdet Cp) by (field; lra).
    assert (E : ln (mdet Cq / mdet Cp) = ln (mdet Cq) - ln (mdet Cp)) by (unfold Rdiv; rewrite ln_mult, ln_Rinv by (assumption || now apply Rinv_0_lt_compat); ring).
    rewrite E, !ln_mult by assumption. lra. }
  rewrite El. lra.
Qed.
Lemma ln_ge p q : 0 < p -> 0 < q -> p - q <= p * (ln p - ln q).
Proof.
  intros Hp Hq. pose proof (exp_gt_1 (ln q - ln p)) as H. unfold Rminus in H at 2. rewrite exp_plus, exp_ln, exp_Ropp, exp_ln in H by assumption.
  apply (Rmult_le_compat_l p) in H; [|lra]. replace (p * (q * / p)) with q in H by (field; lra). lra.
Qed.
Theorem kl_nonneg (vars : list string) Cp mp Cq mq : NoDup vars -> shaped (length vars) (Cp, mp, Fin 0) -> shaped (length vars) (Cq, mq, Fin 0) -> posdef Cp -> posdef Cq ->
  0 <= kl_raw (length vars) Cp mp Cq mq.
Proof.
  intros Hd Sp Sq Pp Pq. set (e := fun _ : string => 0). pose proof (kl_integral vars Cp mp Cq mq vars e Hd Sp Sq Pp Pq (Permutation_refl _)) as H. cbv zeta in H.
  set (p := cov_obj vars (Cp, mp, Fin 0)) in *. set (q := cov_obj vars (Cq, mq, Fin 0)) in *.
  pose proof (proj2 (weight_integral p p Cp mp (Fin 0) vars e (solid_cov _ _ _ _ Hd Sp Pp) (cov_plain _ _ _ _ Hd Sp Pp) (get_cov_obj _ _) (Permutation_refl _))) as I1.
  pose proof (proj2 (weight_integral q q Cq mq (Fin 0) vars e (solid_cov _ _ _ _ Hd Sq Pq) (cov_plain _ _ _ _ Hd Sq Pq) (get_cov_obj _ _) (Permutation_refl _))) as I2.
  pose proof (iint_plus vars _ _ e _ _ H (iint_plus vars _ _ e _ _ (iint_const vars (-1) _ e _ I1) I2)) as J. cbn [pot] in J. rewrite exp_0 in J.
  replace (kl_raw (length vars) Cp mp Cq mq + (-1 * 1 + 1)) with (kl_raw (length vars) Cp mp Cq mq) in J by ring.
  apply (iint_nonneg _ _ _ _) in J; [exact J|]. intros e'.
  assert (Gp : 0 < gval p e') by (unfold p; rewrite (lp_gval _ e' _ (cov_lp vars Cp mp 0 e' Hd Sp Pp)); apply exp_pos).
  assert (Gq : 0 < gval q e') by (unfold q; rewrite (lp_gval _ e' _ (cov_lp vars Cq mq 0 e' Hd Sq Pq)); apply exp_pos).
  pose proof (ln_ge _ _ Gp Gq). lra.
Qed.
