(** One-variable components and the division with cancel_method 2. *)
From Verif Require Export MixOptFacts2 MxSmall.
#[global] Set Bullet Behavior "Strict Subproofs".
Local Open Scope R_scope.

(** A component over one variable with canonical parameters k, h, g. *)
Definition cpar := (R * R * R)%type.
Definition line (p : cpar) (x : R) : R := let '(k, h, g) := p in - (1 / 2) * (k * x * x) + h * x + g.
Definition one_dim (v : string) (c : gauss) (p : cpar) : Prop :=
  wf_gauss c /\ ga_vars c = [v] /\ exists c' K H, get_can c = Ok (c', (K, H, Fin (snd p))) /\ ent K 0 0 = fst (fst p) /\ ent H 0 0 = snd (fst p).
(** The same, known to be in canonical form only. *)
Definition one_can (v : string) (c : gauss) (p : cpar) : Prop := exists K H, nr K = 1%nat /\ nc K = 1%nat /\ nr H = 1%nat /\ nc H = 1%nat /\
  ent K 0 0 = fst (fst p) /\ ent H 0 0 = snd (fst p) /\ c = {| ga_vars := [v]; ga_vac := prec_vacuous K; ga_can := Some (K, H, Fin (snd p)); ga_cov := None |}.
Lemma nd1' (v : string) : NoDup [v].
Proof. constructor; [intros []|constructor]. Qed.
Lemma idx1 (v : string) : index_opt v [v] = Some 0%nat.
Proof. cbn. destruct (eq_dec v v); [reflexivity|congruence]. Qed.
Lemma new1 (v : string) : new_vars [v] [v] = [v].
Proof. unfold new_vars. rewrite (proj2 (subsetb_incl [v] [v]) (incl_refl _)). reflexivity. Qed.
Lemma one_can_dim v c p : one_can v c p -> one_dim v c p.
Proof.
  intros (K & H & A1 & A2 & A3 & A4 & B1 & B2 & ->). split; [|split; [reflexivity|]].
  - split; [apply nd1'|]. split; [left; discriminate|]. split; intros q Hq; [|discriminate]. injection Hq as <-. cbn. auto.
  - exists {| ga_vars := [v]; ga_vac := prec_vacuous K; ga_can := Some (K, H, Fin (snd p)); ga_cov := None |}, K, H. split; [reflexivity|]. now split.
Qed.
Lemma one_can_mk v K H g : nr K = 1%nat -> nc K = 1%nat -> nr H = 1%nat -> nc H = 1%nat ->
  exists c, mk_can [v] K H (Fin g) = Ok c /\ one_can v c (ent K 0 0, ent H 0 0, g).
Proof. intros A1 A2 A3 A4. rewrite mk_can_ok by (apply nd1' || (cbn; auto)). eexists. split; [reflexivity|]. exists K, H. cbn. auto 10. Qed.
Lemma one_can_copy v c p : one_can v c p -> g_copy c = Ok c.
Proof.
  intros (K & H & A1 & A2 & A3 & A4 & B1 & B2 & ->). unfold g_copy. cbn [ga_cov ga_can ga_vars].
  rewrite mk_can_ok by (apply nd1' || (cbn; auto)). reflexivity.
Qed.
Lemma one_lp v c p e : one_dim v c p -> lp c e = Ok (Fin (line p (e v))).
Proof.
  intros (W & V & c' & K & H & E & EK & EH). unfold lp. rewrite (lp_canon c c' K H _ e W E). rewrite V. cbn [vadd]. do 2 f_equal.
  unfold can_form, named_entry, named_coord. cbn [map]. rewrite idx1. unfold Rsum. cbn [fold_right]. rewrite EK, EH. destruct p as [[k h] g]. cbn. ring.
Qed.
Lemma one_gval v c p e : one_dim v c p -> gval c e = exp (line p (e v)).
Proof. intros H. now rewrite (lp_gval _ _ _ (one_lp v c p e H)). Qed.
Lemma one_plain v c p : one_dim v c p -> plain c.
Proof. intros H e l E. rewrite (one_lp v c p e H) in E. injection E as <-. exact I. Qed.
Definition minus3 (p q : cpar) : cpar := (fst (fst p) - fst (fst q), snd (fst p) - snd (fst q), snd p - snd q).
Lemma line_minus p q x : line (minus3 p q) x = line p x - line q x.
Proof. destruct p as [[k h] g], q as [[k' h'] g']. unfold minus3, line. cbn. ring. Qed.
Lemma one_divide v a b p q : one_dim v a p -> one_dim v b q -> exists r, g_divide a b = Ok r /\ one_can v r (minus3 p q).
Proof.
  intros (Wa & Va & a' & Ka & Ha & Ea & EKa & EHa) (Wb & Vb & b' & Kb & Hb & Eb & EKb & EHb).
  destruct (get_can_wf a Wa) as (a1 & K1 & h1 & g1 & E1 & _ & _ & (A1 & A2 & A3 & A4) & _). rewrite Ea in E1. injection E1 as <- <- <- <-.
  destruct (get_can_wf b Wb) as (b1 & K2 & h2 & g2 & E2 & _ & _ & (B1 & B2 & B3 & B4) & _). rewrite Eb in E2. injection E2 as <- <- <- <-.
  unfold g_divide, absorb_or_cancel. rewrite Ea, Eb. cbn [bind snd]. rewrite ix_square_ok, ix_column_ok by assumption. cbn [bind fst snd].
  rewrite Va, Vb, new1. unfold py_assert. destruct (eqb [v] [v]) eqn:Eq; [|apply Bool.not_true_iff_false in Eq; exfalso; apply Eq; now apply eqb_true]. cbn [bind vsub vopp vadd].
  match goal with |- context [mk_can [v] ?M ?t ?g] => destruct (one_can_mk v M t (snd p + - snd q)) as (r & Er & Hr); try reflexivity end.
  exists r. split; [exact Er|]. revert Hr. cbn [ent nth length]. unfold named_entry, named_coord. rewrite idx1, EKa, EKb, EHa, EHb. unfold minus3, Rminus. auto.
Qed.
Lemma one_cans_mix v cs ps : Forall2 (one_can v) cs ps -> cs <> [] -> mk_mix cs = Ok {| gm_vars := [v]; gm_comps := cs |}.
Proof.
  intros F Hn. assert (E : mapM g_copy cs = Ok cs).
  { clear Hn. induction F as [|c p cs ps H F IH]; [reflexivity|]. cbn [mapM]. rewrite (one_can_copy v c p H). cbn [bind]. rewrite IH. reflexivity. }
  assert (V : forall c, In c cs -> ga_vars c = [v]). { intros c Hc. destruct (F2_in_l _ _ _ c F Hc) as (p & _ & H). apply one_can_dim in H. apply H. }
  destruct cs as [|c cs]; [congruence|]. unfold mk_mix. rewrite E. cbn [bind]. rewrite (V c (or_introl eq_refl)).
  assert (forallb (fun c0 => eqb [v] (ga_vars c0)) (c :: cs) = true) as ->; [|reflexivity]. apply forallb_forall. intros d Hd. rewrite (V d Hd). now apply eqb_true.
Qed.
Lemma one_dims_mval v a ps e : wf_mix a -> Forall2 (one_dim v) (gm_comps a) ps ->
  mixpot a e = Ok (Fin (Rsum (map (fun p => exp (line p (e v))) ps))) /\ mval a e = Rsum (map (fun p => exp (line p (e v))) ps).
Proof.
  intros W F. destruct (mval_sum a e W) as (E & Es). { intros c Hc. destruct (F2_in_l _ _ _ c F Hc) as (p & _ & H). now apply one_plain in H. }
  assert (X : mval a e = Rsum (map (fun p => exp (line p (e v))) ps)).
  { rewrite Es. clear -F. induction F as [|c p cs ps H F IH]; [reflexivity|]. cbn [map]. rewrite !Rsum_cons, IH. f_equal. now apply (one_gval v). }
  split; [now rewrite <- X|exact X].
Qed.

(** * The complex moments of components with equal precision and h *)
Lemma pair_eq (x y x' y' : R) : x = x' -> y = y' -> (x, y) = (x', y').
Proof. now intros -> ->. Qed.
Lemma c_div_scale t c s x : t <> 0 -> c * c + s * s = 1 -> c_div (t * x * c, t * x * s) (t * c, t * s) = (x, 0).
Proof.
  intros Ht H. unfold c_div. cbn [fst snd].
  replace (t * c * (t * c) + t * s * (t * s)) with (t * t) by (transitivity (t * t * (c * c + s * s)); [rewrite H; ring|ring]).
  apply pair_eq.
  - replace (t * x * c * (t * c) + t * x * s * (t * s)) with (t * t * x) by (transitivity (t * t * x * (c * c + s * s)); [rewrite H; ring|ring]). field. exact Ht.
  - field. exact Ht.
Qed.
(** Half the argument of a real number: 0 or pi/2. *)
Definition half_arg (k : R) : R := if Rlt_b 0 k then 0 else PI / 2.
Lemma c_log_real x : x <> 0 -> c_log (c_real x) = (ln (Rabs x), 2 * half_arg x).
Proof.
  intros Hx. unfold c_log, c_real, c_mod, c_arg, half_arg. cbn [fst snd]. apply pair_eq.
  - f_equal. replace (x * x + 0 * 0) with (x²) by (unfold Rsqr; ring). apply sqrt_Rsqr_abs.
  - unfold Rlt_b. destruct (Rlt_dec 0 x); [unfold Rdiv; rewrite Rmult_0_l, atan_0; ring|].
    destruct (Rlt_dec x 0); [|lra]. destruct (Rlt_dec 0 0); [lra|]. unfold Rdiv. rewrite Rmult_0_l, atan_0. lra.
Qed.
Lemma c_log_dir t k : 0 < t -> c_log (t * cos (half_arg k), t * sin (half_arg k)) = (ln t, half_arg k).
Proof.
  intros Ht. unfold c_log. apply pair_eq.
  - f_equal. unfold c_mod. cbn [fst snd]. pose proof (sin2_cos2 (half_arg k)) as H. unfold Rsqr in H.
    replace (t * cos (half_arg k) * (t * cos (half_arg k)) + t * sin (half_arg k) * (t * sin (half_arg k))) with (t * t)
      by (transitivity (t * t * (sin (half_arg k) * sin (half_arg k) + cos (half_arg k) * cos (half_arg k))); [rewrite H; ring|ring]).
    apply sqrt_square. lra.
  - unfold half_arg. destruct (Rlt_b 0 k).
    + rewrite cos_0, sin_0. unfold c_arg, Rlt_b. destruct (Rlt_dec 0 (t * 1)); [|lra]. unfold Rdiv. rewrite Rmult_0_r, Rmult_0_l. apply atan_0.
    + rewrite cos_PI2, sin_PI2. unfold c_arg, Rlt_b. rewrite Rmult_0_r. destruct (Rlt_dec 0 0); [lra|]. destruct (Rlt_dec 0 (t * 1)); [reflexivity|lra].
Qed.
Lemma half_arg_scale k : k <> 0 -> half_arg (2 * PI * / k) = half_arg k.
Proof.
  intros Hk. pose proof PI_RGT_0. unfold half_arg, Rlt_b. destruct (Rlt_dec 0 k) as [H1|H1].
  - destruct (Rlt_dec 0 (2 * PI * / k)) as [|H2]; [reflexivity|]. exfalso. apply H2. apply Rmult_lt_0_compat; [lra|]. now apply Rinv_0_lt_compat.
  - destruct (Rlt_dec 0 (2 * PI * / k)) as [H2|]; [|reflexivity]. exfalso. assert (/ k < 0) by (apply Rinv_lt_0_compat; lra).
    assert (2 * PI * / k < 0); [|lra]. replace 0 with (2 * PI * 0) by ring. apply Rmult_lt_compat_l; lra.
Qed.
(** The size of the complex weight. *)
Definition csize (k h g : R) : R := exp (g + 1 / 2 * (/ k * h * k * (/ k * h)) + 1 / 2 * ln (Rabs (2 * PI * / k))).
Lemma complex_weight_ok k h g : k <> 0 -> complex_weight k h (Fin g) = Ok (csize k h g * cos (half_arg k), csize k h g * sin (half_arg k)).
Proof.
  intros Hk. assert (N : 2 * PI * / k <> 0). { pose proof PI_RGT_0. apply Rmult_integral_contrapositive_currified; [lra|now apply Rinv_neq_0_compat]. }
  unfold complex_weight, Req_b. destruct (Req_EM_T k 0); [contradiction|]. rewrite (c_log_real _ N), (half_arg_scale k Hk).
  unfold c_exp, c_add, c_mul, c_real. cbn [fst snd]. f_equal. unfold csize. set (u := g + 1 / 2 * (/ k * h * k * (/ k * h))). set (l := ln _).
  replace (u + (1 / 2 * l - 0 * (2 * half_arg k))) with (u + 1 / 2 * l) by ring.
  replace (0 + (1 / 2 * (2 * half_arg k) + 0 * l)) with (half_arg k) by field. reflexivity.
Qed.
Definition cvec (A c s : R) : cplx := (A * c, A * s).
Lemma fold_weights c s m q (As : list R) : forall acc,
  fold_left (fun acc (p : cplx * cplx * cplx) => c_add acc (fst (fst p))) (map (fun A => (cvec A c s, c_real m, c_real q)) As) (cvec acc c s) = cvec (acc + Rsum As) c s.
Proof.
  induction As as [|A As IH]; intros acc; cbn [map fold_left]; [unfold Rsum; cbn; unfold cvec; apply pair_eq; ring|].
  replace (c_add (cvec acc c s) (fst (fst (cvec A c s, c_real m, c_real q)))) with (cvec (acc + A) c s) by (unfold c_add, cvec; cbn; apply pair_eq; ring).
  rewrite IH, Rsum_cons. unfold cvec. apply pair_eq; ring.
Qed.
Lemma fold_means c s m q (As : list R) : forall acc,
  fold_left (fun acc (p : cplx * cplx * cplx) => c_add acc (c_mul (fst (fst p)) (snd (fst p)))) (map (fun A => (cvec A c s, c_real m, c_real q)) As) (cvec acc c s) = cvec (acc + Rsum As * m) c s.
Proof.
  induction As as [|A As IH]; intros acc; cbn [map fold_left]; [unfold Rsum; cbn; unfold cvec; apply pair_eq; ring|]. cbn [fst snd].
  replace (c_add (cvec acc c s) (c_mul (cvec A c s) (c_real m))) with (cvec (acc + A * m) c s) by (unfold c_add, c_mul, cvec, c_real; cbn; apply pair_eq; ring).
  rewrite IH, Rsum_cons. unfold cvec. apply pair_eq; ring.
Qed.
Lemma fold_covs c s m q (As : list R) : forall acc,
  fold_left (fun acc (p : cplx * cplx * cplx) => let '(w, m0, c0) := p in let d := c_sub m0 (m, 0) in c_add acc (c_add (c_mul w c0) (c_mul w (c_mul d d))))
    (map (fun A => (cvec A c s, c_real m, c_real q)) As) (cvec acc c s) = cvec (acc + Rsum As * q) c s.
Proof.
  induction As as [|A As IH]; intros acc; cbn [map fold_left]; [unfold Rsum; cbn; unfold cvec; apply pair_eq; ring|]. cbv zeta.
  replace (c_add (cvec acc c s) (c_add (c_mul (cvec A c s) (c_real q)) (c_mul (cvec A c s) (c_mul (c_sub (c_real m) (m, 0)) (c_sub (c_real m) (m, 0)))))) with (cvec (acc + A * q) c s)
    by (unfold c_add, c_mul, c_sub, cvec, c_real; cbn; apply pair_eq; ring).
  rewrite IH, Rsum_cons. unfold cvec. apply pair_eq; ring.
Qed.
Lemma Rsum_pos_list {A} (f : A -> R) l : l <> [] -> (forall x, 0 < f x) -> 0 < Rsum (map f l).
Proof.
  intros Hn H. destruct l as [|x l]; [congruence|]. cbn [map]. rewrite Rsum_cons. pose proof (H x).
  assert (0 <= Rsum (map f l)); [|lra]. clear -H. induction l as [|y l IH]; [unfold Rsum; cbn; lra|]. cbn [map]. rewrite Rsum_cons. pose proof (H y). lra.
Qed.
Lemma match_equal_shapes v m k h gs : gm_vars m = [v] -> k <> 0 -> gs <> [] -> Forall2 (one_dim v) (gm_comps m) (map (fun g => (k, h, g)) gs) ->
  exists f, moment_match_complex m = Ok f /\ one_can v f (k, h, Rabs (ln (Rsum (map exp gs)))).
Proof.
  intros V Hk Hn F. set (th := half_arg k). set (c := cos th). set (s := sin th).
  assert (HC : c * c + s * s = 1) by (pose proof (sin2_cos2 th) as H; unfold Rsqr in H; fold c s in H; lra).
  assert (E : mapM complex_params (gm_comps m) = Ok (map (fun A => (cvec A c s, c_real (/ k * h), c_real (/ k))) (map (csize k h) gs))).
  { clear V Hn. revert F. generalize (gm_comps m) as cs. induction gs as [|g gs IH]; intros cs F; inversion F as [|d p ds ps Hd F']; subst; [reflexivity|].
    cbn [mapM map]. destruct Hd as (_ & _ & d' & K & H & E & EK & EH). unfold complex_params at 1. rewrite E. cbn [bind snd]. cbn [fst snd] in EK, EH. rewrite EK, EH.
    cbn [snd]. rewrite (complex_weight_ok k h g Hk). cbn [bind]. rewrite (IH ds F'). reflexivity. }
  unfold moment_match_complex. rewrite V. cbn [length Nat.eqb negb]. rewrite E. cbn [bind].
  set (As := map (csize k h) gs). set (S := Rsum As).
  assert (HS : 0 < S) by (apply (Rsum_pos_list (csize k h)); [exact Hn|intros; apply exp_pos]).
  assert (Z : c_real 0 = cvec 0 c s) by (unfold c_real, cvec; apply pair_eq; ring). rewrite Z.
  rewrite fold_weights, fold_means. fold S. rewrite !Rplus_0_l.
  assert (N0 : c_is0 (cvec S c s) = false).
  { unfold c_is0, cvec, Req_b. cbn [fst snd]. destruct (Req_EM_T (S * c) 0) as [H1|]; [|reflexivity]. destruct (Req_EM_T (S * s) 0) as [H2|]; [|reflexivity]. exfalso.
    apply Rmult_integral in H1. apply Rmult_integral in H2. destruct H1 as [H1|H1]; [lra|]. destruct H2 as [H2|H2]; [lra|]. rewrite H1, H2 in HC. lra. }
  rewrite N0. cbv zeta. assert (Em : c_div (cvec (S * (/ k * h)) c s) (cvec S c s) = (/ k * h, 0)) by (apply (c_div_scale S c s (/ k * h)); [lra|exact HC]).
  rewrite Em, fold_covs. fold S. rewrite Rplus_0_l.
  assert (Ec : c_div (cvec (S * / k) c s) (cvec S c s) = (/ k, 0)) by (apply (c_div_scale S c s (/ k)); [lra|exact HC]).
  rewrite Ec. assert (c_is0 (/ k, 0) = false) as ->.
  { unfold c_is0, Req_b. cbn [fst snd]. destruct (Req_EM_T (/ k) 0) as [H|]; [|reflexivity]. exfalso. revert H. now apply Rinv_neq_0_compat. }
  assert (Ep : c_div (c_real 1) (/ k, 0) = (k, 0)) by (unfold c_div, c_real; cbn [fst snd]; apply pair_eq; field; exact Hk).
  rewrite Ep. replace (cvec S c s) with (S * cos th, S * sin th) by reflexivity. unfold th at 1 2. rewrite (c_log_dir S k HS). fold th.
  replace (c_mul (c_real (2 * PI)) (/ k, 0)) with (c_real (2 * PI * / k)) by (unfold c_mul, c_real; cbn; apply pair_eq; ring).
  rewrite c_log_real by (pose proof PI_RGT_0; apply Rmult_integral_contrapositive_currified; [lra|now apply Rinv_neq_0_compat]).
  rewrite (half_arg_scale k Hk). fold th.
  match goal with |- context [mk_can [v] ?K ?H (Fin ?g)] => destruct (one_can_mk v K H g) as (f & Ef & Hf); try reflexivity end.
  exists f. split; [exact Ef|]. revert Hf. unfold c_mul, c_sub, c_real, c_mod. cbn [fst snd ent].
  match goal with |- one_can v f (?a, ?b, ?g) -> _ => replace a with k by ring; replace b with h by (field; exact Hk); replace g with (Rabs (ln (Rsum (map exp gs)))); [auto|] end.
  match goal with |- Rabs ?G = sqrt (?x * ?x + ?y * ?y) => replace y with 0 by lra; replace x with G; [rewrite <- sqrt_Rsqr_abs; f_equal; unfold Rsqr; ring|] end.
  set (l := ln (Rabs (2 * PI * / k))). set (u := 1 / 2 * (/ k * h * k * (/ k * h)) + 1 / 2 * l).
  assert (ES : S = exp u * Rsum (map exp gs)).
  { unfold S, As. rewrite <- Rsum_scal. f_equal. apply map_ext. intros g. unfold csize. fold l. rewrite <- exp_plus. f_equal. unfold u. ring. }
  rewrite ES, ln_mult by (apply exp_pos || (apply (Rsum_pos_list exp); [exact Hn|apply exp_pos])). rewrite ln_exp. unfold u. field. exact Hk.
Qed.
