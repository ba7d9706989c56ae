(** The division with cancel_method 1. *)
From Coq Require Import ClassicalEpsilon.
From Verif Require Export MixOptDiv2.
#[global] Set Bullet Behavior "Strict Subproofs".
Local Open Scope R_scope.

(** An ideal optimiser: it finds the only strict minimum of a function of one variable.  Ideal
    second derivatives: exact for parabolas. *)
Definition unique_min (f : objective) (z : R) : Prop := exists m, f [z] = Ok (Fin m) /\ forall x, x <> z -> exists u, f [x] = Ok (Fin u) /\ m < u.
Definition exact_opt (opt : optimiser) : Prop := forall f z x0, unique_min f z -> opt f [x0] = Ok ([z], true).
Definition exact_hess (hess : hessian) : Prop := forall f z c k, (forall x, f [x] = Ok (Fin (c + k / 2 * ((x - z) * (x - z))))) ->
  exists K, hess f [z] = Ok K /\ nr K = 1%nat /\ nc K = 1%nat /\ ent K 0 0 = k.
Lemma min_unique f z z' : unique_min f z -> unique_min f z' -> z = z'.
Proof.
  intros (m & E & H) (m' & E' & H'). destruct (Req_dec z z') as [|N]; [assumption|]. exfalso.
  destruct (H z') as (u & Eu & Lu); [congruence|]. destruct (H' z) as (u' & Eu' & Lu'); [congruence|]. rewrite E' in Eu. injection Eu as <-. rewrite E in Eu'. injection Eu' as <-. lra.
Qed.
Lemma min_exists f : (exists z, unique_min f z) -> exists! z, unique_min f z.
Proof. intros (z & H). exists z. split; [exact H|]. intros z' H'. now apply (min_unique f). Qed.
Lemma exact_exists : exists opt hess, exact_opt opt /\ exact_hess hess.
Proof.
  exists (fun f _ => match excluded_middle_informative (exists z, unique_min f z) with
                     | left H => Ok ([proj1_sig (constructive_definite_description _ (min_exists f H))], true)
                     | right _ => Ok ([], false) end).
  exists (fun f x => match f [nth 0 x 0 + 1], f [nth 0 x 0] with Ok (Fin u), Ok (Fin v) => Ok (Mat 1 1 (fun _ _ => 2 * (u - v))) | _, _ => Err PyException end). split.
  - intros f z x0 Hz. destruct (excluded_middle_informative (exists z, unique_min f z)) as [H|H]; [|exfalso; apply H; now exists z].
    match goal with |- context [proj1_sig ?s] => destruct s as (z' & Hz') end. cbn. now rewrite (min_unique f z' z Hz' Hz).
  - intros f z c k H. cbn [nth]. rewrite !H. eexists. split; [reflexivity|]. cbn. repeat split. field.
Qed.

(** * Parabolas *)
Lemma parabola_min (f : objective) c k z : 0 < k -> (forall x, f [x] = Ok (Fin (c + k / 2 * ((x - z) * (x - z))))) -> unique_min f z.
Proof.
  intros Hk H. exists c. split; [rewrite H; do 2 f_equal; ring|]. intros x Hx. eexists. split; [apply H|].
  assert (0 < (x - z) * (x - z)) by (apply Rsqr_pos_lt; lra). assert (0 < k / 2 * ((x - z) * (x - z))) by (apply Rmult_lt_0_compat; lra). lra.
Qed.
Lemma exp_parabola_min (f : objective) c k z : 0 < k -> (forall x, f [x] = Ok (Fin (exp (c + k / 2 * ((x - z) * (x - z)))))) -> unique_min f z.
Proof.
  intros Hk H. exists (exp c). split; [rewrite H; do 3 f_equal; ring|]. intros x Hx. eexists. split; [apply H|]. apply exp_increasing.
  assert (0 < (x - z) * (x - z)) by (apply Rsqr_pos_lt; lra). assert (0 < k / 2 * ((x - z) * (x - z))) by (apply Rmult_lt_0_compat; lra). lra.
Qed.
Lemma not_vacuous1 K : nr K = 1%nat -> nc K = 1%nat -> 1 / 100000000 < Rabs (ent K 0 0) -> prec_vacuous K = false.
Proof. intros H1 H2 H. unfold prec_vacuous, allclose_zero. rewrite H1, H2. cbn [seq forallb]. unfold Rle_b. destruct (Rle_dec (Rabs (ent K 0 0)) (1 / 100000000)); [lra|reflexivity]. Qed.
Lemma one_can_mean v c p : one_can v c p -> 1 / 100000000 < Rabs (fst (fst p)) -> exists x, mean_of c [x].
Proof.
  intros (K & H & A1 & A2 & A3 & A4 & B1 & B2 & ->) Hk. pose proof (not_vacuous1 K A1 A2) as NV. rewrite B1 in NV. specialize (NV Hk).
  assert (D : mdet K = fst (fst p)) by (rewrite mdet_1 by exact A1; exact B1).
  assert (N0 : mdet K <> 0). { rewrite D. intros Z. rewrite Z, Rabs_R0 in Hk. lra. }
  exists (ent (mmul0 (minv K) H) 0 0). unfold mean_of, get_cov, update_covform. cbn [ga_vac ga_cov ga_can]. rewrite NV. rewrite np_inv_ok by (congruence || exact N0). cbn [bind].
  rewrite mmul_ok by (cbn; congruence). cbn [bind]. rewrite (quad_ok 1) by (cbn; congruence). cbn [bind]. rewrite det_2pi_ok by (cbn; congruence). cbn [bind ga_cov].
  eexists _, _, _, _. split; [reflexivity|]. cbn [mmul0 nr minv length]. split; [now rewrite ?A1|]. intros i Hi. destruct i; [reflexivity|]. exfalso. change (S i < nr K)%nat in Hi. lia.
Qed.

(** * One numerator, denominators of equal shape *)
Definition mode (p : cpar) (k h : R) : R := (snd (fst p) - h) / (fst (fst p) - k).
Definition inv_log (p : cpar) (k h : R) (gs : list R) : R := gap gs p - (fst (fst p) - k) / 2 * (mode p k h * mode p k h).
Definition m1_const (p : cpar) (k h : R) (gs : list R) : R :=
  let L := ln ((fst (fst p) - k) / (2 * PI)) in 1 / 2 * L * (1 - inv_log p k h gs) + inv_log p k h gs.
Lemma mix1_pot v m x : gm_vars m = [v] -> mix_potential m [x] = mixpot m (fun _ => x).
Proof. intros V. unfold mixpot. now rewrite V. Qed.
Lemma mix1_lp v m x : gm_vars m = [v] -> mix_log_potential m [x] None = mixlp m (fun _ => x).
Proof. intros V. unfold mixlp. now rewrite V. Qed.
Lemma rlog_exp x : rlog (exp x) = Fin x.
Proof. unfold rlog, Rlt_b. destruct (Rlt_dec 0 (exp x)) as [|N]; [now rewrite ln_exp|]. exfalso. apply N. apply exp_pos. Qed.
Lemma wf_vars1 v a ps : wf_mix a -> Forall2 (one_dim v) (gm_comps a) ps -> gm_vars a = [v].
Proof.
  intros (Hn & H) F. destruct (gm_comps a) as [|c cs] eqn:E; [congruence|]. destruct (H c (or_introl eq_refl)) as (_ & <-). inversion F as [|? ? ? ? O]. apply O.
Qed.
Lemma m1_spec opt hess v a b p k h gs : exact_opt opt -> exact_hess hess -> wf_mix a -> wf_mix b ->
  Forall2 (one_dim v) (gm_comps a) [p] -> Forall2 (one_dim v) (gm_comps b) (map (fun g => (k, h, g)) gs) -> k + 1 / 100000000 < fst (fst p) ->
  exists r, mix_division_m1 opt hess a b = Ok r /\ wf_mix r /\ gm_vars r = [v] /\ forall e, mixpot r e = Ok (Fin (exp (m1_const p k h gs) * (mval a e / mval b e))).
Proof.
  intros Ho Hh Wa Wb Fa Fb Hk.
  assert (Va : gm_vars a = [v]) by now apply (wf_vars1 v a _ Wa Fa). assert (Vb : gm_vars b = [v]) by now apply (wf_vars1 v b _ Wb Fb).
  assert (Hn : gs <> []). { intros ->. destruct Wb as (Nb & _). cbn in Fb. inversion Fb; congruence. }
  set (kap := fst (fst p) - k). assert (Kp : 0 < kap) by (unfold kap; lra). set (z := mode p k h). set (vv := inv_log p k h gs).
  inversion Fa as [|c ? cs ? Op Fn Ec Ep]. inversion Fn. subst.
  (* the inverse mixture *)
  assert (D : exists inv, mapM (fun gb => g_divide gb c) (gm_comps b) = Ok inv /\ Forall2 (one_can v) inv (map (fun g => (k - fst (fst p), h - snd (fst p), g)) (map (fun g => g - snd p) gs))).
  { clear -Fb Op. revert Fb. generalize (gm_comps b) as ds. induction gs as [|g gs' IH]; intros ds Fb; inversion Fb as [|d q ds' qs Hd Fb']; subst; [exists []; split; [reflexivity|constructor]|].
    destruct (one_divide v d c _ p Hd Op) as (r & Er & Or). destruct (IH ds' Fb') as (inv & Ei & Fi). exists (r :: inv). cbn [mapM]. rewrite Er. cbn [bind]. rewrite Ei.
    split; [reflexivity|]. cbn [map]. constructor; assumption. }
  destruct D as (inv & Ei & Fi).
  assert (Ni : inv <> []). { intros ->. apply Forall2_length in Fi. rewrite !map_length in Fi. destruct gs; [congruence|discriminate Fi]. }
  set (m := {| gm_vars := [v]; gm_comps := inv |}). pose proof (one_cans_mix v inv _ Fi Ni) as Em. fold m in Em.
  assert (Fd : Forall2 (one_dim v) (gm_comps m) (map (fun g => (k - fst (fst p), h - snd (fst p), g)) (map (fun g => g - snd p) gs))).
  { cbn [gm_comps m]. clear -Fi. induction Fi as [|d q ds qs H F IH]; constructor; [now apply one_can_dim|exact IH]. }
  assert (Wm : wf_mix m). { split; [exact Ni|]. intros d Hd. destruct (F2_in_l _ _ _ d Fd Hd) as (q & _ & (Wd & Vd & _)). now split. }
  assert (Hz : kap * z = snd (fst p) - h) by (unfold z, mode, kap in *; field; lra).
  assert (PG : exp (gap gs p) = Rsum (map exp (map (fun g => g - snd p) gs))).
  { unfold gap. rewrite exp_ln by (apply (Rsum_pos_list _ gs Hn); intros; apply exp_pos). now rewrite map_map. }
  assert (Pm : forall e, mixpot m e = Ok (Fin (exp (vv + kap / 2 * ((e v - z) * (e v - z)))))).
  { intros e. rewrite (proj1 (one_dims_mval v m _ e Wm Fd)), equal_sum, <- PG, <- exp_plus. do 3 f_equal.
    unfold line, vv, inv_log. fold kap z. replace (h - snd (fst p)) with (- (kap * z)) by lra. replace (k - fst (fst p)) with (- kap) by (unfold kap; ring). field. }
  assert (Lm : forall e, mixlp m e = Ok (Fin (vv + kap / 2 * ((e v - z) * (e v - z))))).
  { intros e. rewrite (mixlp_rlog m e _ Wm (Pm e)). now rewrite rlog_exp. }
  assert (Am : mix_argmin opt m = Ok (Some [z])).
  { assert (Mz : unique_min (mix_potential m) z) by (apply (exp_parabola_min _ vv kap z Kp); intros x; rewrite (mix1_pot v) by reflexivity; apply Pm).
    destruct (argmin_best opt m (map (fun _ => ([z], true)) inv)) as (_ & B).
    - unfold searches. cbn [gm_comps m]. revert Mz. generalize (mix_potential m) as f. intros f Mz. clear -Fi Ho Mz Hk. remember (map (fun g => (k - fst (fst p), h - snd (fst p), g)) (map (fun g => g - snd p) gs)) as qs eqn:Eq.
      assert (Q : forall q, In q qs -> fst (fst q) = k - fst (fst p)). { intros q Hq. subst qs. apply in_map_iff in Hq. destruct Hq as (? & <- & _). reflexivity. }
      clear Eq. induction Fi as [|d q ds qs H F IH]; cbn [map]; [constructor|]. constructor; [|apply IH; intros; apply Q; now right].
      destruct (one_can_mean v d q H) as (x & Mx). { rewrite (Q q (or_introl eq_refl)). rewrite Rabs_left; lra. } exists [x]. split; [exact Mx|]. now apply Ho.
    - intros r Hr _. apply in_map_iff in Hr. destruct Hr as (? & <- & _). cbn [fst]. rewrite (mix1_pot v) by reflexivity. eexists. apply Pm.
    - assert (exists d, In d inv) as (d & Hd). { destruct inv as [|d ?]; [congruence|]. exists d. now left. }
      destruct (B ([z], true)) as (x & q & E & Ix & _); [apply in_map_iff; now exists d|reflexivity|].
      apply in_map_iff in Ix. destruct Ix as (? & [= <-] & _). exact E. }
  (* the quotient *)
  assert (Fa' : Forall2 (one_dim v) (gm_comps a) [p]) by (rewrite <- Ec; constructor; [exact Op|constructor]).
  assert (Pa : forall e, mixpot a e = Ok (Fin (exp (line p (e v))))). { intros e. rewrite (proj1 (one_dims_mval v a _ e Wa Fa')). do 2 f_equal. cbn [map]. unfold Rsum. cbn [fold_right]. ring. }
  assert (Ma : forall e, mval a e = exp (line p (e v))) by (intros e; unfold mval; now rewrite Pa).
  assert (Pb : forall e, mixpot b e = Ok (Fin (exp (line p (e v) + (vv + kap / 2 * ((e v - z) * (e v - z))))))).
  { intros e. rewrite (proj1 (one_dims_mval v b _ e Wb Fb)), equal_sum. do 2 f_equal.
    assert (T : Rsum (map exp gs) = exp (snd p + gap gs p)). { rewrite exp_plus, (gap_exp gs p Hn), <- Rmult_assoc, <- exp_plus. replace (snd p + - snd p) with 0 by ring. rewrite exp_0. ring. }
    rewrite T, <- exp_plus. f_equal. unfold vv, inv_log. fold kap z. destruct p as [[kp hp] gp]. cbn [fst snd] in *. unfold line.
    replace hp with (h + kap * z) by lra. replace kp with (k + kap) by (unfold kap; ring). field. }
  assert (Mb : forall e, mval b e = exp (line p (e v) + (vv + kap / 2 * ((e v - z) * (e v - z))))) by (intros e; unfold mval; now rewrite Pb).
  set (quot := fun x => let* la := mix_log_potential a x None in let* lb := mix_log_potential b x None in Ok (vmul (Fin (-1)) (vsub la lb))).
  assert (Mq : unique_min quot z).
  { apply (parabola_min quot vv kap z Kp). intros x. unfold quot. rewrite (mix1_lp v a x Va), (mix1_lp v b x Vb).
    rewrite (mixlp_rlog a _ _ Wa (Pa _)), (mixlp_rlog b _ _ Wb (Pb _)), !rlog_exp. cbn [bind vsub vopp vadd vmul]. do 2 f_equal. ring. }
  unfold mix_division_m1, inverse_gaussians. rewrite <- Ec. cbn [foldM]. rewrite Ei. cbn [bind]. rewrite Em. cbn [bind]. rewrite Am. cbn [bind foldM snd fst app].
  fold quot. rewrite (Ho quot z z Mq). cbn [bind foldM snd fst app].
  assert (Rd : remove_duplicate_points [[z]] (1 / 1000) = Ok [[z]]).
  { unfold remove_duplicate_points. cbn [py_nth nth_error bind foldM close_points]. unfold Rle_b. replace (z - z) with 0 by ring. rewrite Rabs_R0.
    destruct (Rle_dec 0 (1 / 1000)); [reflexivity|lra]. }
  rewrite Rd. cbn [bind fst snd mapM].
  assert (Cm : mix_copy m = Ok m).
  { unfold mix_copy. cbn [gm_comps m]. assert (mapM g_copy inv = Ok inv) as ->; [|cbn [bind]; exact Em].
    clear -Fi. induction Fi as [|d q ds qs H F IH]; [reflexivity|]. cbn [mapM]. rewrite (one_can_copy v d q H). cbn [bind]. now rewrite IH. }
  rewrite Cm. cbn [bind]. set (ni := nested_log_potential [m]).
  assert (Ln : forall x, ni [x] = Ok (Fin (vv + kap / 2 * ((x - z) * (x - z))))).
  { intros x. unfold ni, nested_log_potential. cbn [mapM]. rewrite (mix1_lp v m x eq_refl), Lm. cbn [bind logsumexp]. unfold lse. cbn [existsb is_nan is_pinf orb map pot].
    unfold Rsum. cbn [fold_right]. rewrite Rplus_0_r. now rewrite rlog_exp. }
  destruct (Hh ni z vv kap Ln) as (K & EK & K1 & K2 & K3).
  unfold m1_component. rewrite EK. cbn [bind]. rewrite mmul_ok by (cbn; congruence). cbn [bind]. rewrite (quad_ok 1) by (cbn; congruence). cbn [bind].
  rewrite np_det_ok by (cbn; congruence). cbn [bind]. rewrite Ln. cbn [bind]. rewrite mdet_1 by (cbn; congruence). cbn [mscal ent]. rewrite K3.
  assert (PL : 0 < / (2 * PI) * kap) by (apply Rmult_lt_0_compat; [apply Rinv_0_lt_compat; pose proof PI_RGT_0; lra|exact Kp]).
  assert (EL : rlog (/ (2 * PI) * kap) = Fin (ln (kap / (2 * PI)))).
  { unfold rlog, Rlt_b. destruct (Rlt_dec 0 (/ (2 * PI) * kap)); [|contradiction]. do 2 f_equal. unfold Rdiv. ring. }
  rewrite EL. cbn [vmul vsub vopp vadd vhalf]. rewrite Va.
  match goal with |- context [mk_can [v] ?A ?B (Fin ?g)] => destruct (one_can_mk v A B g) as (f & Ef & Of); try reflexivity; try (cbn; congruence) end.
  unfold vhalf. cbn [vmul vadd]. rewrite Ef. cbn [bind].
  assert (Ff : Forall2 (one_can v) [f] _) by (constructor; [exact Of|constructor]).
  rewrite (one_cans_mix v [f] _ Ff) by discriminate. eexists. split; [reflexivity|].
  assert (Wf : wf_gauss f) by apply (one_can_dim v f _ Of).
  assert (Vf : ga_vars f = [v]) by apply (one_can_dim v f _ Of).
  assert (Wr : wf_mix {| gm_vars := [v]; gm_comps := [f] |}). { split; [discriminate|]. intros d [<-|[]]. now split. }
  split; [exact Wr|]. split; [reflexivity|]. intros e.
  assert (Fr : Forall2 (one_dim v) (gm_comps {| gm_vars := [v]; gm_comps := [f] |}) _) by (constructor; [exact (one_can_dim v f _ Of)|constructor]).
  rewrite (proj1 (one_dims_mval v _ _ e Wr Fr)). do 2 f_equal. rewrite Ma, Mb. cbn [map]. unfold Rsum. cbn [fold_right]. rewrite Rplus_0_r.
  replace (exp (line p (e v)) / exp (line p (e v) + (vv + kap / 2 * ((e v - z) * (e v - z))))) with (exp (- (vv + kap / 2 * ((e v - z) * (e v - z)))))
    by (rewrite (exp_plus (line p (e v))), exp_Ropp; field; split; apply Rgt_not_eq, exp_pos).
  rewrite <- !exp_plus. f_equal. unfold line at 1. rewrite K3. cbn [mmul0 ent mcol nth]. rewrite K2. unfold qsum, rsum. cbn [seq map Rsum fold_right]. unfold Rsum. cbn [fold_right mcol ent nth].
  rewrite K3. unfold m1_const. fold kap vv. cbv zeta. set (L := ln (kap / (2 * PI))). field.
Qed.
