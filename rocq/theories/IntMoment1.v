(** First and second moments of a Gaussian in one variable. *)
From Coq Require Import Reals Lra Lia.
From Coquelicot Require Import Coquelicot.
From Verif Require Import IntGauss.
Local Open Scope R_scope.

Lemma exp_gt_1 x : 1 + x <= exp x.
Proof. destruct (Req_dec x 0) as [->|H]; [rewrite exp_0; lra|]. apply Rlt_le. now apply exp_ineq1. Qed.
Lemma tge_lim : is_lim (fun t => t * ge t) p_infty 0.
Proof.
  apply (is_lim_le_le_loc (fun _ => 0) (fun t => / t)).
  - exists 0. intros t Ht. unfold ge. rewrite exp_Ropp. pose proof (exp_gt_1 (t * t)) as H. pose proof (Rmult_lt_0_compat t t Ht Ht) as H2.
    split; [apply Rmult_le_pos; [lra|apply Rlt_le, Rinv_0_lt_compat; lra]|].
    apply (Rmult_le_reg_l (exp (t * t))); [lra|]. replace (exp (t * t) * (t * / exp (t * t))) with t by (field; lra).
    apply (Rmult_le_reg_r t); [exact Ht|]. replace (exp (t * t) * / t * t) with (exp (t * t)) by (field; lra). lra.
  - apply is_lim_const.
  - replace (Finite 0) with (Rbar_inv p_infty) by reflexivity. apply is_lim_inv; [apply is_lim_id|discriminate].
Qed.
Lemma ge_lim_m : is_lim ge m_infty 0.
Proof.
  apply (is_lim_ext (fun x => ge (- x))); [intros y; unfold ge; f_equal; ring|].
  apply (is_lim_comp ge (fun x => - x) m_infty 0 p_infty); [apply ge_lim| |apply filter_forall; intros y; discriminate].
  apply (is_lim_opp (fun x => x) m_infty m_infty). apply is_lim_id.
Qed.
Lemma tge_lim_m : is_lim (fun t => t * ge t) m_infty 0.
Proof.
  apply (is_lim_ext (fun x => - (- x * ge (- x)))); [intros y; replace (ge (- y)) with (ge y) by (unfold ge; f_equal; ring); ring|].
  replace (Finite 0) with (Rbar_opp 0) by (cbn; f_equal; ring). apply (is_lim_opp (fun x => - x * ge (- x)) m_infty 0).
  apply (is_lim_comp (fun t => t * ge t) (fun x => - x) m_infty 0 p_infty); [apply tge_lim| |apply filter_forall; intros y; discriminate].
  apply (is_lim_opp (fun x => x) m_infty m_infty). apply is_lim_id.
Qed.
Lemma lin_lim_p s v : 0 < s -> is_lim (fun x => s * x + v) p_infty p_infty.
Proof.
  intros Hs. replace p_infty with (Rbar_plus p_infty v) at 2 by reflexivity. apply (is_lim_plus (fun x => s * x) (fun _ => v) p_infty p_infty v); [|apply is_lim_const|reflexivity].
  replace p_infty with (Rbar_mult s p_infty) at 2 by (cbn; destruct (Rle_dec 0 s) as [H|H]; [destruct (Rle_lt_or_eq_dec 0 s H); [reflexivity|lra]|lra]).
  apply (is_lim_scal_l (fun x => x) s p_infty p_infty). apply is_lim_id.
Qed.
Lemma lin_lim_m s v : 0 < s -> is_lim (fun x => s * x + v) m_infty m_infty.
Proof.
  intros Hs. replace m_infty with (Rbar_plus m_infty v) at 2 by reflexivity. apply (is_lim_plus (fun x => s * x) (fun _ => v) m_infty m_infty v); [|apply is_lim_const|reflexivity].
  replace m_infty with (Rbar_mult s m_infty) at 2 by (cbn; destruct (Rle_dec 0 s) as [H|H]; [destruct (Rle_lt_or_eq_dec 0 s H); [reflexivity|lra]|lra]).
  apply (is_lim_scal_l (fun x => x) s m_infty m_infty). apply is_lim_id.
Qed.
(** A derivative whose primitive vanishes at both ends integrates to zero. *)
Lemma int_derive (P p : R -> R) : (forall t, is_derive P t (p t)) -> (forall t, continuous p t) -> is_lim P m_infty 0 -> is_lim P p_infty 0 -> is_int p 0.
Proof.
  intros HD HC Hm Hp. replace 0 with (0 - 0) by ring. apply (RInt_gen_primitive p P); [|exact Hm|exact Hp].
  intros x y. apply (is_RInt_derive P p x y); intros t _; [apply HD|apply HC].
Qed.
Lemma gauss_mom1_sq s v c : 0 < s -> is_int (fun t => (s * t + v) * exp (c - (s * t + v) * (s * t + v))) 0.
Proof.
  intros Hs. apply (int_derive (fun t => - (exp c / (2 * s)) * ge (s * t + v))).
  - intros t. unfold ge. auto_derive; [auto|]. unfold Rminus. rewrite exp_plus. field. lra.
  - intros t. apply (ex_derive_continuous (fun t => (s * t + v) * exp (c - (s * t + v) * (s * t + v)))). auto_derive. auto.
  - replace (Finite 0) with (Rbar_mult (- (exp c / (2 * s))) 0) by (cbn; f_equal; ring). apply (is_lim_scal_l (fun t => ge (s * t + v))).
    apply (is_lim_comp ge (fun x => s * x + v) m_infty 0 m_infty); [apply ge_lim_m|now apply lin_lim_m|apply filter_forall; intros y; discriminate].
  - replace (Finite 0) with (Rbar_mult (- (exp c / (2 * s))) 0) by (cbn; f_equal; ring). apply (is_lim_scal_l (fun t => ge (s * t + v))).
    apply (is_lim_comp ge (fun x => s * x + v) p_infty 0 p_infty); [apply ge_lim|now apply lin_lim_p|apply filter_forall; intros y; discriminate].
Qed.
Lemma gauss_mom2_sq s v c : 0 < s ->
  is_int (fun t => (s * t + v) * (s * t + v) * exp (c - (s * t + v) * (s * t + v)) - / 2 * exp (c - (s * t + v) * (s * t + v))) 0.
Proof.
  intros Hs. apply (int_derive (fun t => - (exp c / (2 * s)) * ((s * t + v) * ge (s * t + v)))).
  - intros t. unfold ge. auto_derive; [auto|]. unfold Rminus. rewrite !exp_plus. field. lra.
  - intros t. apply (ex_derive_continuous (fun t => (s * t + v) * (s * t + v) * exp (c - (s * t + v) * (s * t + v)) - / 2 * exp (c - (s * t + v) * (s * t + v)))). auto_derive. auto.
  - replace (Finite 0) with (Rbar_mult (- (exp c / (2 * s))) 0) by (cbn; f_equal; ring). apply (is_lim_scal_l (fun t => (s * t + v) * ge (s * t + v))).
    apply (is_lim_comp (fun u => u * ge u) (fun x => s * x + v) m_infty 0 m_infty); [apply tge_lim_m|now apply lin_lim_m|apply filter_forall; intros y; discriminate].
  - replace (Finite 0) with (Rbar_mult (- (exp c / (2 * s))) 0) by (cbn; f_equal; ring). apply (is_lim_scal_l (fun t => (s * t + v) * ge (s * t + v))).
    apply (is_lim_comp (fun u => u * ge u) (fun x => s * x + v) p_infty 0 p_infty); [apply tge_lim|now apply lin_lim_p|apply filter_forall; intros y; discriminate].
Qed.
(** The exponent is [c - b (t - m) - k (t - m)^2 / 2]: the mean of [t - m] is [- b / k], its second
    moment [(b / k)^2 + 1 / k]. *)
Section Q.
Variables (k b c m : R).
Hypothesis Hk : 0 < k.
Let E (t : R) : R := exp (c - / 2 * (k * ((t - m) * (t - m)) + 2 * b * (t - m))).
Let s := sqrt (k / 2).
Let v := (b / k - m) * s.
Let c' := c + / 2 * (b * b / k).
Lemma q_s : 0 < s.
Proof. apply sqrt_lt_R0. lra. Qed.
Lemma q_ss : s * s = k / 2.
Proof. apply sqrt_sqrt. lra. Qed.
Lemma q_lin t : s * t + v = s * (t - m + b / k).
Proof. unfold v. ring. Qed.
Lemma q_E t : E t = exp (c' - (s * t + v) * (s * t + v)).
Proof.
  unfold E. f_equal. rewrite q_lin. replace (s * (t - m + b / k) * (s * (t - m + b / k))) with ((s * s) * ((t - m + b / k) * (t - m + b / k))) by ring.
  rewrite q_ss. unfold c'. field. lra.
Qed.
Lemma quad_mom1 I : is_int E I -> is_int (fun t => (t - m) * E t) (- (b / k) * I).
Proof.
  intros H. pose proof q_s as Hs. pose proof (is_int_plus _ _ _ _ (is_int_scal (/ s) _ _ (gauss_mom1_sq s v c' Hs)) (is_int_scal (- (b / k)) _ _ H)) as G.
  rewrite Rmult_0_r, Rplus_0_l in G. revert G. apply is_int_ext. intros t. rewrite q_E, q_lin. field. lra.
Qed.
Lemma quad_mom2 I : is_int E I -> is_int (fun t => (t - m) * (t - m) * E t) ((b / k * (b / k) + / k) * I).
Proof.
  intros H. pose proof q_s as Hs. pose proof q_ss as Hss. pose proof (quad_mom1 I H) as H1.
  pose proof (is_int_plus _ _ _ _ (is_int_scal (2 / k) _ _ (gauss_mom2_sq s v c' Hs)) (is_int_plus _ _ _ _ (is_int_scal (- (2 * (b / k))) _ _ H1) (is_int_scal (/ k - b / k * (b / k)) _ _ H))) as G.
  replace ((b / k * (b / k) + / k) * I) with (2 / k * 0 + (- (2 * (b / k)) * (- (b / k) * I) + (/ k - b / k * (b / k)) * I)) by ring.
  revert G. apply is_int_ext. intros t. rewrite !q_E. set (X := exp _). rewrite q_lin.
  replace (s * (t - m + b / k) * (s * (t - m + b / k))) with ((s * s) * ((t - m + b / k) * (t - m + b / k))) by ring. rewrite Hss. field. lra.
Qed.
End Q.
(** The integral of a nonnegative function. *)
Lemma is_int_nonneg f I : (forall t, 0 <= f t) -> is_int f I -> 0 <= I.
Proof.
  intros Hf HI. assert (H : norm I <= I).
  { apply (RInt_gen_norm (Fa := Rbar_locally m_infty) (Fb := Rbar_locally p_infty) f f I I); [| |exact HI|exact HI].
    - apply (Filter_prod _ _ _ (fun x => x < 0) (fun y => 0 < y)); [exists 0; auto|exists 0; auto|]. cbn. intros x y Hx Hy. lra.
    - apply filter_forall. intros [x y] t _. unfold norm. cbn. unfold abs. cbn. rewrite Rabs_right; [lra|]. apply Rle_ge, Hf. }
  unfold norm in H. cbn in H. unfold abs in H. cbn in H. pose proof (Rabs_pos I). lra.
Qed.
