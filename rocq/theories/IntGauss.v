(** The Gaussian integral. *)
From Coq Require Import Reals Lra Lia.
From Coquelicot Require Import Coquelicot.
Local Open Scope R_scope.

Definition ge (t : R) : R := exp (- (t * t)).
Lemma ge_cont t : continuous ge t.
Proof. apply (ex_derive_continuous ge). unfold ge. auto_derive. auto. Qed.
Lemma ge_ex a b : ex_RInt ge a b.
Proof. apply (ex_RInt_continuous ge). intros z _. apply ge_cont. Qed.
Definition gI (x : R) : R := RInt ge 0 x.
Lemma gI_is a b : is_RInt ge a b (gI b - gI a).
Proof.
  assert (H : gI b - gI a = RInt ge a b).
  { unfold gI. rewrite <- (RInt_Chasles ge 0 a b) by apply ge_ex. change plus with Rplus. ring. }
  rewrite H. apply (RInt_correct ge). apply ge_ex.
Qed.
Lemma gI_derive x : is_derive gI x (ge x).
Proof.
  apply (is_derive_RInt ge gI 0 x); [|apply ge_cont]. apply filter_forall. intros y. apply (RInt_correct ge). apply ge_ex.
Qed.

Definition gk (x t : R) : R := exp (- (x * x) * (1 + t * t)) / (1 + t * t).
Lemma one_sq t : 1 + t * t <> 0.
Proof. pose proof (Rle_0_sqr t) as H. unfold Rsqr in H. lra. Qed.
Lemma gk_derive x t : is_derive (fun u => gk u t) x (-2 * x * exp (- (x * x) * (1 + t * t))).
Proof. pose proof (one_sq t). unfold gk. auto_derive; [easy|]. field. easy. Qed.
Lemma gk_ex x a b : ex_RInt (fun t => gk x t) a b.
Proof.
  apply (ex_RInt_continuous (fun t => gk x t)). intros z _. apply (ex_derive_continuous (fun t => gk x t)). pose proof (one_sq z). unfold gk. auto_derive. easy.
Qed.
Definition gB (x : R) : R := RInt (fun t => gk x t) 0 1.
Lemma gk_2d x t : continuity_2d_pt (fun u v => -2 * u * exp (- (u * u) * (1 + v * v))) x t.
Proof.
  apply (continuity_2d_pt_mult (fun u v => -2 * u) (fun u v => exp (- (u * u) * (1 + v * v)))).
  - apply (continuity_2d_pt_mult (fun u v => -2) (fun u v => u)); [apply continuity_2d_pt_const|apply continuity_2d_pt_id1].
  - apply (continuity_1d_2d_pt_comp exp (fun u v => - (u * u) * (1 + v * v))).
    + apply derivable_continuous_pt. apply derivable_pt_exp.
    + apply (continuity_2d_pt_mult (fun u v => - (u * u)) (fun u v => 1 + v * v)).
      * apply (continuity_2d_pt_opp (fun u v => u * u)). apply (continuity_2d_pt_mult (fun u v => u) (fun u v => u)); apply continuity_2d_pt_id1.
      * apply (continuity_2d_pt_plus (fun u v => 1) (fun u v => v * v)); [apply continuity_2d_pt_const|].
        apply (continuity_2d_pt_mult (fun u v => v) (fun u v => v)); apply continuity_2d_pt_id2.
Qed.
Lemma gB_derive x : is_derive gB x (- 2 * gI x * ge x).
Proof.
  replace (- 2 * gI x * ge x) with (RInt (fun t => Derive (fun u => gk u t) x) 0 1).
  - apply (is_derive_RInt_param gk 0 1 x).
    + apply filter_forall. intros y t _. eexists. apply gk_derive.
    + intros t _. apply (continuity_2d_pt_ext (fun u v => -2 * u * exp (- (u * u) * (1 + v * v)))); [|apply gk_2d].
      intros u v. symmetry. apply is_derive_unique, gk_derive.
    + apply filter_forall. intros y. apply gk_ex.
  - rewrite (RInt_ext _ (fun t => scal (-2 * ge x) (scal x (ge (x * t + 0))))).
    2: { intros t _. transitivity (-2 * x * exp (- (x * x) * (1 + t * t))); [apply is_derive_unique, gk_derive|]. unfold scal. cbn. unfold mult. cbn. unfold ge.
         replace (- (x * x) * (1 + t * t)) with (- (x * x) + - ((x * t + 0) * (x * t + 0))) by ring. rewrite exp_plus. ring. }
    rewrite (RInt_scal (fun t => scal x (ge (x * t + 0)))).
    + pose proof (RInt_comp_lin ge x 0 0 1 (ge_ex _ _)) as Hc. unfold scal in *. cbn in *. unfold mult in *. cbn in *. rewrite Hc. rewrite Rmult_0_r, Rmult_1_r, !Rplus_0_r. unfold scal. cbn. unfold mult. cbn. unfold gI. ring.
    + apply (ex_RInt_comp_lin ge x 0 0 1). apply ge_ex.
Qed.
Lemma gAB_derive x : is_derive (fun x => gI x * gI x + gB x) x 0.
Proof.
  replace 0 with ((ge x * gI x + gI x * ge x) + (- 2 * gI x * ge x)) by ring.
  apply (is_derive_plus (fun x => gI x * gI x) gB); [|apply gB_derive].
  apply (is_derive_mult gI gI); [apply gI_derive|apply gI_derive|]. intros n m. apply Rmult_comm.
Qed.
Lemma gB_0 : gB 0 = PI / 4.
Proof.
  unfold gB. rewrite (RInt_ext _ (fun t => / (1 + t ^ 2))).
  2: { intros t _. pose proof (one_sq t). unfold gk. rewrite Rmult_0_l, Ropp_0, Rmult_0_l, exp_0. unfold Rdiv. rewrite Rmult_1_l. f_equal. ring. }
  rewrite <- atan_1. apply is_RInt_unique. replace (atan 1) with (minus (atan 1) (atan 0)).
  2: { rewrite atan_0. unfold minus, plus, opp. cbn. ring. }
  apply (is_RInt_derive atan (fun t => / (1 + t ^ 2))).
  - intros t _. apply is_derive_Reals. apply derivable_pt_lim_atan.
  - intros t _. apply (ex_derive_continuous (fun t => / (1 + t ^ 2))). auto_derive. pose proof (one_sq t) as H. replace (1 + t * (t * 1)) with (1 + t * t) by ring. exact H.
Qed.
Lemma gAB x : gI x * gI x + gB x = PI / 4.
Proof.
  transitivity (gI 0 * gI 0 + gB 0).
  - set (F := fun x => gI x * gI x + gB x). change (F x = F 0).
    assert (H : is_RInt (fun _ => 0) 0 x (minus (F x) (F 0))).
    { apply (is_RInt_derive F (fun _ => 0)); [intros z _; apply gAB_derive|]. intros z _. apply continuous_const. }
    pose proof (is_RInt_unique _ _ _ _ H) as U. rewrite RInt_const in U. unfold scal, minus, plus, opp in U. cbn in U. unfold mult in U. cbn in U. lra.
  - rewrite gB_0. unfold gI. rewrite RInt_point. unfold zero. cbn. ring.
Qed.
Lemma gB_bounds x : 0 <= gB x <= ge x.
Proof.
  assert (P : forall t, 0 < 1 + t * t) by (intros t; pose proof (Rle_0_sqr t) as H; unfold Rsqr in H; lra).
  split.
  - apply RInt_ge_0; [lra|apply gk_ex|]. intros t _. unfold gk. left. apply Rdiv_lt_0_compat; [apply exp_pos|apply P].
  - replace (ge x) with (RInt (fun _ => ge x) 0 1).
    2: { rewrite RInt_const. unfold scal. cbn. unfold mult. cbn. ring. }
    apply RInt_le; [lra|apply gk_ex|apply ex_RInt_const|]. intros t _. unfold gk, ge. 
    apply Rle_trans with (exp (- (x * x) * (1 + t * t)) / 1).
    + unfold Rdiv. apply Rmult_le_compat_l; [left; apply exp_pos|]. apply Rinv_le_contravar; [lra|]. pose proof (Rle_0_sqr t) as H. unfold Rsqr in H. lra.
    + unfold Rdiv. rewrite Rinv_1, Rmult_1_r. destruct (Req_dec (x * x * (t * t)) 0) as [E|E].
      * right. f_equal. nra.
      * left. apply exp_increasing. pose proof (Rle_0_sqr x) as H1. pose proof (Rle_0_sqr t) as H2. unfold Rsqr in *. pose proof (Rmult_le_pos _ _ H1 H2). nra.
Qed.
Lemma ge_lim : is_lim ge p_infty 0.
Proof.
  apply (is_lim_comp exp (fun t => - (t * t)) p_infty 0 m_infty); [apply is_lim_exp_m| |].
  - apply (is_lim_opp (fun t => t * t) p_infty p_infty). apply (is_lim_mult (fun t => t) (fun t => t) p_infty p_infty p_infty); [apply is_lim_id|apply is_lim_id|exact I].
  - apply filter_forall. intros y. discriminate.
Qed.
Lemma gI_pos x : 0 <= x -> 0 <= gI x.
Proof. intros H. apply RInt_ge_0; [exact H|apply ge_ex|]. intros t _. left. apply exp_pos. Qed.
Lemma gI_sqrt x : 0 <= x -> gI x = sqrt (PI / 4 - gB x).
Proof. intros H. replace (PI / 4 - gB x) with (gI x * gI x) by (pose proof (gAB x); lra). symmetry. apply sqrt_square. now apply gI_pos. Qed.
Lemma gB_lim : is_lim gB p_infty 0.
Proof.
  apply (is_lim_le_le_loc (fun _ => 0) ge); [|apply is_lim_const|apply ge_lim]. apply filter_forall. intros y. apply gB_bounds.
Qed.
Lemma gI_lim : is_lim gI p_infty (sqrt PI / 2).
Proof.
  replace (sqrt PI / 2) with (sqrt (PI / 4)).
  2: { rewrite sqrt_div by (try lra; left; apply PI_RGT_0). replace 4 with (2 * 2) by ring. rewrite sqrt_square by lra. reflexivity. }
  apply (is_lim_ext_loc (fun x => sqrt (PI / 4 - gB x))).
  - exists 0. intros x Hx. symmetry. apply gI_sqrt. lra.
  - apply (is_lim_comp_continuous (fun x => PI / 4 - gB x) sqrt p_infty (PI / 4)).
    + replace (Finite (PI / 4)) with (Rbar_minus (PI / 4) 0) by (cbn; f_equal; ring).
      apply (is_lim_minus (fun _ => PI / 4) gB p_infty (PI / 4) 0); [apply is_lim_const|apply gB_lim|]. cbn. unfold is_Rbar_minus, is_Rbar_plus. cbn. f_equal. 
    + apply continuous_sqrt.
Qed.
Lemma gI_odd x : gI (- x) = - gI x.
Proof.
  unfold gI. pose proof (is_RInt_comp_opp ge 0 x (RInt ge 0 (- x))) as H. rewrite Ropp_0 in H. specialize (H (RInt_correct ge _ _ (ge_ex 0 (- x)))).
  assert (H' : is_RInt ge 0 x (opp (RInt ge 0 (- x)))).
  { apply (is_RInt_ext (fun y => opp (opp (ge (- y))))); [|now apply (is_RInt_opp (fun y => opp (ge (- y))))].
    intros y _. rewrite opp_opp. unfold ge. f_equal. ring. }
  pose proof (is_RInt_unique (V := R_CompleteNormedModule) _ _ _ _ H') as U. rewrite U. unfold opp. cbn. ring.
Qed.
Lemma gI_lim_m : is_lim gI m_infty (- (sqrt PI / 2)).
Proof.
  apply (is_lim_ext (fun x => - gI (- x))); [intros y; rewrite gI_odd; ring|].
  apply (is_lim_opp (fun x => gI (- x)) m_infty (sqrt PI / 2)). apply (is_lim_comp gI (fun x => - x) m_infty (sqrt PI / 2) p_infty); [apply gI_lim| |].
  - apply (is_lim_opp (fun x => x) m_infty m_infty). apply is_lim_id.
  - apply filter_forall. intros y. discriminate.
Qed.
(** An improper integral from a primitive with limits. *)
Lemma RInt_gen_primitive (f P : R -> R) (a b : R) : (forall x y, is_RInt f x y (P y - P x)) -> is_lim P m_infty a -> is_lim P p_infty b ->
  is_RInt_gen f (Rbar_locally m_infty) (Rbar_locally p_infty) (b - a).
Proof.
  intros HP Ha Hb. unfold is_RInt_gen.
  apply (filterlimi_ext (fun ab y => y = P (snd ab) - P (fst ab))).
  - intros [x y] z. cbn. split; [intros ->; apply HP|]. intros H. pose proof (is_RInt_unique _ _ _ _ H) as U. pose proof (is_RInt_unique _ _ _ _ (HP x y)) as U'. congruence.
  - assert (L : filterlim (fun ab : R * R => P (snd ab) - P (fst ab)) (filter_prod (Rbar_locally m_infty) (Rbar_locally p_infty)) (locally (b - a))).
    { unfold Rminus. apply (filterlim_comp_2 (fun ab : R * R => P (snd ab)) (fun ab : R * R => - P (fst ab)) Rplus (G := locally b) (H := locally (- a))).
      - apply (filterlim_comp _ _ _ snd P _ (Rbar_locally p_infty)); [apply filterlim_snd|exact Hb].
      - apply (filterlim_comp _ _ _ fst (fun x => - P x) _ (Rbar_locally m_infty)); [apply filterlim_fst|]. exact (is_lim_opp P m_infty a Ha).
      - exact (filterlim_plus b (- a)). }
    intros Q HQ. specialize (L Q HQ). unfold filtermap in L. unfold filtermapi. revert L. apply filter_imp. intros [x y] H. eexists. split; [reflexivity|exact H].
Qed.
Definition is_int (f : R -> R) (I : R) : Prop := is_RInt_gen f (Rbar_locally m_infty) (Rbar_locally p_infty) I.
Lemma gauss_int_std : is_int ge (sqrt PI).
Proof.
  replace (sqrt PI) with (sqrt PI / 2 - - (sqrt PI / 2)) by lra. apply (RInt_gen_primitive ge gI); [apply gI_is|apply gI_lim_m|apply gI_lim].
Qed.
(** A Gaussian in one variable, completed square. *)
Lemma gauss_int s v c : 0 < s -> is_int (fun t => exp (c - (s * t + v) * (s * t + v))) (exp c * sqrt PI / s).
Proof.
  intros Hs. replace (exp c * sqrt PI / s) with ((exp c / s) * (sqrt PI / 2) - (exp c / s) * (- (sqrt PI / 2))) by (field; lra).
  apply (RInt_gen_primitive _ (fun x => (exp c / s) * gI (s * x + v))).
  - intros x y. replace (exp c / s * gI (s * y + v) - exp c / s * gI (s * x + v)) with (scal (exp c / s : R) (gI (s * y + v) - gI (s * x + v) : R)) by (unfold scal; cbn; unfold mult; cbn; ring).
    apply (is_RInt_ext (fun t => scal (exp c / s) (scal s (ge (s * t + v))))).
    + intros t _. unfold scal; cbn; unfold mult; cbn. unfold ge. rewrite <- Rmult_assoc. replace (exp c / s * s) with (exp c) by (field; lra). rewrite <- exp_plus. match goal with |- exp ?a = exp ?b => replace a with b by ring end. reflexivity.
    + apply (is_RInt_scal (fun t => scal s (ge (s * t + v)))). apply (is_RInt_comp_lin ge s v x y). apply gI_is.
  - apply (is_lim_scal_l (fun x => gI (s * x + v)) (exp c / s) m_infty (- (sqrt PI / 2))).
    apply (is_lim_comp gI (fun x => s * x + v) m_infty _ m_infty); [apply gI_lim_m| |apply filter_forall; intros y; discriminate].
    replace m_infty with (Rbar_plus m_infty v) at 2 by reflexivity. apply (is_lim_plus (fun x => s * x) (fun _ => v) m_infty m_infty v); [|apply is_lim_const|reflexivity].
    replace m_infty with (Rbar_mult s m_infty) at 2 by (cbn; destruct (Rle_dec 0 s) as [H|H]; [destruct (Rle_lt_or_eq_dec 0 s H); [reflexivity|lra]|lra]).
    apply (is_lim_scal_l (fun x => x) s m_infty m_infty). apply is_lim_id.
  - apply (is_lim_scal_l (fun x => gI (s * x + v)) (exp c / s) p_infty (sqrt PI / 2)).
    apply (is_lim_comp gI (fun x => s * x + v) p_infty _ p_infty); [apply gI_lim| |apply filter_forall; intros y; discriminate].
    replace p_infty with (Rbar_plus p_infty v) at 2 by reflexivity. apply (is_lim_plus (fun x => s * x) (fun _ => v) p_infty p_infty v); [|apply is_lim_const|reflexivity].
    replace p_infty with (Rbar_mult s p_infty) at 2 by (cbn; destruct (Rle_dec 0 s) as [H|H]; [destruct (Rle_lt_or_eq_dec 0 s H); [reflexivity|lra]|lra]).
    apply (is_lim_scal_l (fun x => x) s p_infty p_infty). apply is_lim_id.
Qed.
(** [exp (c + b t - k t^2 / 2)] integrates to [exp (c + b^2 / (2 k)) * sqrt (2 PI / k)]. *)
Lemma gauss_int_quad k b c : 0 < k -> is_int (fun t => exp (c + b * t - / 2 * (k * (t * t)))) (exp (c + / 2 * (b * b / k) + / 2 * ln (2 * PI / k))).
Proof.
  intros Hk. pose proof PI_RGT_0 as HPi. set (s := sqrt (k / 2)). assert (Hs : 0 < s) by (apply sqrt_lt_R0; lra). assert (Ess : s * s = k / 2) by (apply sqrt_sqrt; lra).
  replace (exp (c + / 2 * (b * b / k) + / 2 * ln (2 * PI / k))) with (exp (c + / 2 * (b * b / k)) * sqrt PI / s).
  - apply (is_RInt_gen_ext (fun t => exp ((c + / 2 * (b * b / k)) - (s * t + - b / (2 * s)) * (s * t + - b / (2 * s))))); [|apply gauss_int; exact Hs].
    apply filter_forall. intros [x y] t _. f_equal.
    replace ((s * t + - b / (2 * s)) * (s * t + - b / (2 * s))) with ((s * s) * (t * t) - b * t + b * b / (4 * (s * s))) by (field; lra). rewrite Ess. field. lra.
  - rewrite (exp_plus (c + / 2 * (b * b / k))). match goal with |- ?a * ?b / ?d = _ => replace (a * b / d) with (a * (b / d)) by (unfold Rdiv; ring) end. f_equal.
    assert (H : exp (/ 2 * ln (2 * PI / k)) = sqrt (2 * PI / k)).
    { rewrite <- Rpower_sqrt by (apply Rdiv_lt_0_compat; lra). unfold Rpower. reflexivity. }
    rewrite H. unfold s. rewrite <- sqrt_div by lra. f_equal. field. lra.
Qed.
(** * Rules for integrals over the line *)
Lemma is_int_ext f g I : (forall t, f t = g t) -> is_int f I -> is_int g I.
Proof. intros H. apply is_RInt_gen_ext. apply filter_forall. intros [x y] t _. apply H. Qed.
Lemma is_int_scal c f I : is_int f I -> is_int (fun t => c * f t) (c * I).
Proof. exact (is_RInt_gen_scal f c I). Qed.
Lemma is_int_plus f g I J : is_int f I -> is_int g J -> is_int (fun t => f t + g t) (I + J).
Proof. exact (is_RInt_gen_plus f g I J). Qed.
Lemma is_int_zero : is_int (fun _ => 0) 0.
Proof.
  pose proof (is_int_scal 0 _ _ (gauss_int_quad 1 0 0 Rlt_0_1)) as H. rewrite Rmult_0_l in H. revert H. apply is_int_ext. intros t. apply Rmult_0_l.
Qed.
Lemma is_int_unique f I J : is_int f I -> is_int f J -> I = J.
Proof. intros H1 H2. rewrite <- (is_RInt_gen_unique _ _ H1). now apply (is_RInt_gen_unique (V := R_CompleteNormedModule)). Qed.
