(** The linear Gaussian in explicit form, and instances. *)
From Verif Require Export LinGauss.
Local Open Scope string_scope.
Local Open Scope list_scope.
Local Open Scope R_scope.

Lemma noise_lp N A b xs ys w e : NoDup ys -> nr A = length ys -> nr N = length ys -> nc N = length ys -> posdef N ->
  lp (cov_obj ys (N, lin_mean A b xs e, Fin w)) e = Ok (Fin (w - 1 / 2 * ln ((2 * PI) ^ length ys * mdet N) -
    1 / 2 * qsum (length ys) (minv N) (fun i => e (nth i ys "") - (rsum (length xs) (fun l => ent A i l * e (nth l xs "")) + ent b i 0)))).
Proof.
  intros Hd A1 N1 N2 PN. assert (Sh : shaped (length ys) (N, lin_mean A b xs e, Fin w)) by (cbn; rewrite A1; now repeat split).
  unfold lp, cov_obj. cbn [ga_vars]. rewrite lp_cov_only. rewrite (cov_log_potential_ok (length ys)) by (exact Sh || apply map_length || (split; [apply PN|now apply posdef_det])).
  cbn [vsub vopp vadd]. do 2 f_equal.
  assert (Q : forall u v, (forall i, (i < length ys)%nat -> u i = - v i) -> qsum (length ys) (minv N) u = qsum (length ys) (minv N) v).
  { intros u v H. unfold qsum. apply rsum_ext. intros i Hi. apply rsum_ext. intros j Hj. rewrite (H i Hi), (H j Hj). ring. }
  rewrite (Q _ (fun i => e (nth i ys "") - (rsum (length xs) (fun l => ent A i l * e (nth l xs "")) + ent b i 0))); [lra|].
  intros i Hi. cbn [lin_mean ent]. rewrite (nth_indep _ 0 (e "")) by (rewrite map_length; exact Hi). rewrite map_nth. ring.
Qed.
Theorem linear_density a N xs ys : let n := length xs in NoDup (xs ++ ys) -> length ys = n -> nr a = n -> nc a = n ->
  nr N = n -> nc N = n -> posdef N ->
  exists f, make_linear_gaussian a N xs ys = Ok f /\ wf_gauss f /\ sym_prec f /\ ga_vars f = xs ++ ys /\
    (forall e, lp f e = Ok (Fin (- (1 / 2) * ln ((2 * PI) ^ n * mdet N) -
       1 / 2 * qsum n (minv N) (fun i => e (nth i ys "") - rsum n (fun l => ent a i l * e (nth l xs "")))))) /\
    (forall zs e, Permutation zs ys -> iint zs (gval f) e 1).
Proof.
  intros n Hd Ly A1 A2 N1 N2 PN. destruct (linear_gaussian_spec a N xs ys Hd Ly A1 A2 N1 N2 PN) as (f & K & h & g & E & W & V & Ec & Ev & HK & _ & _ & L).
  exists f. split; [exact E|]. split; [exact W|]. split; [intros p Hp; rewrite Ec in Hp; injection Hp as <-; exact HK|]. split; [exact V|]. split.
  - intros e. rewrite (L e (mzeros n 1)) by reflexivity.
    rewrite (noise_lp N a (mzeros n 1) xs ys 0 e); try congruence; [|exact (NoDup_app_tail _ _ Hd)]. rewrite Ly. fold n. do 2 f_equal.
    assert (Q : forall u v, (forall i, (i < n)%nat -> u i = v i) -> qsum n (minv N) u = qsum n (minv N) v).
    { intros u v H. unfold qsum. apply rsum_ext. intros i Hi. apply rsum_ext. intros j Hj. now rewrite (H i Hi), (H j Hj). }
    rewrite (Q _ (fun i => e (nth i ys "") - rsum n (fun l => ent a i l * e (nth l xs "")))); [lra|]. intros i Hi. cbn [mzeros ent]. ring.
  - intros zs e HP. now apply (linear_gaussian_integral a N xs ys f zs e).
Qed.
Theorem template_density a N xs ys xs' ys' d : let n := length xs in NoDup (xs ++ ys) -> length ys = n -> nr a = n -> nc a = n ->
  nr N = n -> nc N = n -> posdef N -> format_list_elements xs d = Ok xs' -> format_list_elements ys d = Ok ys' -> NoDup (xs' ++ ys') ->
  exists t f, make_linear_gaussian_cpd_template a N xs ys = Ok t /\ gt_make_factor t (Some d) None = Ok f /\
    gt_make_factor t None (Some (xs' ++ ys')) = Ok f /\ wf_gauss f /\ ga_vars f = xs' ++ ys' /\ ga_vac f = true /\
    (forall e, lp f e = Ok (Fin (- (1 / 2) * qsum n (minv N) (fun i => e (nth i ys' "") - rsum n (fun l => ent a i l * e (nth l xs' "")))))).
Proof.
  intros n Hd Ly A1 A2 N1 N2 PN Ex Ey Hd'. pose proof (mapM_length _ _ _ Ex) as Lx'. pose proof (mapM_length _ _ _ Ey) as Ly'.
  destruct (cpd_template_spec a N xs ys xs' ys' d Hd Ly A1 A2 N1 N2 PN Ex Ey Hd') as (t & f & E1 & E2 & E3 & W & V & Vc & L).
  exists t, f. do 6 (split; [assumption|]). intros e. rewrite (L e (mzeros n 1)) by reflexivity.
  assert (Ly2 : length ys' = n) by (rewrite Ly'; exact Ly).
  rewrite (noise_lp N a (mzeros n 1) xs' ys' _ e); try (rewrite ?Ly2; unfold n in *; congruence); [|exact (NoDup_app_tail _ _ Hd')]. rewrite Ly2, Lx'. fold n. do 2 f_equal.
  assert (Q : forall u v, (forall i, (i < n)%nat -> u i = v i) -> qsum n (minv N) u = qsum n (minv N) v).
  { intros u v H. unfold qsum. apply rsum_ext. intros i Hi. apply rsum_ext. intros j Hj. now rewrite (H i Hi), (H j Hj). }
  rewrite (Q _ (fun i => e (nth i ys' "") - rsum n (fun l => ent a i l * e (nth l xs' "")))); [lra|]. intros i Hi. cbn [mzeros ent]. ring.
Qed.
Theorem template_mass a N xs ys xs' ys' d t f zs e : let n := length xs in NoDup (xs ++ ys) -> length ys = n -> nr a = n -> nc a = n ->
  nr N = n -> nc N = n -> posdef N -> format_list_elements xs d = Ok xs' -> format_list_elements ys d = Ok ys' -> NoDup (xs' ++ ys') ->
  make_linear_gaussian_cpd_template a N xs ys = Ok t -> gt_make_factor t (Some d) None = Ok f -> Permutation zs ys' ->
  iint zs (gval f) e (exp (1 / 2 * ln ((2 * PI) ^ n * mdet N))).
Proof.
  intros n Hd Ly A1 A2 N1 N2 PN Ex Ey Hd' Et Ef HP. pose proof (mapM_length _ _ _ Ex) as Lx'. pose proof (mapM_length _ _ _ Ey) as Ly'.
  destruct (cpd_template_spec a N xs ys xs' ys' d Hd Ly A1 A2 N1 N2 PN Ex Ey Hd') as (t' & f' & E1 & E2 & E3 & W & V & Vc & L).
  rewrite Et in E1. injection E1 as <-. rewrite Ef in E2. injection E2 as <-.
  apply (iint_ext zs (fun e => gval (cov_obj ys' (N, lin_mean a (mzeros n 1) xs' e, Fin (1 / 2 * ln ((2 * PI) ^ n * mdet N)))) e)).
  - intros e'. unfold gval. rewrite (L e' (mzeros n 1)) by reflexivity. reflexivity.
  - apply noise_integral; congruence.
Qed.
(** The mass is 1 only by accident. *)
Lemma mass_one n D : 0 < D -> 1 < (2 * PI) ^ n * D -> exp (1 / 2 * ln ((2 * PI) ^ n * D)) <> 1.
Proof.
  intros HD H1 H2. assert (H3 : 1 / 2 * ln ((2 * PI) ^ n * D) = 0) by (apply exp_inv; now rewrite exp_0). pose proof (ln_increasing 1 _ Rlt_0_1 H1). rewrite ln_1 in H. lra.
Qed.
Lemma lin_example : exists a N (xs ys : list string), NoDup (xs ++ ys) /\ length ys = length xs /\ nr a = length xs /\ nc a = length xs /\ nr N = length xs /\ nc N = length xs /\
  posdef N /\ length xs = 2%nat /\ ent a 0 1 = 1 /\ ent a 1 0 = 0.
Proof.
  exists (Mat 2 2 (fun i j => if Nat.leb i j then 1 else 0)), exK, ["x"; "y"], ["u"; "v"].
  split; [repeat constructor; cbn; intuition discriminate|]. do 5 (split; [reflexivity|]). split; [exact exK_posdef|]. split; [reflexivity|]. now cbn.
Qed.
Lemma lin_nonsquare : exists a N (xs ys : list string), NoDup (xs ++ ys) /\ nc a = length xs /\ nr a = length ys /\ nr N = nr a /\ nc N = nr a /\ posdef N /\
  make_linear_gaussian a N xs ys = Err ValueError.
Proof.
  exists (Mat 1 2 (fun _ _ => 1)), (meye 1), ["x"; "y"], ["u"]. split; [repeat constructor; cbn; intuition discriminate|]. do 4 (split; [reflexivity|]).
  split; [apply eye_posdef|]. apply lin_wrong_rows; try reflexivity; [cbn; lia|apply eye_posdef].
Qed.
Lemma lin_nonsquare_all a N xs ys : nc a = length xs -> nr a = length ys -> nr N = nr a -> nc N = nr a -> posdef N -> length xs <> length ys ->
  make_linear_gaussian a N xs ys = Err ValueError.
Proof. intros. apply lin_wrong_rows; congruence. Qed.
Lemma template_example : exists a N (xs ys xs' ys' : list string) d, NoDup (xs ++ ys) /\ length ys = length xs /\ nr a = length xs /\ nc a = length xs /\ nr N = length xs /\ nc N = length xs /\
  posdef N /\ format_list_elements xs d = Ok xs' /\ format_list_elements ys d = Ok ys' /\ NoDup (xs' ++ ys') /\ length xs = 2%nat.
Proof.
  exists (Mat 2 2 (fun i j => if Nat.leb i j then 1 else 0)), exK, ["x_{t}"; "y"], ["u_{t}"; "v"], ["x_3"; "y"], ["u_3"; "v"], [("t", "3")].
  split; [repeat constructor; cbn; intuition discriminate|]. do 5 (split; [reflexivity|]). split; [exact exK_posdef|]. split; [reflexivity|]. split; [reflexivity|].
  split; [repeat constructor; cbn; intuition discriminate|reflexivity].
Qed.
Lemma template_mass_refuted : exists a N (xs ys xs' ys' : list string) d t f, NoDup (xs ++ ys) /\ length ys = length xs /\ nr a = length xs /\ nc a = length xs /\ nr N = length xs /\ nc N = length xs /\
  posdef N /\ format_list_elements xs d = Ok xs' /\ format_list_elements ys d = Ok ys' /\ NoDup (xs' ++ ys') /\
  make_linear_gaussian_cpd_template a N xs ys = Ok t /\ gt_make_factor t (Some d) None = Ok f /\ forall e, ~ iint ys' (gval f) e 1.
Proof.
  assert (H1 : NoDup (["x_{t}"] ++ ["u_{t}"])) by (repeat constructor; cbn; intuition discriminate).
  assert (H2 : NoDup (["x_3"] ++ ["u_3"])) by (repeat constructor; cbn; intuition discriminate).
  destruct (cpd_template_spec (meye 1) (meye 1) ["x_{t}"] ["u_{t}"] ["x_3"] ["u_3"] [("t", "3")] H1 eq_refl eq_refl eq_refl eq_refl eq_refl (eye_posdef 1) eq_refl eq_refl H2)
    as (t & f & E1 & E2 & _).
  exists (meye 1), (meye 1), ["x_{t}"], ["u_{t}"], ["x_3"], ["u_3"], [("t", "3")], t, f. split; [exact H1|]. do 5 (split; [reflexivity|]).
  split; [apply eye_posdef|]. do 2 (split; [reflexivity|]). split; [exact H2|]. do 2 (split; [assumption|]). intros e HI.
  pose proof (template_mass (meye 1) (meye 1) ["x_{t}"] ["u_{t}"] ["x_3"] ["u_3"] [("t", "3")] t f ["u_3"] e H1 eq_refl eq_refl eq_refl eq_refl eq_refl (eye_posdef 1) eq_refl eq_refl H2 E1 E2 (Permutation_refl _)) as HI2.
  pose proof (iint_unique _ _ _ _ _ HI HI2) as C. symmetry in C. apply mass_one in C; [exact C|rewrite mdet_eye; exact Rlt_0_1|].
  assert (mdet (meye 1) = 1) as -> by apply mdet_eye. pose proof PI_RGT_0. pose proof PI2_3_2. cbn [length pow]. lra.
Qed.
(** A template object: the identity transform with unit noise. *)
Lemma template_flag_instance : exists o K h g (vars xs ys : list string), oracle_ok o /\ NoDup vars /\ shaped (length vars) (K, h, Fin g) /\ posdef K /\ Permutation (ys ++ xs) vars /\ xs <> [] /\ ys <> [].
Proof.
  destruct id_oracle_ok as (o & Ho). exists o, exK, exh, 0, ["a"; "b"], ["b"], ["a"]. split; [exact Ho|]. split; [now apply nd2|]. split; [now repeat split|]. split; [exact exK_posdef|].
  split; [reflexivity|]. split; discriminate.
Qed.

(** Names may be given in one way only. *)
Lemma template_both_ways t d l : gt_make_factor t (Some d) (Some l) = Err AssertionError.
Proof. reflexivity. Qed.
Lemma template_no_names t : gt_make_factor t None None = Err ValueError.
Proof. reflexivity. Qed.
