(** What make_linear_gaussian and the templates compute. *)
From Verif Require Export LinFacts IntConst FactMarg.
#[global] Set Bullet Behavior "Strict Subproofs".
Local Open Scope R_scope.

Lemma hcat_ok A B : nr A = nr B -> exists M, hcat A B = Ok M /\ nr M = nr A /\ nc M = (nc A + nc B)%nat /\
  (forall i j, (j < nc A)%nat -> ent M i j = ent A i j) /\ (forall i j, ent M i (nc A + j) = ent B i j).
Proof.
  intros H. unfold hcat. rewrite H, Nat.eqb_refl. eexists. split; [reflexivity|]. cbn [nr nc ent]. split; [reflexivity|]. split; [reflexivity|]. split.
  - intros i j Hj. now rewrite (proj2 (Nat.ltb_lt j (nc A)) Hj).
  - intros i j. rewrite (proj2 (Nat.ltb_ge (nc A + j) (nc A))) by lia. now replace (nc A + j - nc A)%nat with j by lia.
Qed.
Lemma rsum_eye n i f : (i < n)%nat -> rsum n (fun k => ent (meye n) i k * f k) = f i.
Proof. intros H. exact (rsum_idn n i f H). Qed.
Lemma rsum_eye_r n j f : (j < n)%nat -> rsum n (fun k => f k * ent (meye n) k j) = f j.
Proof.
  intros H. rewrite (rsum_ext _ _ (fun k => ent (meye n) j k * f k)); [now apply rsum_eye|]. intros k _. cbn [meye ent]. rewrite (Nat.eqb_sym j k). ring.
Qed.
Lemma qsum_eye n u : qsum n (minv (meye n)) u = rsum n (fun i => u i * u i).
Proof.
  unfold qsum. apply rsum_ext. intros i Hi. rewrite (rsum_ext _ _ (fun j => idn i j * (u i * u j))) by (intros j Hj; rewrite minv_eye by assumption; ring).
  now rewrite rsum_idn.
Qed.
Lemma rsum_add n p f : rsum (n + p) f = rsum n f + rsum p (fun i => f (n + i)%nat).
Proof.
  induction p as [|p IH]; [rewrite Nat.add_0_r; unfold rsum at 3; cbn; ring|].
  rewrite Nat.add_succ_r, !rsum_S, IH. ring.
Qed.
Lemma qsum_sub_top n p A B u : (forall i j, (i < n)%nat -> (j < n)%nat -> ent B i j = idn i j) -> nr A = (n + p)%nat -> nc A = (n + p)%nat ->
  qsum (n + p) (sub_top A B n) u = qsum (n + p) A u - rsum n (fun i => u i * u i).
Proof.
  intros HB H1 H2. unfold qsum. rewrite !rsum_add.
  assert (T : forall i, (i < n)%nat -> rsum (n + p) (fun j => u i * ent (sub_top A B n) i j * u j) = rsum (n + p) (fun j => u i * ent A i j * u j) - u i * u i).
  { intros i Hi. rewrite !rsum_add.
    rewrite (rsum_ext n (fun j => u i * ent (sub_top A B n) i j * u j) (fun j => u i * ent A i j * u j - idn i j * (u i * u j))).
    - rewrite rsum_minus, rsum_idn by exact Hi. rewrite (rsum_ext p (fun i0 => u i * ent (sub_top A B n) i (n + i0) * u (n + i0)%nat) (fun i0 => u i * ent A i (n + i0) * u (n + i0)%nat)); [ring|].
      intros k _. cbn [sub_top ent]. rewrite (proj2 (Nat.ltb_ge (n + k) n)) by lia. rewrite andb_false_r. reflexivity.
    - intros j Hj. cbn [sub_top ent]. rewrite (proj2 (Nat.ltb_lt i n) Hi), (proj2 (Nat.ltb_lt j n) Hj). cbn [andb]. rewrite HB by assumption. ring. }
  rewrite (rsum_ext n _ _ T), rsum_minus.
  rewrite (rsum_ext p (fun i => rsum (n + p) (fun j => u (n + i)%nat * ent (sub_top A B n) (n + i) j * u j)) (fun i => rsum (n + p) (fun j => u (n + i)%nat * ent A (n + i) j * u j))); [ring|].
  intros k _. apply rsum_ext. intros j _. cbn [sub_top ent]. rewrite (proj2 (Nat.ltb_ge (n + k) n)) by lia. reflexivity.
Qed.

(** The covariance array of make_linear_gaussian has the linear blocks. *)
Lemma lin_cov n p a N : nr a = p -> nc a = n -> nr N = p -> nc N = p ->
  exists cat ac aca cyy top bottom cov, mmul (meye n) (mtr a) = Ok cat /\ mmul a (meye n) = Ok ac /\ mmul ac (mtr a) = Ok aca /\ madd aca N = Ok cyy /\
    hcat (meye n) cat = Ok top /\ hcat ac cyy = Ok bottom /\ vcat top bottom = Ok cov /\ nr cov = (n + p)%nat /\ nc cov = (n + p)%nat /\ lin_blocks n p a (meye n) N cov.
Proof.
  intros A1 A2 N1 N2. exists (mmul0 (meye n) (mtr a)), (mmul0 a (meye n)), (mmul0 (mmul0 a (meye n)) (mtr a)).
  destruct (mzip_ok Rplus (mmul0 (mmul0 a (meye n)) (mtr a)) N) as (cyy & E4 & Y1 & Y2 & Y3); [cbn; congruence|cbn; congruence|]. exists cyy.
  destruct (hcat_ok (meye n) (mmul0 (meye n) (mtr a))) as (top & E5 & T1 & T2 & T3 & T4); [reflexivity|]. exists top.
  destruct (hcat_ok (mmul0 a (meye n)) cyy) as (bot & E6 & B1 & B2 & B3 & B4); [cbn in *; congruence|]. exists bot.
  cbn [mmul0 mtr meye nr nc] in *. destruct (vcat_ok top bot) as (cov & E7 & V1 & V2 & V3 & V4); [lia|]. exists cov.
  split; [apply mmul_ok; cbn; congruence|]. split; [apply mmul_ok; cbn; congruence|]. split; [apply mmul_ok; cbn; congruence|]. split; [exact E4|]. split; [exact E5|]. split; [exact E6|]. split; [exact E7|].
  split; [lia|]. split; [lia|]. rewrite T1 in V3, V4. split; [lia|]. split; [|split; [|split]].
  - intros i j Hi Hj. rewrite V3 by lia. now apply T3.
  - intros i j Hi Hj. rewrite V4, B3 by lia. cbn [mmul0 ent]. rewrite A2. reflexivity.
  - intros i j Hi Hj. rewrite V3 by lia. rewrite T4. cbn [mmul0 mtr ent nc].
    change (rsum n (fun k => ent (meye n) j k * ent a i k) = rsum n (fun l => ent a i l * ent (meye n) l j)). rewrite rsum_eye by exact Hj. symmetry. exact (rsum_eye_r n j (fun l => ent a i l) Hj).
  - intros i j Hi Hj. rewrite V4, B4. rewrite Y3 by lia. cbn [mmul0 mtr ent nc meye]. f_equal. apply rsum_ext. intros q Hq. rewrite A2.
    rewrite (rsum_ext n (fun q0 => ent a i q * (if Nat.eqb q q0 then 1 else 0) * ent a j q0) (fun q0 => ent (meye n) q q0 * (ent a i q * ent a j q0))) by (intros; cbn [meye ent]; ring).
    rewrite rsum_eye by exact Hq. f_equal. exact (rsum_eye_r n q (fun l => ent a i l) Hq).
Qed.

Theorem linear_gaussian_spec a N xs ys : let n := length xs in NoDup (xs ++ ys) -> length ys = n -> nr a = n -> nc a = n ->
  nr N = n -> nc N = n -> posdef N ->
  exists f K h g, make_linear_gaussian a N xs ys = Ok f /\ wf_gauss f /\ ga_vars f = xs ++ ys /\ ga_can f = Some (K, h, g) /\ ga_cov f = None /\
    symm K /\ g = Fin (- (1 / 2) * ln ((2 * PI) ^ n * mdet N)) /\
    (forall i, (i < n + n)%nat -> ent h i 0 = 0) /\
    (forall e b, (forall i, (i < n)%nat -> ent b i 0 = 0) -> lp f e = lp (cov_obj ys (N, lin_mean a b xs e, Fin 0)) e).
Proof.
  intros n Hd Ly A1 A2 N1 N2 PN. unfold make_linear_gaussian. fold n.
  assert (De : mdet (meye n) <> 0) by (rewrite mdet_eye; change R1 with 1; lra).
  rewrite np_inv_ok by (reflexivity || exact De). cbn [bind].
  rewrite mmul_ok by reflexivity. cbn [bind]. rewrite mmul_ok by reflexivity. cbn [bind]. rewrite det_2pi_ok by reflexivity. cbn [bind].
  destruct (lin_cov n n a N A1 A2 N1 N2) as (cat & ac & aca & cyy & top & bot & cov & E1 & E2 & E3 & E4 & E5 & E6 & E7 & C1 & C2 & BL).
  rewrite E1. cbn [bind]. rewrite E2. cbn [bind]. rewrite E3. cbn [bind]. rewrite E4. cbn [bind]. rewrite E5. cbn [bind]. rewrite E6. cbn [bind]. rewrite E7. cbn [bind].
  destruct (lin_mat n n a (meye n) N cov eq_refl N1 (eye_posdef n) PN BL) as (PJ & DJ & QJ).
  rewrite np_inv_ok by (congruence || now apply posdef_det_neq). cbn [bind].
  rewrite (mmul_ok (mtr a)) by (cbn; exact A1). cbn [bind].
  destruct (vcat_ok (mzeros n 1) (mmul0 (mtr a) (mzeros n 1))) as (mj & E8 & M1 & M2 & M3 & M4); [reflexivity|]. rewrite E8. cbn [bind].
  cbn [mzeros mmul0 mtr nr nc] in M1, M2. rewrite A2 in M1. cbn [mzeros nr] in M3, M4.
  assert (Z : forall i, (i < n + n)%nat -> ent mj i 0 = 0).
  { intros i Hi. destruct (lt_dec i n) as [L|L]; [now rewrite M3|]. replace i with (n + (i - n))%nat by lia. rewrite M4. cbn [mmul0 ent]. apply rsum_zero. intros k _. cbn [mzeros ent]. ring. }
  rewrite mmul_ok by (cbn; congruence). cbn [bind]. rewrite (quad_ok (n + n)) by (cbn; congruence). cbn [bind]. rewrite det_2pi_ok by congruence. cbn [bind].
  assert (PP : 0 < (2 * PI) ^ n) by apply pow_lt, twopi_pos. pose proof (posdef_det N PN) as DN.
  rewrite (rlog_pos ((2 * PI) ^ nr (meye n) * mdet (meye n))) by (rewrite mdet_eye; change R1 with 1; cbn [meye nr]; lra).
  rewrite (rlog_pos ((2 * PI) ^ nr cov * mdet cov)) by (apply Rmult_lt_0_compat; [apply pow_lt, twopi_pos|now apply posdef_det]).
  set (K := sub_top (minv cov) (minv (meye n)) n). set (h := sub_head (mmul0 (minv cov) mj) (mmul0 (minv (meye n)) (mzeros n 1)) n).
  assert (QZ : qsum (n + n) (minv cov) (fun i => ent mj i 0) = 0).
  { unfold qsum. apply rsum_zero. intros i Hi. apply rsum_zero. intros j Hj. rewrite Z by exact Hi. ring. }
  rewrite QZ. match goal with |- context [mk_can _ K h ?g] => set (g0 := g) end.
  assert (Eg : g0 = Fin (- (1 / 2) * ln ((2 * PI) ^ n * mdet N))).
  { unfold g0. rewrite DJ, C1, mdet_eye. change R1 with 1. rewrite pow_add. cbn [vhalf vmul vsub vopp vadd meye nr].
    replace ((2 * PI) ^ n * (2 * PI) ^ n * (1 * mdet N)) with ((2 * PI) ^ n * ((2 * PI) ^ n * mdet N)) by ring.
    rewrite ln_mult by (assumption || now apply Rmult_lt_0_compat). replace (ent (mmul0 (mtr (mzeros n 1)) (mmul0 (minv (meye n)) (mzeros n 1))) 0 0) with 0.
    2:{ symmetry. cbn [mmul0 ent]. apply rsum_zero. intros k _. cbn [mtr mzeros ent]. ring. }
    rewrite (Rmult_1_r ((2 * PI) ^ n)). f_equal. ring. }
  assert (Hh : forall i, (i < n + n)%nat -> ent h i 0 = 0).
  { intros i Hi. unfold h. cbn [sub_head mmul0 ent]. rewrite (rsum_zero (nc (minv cov))) by (intros k Hk; rewrite Z by (cbn in Hk; congruence || lia); ring).
    destruct (Nat.ltb i n); [|reflexivity]. rewrite rsum_zero; [ring|]. intros k _. cbn [mzeros ent]. ring. }
  assert (L : length (xs ++ ys) = (n + n)%nat) by (rewrite app_length; fold n; lia).
  assert (Sh : shaped (length (xs ++ ys)) (K, h, g0)) by (rewrite L; cbn; repeat split; congruence).
  rewrite (mk_can_ok (xs ++ ys) K h g0 Hd Sh). do 4 eexists. split; [reflexivity|].
  set (f := {| ga_vars := xs ++ ys; ga_vac := prec_vacuous K; ga_can := Some (K, h, g0); ga_cov := None |}).
  assert (W : wf_gauss f). { split; [exact Hd|]. split; [left; discriminate|]. split; intros q Hq; [|discriminate]. injection Hq as <-. exact Sh. }
  split; [exact W|]. split; [reflexivity|]. split; [reflexivity|]. split; [reflexivity|]. split; [|split; [exact Eg|split; [exact Hh|]]].
  - intros i j Hi Hj. cbn [K sub_top nr] in Hi, Hj. unfold K. cbn [sub_top ent]. rewrite (andb_comm (Nat.ltb j n)).
    assert (S1 : ent (minv cov) i j = ent (minv cov) j i) by (apply symm_minv; [apply PJ| |]; assumption).
    destruct (Nat.ltb i n && Nat.ltb j n) eqn:B; [|exact S1]. apply andb_prop in B as (B1%Nat.ltb_lt & B2%Nat.ltb_lt). rewrite S1, !minv_eye by assumption.
    unfold idn. rewrite Nat.eqb_sym. reflexivity.
  - intros e b Hb. unfold lp at 1. rewrite (lp_canon f f K h g0 e W (get_can_some f K h g0 eq_refl)). cbn [ga_vars f]. rewrite can_form_pos by exact Hd. rewrite L.
    unfold K at 1. rewrite (qsum_sub_top n n) by (cbn; congruence || (intros; now apply minv_eye)). rewrite QJ, qsum_eye.
    rewrite (rsum_zero (n + n) (fun i => e (nth i (xs ++ ys) ""%string) * ent h i 0)) by (intros i Hi; rewrite Hh by exact Hi; ring).
    unfold lp, cov_obj. cbn [ga_vars]. rewrite lp_cov_only.
    rewrite (cov_log_potential_ok n) by ((now repeat split) || (now rewrite map_length) || (split; [apply PN|now apply posdef_det])).
    rewrite Eg. cbn [vadd vsub vopp]. f_equal. f_equal.
    match goal with |- _ * (?s + ?x - ?s') + 0 + _ = _ + _ * ?y => enough (x = y) as -> by ring end.
    assert (NEG : forall q u, qsum n q (fun i => - u i) = qsum n q u).
    { intros q u. unfold qsum. apply rsum_ext. intros i Hi. apply rsum_ext. intros j Hj. ring. }
    rewrite <- NEG. apply qsum_ext; [reflexivity|]. intros i Hi. cbn [lin_mean ent]. fold n. rewrite Hb by exact Hi. rewrite nth_map_d by congruence.
    rewrite app_nth2 by (fold n; lia). fold n. replace (n + i - n)%nat with i by lia.
    rewrite (rsum_ext n (fun l => ent a i l * e (nth l (xs ++ ys) ""%string)) (fun l => ent a i l * e (nth l xs ""%string))) by (intros l Hl; now rewrite app_nth1). ring.
Qed.

(** The parameters depend on the names only through their number. *)
Lemma mk_can_params vars K h g f : mk_can vars K h g = Ok f -> exists K' h', make_square_matrix K = Ok K' /\ make_column_vector h = Ok h' /\ ga_can f = Some (K', h', g).
Proof.
  unfold mk_can. destruct (raise_if _ _); cbn [bind]; [|discriminate]. destruct (make_square_matrix K) as [K'|]; cbn [bind]; [|discriminate].
  destruct (make_column_vector h) as [h'|]; cbn [bind]; [|discriminate]. destruct (py_assert _); cbn [bind]; [|discriminate]. destruct (py_assert _); cbn [bind]; [|discriminate].
  intros [= <-]. now exists K', h'.
Qed.
Lemma lin_rename a N xs ys xs' ys' f f' : length xs = length xs' -> make_linear_gaussian a N xs ys = Ok f -> make_linear_gaussian a N xs' ys' = Ok f' -> ga_can f = ga_can f'.
Proof.
  intros L H H'. unfold make_linear_gaussian in H, H'. rewrite <- L in H'.
  repeat match type of H with bind ?x _ = _ => destruct x; cbn [bind] in H, H'; [|discriminate H] end.
  destruct (mk_can_params _ _ _ _ _ H) as (K1 & h1 & A1 & B1 & C1). destruct (mk_can_params _ _ _ _ _ H') as (K2 & h2 & A2 & B2 & C2). congruence.
Qed.
(** A transform that is not square. *)
Lemma lin_wrong_columns a N xs ys : nc a <> length xs -> make_linear_gaussian a N xs ys = Err ValueError.
Proof.
  intros H. unfold make_linear_gaussian. set (n := length xs) in *. assert (De : mdet (meye n) <> 0) by (rewrite mdet_eye; change R1 with 1; lra).
  rewrite np_inv_ok by (reflexivity || exact De). cbn [bind]. rewrite mmul_ok by reflexivity. cbn [bind]. rewrite mmul_ok by reflexivity. cbn [bind]. rewrite det_2pi_ok by reflexivity. cbn [bind].
  unfold mmul at 1. cbn [meye mtr nc nr]. destruct (Nat.eqb_spec n (nc a)); [congruence|]. reflexivity.
Qed.
Lemma lin_wrong_rows a N xs ys : nc a = length xs -> nr a <> length xs -> nr N = nr a -> nc N = nr a -> posdef N -> make_linear_gaussian a N xs ys = Err ValueError.
Proof.
  intros A2 A1 N1 N2 PN. unfold make_linear_gaussian. set (n := length xs) in *. assert (De : mdet (meye n) <> 0) by (rewrite mdet_eye; change R1 with 1; lra).
  rewrite np_inv_ok by (reflexivity || exact De). cbn [bind]. rewrite mmul_ok by reflexivity. cbn [bind]. rewrite mmul_ok by reflexivity. cbn [bind]. rewrite det_2pi_ok by reflexivity. cbn [bind].
  destruct (lin_cov n (nr a) a N eq_refl A2 N1 N2) as (cat & ac & aca & cyy & top & bot & cov & E1 & E2 & E3 & E4 & E5 & E6 & E7 & C1 & C2 & BL).
  rewrite E1. cbn [bind]. rewrite E2. cbn [bind]. rewrite E3. cbn [bind]. rewrite E4. cbn [bind]. rewrite E5. cbn [bind]. rewrite E6. cbn [bind]. rewrite E7. cbn [bind].
  destruct (lin_mat n (nr a) a (meye n) N cov eq_refl N1 (eye_posdef n) PN BL) as (PJ & _).
  rewrite np_inv_ok by (congruence || now apply posdef_det_neq). cbn [bind].
  unfold mmul at 1. cbn [mzeros mtr nc nr]. destruct (Nat.eqb_spec (nr a) n); [congruence|]. reflexivity.
Qed.

(** Integrals when the integrand is only known near one assignment. *)
Lemma iint_ext_on ys : forall F G e I, (forall e', (forall v, ~ In v ys -> e' v = e v) -> F e' = G e') -> iint ys F e I -> iint ys G e I.
Proof.
  induction ys as [|y ys IH]; intros F G e I H; cbn.
  - rewrite H by reflexivity. auto.
  - intros (J & HJ & HI). exists J. split; [|exact HI]. intros t. apply (IH F); [|apply HJ].
    intros e' He'. apply H. intros v Hv. rewrite He' by (intros Hi; apply Hv; now right). apply setv_other. intros ->. apply Hv. now left.
Qed.
Lemma lin_mean_on A b xs e e' : (forall v, In v xs -> e' v = e v) -> lin_mean A b xs e' = lin_mean A b xs e.
Proof.
  intros H. unfold lin_mean. f_equal. apply FunctionalExtensionality.functional_extensionality. intros i. apply FunctionalExtensionality.functional_extensionality. intros j.
  f_equal. apply rsum_ext. intros l Hl. rewrite H; [reflexivity|]. now apply nth_In.
Qed.
Lemma noise_integral N A b xs ys w e : NoDup (xs ++ ys) -> nr A = length ys -> nr N = length ys -> nc N = length ys -> posdef N ->
  forall zs, Permutation zs ys -> iint zs (fun e => gval (cov_obj ys (N, lin_mean A b xs e, Fin w)) e) e (exp w).
Proof.
  intros Hd HA N1 N2 PN zs HP. assert (Dy : NoDup ys) by now apply NoDup_app_tail in Hd.
  assert (Sh : shaped (length ys) (N, lin_mean A b xs e, Fin w)) by (cbn; auto).
  apply (iint_ext_on zs (gval (cov_obj ys (N, lin_mean A b xs e, Fin w)))).
  - intros e' He'. rewrite (lin_mean_on A b xs e e'); [reflexivity|]. intros v Hv. apply He'. intros Hz. apply (Permutation_in _ HP) in Hz.
    clear - Hd Hv Hz. induction xs as [|x xs IH]; [destruct Hv|]. cbn in Hd. inversion Hd as [|? ? Hn Hd']; subst. destruct Hv as [->|Hv]; [|now apply IH]. apply Hn, in_or_app. now right.
  - exact (proj2 (weight_integral _ _ N (lin_mean A b xs e) (Fin w) zs e (solid_cov ys N _ (Fin w) Dy Sh PN) (cov_plain ys N _ w Dy Sh PN) (get_cov_obj ys _) HP)).
Qed.
Theorem linear_gaussian_integral a N xs ys f zs e : NoDup (xs ++ ys) -> length ys = length xs -> nr a = length xs -> nc a = length xs ->
  nr N = length xs -> nc N = length xs -> posdef N -> make_linear_gaussian a N xs ys = Ok f -> Permutation zs ys -> iint zs (gval f) e 1.
Proof.
  intros Hd Ly A1 A2 N1 N2 PN E HP. destruct (linear_gaussian_spec a N xs ys Hd Ly A1 A2 N1 N2 PN) as (f' & K & h & g & E' & W & V & _ & _ & _ & _ & _ & L).
  rewrite E in E'. injection E' as <-. rewrite <- exp_0. set (b := mzeros (length xs) 1).
  apply (iint_ext zs (fun e => gval (cov_obj ys (N, lin_mean a b xs e, Fin 0)) e)).
  - intros e'. unfold gval. rewrite (L e' b) by reflexivity. reflexivity.
  - apply noise_integral; congruence.
Qed.

(** Templates. *)
Lemma template_factor_ok K h g vars : NoDup vars -> shaped (length vars) (K, h, g) ->
  g_template_factor K h g vars = Ok {| ga_vars := vars; ga_vac := true; ga_can := Some (K, h, g); ga_cov := None |}.
Proof. intros Hd Sh. unfold g_template_factor. now rewrite mk_can_ok. Qed.
Theorem cpd_template_spec a N xs ys xs' ys' d : let n := length xs in NoDup (xs ++ ys) -> length ys = n -> nr a = n -> nc a = n ->
  nr N = n -> nc N = n -> posdef N -> format_list_elements xs d = Ok xs' -> format_list_elements ys d = Ok ys' -> NoDup (xs' ++ ys') ->
  exists t f, make_linear_gaussian_cpd_template a N xs ys = Ok t /\ gt_make_factor t (Some d) None = Ok f /\ gt_make_factor t None (Some (xs' ++ ys')) = Ok f /\
    wf_gauss f /\ ga_vars f = xs' ++ ys' /\ ga_vac f = true /\
    (forall e b, (forall i, (i < n)%nat -> ent b i 0 = 0) -> lp f e = lp (cov_obj ys' (N, lin_mean a b xs' e, Fin (1 / 2 * ln ((2 * PI) ^ n * mdet N)))) e).
Proof.
  intros n Hd Ly A1 A2 N1 N2 PN Ex Ey Hd'. pose proof (mapM_length _ _ _ Ex) as Lx'. pose proof (mapM_length _ _ _ Ey) as Ly'. fold n in Lx'. rewrite Ly in Ly'.
  destruct (linear_gaussian_spec a N xs ys Hd Ly A1 A2 N1 N2 PN) as (f0 & K & h & g & E & W & V & Ec & _).
  destruct (linear_gaussian_spec a N xs' ys' Hd') as (f1 & K1 & h1 & g1 & E1 & W1 & V1 & Ec1 & Ev1 & _ & Eg1 & _ & L1); try congruence.
  assert (L' : length (xs' ++ ys') = length (xs ++ ys)) by (rewrite !app_length; fold n; congruence).
  assert (EQ : ga_can f0 = ga_can f1) by (exact (lin_rename a N xs ys xs' ys' f0 f1 (eq_sym Lx') E E1)). rewrite Ec, Ec1 in EQ. injection EQ as <- <- <-.
  assert (Sh : shaped (length (xs' ++ ys')) (K, h, Fin 0)) by (destruct W1 as (_ & _ & H & _); specialize (H _ Ec1); rewrite V1 in H; exact H).
  unfold make_linear_gaussian_cpd_template. fold n. rewrite A1, N1, Nat.eqb_refl. cbn [py_assert bind]. rewrite E. cbn [bind].
  rewrite (get_can_some f0 K h g Ec). cbn [bind snd]. unfold mk_gtemplate, mk_template. cbn [bind]. do 2 eexists. split; [reflexivity|].
  unfold gt_make_factor. cbn [py_assert bind gt_names t_vars fmt_opt gt_prec gt_h gt_g]. unfold format_list_elements in *. rewrite mapM_app, Ex, Ey. cbn [bind].
  rewrite template_factor_ok by assumption. split; [reflexivity|]. split; [reflexivity|].
  set (f := {| ga_vars := xs' ++ ys'; ga_vac := true; ga_can := Some (K, h, Fin 0); ga_cov := None |}).
  assert (Wf : wf_gauss f). { split; [exact Hd'|]. split; [left; discriminate|]. split; intros q Hq; [|discriminate]. injection Hq as <-. exact Sh. }
  split; [exact Wf|]. split; [reflexivity|]. split; [reflexivity|]. intros e b Hb.
  rewrite Lx' in *. assert (Hb' : forall i, (i < n)%nat -> ent b i 0 = 0) by exact Hb.
  specialize (L1 e b Hb'). unfold lp at 1 in L1. rewrite (lp_canon f1 f1 K h g e W1 (get_can_some f1 K h g Ec1)), V1 in L1.
  unfold lp at 1. rewrite (lp_canon f f K h (Fin 0) e Wf (get_can_some f K h (Fin 0) eq_refl)). cbn [ga_vars f].
  assert (Sn : forall w, shaped (length ys') (N, lin_mean a b xs' e, w)) by (intros w; cbn; repeat split; congruence).
  unfold lp, cov_obj in L1 |- *. cbn [ga_vars] in L1 |- *. rewrite lp_cov_only in L1 |- *.
  rewrite (cov_log_potential_ok (length ys')) in L1 |- * by (exact (Sn _) || apply map_length || (split; [apply PN|now apply posdef_det])).
  rewrite Eg1 in L1. cbn [vadd vsub vopp] in L1 |- *. injection L1 as L1. f_equal. f_equal. rewrite Ly' in L1 |- *. cbn [lin_mean ent]. lra.
Qed.
(** What the flag does. *)
Lemma template_marginal o K h g vars f xs : g_template_factor K h g vars = Ok f -> NoDup xs -> exists r, g_marginalize o f xs true = Ok r /\ ga_vars r = xs /\ forall e, lp r e = Ok (Fin 0).
Proof.
  intros E Dx. unfold g_template_factor in E. destruct (mk_can vars K h g) as [f0|]; [|discriminate]. cbn [bind] in E. injection E as <-.
  unfold g_marginalize. cbn [ga_vac marginal_vars]. unfold make_vacuous. set (n := length xs).
  assert (Sh : shaped n (mzeros n n, mzeros n 1, Fin 0)) by now repeat split. rewrite mk_can_ok by assumption. eexists. split; [reflexivity|]. split; [reflexivity|]. intros e.
  set (r := {| ga_vars := xs; ga_vac := _; ga_can := _; ga_cov := _ |}).
  assert (Wr : wf_gauss r). { split; [exact Dx|]. split; [left; discriminate|]. split; intros q Hq; [|discriminate]. injection Hq as <-. exact Sh. }
  unfold lp. rewrite (lp_canon r r _ _ _ e Wr (get_can_some r _ _ _ eq_refl)). cbn [ga_vars r]. rewrite can_form_zero by exact Dx. assert (Z : qsum (length xs) (mzeros n n) (fun i => e (nth i xs ""%string)) = 0) by (unfold qsum; apply rsum_zero; intros i _; apply rsum_zero; intros j _; cbn [mzeros ent]; ring). rewrite Z. cbn [vadd]. f_equal. f_equal. ring.
Qed.
Theorem template_marginal_wrong o K h g vars xs ys : oracle_ok o -> NoDup vars -> shaped (length vars) (K, h, Fin g) -> posdef K -> Permutation (ys ++ xs) vars -> xs <> [] ->
  exists f r, g_template_factor K h (Fin g) vars = Ok f /\ g_marginalize o f xs true = Ok r /\ (forall e, gval r e = 1) /\ ~ (forall e, iint ys (gval f) e (gval r e)).
Proof.
  intros Ho Hd Sh PK HP Nx. set (c := can_obj vars (K, h, Fin g)).
  assert (Dx : NoDup xs) by (apply NoDup_app_tail with ys; exact (Permutation_NoDup (Permutation_sym HP) Hd)).
  exists {| ga_vars := vars; ga_vac := true; ga_can := Some (K, h, Fin g); ga_cov := None |}. set (f := {| ga_vars := vars |}).
  assert (E : g_template_factor K h (Fin g) vars = Ok f) by now apply template_factor_ok.
  destruct (template_marginal o K h (Fin g) vars f xs E Dx) as (r & Er & Vr & Lr). exists r. split; [exact E|]. split; [exact Er|].
  assert (G1 : forall e, gval r e = 1) by (intros e; unfold gval; rewrite Lr; cbn [pot]; apply exp_0). split; [exact G1|]. intros H.
  assert (Wc : wf_gauss c) by now apply wf_can_obj.
  assert (Sc : solid c). { split; [exact Wc|]. split; [reflexivity|]. split; [intros p q Hp Hq; discriminate Hq|]. split; cbn; intros K0 h0 g0 Hk; [|discriminate Hk]. injection Hk as <- _ _. exact PK. }
  assert (Pc : plain c) by (apply (plain_g c c K h (Fin g) Wc (get_can_some c K h (Fin g) eq_refl)); exact I).
  assert (Wf : wf_gauss f). { split; [exact Hd|]. split; [left; discriminate|]. split; intros q Hq; [|discriminate]. injection Hq as <-. exact Sh. }
  assert (Gc : forall e, gval f e = gval c e).
  { intros e. unfold gval, lp. rewrite (lp_canon f f K h (Fin g) e Wf (get_can_some f K h (Fin g) eq_refl)), (lp_canon c c K h (Fin g) e Wc (get_can_some c K h (Fin g) eq_refl)). reflexivity. }
  destruct (marg_integral o ys c xs Ho Sc Pc HP) as (r' & Er' & Vr' & Sr' & Pr' & Ir').
  destruct (marg_solid o r' xs Ho Sr' Dx) as (r2 & C2 & m2 & w2 & _ & _ & _ & _ & Ec2 & _); [rewrite Vr'; apply incl_refl|].
  destruct (weight_integral r' r2 C2 m2 w2 xs (fun _ => 0) Sr' Pr' Ec2) as (_ & Iw); [rewrite Vr'; reflexivity|].
  apply (not_iint_one xs (fun _ => 0) (pot w2) Nx). revert Iw. apply iint_ext. intros e.
  apply (iint_unique ys (gval c) e); [apply Ir'|]. rewrite <- (G1 e). generalize (H e). apply iint_ext. exact Gc.
Qed.
Lemma template_copy K h g vars : NoDup vars -> shaped (length vars) (K, h, g) -> posdef K ->
  exists f c, g_template_factor K h g vars = Ok f /\ g_copy f = Ok c /\ ga_vac f = true /\ ga_vac c = false /\ (forall e, lp c e = lp f e) /\
    g_distance_from_vacuous f = Fin 0 /\ g_distance_from_vacuous c = PInf.
Proof.
  intros Hd Sh PK. do 2 eexists. split; [now apply template_factor_ok|]. split; [unfold g_copy; cbn [ga_cov ga_can ga_vars]; now apply mk_can_ok|].
  cbn [ga_vac]. assert (V : prec_vacuous K = false). { destruct Sh as (S1 & S2 & _). apply posdef_not_vacuous; [congruence|exact PK]. }
  split; [reflexivity|]. split; [exact V|]. split; [|split; [reflexivity|unfold g_distance_from_vacuous; cbn [ga_vac]; now rewrite V]]. intros e. reflexivity.
Qed.
