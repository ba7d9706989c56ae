(** Conversions between the two forms and marginals. *)
From Verif Require Export GaussReduce.
#[global] Set Bullet Behavior "Strict Subproofs".

Lemma vhalf_fin a : vhalf (Fin a) = Fin (1 / 2 * a).
Proof. reflexivity. Qed.

(** * Positive definite matrices are never flagged vacuous *)
Lemma rsum_nonneg n f : (forall i, i < n -> (0 <= f i)%R) -> (0 <= rsum n f)%R.
Proof. intros H. apply Rsum_nonneg. intros i Hi. apply in_seq in Hi. apply H. lia. Qed.
Lemma rsum_pos_one n f i : (forall i, i < n -> (0 <= f i)%R) -> i < n -> (0 < f i)%R -> (0 < rsum n f)%R.
Proof.
  intros H Hi Hp. induction n as [|n IH]; [lia|]. rewrite rsum_S.
  assert (0 <= rsum n f)%R by (apply rsum_nonneg; auto).
  destruct (Nat.eq_dec i n) as [->|N]; [lra|].
  assert (0 < rsum n f)%R by (apply IH; [intros j Hj; apply H; lia|lia]). specialize (H n (Nat.lt_succ_diag_r n)). lra.
Qed.
Lemma qsum_mvec A u : nc A = nr A -> qsum (nr A) A u = rsum (nr A) (fun i => u i * mvec A u i)%R.
Proof.
  intros Hn. unfold qsum, mvec. rewrite Hn. apply rsum_ext. intros i _. rewrite <- rsum_scal. apply rsum_ext. intros j _. ring.
Qed.
Lemma qsum_zero n A u : (forall i, i < n -> u i = 0%R) -> qsum n A u = 0%R.
Proof.
  intros H. apply rsum_zero. intros i Hi. apply rsum_zero. intros j Hj. rewrite H by exact Hi. ring.
Qed.
Lemma posdef_nonneg A u : posdef A -> (0 <= qsum (nr A) A u)%R.
Proof.
  intros (_ & P). destruct (Classical_Prop.classic (exists i, i < nr A /\ u i <> 0%R)) as [H|H].
  - left. now apply P.
  - right. symmetry. apply qsum_zero. intros i Hi. destruct (Req_dec (u i) 0) as [E|E]; [exact E|].
    exfalso. apply H. eauto.
Qed.
Lemma posdef_is_pos_def A : nc A = nr A -> posdef A -> is_pos_def A = true.
Proof.
  intros Hn P. unfold is_pos_def. destruct (ClassicalEpsilon.excluded_middle_informative _) as [_|N]; [reflexivity|]. exfalso. apply N.
  intros a b (u & v & (i & Hi & Hne) & E). left.
  assert (S : (qsum (nr A) A u + qsum (nr A) A v = a * rsum (nr A) (fun i => u i * u i + v i * v i))%R).
  { rewrite !qsum_mvec by exact Hn. rewrite <- rsum_plus, <- rsum_scal. apply rsum_ext. intros j Hj.
    destruct (E j Hj) as (-> & ->). ring. }
  assert (Q : (0 < qsum (nr A) A u + qsum (nr A) A v)%R).
  { pose proof (posdef_nonneg A u P). pose proof (posdef_nonneg A v P). destruct P as (_ & P).
    destruct Hne as [Hu|Hv].
    - assert (0 < qsum (nr A) A u)%R by (apply P; eauto). lra.
    - assert (0 < qsum (nr A) A v)%R by (apply P; eauto). lra. }
  assert (N2 : (0 < rsum (nr A) (fun i => u i * u i + v i * v i))%R).
  { apply (rsum_pos_one _ _ i); [intros j _; pose proof (Rle_0_sqr (u j)); pose proof (Rle_0_sqr (v j)); unfold Rsqr in *; lra|exact Hi|].
    destruct Hne as [H|H]; pose proof (Rsqr_pos_lt _ H); pose proof (Rle_0_sqr (u i)); pose proof (Rle_0_sqr (v i)); unfold Rsqr in *; lra. }
  rewrite S in Q. destruct (Rlt_dec 0 a) as [H|H]; [exact H|]. exfalso. apply Rnot_lt_le in H.
  assert (a * rsum (nr A) (fun i => u i * u i + v i * v i) <= 0)%R; [|lra].
  rewrite <- (Rmult_0_l (rsum (nr A) (fun i => u i * u i + v i * v i)%R)). apply Rmult_le_compat_r; lra.
Qed.
Lemma posdef_not_vacuous A : nc A = nr A -> posdef A -> prec_vacuous A = false.
Proof. intros Hn P. unfold prec_vacuous. rewrite (posdef_is_pos_def A Hn P). apply Bool.andb_false_r. Qed.

(** * Conversions *)
Lemma update_covform_can vars K h g : shaped (length vars) (K, h, g) -> mdet K <> 0%R ->
  update_covform {| ga_vars := vars; ga_vac := false; ga_can := Some (K, h, g); ga_cov := None |} =
  Ok {| ga_vars := vars; ga_vac := false; ga_can := Some (K, h, g);
        ga_cov := Some (minv K, mmul0 (minv K) h,
                        vadd (vadd g (Fin (1 / 2 * qsum (length vars) K (fun i => ent (mmul0 (minv K) h) i 0))))
                             (vhalf (rlog ((2 * PI) ^ length vars * / mdet K)))) |}.
Proof.
  intros (H1 & H2 & H3 & H4) HK. unfold update_covform. cbn [ga_vac ga_cov ga_can ga_vars].
  rewrite np_inv_ok by (try congruence; lra). cbn [bind]. rewrite mmul_ok by (cbn; congruence). cbn [bind].
  rewrite (quad_ok (length vars)) by (cbn; congruence). cbn [bind].
  rewrite det_2pi_ok by reflexivity. cbn [bind]. rewrite mdet_minv by exact HK.
  change (nr (minv K)) with (nr K). rewrite H1. reflexivity.
Qed.
Lemma mmul_inv_l K m : mdet K <> 0%R -> forall i, i < nr K ->
  rsum (nr K) (fun k => ent (minv K) i k * rsum (nr K) (fun l => ent K k l * ent m l 0))%R = ent m i 0.
Proof.
  intros D i Hi.
  rewrite (rsum_ext _ _ (fun k => rsum (nr K) (fun l => ent (minv K) i k * ent K k l * ent m l 0)%R)).
  2: { intros k _. rewrite <- rsum_scal. apply rsum_ext. intros l _. ring. }
  rewrite rsum_swap.
  rewrite (rsum_ext _ _ (fun l => idn i l * ent m l 0)%R).
  2: { intros l Hl. rewrite rsum_scal_r. f_equal. now apply minv_l. }
  exact (rsum_idn (nr K) i (fun l => ent m l 0) Hi).
Qed.
Lemma mmul_inv_r K m : mdet K <> 0%R -> forall i, i < nr K ->
  rsum (nr K) (fun k => ent K i k * rsum (nr K) (fun l => ent (minv K) k l * ent m l 0))%R = ent m i 0.
Proof.
  intros D i Hi.
  rewrite (rsum_ext _ _ (fun k => rsum (nr K) (fun l => ent K i k * ent (minv K) k l * ent m l 0)%R)).
  2: { intros k _. rewrite <- rsum_scal. apply rsum_ext. intros l _. ring. }
  rewrite rsum_swap.
  rewrite (rsum_ext _ _ (fun l => idn i l * ent m l 0)%R).
  2: { intros l Hl. rewrite rsum_scal_r. f_equal. now apply minv_r. }
  exact (rsum_idn (nr K) i (fun l => ent m l 0) Hi).
Qed.
Lemma vround w a b : vadd (vadd (vsub (vsub w (Fin a)) (Fin b)) (Fin a)) (Fin b) = w.
Proof. destruct w; cbn; try reflexivity. f_equal. ring. Qed.
Lemma vround2 w a b : vsub (vsub (vadd (vadd w (Fin a)) (Fin b)) (Fin a)) (Fin b) = w.
Proof. destruct w; cbn; try reflexivity. f_equal. ring. Qed.

(** From covariance parameters to canonical parameters and back. *)
Lemma cov_can_cov vars C m w : NoDup vars -> shaped (length vars) (C, m, w) -> symm C -> (0 < mdet C)%R ->
  prec_vacuous (minv C) = false ->
  exists f K h g fc C' m' f' fc', mk_cov vars C m w = Ok f /\ get_can f = Ok (f', (K, h, g)) /\
    mk_can vars K h g = Ok fc /\ get_cov fc = Ok (fc', (C', m', w)) /\ meq C' C /\ meq m' m /\
    K = minv C /\ h = mmul0 (minv C) m /\ wf_gauss f /\ wf_gauss fc /\ ga_vac fc = false.
Proof.
  intros Hd Hs Hsym Hdet Hv. pose proof Hs as (H1 & H2 & H3 & H4).
  assert (Hne : mdet C <> 0%R) by lra.
  rewrite (mk_cov_ok vars C m w Hd Hs).
  match goal with |- exists f, _ => eexists end.
  do 8 eexists. split; [reflexivity|]. unfold get_can. rewrite (update_canform_cov vars false C m w Hs Hdet).
  cbn [bind ga_can]. split; [reflexivity|].
  match goal with |- mk_can _ _ _ ?g = _ /\ _ => set (g0 := g) end.
  assert (Hs' : shaped (length vars) (minv C, mmul0 (minv C) m, g0)) by (cbn; repeat split; congruence).
  rewrite (mk_can_ok vars _ _ g0 Hd Hs'). rewrite Hv. split; [reflexivity|].
  assert (HneK : mdet (minv C) <> 0%R) by now apply minv_det_neq.
  unfold get_cov. fold g0. rewrite (update_covform_can vars _ _ g0 Hs' HneK). cbn [bind ga_cov].
  rewrite mdet_minv, Rinv_inv by exact Hne.
  rewrite rlog_pos by (apply Rmult_lt_0_compat; [apply pow_lt, twopi_pos|exact Hdet]). rewrite vhalf_fin.
  assert (Em : forall i, i < nr C -> ent (mmul0 (minv (minv C)) (mmul0 (minv C) m)) i 0 = ent m i 0).
  { intros i Hi. cbn [mmul0 ent]. change (nc (minv C)) with (nr C). change (nc (minv (minv C))) with (nr (minv C)).
    change (nr C) with (nr (minv C)). now apply (mmul_inv_l (minv C)). }
  assert (Eq : qsum (length vars) (minv C) (fun i => ent (mmul0 (minv (minv C)) (mmul0 (minv C) m)) i 0) =
               qsum (length vars) (minv C) (fun i => ent m i 0)).
  { apply qsum_ext; [reflexivity|]. intros i Hi. apply Em. congruence. }
  split; [|split; [|split; [|split; [reflexivity|split; [reflexivity|split; [|split; [|reflexivity]]]]]]].
  - rewrite Eq. unfold g0. rewrite vround. reflexivity.
  - split; [reflexivity|]. split; [cbn; congruence|]. intros i j Hi Hj. change (nr (minv (minv C))) with (nr C) in Hi.
    change (nc (minv (minv C))) with (nr C) in Hj. now apply minv_minv.
  - split; [cbn; congruence|]. split; [cbn; congruence|]. intros i j Hi Hj. change (nr (mmul0 _ _)) with (nr C) in Hi.
    cbn in Hj. rewrite H4 in Hj. assert (j = 0) as -> by lia. now apply Em.
  - split; [exact Hd|]. split; [right; discriminate|]. split; intros p Hp; [discriminate|]. injection Hp as <-.
    split; [exact Hs|now split].
  - split; [exact Hd|]. split; [left; discriminate|]. split; intros p Hp; [|discriminate]. injection Hp as <-. exact Hs'.
Qed.
(** The three objects (covariance form only, both forms, canonical form only) have the same log potential. *)
Lemma forms_lp vars C m w e f f' K h g fc : NoDup vars -> shaped (length vars) (C, m, w) -> symm C -> (0 < mdet C)%R ->
  mk_cov vars C m w = Ok f -> get_can f = Ok (f', (K, h, g)) -> mk_can vars K h g = Ok fc ->
  log_potential f' (map e vars) None = log_potential f (map e vars) None /\
  log_potential fc (map e vars) None = log_potential f (map e vars) None.
Proof.
  intros Hd Hs Hsym Hdet Ef Eg Ec.
  rewrite (mk_cov_ok vars C m w Hd Hs) in Ef. injection Ef as <-.
  assert (Wf : wf_gauss {| ga_vars := vars; ga_vac := false; ga_can := None; ga_cov := Some (C, m, w) |}).
  { split; [exact Hd|]. split; [right; discriminate|]. split; intros p Hp; [discriminate|]. injection Hp as <-.
    split; [exact Hs|now split]. }
  destruct (get_can_wf _ Wf) as (f1 & K1 & h1 & g1 & E1 & V1 & C1 & S1 & W1 & _).
  rewrite Eg in E1. injection E1 as <- <- <- <-. cbn [ga_vars] in *.
  rewrite (mk_can_ok vars K h g Hd S1) in Ec. injection Ec as <-.
  assert (Wc : wf_gauss {| ga_vars := vars; ga_vac := prec_vacuous K; ga_can := Some (K, h, g); ga_cov := None |}).
  { split; [exact Hd|]. split; [left; discriminate|]. split; intros p Hp; [|discriminate]. injection Hp as <-. exact S1. }
  pose proof (lp_canon _ _ K h g e Wf Eg) as L. cbn [ga_vars] in L. rewrite L.
  assert (Eg' : get_can f' = Ok (f', (K, h, g))).
  { unfold get_can, update_canform. rewrite C1. cbn [bind]. now rewrite C1. }
  pose proof (lp_canon f' f' K h g e W1 Eg') as L'. rewrite V1 in L'. split; [exact L'|].
  exact (lp_canon _ _ K h g e Wc eq_refl).
Qed.
(** From canonical parameters to covariance parameters and back. *)
Lemma can_cov_can vars K h g : NoDup vars -> shaped (length vars) (K, h, g) -> symm K -> (0 < mdet K)%R ->
  prec_vacuous K = false ->
  exists fc fc' C m w f f' K' h', mk_can vars K h g = Ok fc /\ get_cov fc = Ok (fc', (C, m, w)) /\
    mk_cov vars C m w = Ok f /\ get_can f = Ok (f', (K', h', g)) /\ meq K' K /\ meq h' h /\
    (forall e, log_potential f (map e vars) None = log_potential fc (map e vars) None).
Proof.
  intros Hd Hs Hsym Hdet Hv. pose proof Hs as (H1 & H2 & H3 & H4).
  assert (Hne : mdet K <> 0%R) by lra.
  rewrite (mk_can_ok vars K h g Hd Hs), Hv. do 9 eexists. split; [reflexivity|].
  unfold get_cov. rewrite (update_covform_can vars K h g Hs Hne). cbn [bind ga_cov]. split; [reflexivity|].
  match goal with |- mk_cov _ _ _ ?w = _ /\ _ => set (w0 := w) end.
  assert (Hs' : shaped (length vars) (minv K, mmul0 (minv K) h, w0)) by (cbn; repeat split; congruence).
  rewrite (mk_cov_ok vars _ _ w0 Hd Hs'). split; [reflexivity|].
  assert (HdC : (0 < mdet (minv K))%R) by (rewrite mdet_minv by exact Hne; now apply Rinv_0_lt_compat).
  unfold get_can. fold w0. rewrite (update_canform_cov vars false _ _ w0 Hs' HdC). cbn [bind ga_can].
  assert (Eh : forall i, i < nr K -> ent (mmul0 (minv (minv K)) (mmul0 (minv K) h)) i 0 = ent h i 0).
  { intros i Hi. cbn [mmul0 ent]. change (nc (minv K)) with (nr K). change (nc (minv (minv K))) with (nr (minv K)).
    change (nr K) with (nr (minv K)). apply (mmul_inv_l (minv K)); [now apply minv_det_neq|exact Hi]. }
  assert (EK : forall i j, i < nr K -> j < nr K -> ent (minv (minv K)) i j = ent K i j) by (intros; now apply minv_minv).
  assert (Eg : vsub (vsub w0 (Fin (1 / 2 * qsum (length vars) (minv (minv K)) (fun i => ent (mmul0 (minv K) h) i 0))))
                    (Fin (1 / 2 * ln ((2 * PI) ^ length vars * mdet (minv K)))) = g).
  { unfold w0. rewrite mdet_minv by exact Hne.
    rewrite rlog_pos.
    2: { apply Rmult_lt_0_compat; [apply pow_lt, twopi_pos|now apply Rinv_0_lt_compat]. }
    rewrite vhalf_fin.
    rewrite (qsum_ext (length vars) (minv (minv K)) K _ (fun i => ent (mmul0 (minv K) h) i 0)); [apply vround2| |reflexivity].
    intros i j Hi Hj. apply EK; congruence. }
  rewrite Eg. split; [reflexivity|]. split; [|split].
  - split; [reflexivity|]. split; [cbn; congruence|]. intros i j Hi Hj. change (nr (minv (minv K))) with (nr K) in Hi.
    change (nc (minv (minv K))) with (nr K) in Hj. now apply EK.
  - split; [cbn; congruence|]. split; [cbn; congruence|]. intros i j Hi Hj. change (nr (mmul0 _ _)) with (nr K) in Hi.
    cbn in Hj. rewrite H4 in Hj. assert (j = 0) as -> by lia. now apply Eh.
  - intros e.
    assert (Wf : wf_gauss {| ga_vars := vars; ga_vac := false; ga_can := None; ga_cov := Some (minv K, mmul0 (minv K) h, w0) |}).
    { split; [exact Hd|]. split; [right; discriminate|]. split; intros p Hp; [discriminate|]. injection Hp as <-.
      split; [exact Hs'|]. split; [now apply symm_minv|exact HdC]. }
    assert (Wc : wf_gauss {| ga_vars := vars; ga_vac := false; ga_can := Some (K, h, g); ga_cov := None |}).
    { split; [exact Hd|]. split; [left; discriminate|]. split; intros p Hp; [|discriminate]. injection Hp as <-. exact Hs. }
    pose proof (update_canform_cov vars false _ _ w0 Hs' HdC) as U. cbv zeta in U. rewrite Eg in U.
    match type of U with _ = Ok ?ff => assert (G : get_can {| ga_vars := vars; ga_vac := false; ga_can := None; ga_cov := Some (minv K, mmul0 (minv K) h, w0) |} =
       Ok (ff, (minv (minv K), mmul0 (minv (minv K)) (mmul0 (minv K) h), g))) by (unfold get_can; rewrite U; reflexivity) end.
    pose proof (lp_canon _ _ _ _ _ e Wf G) as L. cbn [ga_vars] in L. rewrite L.
    pose proof (lp_canon _ _ K h g e Wc eq_refl) as L'. cbn [ga_vars] in L'. rewrite L'.
    f_equal. f_equal. f_equal. rewrite !can_form_pos by exact Hd. f_equal.
    + f_equal. apply qsum_ext; [|reflexivity]. intros i j Hi Hj. apply EK; congruence.
    + apply rsum_ext. intros i Hi. rewrite Eh by congruence. reflexivity.
Qed.
