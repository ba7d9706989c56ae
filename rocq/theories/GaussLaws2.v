(** The laws of PosGraph for Gaussian factors. *)
From Verif Require Export GaussLaws.
#[global] Set Bullet Behavior "Strict Subproofs".
Local Open Scope R_scope.
Local Notation pos := GaussOps.pos.

Lemma gpos_fin f e : 0 < gval f e -> exists a, lp f e = Ok (Fin a) /\ gval f e = exp a.
Proof.
  unfold gval. destruct (lp f e) as [l|]; [|lra]. destruct l as [|a| |]; cbn; try lra. eauto.
Qed.
(** Results of the constructor with canonical parameters carry the right flag. *)
Definition fresh_flag (r : gauss) : Prop := ga_can r <> None /\ forall K h g, ga_can r = Some (K, h, g) -> ga_vac r = prec_vacuous K.
Lemma mk_can_flag vars K h g r : mk_can vars K h g = Ok r -> fresh_flag r.
Proof.
  unfold mk_can. intros H. apply bind_ok in H. destruct H as (_ & _ & H). apply bind_ok in H. destruct H as (K' & _ & H). apply bind_ok in H. destruct H as (h' & _ & H).
  apply bind_ok in H. destruct H as (_ & _ & H). apply bind_ok in H. destruct H as (_ & _ & H). injection H as <-. split; [discriminate|].
  intros K0 h0 g0 E. cbn in *. now injection E as <- _ _.
Qed.
Lemma absorb_flag f1 f2 op vop r : absorb_or_cancel f1 f2 op vop = Ok r -> fresh_flag r.
Proof.
  unfold absorb_or_cancel. intros H. apply bind_ok in H. destruct H as (r1 & _ & H). apply bind_ok in H. destruct H as (r2 & _ & H).
  destruct (snd r1) as [[K1 h1] g1]. destruct (snd r2) as [[K2' h2] g2]. apply bind_ok in H. destruct H as (kc & _ & H). apply bind_ok in H. destruct H as (hc & _ & H).
  apply bind_ok in H. destruct H as (_ & _ & H). exact (mk_can_flag _ _ _ _ _ H).
Qed.
Lemma reduce_flag f vs xs r : g_reduce f vs xs = Ok r -> fresh_flag r.
Proof.
  unfold g_reduce. intros H. apply bind_ok in H. destruct H as (_ & _ & H). apply bind_ok in H. destruct H as (oi & _ & H). apply bind_ok in H. destruct H as (ui & _ & H).
  apply bind_ok in H. destruct H as (c & _ & H). destruct (snd c) as [[K h] g].
  apply bind_ok in H. destruct H as (kh & _ & H). apply bind_ok in H. destruct H as (Kyy & _ & H). apply bind_ok in H. destruct H as (hy & _ & H).
  apply bind_ok in H. destruct H as (a & _ & H). apply bind_ok in H. destruct H as (q & _ & H). exact (mk_can_flag _ _ _ _ _ H).
Qed.
Lemma ggood_weak b f : ggood b f -> ggood false f.
Proof. intros (A & B & C & D & _). split; [exact A|]. split; [exact B|]. split; [exact C|]. split; [exact D|discriminate]. Qed.
Lemma fresh_ready b f : ggood b f -> fresh_flag f -> (gsound f <-> ga_vac f = false).
Proof.
  intros G (N & F). apply ggood_weak in G. split; intros H; [destruct G as (W & S & P & _); now apply sound_unflagged|now apply unflagged_sound].
Qed.
Lemma gval_dep f : wf_gauss f -> forall e e', (forall v, In v (ga_vars f) -> e v = e' v) -> gval f e = gval f e'.
Proof. intros W e e'. now apply gval_ext. Qed.
Lemma summ_posdef f : wf_gauss f -> (summ (gval f) (ga_vars f) <-> forall x, (exists v, In v (ga_vars f) /\ x v <> 0) -> 0 < curv (gval f) x).
Proof. intros W. apply summ_ext. now apply gval_dep. Qed.

(** * Products *)
Lemma gmul_law b a c : ggood b a -> ggood b c -> exists r, g_multiply a c = Ok r /\ ggood b r /\
  (forall v, In v (ga_vars r) <-> In v (ga_vars a) \/ In v (ga_vars c)) /\ (forall e, gval r e = gval a e * gval c e).
Proof.
  intros (W1 & S1 & P1 & Q1 & D1) (W2 & S2 & P2 & Q2 & D2).
  destruct (NlgFacts.multiply_symm a c W1 W2 S1 S2) as (r & E & W & S & V & L). exists r. split; [exact E|].
  assert (Vi : forall v, In v (ga_vars r) <-> In v (ga_vars a) \/ In v (ga_vars c)) by (intros v; rewrite V; apply new_vars_In).
  assert (G : forall e, gval r e = gval a e * gval c e).
  { intros e. destruct (gpos_fin a e (P1 e)) as (x & Lx & ->). destruct (gpos_fin c e (P2 e)) as (y & Ly & ->).
    unfold gval. rewrite (L e _ _ Lx Ly). cbn. apply exp_plus. }
  assert (P : forall e, 0 < gval r e) by (intros e; rewrite G; apply Rmult_lt_0_compat; auto).
  split; [|now split]. split; [exact W|]. split; [exact S|]. split; [exact P|].
  assert (C : forall x, curv (gval r) x = curv (gval a) x + curv (gval c) x) by (intros x; now apply curv_mul).
  split; [intros x; rewrite C; specialize (Q1 x); specialize (Q2 x); lra|]. intros Hb.
  apply (summ_posdef r W). intros x (v & Hv & Hx). rewrite C. specialize (Q1 x). specialize (Q2 x). apply Vi in Hv. destruct Hv as [Hv|Hv].
  - assert (0 < curv (gval a) x) by (apply (proj1 (summ_posdef a W1) (D1 Hb)); eauto). lra.
  - assert (0 < curv (gval c) x) by (apply (proj1 (summ_posdef c W2) (D2 Hb)); eauto). lra.
Qed.

(** * Observing *)
Lemma greduce_law b f vs xs r : ggood b f -> NoDup vs -> incl vs (ga_vars f) -> length xs = length vs -> g_reduce f vs xs = Ok r ->
  ggood b r /\ (forall v, In v (ga_vars r) <-> In v (ga_vars f) /\ ~ In v vs) /\ (forall e, map e vs = xs -> gval r e = gval f e).
Proof.
  intros (W & S & P & Q & D) N I Hl E.
  assert (Ni : ~ incl (ga_vars f) vs) by (intros C; rewrite (g_reduce_all f vs xs W N I C Hl) in E; discriminate E).
  destruct (g_reduce_spec f vs xs W S N I Ni Hl) as (r' & E' & Wr & Sr & V & L). assert (r' = r) as -> by congruence.
  assert (Vi : forall v, In v (ga_vars r) <-> In v (ga_vars f) /\ ~ In v vs) by (intros v; rewrite V; apply rest_In).
  assert (G : forall e, map e vs = xs -> gval r e = gval f e) by (intros e He; unfold gval, lp; now rewrite (L e He)).
  split; [|now split].
  (* an assignment with the observed values *)
  set (val := fun v => nth (pos vs v) xs 0).
  assert (Hval : map val vs = xs).
  { apply (nth_ext _ _ 0 0); [now rewrite map_length|]. intros i Hi. rewrite map_length in Hi. unfold val.
    rewrite (nth_indep _ 0 (nth (pos vs ""%string) xs 0)) by now rewrite map_length. rewrite (map_nth (fun v => nth (pos vs v) xs 0)). now rewrite pos_of_nth. }
  set (put := fun e : renv => fun v => if in_dec string_dec v vs then val v else e v).
  assert (Hput : forall e, map (put e) vs = xs).
  { intros e. rewrite <- Hval. apply map_ext_in. intros v Hv. unfold put. now destruct (in_dec string_dec v vs). }
  assert (Gp : forall e, gval r e = gval f (put e)).
  { intros e. rewrite <- (G (put e) (Hput e)). apply gval_ext; [exact Wr|]. intros v Hv. apply Vi in Hv. unfold put. destruct (in_dec string_dec v vs); [tauto|reflexivity]. }
  destruct (ggood_canon f W S P) as (f' & K & h & g & Ec & Sh & Y & Gf).
  set (off := fun x : renv => fun v => if in_dec string_dec v vs then 0 else x v).
  assert (C : forall x, curv (gval r) x = curv (gval f) (off x)).
  { intros x. rewrite (curv_qn (gval f) _ K h g (off x) Gf). rewrite <- (second_diff (gval f) _ K h g (put (fun _ => 0)) (off x) Gf).
    unfold curv. rewrite !Gp.
    assert (X : forall e1 e2, (forall v, e1 v = e2 v) -> gval f e1 = gval f e2) by (intros e1 e2 H; apply gval_ext; auto).
    rewrite (X (put x) (fun v => put (fun _ => 0) v + off x v)) by (intros v; unfold put, off; destruct (in_dec string_dec v vs); ring).
    rewrite (X (put (fun v => - x v)) (fun v => put (fun _ => 0) v - off x v)) by (intros v; unfold put, off; destruct (in_dec string_dec v vs); ring). reflexivity. }
  split; [exact Wr|]. split; [exact Sr|]. split; [intros e; rewrite Gp; apply P|]. split; [intros x; rewrite C; apply Q|]. intros Hb.
  apply (summ_posdef r Wr). intros x (v & Hv & Hx). rewrite C. apply (proj1 (summ_posdef f W) (D Hb)). apply Vi in Hv. exists v. split; [apply Hv|].
  unfold off. destruct (in_dec string_dec v vs); [tauto|exact Hx].
Qed.

(** * Quotients *)
Lemma gdiv_law b a c d : ggood b a -> ggood b c -> ggood b d -> (forall v, In v (ga_vars d) <-> In v (ga_vars a)) ->
  incl (ga_vars c) (ga_vars a) -> (forall e, gval a e = gval d e * gval c e) ->
  exists r, g_divide a c = Ok r /\ ggood b r /\ (forall v, In v (ga_vars r) <-> In v (ga_vars a)) /\ (forall e, gval r e = gval d e).
Proof.
  intros (W1 & S1 & P1 & Q1 & D1) (W2 & S2 & P2 & Q2 & D2) (W3 & S3 & P3 & Q3 & D3) Hv Hi H.
  destruct (g_divide_spec a c W1 W2) as (r & E & W & V & L). exists r. split; [exact E|].
  pose proof (NlgOps2.divide_symm a c r W1 W2 S1 S2 E) as S.
  assert (Vi : forall v, In v (ga_vars r) <-> In v (ga_vars a)) by (intros v; rewrite V, new_vars_In; split; [intros [X|X]; auto|now left]).
  assert (G : forall e, gval r e = gval d e).
  { intros e. assert (P : gval d e = gval a e / gval c e) by (rewrite H; field; specialize (P2 e); lra). rewrite P. destruct (gpos_fin a e (P1 e)) as (x & Lx & ->). destruct (gpos_fin c e (P2 e)) as (y & Ly & ->).
    unfold gval, lp. rewrite (L e _ _ Lx Ly). cbn. unfold Rdiv. rewrite <- exp_Ropp, <- exp_plus. reflexivity. }
  split; [|now split]. split; [exact W|]. split; [exact S|]. split; [intros e; rewrite G; apply P3|].
  assert (C : forall x, curv (gval r) x = curv (gval d) x) by (intros x; unfold curv; now rewrite !G).
  split; [intros x; rewrite C; apply Q3|]. intros Hb. apply (summ_posdef r W). intros x (v & Hx & Nx). rewrite C. apply (proj1 (summ_posdef d W3) (D3 Hb)).
  exists v. split; [apply Hv, Vi, Hx|exact Nx].
Qed.

(** * Integrals *)
(** What is known about the integral of [f] over [ys], as a canonical form over [xs]. *)
Definition integral_of (f : gauss) (xs ys : list string) (q : renv -> R) : Prop :=
  (forall e e', (forall v, In v xs -> e v = e' v) -> q e = q e') /\ (forall e, 0 < q e) /\ (forall ys' e, Permutation ys' ys -> iint ys' (gval f) e (q e)) /\
  (forall x, exists z, (forall v, In v xs -> z v = x v) /\ curv q x = curv (gval f) z /\
     forall y, (forall v, In v xs -> y v = x v) -> curv q x <= curv (gval f) y).
Lemma form_ext xs S h' g' e e' : (forall v, In v xs -> e v = e' v) -> exp (can_form xs S h' e + g') = exp (can_form xs S h' e' + g').
Proof. intros H. do 2 f_equal. rewrite !can_form_qn. f_equal; [f_equal; now apply qn_ext|now apply lnn_ext]. Qed.

Lemma integral_block o f f' K h g xs ys : oracle_ok o -> ggood false f -> get_can f = Ok (f', (K, h, Fin g)) -> shaped (length (ga_vars f)) (K, h, Fin g) -> symm K ->
  (forall e, gval f e = exp (can_form (ga_vars f) K h e + g)) -> Permutation (ys ++ xs) (ga_vars f) -> ys = so o (set_diff (ga_vars f) xs) -> summ (gval f) ys ->
  exists S h' g', canform_marginalise (ga_vars f) K h (Fin g) xs ys = Ok {| ga_vars := xs; ga_vac := prec_vacuous S; ga_can := Some (S, h', Fin g'); ga_cov := None |} /\
    shaped (length xs) (S, h', Fin g') /\ symm S /\ integral_of f xs ys (fun e => exp (can_form xs S h' e + g')).
Proof.
  intros Ho (W & Sy & P & Q & _) Ec Sh Y G HP Ey Su. pose proof W as (Hd & _). pose proof Sh as (H1 & _).
  pose proof (proj1 (summ_block f f' K h g xs ys W Ec Sh Y G HP) Su) as PD.
  assert (Psd : forall x, 0 <= qn (ga_vars f) K x) by (intros x; rewrite <- (curv_qn (gval f) _ K h g x G); apply Q).
  destruct (block_marg (ga_vars f) xs ys K h g Hd HP Sh Y Psd PD o Ho Ey) as (S & h' & g' & ES & SS & SY & SI & SZ).
  exists S, h', g'. split; [exact ES|]. split; [exact SS|]. split; [exact SY|]. split; [intros e e'; apply form_ext|]. split; [intros e; apply exp_pos|]. split.
  - intros ys' e Hp. specialize (SI ys' e Hp). revert SI. apply iint_ext. intros e0. rewrite G. unfold gval, lp.
    rewrite (lp_canon _ _ K h (Fin g) e0 (wf_can_obj _ _ Hd Sh) (get_can_some (can_obj (ga_vars f) (K, h, Fin g)) K h (Fin g) eq_refl)). reflexivity.
  - intros x. destruct (SZ x) as (z & Zx & Zg & Zq). exists z. split; [exact Zx|].
    rewrite (curv_qn _ xs S h' g' x (fun e => eq_refl)), (curv_qn (gval f) _ K h g z G). split; [exact Zq|]. intros y Hy. rewrite (curv_qn (gval f) _ K h g y G).
    rewrite (qn_ext (ga_vars f) K y (fun v => z v + (y v - z v))) by (intros; ring). rewrite qn_plus by assumption.
    assert (Z : Rsum (map (fun u => (y u - z u) * grad (ga_vars f) K z u) (ga_vars f)) = 0).
    { apply Rsum_zero. intros u Hu. apply (Permutation_in _ (Permutation_sym HP)) in Hu. apply in_app_iff in Hu. destruct Hu as [Hu|Hu].
      - rewrite (Zg u Hu). ring.
      - rewrite (Hy u Hu), (Zx u Hu). ring. }
    rewrite Z. specialize (Psd (fun v => y v - z v)). lra.
Qed.
(** A good factor with the potential of the integral. *)
Lemma integral_good b f xs ys r : ggood b f -> wf_gauss r -> sym_prec r -> ga_vars r = xs -> incl xs (ga_vars f) -> integral_of f xs ys (gval r) -> ggood b r.
Proof.
  intros (W & S & P & Q & D) Wr Sr V Ix (_ & Pr & _ & Z). split; [exact Wr|]. split; [exact Sr|]. split; [exact Pr|]. split.
  - intros x. destruct (Z x) as (z & _ & -> & _). apply Q.
  - intros Hb. apply (summ_posdef r Wr). intros x (v & Hv & Hx). destruct (Z x) as (z & Zx & -> & _). rewrite V in Hv. apply (proj1 (summ_posdef f W) (D Hb)).
    exists v. split; [now apply Ix|]. now rewrite Zx.
Qed.
Lemma integral_of_ext f xs ys p q : (forall e, p e = q e) -> integral_of f xs ys p -> integral_of f xs ys q.
Proof.
  intros H (A & B & C & D). assert (Ec : forall x, curv q x = curv p x) by (intros x; unfold curv; now rewrite !H).
  split; [intros e e' He; rewrite <- !H; now apply A|]. split; [intros e; now rewrite <- H|]. split; [intros ys' e Hp; rewrite <- H; now apply C|].
  intros x. destruct (D x) as (z & D1 & D2 & D3). exists z. split; [exact D1|]. rewrite Ec. now split.
Qed.
Lemma so_split o vars xs : oracle_ok o -> NoDup vars -> NoDup xs -> incl xs vars -> Permutation (so o (set_diff vars xs) ++ xs) vars /\
  (forall v, In v (so o (set_diff vars xs)) <-> In v vars /\ ~ In v xs).
Proof.
  intros Ho Hd Dx Ix. assert (Hys : forall v, In v (so o (set_diff vars xs)) <-> In v vars /\ ~ In v xs).
  { intros v. rewrite (so_In o _ v Ho (NoDup_set_diff _ _)). apply In_set_diff. }
  split; [|exact Hys]. apply Permutation_sym, split_perm; auto; [apply so_NoDup; [exact Ho|apply NoDup_set_diff]| |].
  - intros v. rewrite Hys. split; [|intros [[Hv _]|Hv]; auto]. intros Hv. destruct (in_dec string_dec v xs); [now right|left; now split].
  - intros v Hv. now apply Hys in Hv.
Qed.
Lemma exact_integral b f xs ys : ggood b f -> Permutation (ys ++ xs) (ga_vars f) -> summ (gval f) ys ->
  exists r, ggood b r /\ ga_vars r = xs /\ integral_of f xs ys (gval r).
Proof.
  intros G HP Su. pose proof (ggood_weak b f G) as G0. pose proof G as (W & S & P & Q & D). pose proof W as (Hd & _).
  destruct (ggood_canon f W S P) as (f' & K & h & g & Ec & Sh & Y & Gf). destruct id_oracle_ok as (o & Ho).
  pose proof (Permutation_NoDup (Permutation_sym HP) Hd) as Dxy. destruct (NoDup_app_elim _ _ Dxy) as (Dy & Dx & Dis).
  assert (Ix : incl xs (ga_vars f)) by (intros v Hv; apply (Permutation_in _ HP), in_or_app; now right).
  destruct (so_split o (ga_vars f) xs Ho Hd Dx Ix) as (HP0 & Hys).
  assert (PY : Permutation ys (so o (set_diff (ga_vars f) xs))).
  { apply (Permutation_app_inv_r xs). now rewrite HP, HP0. }
  assert (Su0 : summ (gval f) (so o (set_diff (ga_vars f) xs))).
  { apply (summ_same _ ys); [|exact Su]. intros v. split; apply Permutation_in; [now symmetry|exact PY]. }
  destruct (integral_block o f f' K h g xs _ Ho G0 Ec Sh Y Gf HP0 eq_refl Su0) as (S' & h' & g' & _ & SS & SY & SI).
  set (r := can_obj xs (S', h', Fin g')). assert (Wr : wf_gauss r) by now apply wf_can_obj.
  assert (Gr : forall e, exp (can_form xs S' h' e + g') = gval r e).
  { intros e. unfold gval, lp. rewrite (lp_canon r r S' h' (Fin g') e Wr (get_can_some (can_obj xs (S', h', Fin g')) S' h' (Fin g') eq_refl)). reflexivity. }
  exists r. assert (IR : integral_of f xs ys (gval r)).
  { apply (integral_of_ext f xs ys _ _ Gr). destruct SI as (A & B & C & Z). split; [exact A|]. split; [exact B|]. split; [|exact Z]. intros ys' e Hp. apply C. now rewrite Hp. }
  split; [|split; [reflexivity|exact IR]]. apply (integral_good b f xs ys r G Wr); auto. intros p Hp. injection Hp as <-. exact SY.
Qed.

(** What marginalize returns, when it returns, is the integral. *)
Lemma cov_only_solid f C m w : ggood false f -> ga_vac f = false -> ga_can f = None -> ga_cov f = Some (C, m, w) -> solid f /\ plain f.
Proof.
  intros (W & S & P & Q & _) Va Ec Ev. destruct (ggood_canon f W S P) as (f' & K & h & g & E & Sh & Y & G). pose proof W as (Hd & _ & _ & Hv).
  destruct (Hv _ Ev) as (Sv & SC & DC). pose proof Sv as (C1 & C2 & C3 & C4).
  assert (PD : posdef C).
  { pose proof E as E0. assert (Ef : f = {| ga_vars := ga_vars f; ga_vac := ga_vac f; ga_can := None; ga_cov := Some (C, m, w) |}) by (destruct f; cbn in *; congruence).
    unfold get_can in E0. rewrite Ef in E0. rewrite (update_canform_cov (ga_vars f) (ga_vac f) C m w Sv DC) in E0. cbn [bind ga_can] in E0.
    assert (EK : K = minv C) by congruence. clear E0. pose proof (psd_of f f' K h g W E Sh G Q) as PS.
    assert (PK : posdef K).
    { apply psd_det; auto; [destruct Sh; intuition congruence|]. rewrite EK, mdet_minv by lra. apply Rinv_neq_0_compat. lra. }
    pose proof (posdef_minv K PK) as PM. destruct PM as (PM1 & PM2). split; [exact SC|]. intros u Hu. subst K.
    assert (Ln : nr (minv (minv C)) = nr C) by reflexivity. specialize (PM2 u). rewrite Ln in PM2. specialize (PM2 Hu).
    unfold qsum in *. rewrite (rsum_ext _ _ (fun i => rsum (nr C) (fun j => u i * ent C i j * u j))) in PM2; [exact PM2|].
    intros i Hi. apply rsum_ext. intros j Hj. rewrite minv_minv by (lra || assumption). reflexivity. }
  split.
  - split; [exact W|]. split; [exact Va|]. split; [intros p q Hp; congruence|]. split; [intros K0 h0 g0 H0; congruence|]. intros C0 m0 w0 H0. rewrite Ev in H0. now injection H0 as <- _ _.
  - intros e l Hl. destruct (gpos_fin f e (P e)) as (a & Ha & _). rewrite Ha in Hl. injection Hl as <-. exact I.
Qed.
Lemma gmarg_law b o f xs r : oracle_ok o -> ggood b f -> ga_vac f = false -> NoDup xs -> incl xs (ga_vars f) -> g_marginalize o f xs true = Ok r ->
  ggood b r /\ ga_vars r = xs /\ summ (gval f) (so o (set_diff (ga_vars f) xs)) /\ integral_of f xs (so o (set_diff (ga_vars f) xs)) (gval r).
Proof.
  intros Ho G Va Dx Ix E. pose proof (ggood_weak b f G) as G0. pose proof G as (W & S & P & Q & D). pose proof W as (Hd & Hf & _).
  destruct (ggood_canon f W S P) as (f' & K & h & g & Ec & Sh & Y & Gf).
  destruct (so_split o (ga_vars f) xs Ho Hd Dx Ix) as (HP & Hys). set (ys := so o (set_diff (ga_vars f) xs)) in *.
  assert (Iy : incl ys (ga_vars f)) by (intros v Hv; now apply Hys).
  destruct (ga_can f) as [[[K0 h0] g0]|] eqn:Ecan.
  - pose proof (get_can_some f K0 h0 g0 Ecan) as E0. rewrite E0 in Ec. injection Ec as <- -> -> ->.
    unfold g_marginalize, GaussModel.marginal_vars in E. rewrite Va, Ecan in E. fold ys in E.
    pose proof (canform_det (ga_vars f) K h (Fin g) xs ys r Sh Ix Iy E) as Dn.
    assert (Su : summ (gval f) ys).
    { apply (summ_block f f K h g xs ys W E0 Sh Y Gf HP). apply psd_det; [reflexivity| |  |exact Dn].
      - apply symm_sel; [exact Y|]. destruct Sh as (-> & _). now apply pos_inr.
      - intros w. pose proof (Permutation_NoDup (Permutation_sym HP) Hd) as Dxy. destruct (NoDup_app_elim _ _ Dxy) as (Dy & _ & Dis).
        cbn [msel nr]. rewrite map_length, qsum_qn by exact Dy.
        rewrite (qn_ext ys _ _ (only ys (fun v => w (pos ys v)))) by (intros u Hu; now rewrite only_in).
        rewrite <- (qn_split (ga_vars f) K xs ys _ HP Hd) by (intros u Hu; apply only_out; intros C; exact (Dis u C Hu)).
        rewrite <- (curv_qn (gval f) (ga_vars f) K h g _ Gf). apply Q. }
    destruct (integral_block o f f K h g xs ys Ho G0 E0 Sh Y Gf HP eq_refl Su) as (S' & h' & g' & ES & SS & SY & SI).
    rewrite ES in E. injection E as <-. match goal with |- ggood b ?x /\ _ => set (r := x) end.
    assert (Wr : wf_gauss r).
    { split; [exact Dx|]. split; [left; discriminate|]. split; intros p Hp; [|discriminate Hp]. injection Hp as <-. exact SS. }
    assert (Gr : forall e, exp (can_form xs S' h' e + g') = gval r e).
    { intros e. unfold gval, lp. rewrite (lp_canon r r S' h' (Fin g') e Wr (get_can_some r S' h' (Fin g') eq_refl)). reflexivity. }
    apply (integral_of_ext f xs ys _ _ Gr) in SI. split; [|split; [reflexivity|now split]].
    apply (integral_good b f xs ys r G Wr); auto. intros p Hp. injection Hp as <-. exact SY.
  - destruct (ga_cov f) as [[[C m] w]|] eqn:Ecov; [|destruct Hf; congruence]. destruct (cov_only_solid f C m w G0 Va Ecan Ecov) as (So & Pl).
    destruct (marg_integral o ys f xs Ho So Pl HP) as (r' & E' & V & Sr & _ & Ir). assert (r' = r) as -> by congruence.
    assert (Su : summ (gval f) ys).
    { destruct (get_can_solid f So) as (f1 & K1 & h1 & g1 & E1 & PK & _). rewrite E1 in Ec. injection Ec as -> -> -> ->.
      apply (summ_block f f' K h g xs ys W E1 Sh Y Gf HP). apply posdef_sel; [exact PK|destruct Sh as (-> & _); now apply pos_inr|].
      apply NoDup_map_pos; [exact Iy|]. apply so_NoDup; [exact Ho|apply NoDup_set_diff]. }
    destruct (integral_block o f f' K h g xs ys Ho G0 Ec Sh Y Gf HP eq_refl Su) as (S' & h' & g' & _ & _ & _ & SI).
    assert (Gr : forall e, exp (can_form xs S' h' e + g') = gval r e).
    { intros e. apply (iint_unique ys (gval f) e); [|apply Ir]. now apply (proj1 (proj2 (proj2 SI))). }
    apply (integral_of_ext f xs ys _ _ Gr) in SI. split; [|split; [exact V|now split]].
    apply (integral_good b f xs ys r G); auto; [apply Sr|]. intros [[K1 h1] g1] Hp. cbn. apply (proj1 (proj2 (proj2 (proj2 Sr))) K1 h1 g1 Hp).
Qed.

(** * The laws *)
Lemma gauss_prod_laws b o : prod_laws (gauss_ops o) (ggood b) gval.
Proof.
  split; cbn [gauss_ops f_vars f_mul f_reduce].
  - intros f (W & _). apply W.
  - intros a c. apply gmul_law.
  - intros f vs xs r. apply greduce_law.
Qed.
Lemma sound_same b a f : ggood b a -> ggood b f -> (forall v, In v (ga_vars f) <-> In v (ga_vars a)) -> (forall x, curv (gval a) x <= curv (gval f) x) -> gsound a -> gsound f.
Proof.
  intros (Wa & _) (Wf & _) Hv C [S|(v & x & Hx & X1 & X2 & X3)].
  - left. apply (summ_posdef f Wf). intros x (v & Vv & Nv). apply Rlt_le_trans with (curv (gval a) x); [|apply C].
    apply (proj1 (summ_posdef a Wa) S). exists v. split; [now apply Hv|exact Nv].
  - right. exists v, x. split; [now apply Hv|]. split; [exact X1|]. split; [exact X2|]. specialize (C x). lra.
Qed.
Lemma gauss_split b o f a c vs r : oracle_ok o -> ggood b f -> gready f -> ggood b a -> ggood b c -> NoDup vs -> incl vs (ga_vars f) ->
  (forall v, In v (ga_vars a) <-> In v (ga_vars f)) -> incl (ga_vars c) vs -> (forall e, gval f e = gval a e * gval c e) -> g_marginalize o f vs true = Ok r ->
  exists d, ggood b d /\ (forall v, In v (ga_vars d) <-> In v vs) /\ (forall e, gval r e = gval d e * gval c e).
Proof.
  intros Ho Gf Va Ga Gc Dv Iv Hv Ic H E. destruct (gmarg_law b o f vs r Ho Gf Va Dv Iv E) as (Gr & Vr & Su & _ & _ & Ir & _).
  pose proof Gf as (Wf & _). pose proof Ga as (Wa & _ & Pa & _). pose proof Gc as (Wc & _ & Pc & _). pose proof Wf as (Hd & _). pose proof Wa as (Hda & _).
  destruct (so_split o (ga_vars f) vs Ho Hd Dv Iv) as (HP & Hys). set (ys := so o (set_diff (ga_vars f) vs)) in *.
  assert (HPa : Permutation (ys ++ vs) (ga_vars a)).
  { rewrite HP. apply NoDup_Permutation; [exact Hd|exact Hda|]. intros v. now rewrite Hv. }
  assert (Oc : forall e e', (forall v, ~ In v ys -> e v = e' v) -> gval c e = gval c e').
  { intros e e' He. apply gval_ext; [exact Wc|]. intros v Vc. apply He. intros C. apply Hys in C. apply C, Ic, Vc. }
  assert (Sa : summ (gval a) ys).
  { intros x Hx Nx. specialize (Su x Hx Nx). rewrite (curv_mul (gval f) (gval a) (gval c) x Pa Pc H) in Su.
    assert (Z : curv (gval c) x = 0); [|lra]. unfold curv. rewrite (Oc x (fun _ => 0)), (Oc (fun v => - x v) (fun _ => 0)); [ring| |exact Hx].
    intros v Nv. rewrite (Hx v Nv). ring. }
  destruct (exact_integral b a vs ys Ga HPa Sa) as (d & Gd & Vd & _ & _ & Id & _). exists d. split; [exact Gd|]. split; [intros v; now rewrite Vd|].
  intros e. apply (iint_unique ys (gval f) e); [now apply Ir|]. rewrite Rmult_comm. apply (iint_ext ys (fun e => gval c e * gval a e)); [intros e0; rewrite H; ring|].
  apply iint_scal; [|now apply Id]. intros y Hy e0 t. apply Oc. intros v Nv. apply setv_other. intros C. subst v. contradiction.
Qed.
Lemma list_all_zero (x : renv) l : (forall v, In v l -> x v = 0) \/ exists v, In v l /\ x v <> 0.
Proof.
  induction l as [|a l IH]; [left; intros v []|]. destruct (Req_dec (x a) 0) as [E|E]; [|right; exists a; cbn; auto].
  destruct IH as [IH|(v & Hv & Nv)]; [|right; exists v; cbn; auto]. left. intros v [<-|Hv]; auto.
Qed.
Lemma gauss_app b f h xs ys : ggood b f -> ggood b h -> NoDup ys -> incl ys (ga_vars f) ->
  (forall v, In v (ga_vars h) <-> In v (ga_vars f) /\ ~ In v ys) -> summ (gval f) ys -> (forall e, iint ys (gval f) e (gval h e)) ->
  incl xs (ga_vars h) -> summ (gval h) xs -> summ (gval f) (xs ++ ys).
Proof.
  intros Gf Gh Dy Iy Hv Su Ih Ix Sx. pose proof Gf as ((Hd & _) & _). pose proof Gh as ((Hdh & _) & _).
  assert (HP : Permutation (ys ++ ga_vars h) (ga_vars f)).
  { apply Permutation_sym, split_perm; auto.
    - intros v. rewrite Hv. split; [|intros [C|[C _]]; auto]. intros C. destruct (in_dec string_dec v ys); [now left|right; now split].
    - intros v C1 C2. apply Hv in C2. tauto. }
  destruct (exact_integral b f (ga_vars h) ys Gf HP Su) as (r & _ & _ & IR). assert (Er : forall e, gval r e = gval h e).
  { intros e. apply (iint_unique ys (gval f) e); [|apply Ih]. now apply (proj1 (proj2 (proj2 IR))). }
  apply (integral_of_ext f _ ys _ _ Er) in IR. destruct IR as (X & _ & _ & Z).
  intros x Hx (v & Nv).
  destruct (list_all_zero x (ga_vars h)) as [C|(u & Hu & Nu)].
  - apply Su; [|eauto]. intros w Nw. destruct (in_dec string_dec w (ga_vars h)) as [I|I]; [now apply C|]. apply Hx. rewrite in_app_iff. intros [A|A]; [apply I, Ix, A|tauto].
  - destruct (Z x) as (_ & _ & _ & M). specialize (M x (fun _ _ => eq_refl)). apply Rlt_le_trans with (curv (gval h) x); [|exact M].
    rewrite (curv_ext (gval h) (ga_vars h) x (only xs x) X).
    + apply Sx; [intros w Nw; now apply only_out|]. exists u. assert (In u xs).
      { destruct (in_dec string_dec u xs) as [I|I]; [exact I|]. destruct Nu. apply Hx. rewrite in_app_iff. apply Hv in Hu. tauto. }
      now rewrite only_in.
    + intros w Hw. unfold only. destruct (in_dec string_dec w xs) as [I|I]; [reflexivity|]. apply Hx. rewrite in_app_iff. apply Hv in Hw. tauto.
Qed.
Theorem gauss_plaws b o : oracle_ok o -> plaws (gauss_ops o) (ggood b) gsound gready gval.
Proof.
  intros Ho. split; cbn [gauss_ops f_vars f_mul f_reduce f_cancel f_marg].
  - apply gauss_prod_laws.
  - intros f e e' (W & _). now apply gval_ext.
  - intros f e (_ & _ & P & _). apply P.
  - intros f vs xs v (W & S & _) N I Hl Hv Nv. destruct (g_reduce_spec f vs xs W S N I (fun C => Nv (C v Hv)) Hl) as (r & E & _). eauto.
  - intros f vs xs r G N I Hl E. destruct (greduce_law b f vs xs r G N I Hl E) as (Gr & _). apply (fresh_ready b r Gr (reduce_flag f vs xs r E)).
  - intros a c r Ga Gc E. destruct (gmul_law b a c Ga Gc) as (r' & E' & Gr & _). assert (r' = r) as -> by congruence. apply (fresh_ready b r Gr (absorb_flag _ _ _ _ _ E)).
  - intros a c r Ga Gc E S. pose proof Ga as (W1 & S1 & _). pose proof Gc as (W2 & S2 & _).
    destruct (g_divide_spec a c W1 W2) as (r' & E' & Wr & _ & Lr). assert (r' = r) as -> by congruence. pose proof (absorb_flag _ _ _ _ _ E) as (Fn & Ff).
    apply sound_unflagged; auto; [exact (NlgOps2.divide_symm a c r W1 W2 S1 S2 E)|]. intros e. destruct (gpos_fin a e (proj1 (proj2 (proj2 Ga)) e)) as (x & Lx & _).
    destruct (gpos_fin c e (proj1 (proj2 (proj2 Gc)) e)) as (y & Ly & _). unfold gval, lp. rewrite (Lr e _ _ Lx Ly). apply exp_pos.
  - intros a f Ga Gf Hv H. apply (sound_same b a f Ga Gf Hv). intros x. unfold curv. rewrite !H. lra.
  - intros a c r Ga Gc I E. destruct (gmul_law b a c Ga Gc) as (r' & E' & Gr & Vr & Hr). assert (r' = r) as -> by congruence. apply (sound_same b a r Ga Gr).
    + intros v. rewrite Vr. split; [intros [C|C]; auto|now left].
    + intros x. pose proof Ga as (_ & _ & Pa & _). pose proof Gc as (_ & _ & Pc & Qc & _). rewrite (curv_mul (gval r) (gval a) (gval c) x Pa Pc Hr). specialize (Qc x). lra.
  - intros a c d. apply gdiv_law.
  - intros f vs r G Va _ D I E. destruct (gmarg_law b o f vs r Ho G Va D I E) as (Gr & Vr & Su & _ & _ & Ir & _). split; [exact Gr|]. split; [intros v; now rewrite Vr|].
    intros rem Dr Hr. pose proof G as ((Hd & _) & _). destruct (so_split o (ga_vars f) vs Ho Hd D I) as (HP & Hys).
    split; [apply (summ_same _ (so o (set_diff (ga_vars f) vs))); [intros v; now rewrite Hr, Hys|exact Su]|]. intros e. apply Ir.
    apply NoDup_Permutation; [exact Dr|apply so_NoDup; [exact Ho|apply NoDup_set_diff]|]. intros v. now rewrite Hr, Hys.
  - intros f a c vs r Gf Va Ga Gc _ D I Hv Ic H E. now apply (gauss_split b o f a c vs r).
  - intros f ys v G D I _ _ Su. pose proof G as ((Hd & _) & _). destruct (complement (ga_vars f) ys Hd D I) as (xs & HP & Hx).
    destruct (exact_integral b f xs ys G HP Su) as (r & Gr & Vr & _ & _ & Ir & _). exists r. split; [exact Gr|]. split; [intros u; now rewrite Vr|exact Ir].
  - intros f h xs ys. apply gauss_app.
Qed.
