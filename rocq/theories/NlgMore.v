(** Quotients on the conditioning side, parameters, normalisation, marginals without information, and quotients of mixtures. *)
From Verif Require Export NlgExamples3.
From Verif Require Import GaussTotal IntMoment2.
#[global] Set Bullet Behavior "Strict Subproofs".
Local Open Scope string_scope.
Local Open Scope list_scope.
Local Open Scope R_scope.

(** A quotient on the conditioning side. *)
Lemma cing_not_cal f vs : nl_wf f -> incl vs (nl_cing f) -> vs <> [] -> subsetb vs (nl_cal f) = false.
Proof.
  intros Wf Iv Nv. destruct (subsetb vs (nl_cal f)) eqn:E; [|reflexivity]. exfalso. apply subsetb_incl in E. destruct vs as [|v l]; [congruence|].
  destruct Wf as (Hd & _). exact (proj2 (proj2 (NoDup_app_elim _ _ Hd)) v (Iv v (or_introl eq_refl)) (E v (or_introl eq_refl))).
Qed.
Theorem nl_divide_cing o f g A b c j q : oracle_ok o -> nl_good A b c f -> nl_joint_distribution o f = Ok j ->
  wf_gauss g -> ga_vac g = false -> incl (ga_vars g) (ga_vars c) -> ga_vars g <> [] -> g_divide c g = Ok q -> solid q ->
  exists r, nl_divide_gauss o f g = Ok r /\ same_kind f r /\ nl_ev r = nl_ev f /\ nl_cond r = Some q /\
    (forall v, In v (ga_vars (nl_joint r)) <-> In v (ga_vars j)) /\
    forall e, obeys (nl_ev f) e -> exists l1 l2 l3 lg, lp c e = Ok l1 /\ noise_lp f A b e = Ok l2 /\ upd_lp f e = Ok l3 /\ lp g e = Ok lg /\
      lp j e = Ok (vadd (vadd l1 l2) l3) /\ lp (nl_joint r) e = Ok (vadd (vadd (vsub l1 lg) l2) l3).
Proof.
  intros Ho (Wf & OK & Ec & IN) Ej Wg Vg Ig Ng Eq Sq. destruct (nl_joint_spec o f A b c Ho Wf OK Ec IN) as (j' & Ej' & (Wj & Sj & Vj & Lj) & _).
  rewrite Ej in Ej'. injection Ej' as <-. pose proof IN as (Sc & Ic & Ha & Hn). destruct (nl_copy_spec f Wf) as (d & Ed & CD). pose proof (nl_ok_copy f d A b OK CD) as OKd.
  pose proof (cond_copy_id f d c Ed Ec Sc) as Ecd. pose proof CD as (SK & K6 & K7 & K8 & K9). pose proof SK as (K1 & K2 & K3 & K4 & K5).
  assert (Igf : incl (ga_vars g) (nl_cing f)) by (intros v Hv; apply Ic; now apply Ig).
  unfold nl_divide_gauss. rewrite Ed. cbn [bind]. rewrite Vg, K2, (cing_not_cal f _ Wf Igf Ng), K1, (proj2 (subsetb_incl _ _) Igf), Ecd, Eq. cbn [bind].
  destruct (divide_full c g (proj1 Sc) Wg) as (q' & Eq' & Wq & Vq & Lq). rewrite Eq in Eq'. injection Eq' as <-.
  assert (IV : forall v, In v (ga_vars q) <-> In v (ga_vars c)) by (intros v; rewrite Vq; split; [intros [H|H]; [exact H|now apply Ig]|now left]).
  assert (OKq : nl_ok (set_cond d q) A b) by exact OKd.
  assert (INq : informed (set_cond d q) q).
  { split; [exact Sq|]. cbn [set_cond nl_cing nl_ev]. rewrite K1, K6. split; [intros v Hv; apply Ic; now apply IV|]. split; [intros v Hv; rewrite IV; now apply Ha|]. intros C. apply Hn. intros v Hv. apply C. now apply IV. }
  destruct (nl_recompute_spec o (set_cond d q) A b q Ho OKq eq_refl INq) as (jr & Er & Wjr & _ & _ & Vjr & Ljr). exists (set_joint (set_cond d q) jr).
  split; [exact Er|]. split; [exact SK|]. split; [exact K6|]. split; [reflexivity|]. cbn [set_joint nl_joint].
  split; [intros v; rewrite Vjr, Vj, IV; cbn [set_cond nl_cal nl_ev]; rewrite K2, K6; reflexivity|].
  intros e He. destruct (Lj e He) as (l1 & l2 & l3 & L1 & L2 & L3 & L). cbn [set_cond nl_ev] in Ljr. rewrite K6 in Ljr. destruct (Ljr e He) as (m1 & m2 & m3 & M1 & M2 & M3 & M).
  destruct (Lq e (ga_vars q) (Permutation_refl _)) as (lc & lg & Lc & Lg & _ & Lq'). rewrite L1 in Lc. injection Lc as <-. exists l1, l2, l3, lg. do 5 (split; [assumption|]).
  rewrite Lq' in M1. injection M1 as <-. change (noise_lp d A b e = Ok m2) in M2. rewrite (noise_lp_copy f d A b e SK), L2 in M2. injection M2 as <-.
  change (upd_lp d e = Ok m3) in M3. rewrite (upd_lp_copy f d e K8), L3 in M3. injection M3 as <-. exact M.
Qed.
(** The quotient of a product is a proper distribution again. *)
Definition finite (f : gauss) : Prop := forall e, exists l, lp f e = Ok (Fin l).
Lemma finite_pos f : finite f -> forall e, 0 < gval f e.
Proof. intros H e. destruct (H e) as (l & E). unfold gval. rewrite E. cbn. apply exp_pos. Qed.
Lemma solid_good f : solid f -> finite f -> gproper f.
Proof.
  intros S F. pose proof S as (W & Va & _). pose proof (finite_pos f F) as P. pose proof (solid_sym f S) as Y. pose proof W as (Hd & _).
  destruct (ggood_canon f W Y P) as (f' & K & h & g & Ec & Sh & YK & G). destruct (get_can_solid f S) as (f1 & K1 & h1 & g1 & E1 & PK & _). rewrite Ec in E1. injection E1 as <- <- <- <-.
  pose proof (proj1 (posdef_qn (ga_vars f) K Hd (proj1 Sh) YK) PK) as Q.
  assert (C : forall x, (exists v, In v (ga_vars f) /\ x v <> 0) -> 0 < curv (gval f) x) by (intros x Hx; rewrite (curv_qn _ _ K h g x G); now apply Q).
  split; [|exact Va]. split; [exact W|]. split; [exact Y|]. split; [exact P|]. split; [|intros _; now apply (summ_posdef f W)].
  intros x. rewrite (curv_qn _ _ K h g x G). destruct (existsb (fun v => if Req_EM_T (x v) 0 then false else true) (ga_vars f)) eqn:B.
  - apply existsb_exists in B. destruct B as (v & Hv & B). left. apply Q. exists v. split; [exact Hv|]. destruct (Req_EM_T (x v) 0); [discriminate B|assumption].
  - rewrite qn_zero; [right; reflexivity|]. intros v Hv. destruct (Req_EM_T (x v) 0) as [E|N]; [exact E|]. exfalso. assert (existsb (fun v => if Req_EM_T (x v) 0 then false else true) (ga_vars f) = true); [|congruence].
    apply existsb_exists. exists v. split; [exact Hv|]. now destruct (Req_EM_T (x v) 0).
Qed.
Lemma quotient_solid c g p q : solid c -> finite c -> solid g -> finite g -> incl (ga_vars g) (ga_vars c) -> g_multiply c g = Ok p -> g_divide p g = Ok q ->
  solid q /\ (forall v, In v (ga_vars q) <-> In v (ga_vars c)) /\ forall e, lp q e = lp c e.
Proof.
  intros Sc Fc Sg Fg Ig Ep Eq. destruct (multiply_symm c g (proj1 Sc) (proj1 Sg) (solid_sym c Sc) (solid_sym g Sg)) as (p' & Ep' & Wp & Yp & Vp & Lp). rewrite Ep in Ep'. injection Ep' as <-.
  destruct (divide_full p g Wp (proj1 Sg)) as (q' & Eq' & Wq & Vq & Lq). rewrite Eq in Eq'. injection Eq' as <-. pose proof (divide_symm p g q Wp (proj1 Sg) Yp (solid_sym g Sg) Eq) as Yq.
  assert (V : forall v, In v (ga_vars q) <-> In v (ga_vars c)).
  { intros v. rewrite Vq, Vp. unfold new_vars. rewrite (proj2 (subsetb_incl _ _) Ig). split; [intros [H|H]; [exact H|now apply Ig]|now left]. }
  assert (L : forall e, lp q e = lp c e).
  { intros e. destruct (Fc e) as (l & E). destruct (Fg e) as (lg & Eg). destruct (Lq e (ga_vars q) (Permutation_refl _)) as (l1 & l2 & L1 & L2 & _ & L3).
    rewrite (Lp e _ _ E Eg) in L1. apply ok_inj in L1. subst l1. rewrite Eg in L2. apply ok_inj in L2. subst l2. rewrite L3, vadd_vsub, E. reflexivity. }
  split; [|now split]. destruct (solid_good c Sc Fc) as ((_ & _ & Pc & Qc & Dc) & _).
  assert (G : forall e, gval q e = gval c e) by (intros e; unfold gval; now rewrite L).
  assert (Cq : forall x, curv (gval q) x = curv (gval c) x) by (intros x; unfold curv; now rewrite !G).
  assert (Gq : ggood true q).
  { split; [exact Wq|]. split; [exact Yq|]. split; [intros e; now rewrite G|]. split; [intros x; rewrite Cq; apply Qc|]. intros _. apply (summ_posdef q Wq). intros x (v & Hv & Hx). rewrite Cq.
    apply (proj1 (summ_posdef c (proj1 Sc)) (Dc eq_refl)). exists v. split; [now apply V|exact Hx]. }
  pose proof (absorb_flag _ _ _ _ _ Eq) as FL. destruct (good_unflagged q Gq FL) as (_ & Vaq).
  assert (NC : ga_cov q = None).
  { unfold g_divide, absorb_or_cancel in Eq. apply bind_ok in Eq. destruct Eq as (r1 & _ & H). apply bind_ok in H. destruct H as (r2 & _ & H).
    destruct (snd r1) as [[K1 h1] g1]. destruct (snd r2) as [[K2' h2] g2]. apply bind_ok in H. destruct H as (kc & _ & H). apply bind_ok in H. destruct H as (hc & _ & H).
    apply bind_ok in H. destruct H as (_ & _ & H). unfold mk_can in H. apply bind_ok in H. destruct H as (_ & _ & H). apply bind_ok in H. destruct H as (K' & _ & H). apply bind_ok in H. destruct H as (h' & _ & H).
    apply bind_ok in H. destruct H as (_ & _ & H). apply bind_ok in H. destruct H as (_ & _ & H). injection H as <-. reflexivity. }
  split; [exact Wq|]. split; [exact Vaq|]. split; [intros a b0 Ha Hb; rewrite NC in Hb; discriminate Hb|]. split; [|intros C m w Hc; rewrite NC in Hc; discriminate Hc].
  intros K h g0 Hk. exact (good_posdef q q K h g0 Gq (get_can_some q K h g0 Hk)).
Qed.
Theorem nl_divide_back_cing o f g A b c j r : oracle_ok o -> nl_good A b c f -> nl_joint_distribution o f = Ok j -> finite c ->
  solid g -> finite g -> incl (ga_vars g) (ga_vars c) -> ga_vars g <> [] -> nl_multiply_gauss f g = Ok r ->
  exists q, nl_divide_gauss o r g = Ok q /\ same_kind f q /\ nl_ev q = nl_ev f /\ (forall v, In v (ga_vars (nl_joint q)) <-> In v (ga_vars j)) /\
    forall e, obeys (nl_ev f) e -> lp (nl_joint q) e = lp j e.
Proof.
  intros Ho GF Ej Fc Sg Fg Ig Ng Er. pose proof GF as (Wf & OK & Ec & IN). pose proof IN as (Sc & Ic & Ha & Hn). pose proof Sg as (Wg & Vg & _).
  assert (Igf : incl (ga_vars g) (nl_cing f)) by (intros v Hv; apply Ic; now apply Ig).
  destruct (good_multiply o f A b c g j Ho GF Ej Sg) as (r' & c' & jr & Er' & Gr & Vc' & Q1 & Q2 & Q3 & Ejr & L); [right; now repeat split|]. rewrite Er in Er'. injection Er' as <-.
  destruct (nl_multiply_cing f g Wf Wg Vg Igf Ng) as (r' & c2 & Er' & Wr & SK & _ & KU & Ec2 & _). rewrite Er in Er'. injection Er' as <-.
  assert (Ep : g_multiply c g = Ok c').
  { pose proof Er as E0. unfold nl_multiply_gauss in E0. apply bind_ok in E0. destruct E0 as (d & Ed & E0). rewrite Vg in E0. destruct (nl_copy_spec f Wf) as (d' & Ed' & ((S1 & S2 & _) & _)). rewrite Ed in Ed'. injection Ed' as <-.
    rewrite S2, (cing_not_cal f _ Wf Igf Ng), S1, (proj2 (subsetb_incl _ _) Igf), (cond_copy_id f d c Ed Ec Sc) in E0. apply bind_ok in E0. destruct E0 as (u & Eu & [= <-]).
    destruct Gr as (_ & _ & Ecr & _). cbn [set_cond nl_cond] in Ecr. injection Ecr as <-. exact Eu. }
  destruct (divide_full c' g) as (q & Eq & _); [apply Gr|exact Wg|]. destruct (quotient_solid c g c' q Sc Fc Sg Fg Ig Ep Eq) as (Sq & Vq & Lq).
  destruct (nl_divide_cing o r g A b c' jr q Ho Gr Ejr Wg Vg) as (s & Es & SKs & Ks & Ecs & Vs & Ls); [now rewrite Vc'|exact Ng|exact Eq|exact Sq|].
  exists s. split; [exact Es|]. pose proof SK as (K1 & K2 & K3 & K4 & K5). destruct SKs as (T1 & T2 & T3 & T4 & T5). split; [unfold same_kind; now rewrite T1, T2, T3, T4, T5|]. split; [congruence|].
  destruct (nl_joint_spec o f A b c Ho Wf OK Ec IN) as (j' & Ej' & (_ & _ & Vj & Lj) & _). rewrite Ej in Ej'. injection Ej' as <-.
  destruct Gr as (Wr' & OKr & Ecr & INr). destruct (nl_joint_spec o r A b c' Ho Wr' OKr Ecr INr) as (j' & Ej' & (_ & _ & Vjr & _) & _). rewrite Ejr in Ej'. injection Ej' as <-.
  split; [intros v; rewrite Vs, Vjr, Vj, Vc', Q2, Q3; reflexivity|]. intros e He. destruct (Lj e He) as (l1 & l2 & l3 & L1 & L2 & L3 & L0). rewrite Q3 in Ls. destruct (Ls e He) as (m1 & m2 & m3 & mg & M1 & M2 & M3 & Mg & _ & M).
  rewrite M, L0. rewrite (noise_lp_copy f r A b e SK), L2 in M2. injection M2 as <-. rewrite (upd_lp_copy f r e KU), L3 in M3. injection M3 as <-.
  destruct (Fg e) as (lg & Eg). rewrite Eg in Mg. injection Mg as <-. destruct (multiply_symm c g (proj1 Sc) Wg (solid_sym c Sc) (solid_sym g Sg)) as (p' & Ep' & _ & _ & _ & Lp). rewrite Ep in Ep'. injection Ep' as <-.
  rewrite (Lp e _ _ L1 Eg) in M1. injection M1 as <-. now rewrite vadd_vsub.
Qed.

(** The parameters. *)
Theorem nl_get_can_spec o f A b c : oracle_ok o -> nl_good A b c f ->
  exists f' K h g, nl_get_can o f = Ok (f', (K, h, g)) /\ shaped (length (ga_vars (nl_joint f'))) (K, h, g) /\
    (forall v, In v (ga_vars (nl_joint f')) <-> (In v (ga_vars c) \/ In v (nl_cal f)) /\ ~ In v (dkeys (nl_ev f))) /\
    forall e, obeys (nl_ev f) e -> exists l1 l2 l3, lp c e = Ok l1 /\ noise_lp f A b e = Ok l2 /\ upd_lp f e = Ok l3 /\
      vadd (Fin (can_form (ga_vars (nl_joint f')) K h e)) g = vadd (vadd l1 l2) l3.
Proof.
  intros Ho (Wf & OK & Ec & IN). destruct (nl_recompute_spec o f A b c Ho OK Ec IN) as (j & Er & Wj & _ & _ & Vj & Lj).
  destruct (get_can_wf j Wj) as (j' & K & h & g & Eg & V & _ & Sh & _). unfold nl_get_can. rewrite Er. cbn [bind set_joint nl_joint]. rewrite Eg. cbn [bind fst snd]. exists (set_joint (set_joint f j) j'), K, h, g.
  split; [reflexivity|]. cbn [set_joint nl_joint]. rewrite V. split; [exact Sh|]. split; [exact Vj|]. intros e He. destruct (Lj e He) as (l1 & l2 & l3 & L1 & L2 & L3 & L). exists l1, l2, l3. do 3 (split; [assumption|]).
  unfold lp in L. rewrite (lp_canon j j' K h g e Wj Eg) in L. now apply ok_inj in L.
Qed.
Theorem nl_get_cov_spec o f A b c : oracle_ok o -> nl_good A b c f -> (forall u, nl_upd f = Some u -> solid u) ->
  exists f' C m w, nl_get_cov o f = Ok (f', (C, m, w)) /\ shaped (length (ga_vars (nl_joint f'))) (C, m, w) /\ posdef C /\
    (forall v, In v (ga_vars (nl_joint f')) <-> (In v (ga_vars c) \/ In v (nl_cal f)) /\ ~ In v (dkeys (nl_ev f))) /\
    forall e, obeys (nl_ev f) e -> exists l1 l2 l3, lp c e = Ok l1 /\ noise_lp f A b e = Ok l2 /\ upd_lp f e = Ok l3 /\
      cov_log_potential C m w (mcol (map e (ga_vars (nl_joint f')))) = Ok (vadd (vadd l1 l2) l3).
Proof.
  intros Ho (Wf & OK & Ec & IN) Su. destruct (nl_recompute_spec o f A b c Ho OK Ec IN) as (j & Er & Wj & _ & Sj & Vj & Lj). assert (S : solid j) by (apply Sj; destruct (nl_upd f); auto).
  destruct (get_cov_solid j S) as (j' & C & m & w & Eg). destruct (solid_get_cov j j' (C, m, w) S Eg) as (_ & V & _). destruct (solid_lp_cov j j' C m w S Eg) as (Sh & P & L0).
  unfold nl_get_cov. rewrite Er. cbn [bind set_joint nl_joint]. rewrite Eg. cbn [bind fst snd]. exists (set_joint (set_joint f j) j'), C, m, w. split; [reflexivity|]. cbn [set_joint nl_joint]. rewrite V.
  split; [exact Sh|]. split; [exact P|]. split; [exact Vj|]. intros e He. destruct (Lj e He) as (l1 & l2 & l3 & L1 & L2 & L3 & L). exists l1, l2, l3. do 3 (split; [assumption|]). now rewrite <- L0.
Qed.
Theorem nl_normalize_spec o f A b c j : oracle_ok o -> nl_good A b c f -> (forall u, nl_upd f = Some u -> solid u) -> nl_joint_distribution o f = Ok j -> (exists e l, lp j e = Ok (Fin l)) ->
  exists r w, nl_normalize o f = Ok r /\ ga_vars r = ga_vars j /\ (forall e, iint (ga_vars r) (gval r) e 1) /\ forall e l, lp j e = Ok l -> lp r e = Ok (vsub l (Fin w)).
Proof.
  intros Ho (Wf & OK & Ec & IN) Su Ej (e0 & l0 & H0). destruct (nl_joint_spec o f A b c Ho Wf OK Ec IN) as (j' & Ej' & _ & Sj). rewrite Ej in Ej'. injection Ej' as <-.
  assert (S : solid j) by (apply Sj; destruct (nl_upd f); auto). destruct (get_cov_solid j S) as (j' & C & m & w & Eg). destruct (solid_lp_cov j j' C m w S Eg) as (Sh & P & L0).
  assert (W : exists x, w = Fin x).
  { rewrite L0, (cov_log_potential_ok (length (ga_vars j))) in H0; [|exact Sh|split; [apply P|now apply posdef_det]|apply map_length]. apply ok_inj in H0. destruct w; try discriminate H0. now eexists. }
  destruct W as (x & ->). unfold nl_normalize. rewrite Ej. cbn [bind]. destruct (normalize_full j j' C m x S Eg) as (r & En & _ & _ & V & _ & L). exists r, x. split; [exact En|]. split; [exact V|]. split; [|exact L].
  intros e. destruct (normalize_integral j j' C m x (ga_vars r) e S Eg) as (r' & En' & I'); [now rewrite V|]. rewrite En in En'. injection En' as <-. exact I'.
Qed.

(** Marginals nothing is known about. *)
Theorem nl_no_info_rest o f xs : nl_wf f -> NoDup (dkeys (nl_ev f)) -> no_info f -> NoDup xs -> incl xs (nl_vars f) -> ~ incl xs (nl_cal f) ->
  (~ incl xs (nl_cing f) \/ nl_cond f = None \/ exists c, nl_cond f = Some c /\ ~ incl xs (ga_vars c)) ->
  exists r, nl_marginalize o f xs true = Ok r /\ ga_vars r = xs /\ ga_vac r = true /\ forall e, lp r e = Ok (Fin 0).
Proof.
  intros Wf Nk NI Dx Ix Nc H. destruct (no_info_start o f xs Wf Nk NI Ix) as (d & j & CD & Ed & Ej & Vac & SB). pose proof CD as ((K1 & K2 & _) & _ & _ & _ & K9).
  assert (F1 : forall l, ~ incl xs l -> subsetb xs l = false) by (intros l N; destruct (subsetb xs l) eqn:E; [exfalso; apply N; now apply subsetb_incl|reflexivity]).
  assert (E : nl_marginalize o f xs true = make_vacuous xs (Fin 0)).
  { unfold nl_marginalize. cbn [marginal_vars]. rewrite SB. cbn [py_assert bind]. rewrite Ed. cbn [bind]. rewrite Ej. cbn [bind set_joint nl_joint nl_cing nl_cond nl_cal]. rewrite Vac, K1, K2, (F1 _ Nc).
    destruct H as [H|[H|(c & Ec & H)]].
    - now rewrite (F1 _ H).
    - unfold opt_same in K9. rewrite H in K9. destruct (nl_cond d); [contradiction|]. now destruct (subsetb xs (nl_cing f)).
    - unfold opt_same in K9. rewrite Ec in K9. destruct (nl_cond d) as [c'|]; [|contradiction]. destruct K9 as ((_ & Vc & _) & _). rewrite Vc, (F1 _ H). now destruct (subsetb xs (nl_cing f)). }
  rewrite E. destruct xs as [|x xs]; [exfalso; apply Nc; intros v []|]. clear -Dx. set (xs0 := x :: xs) in *. unfold make_vacuous. rewrite mk_can_ok by (exact Dx || now repeat split). eexists. split; [reflexivity|].
  split; [reflexivity|]. split; [cbn [ga_vac]; apply zeros_vacuous|]. intros e. unfold lp. cbn [ga_vars].
  set (z := {| ga_vars := xs0 |}). assert (Wz : wf_gauss z). { split; [exact Dx|]. split; [left; discriminate|]. split; intros q Hq; [|discriminate]. injection Hq as <-. now repeat split. }
  pose proof (lp_canon z z _ _ _ e Wz (get_can_some z _ _ _ eq_refl)) as L. cbn [ga_vars z] in L. rewrite L. rewrite can_form_zero by exact Dx. unfold qsum. rewrite rsum_zero; [cbn; f_equal; f_equal; ring|]. intros i _. apply rsum_zero. intros k _. cbn. ring.
Qed.

(** Quotients of mixtures of nonlinear Gaussians by a message about the conditional variables. *)
Lemma like_divide o f A b cvs h g : oracle_ok o -> like f A b cvs h -> nl_upd h <> None -> wf_gauss g -> sym_prec g -> ga_vac g = false -> incl (ga_vars g) (nl_cal f) ->
  exists r, nl_divide_gauss o h g = Ok r /\ like f A b cvs r /\
    forall e l lg, obeys (nl_ev f) e -> joint_lp o h e = Ok l -> lp g e = Ok (Fin lg) -> joint_lp o r e = Ok (vsub l (Fin lg)).
Proof.
  intros Ho (K1 & K2 & K3 & c & Vc & G) Nu Wg Sg Vg Ig. pose proof G as (Wh & OKh & Ec & IN). destruct (nl_upd h) as [u|] eqn:Eu; [clear Nu|congruence].
  destruct (nl_joint_spec o h A b c Ho Wh OKh Ec IN) as (j & Ej & (Wj & _ & _ & Lj) & _). assert (Igh : incl (ga_vars g) (nl_cal h)) by now rewrite K2.
  destruct (nl_divide_cal o h g A b c u j Ho Wh OKh Ec IN Ej Eu Wg Sg Vg Igh) as (r & jr & Er & Ejr & SK & K6 & Vr & Lr). exists r. split; [exact Er|].
  pose proof SK as (S1 & S2 & S3 & S4 & S5). pose proof IN as (Sc & Ic & Ha & Hn).
  (* the pieces of the quotient *)
  pose proof Er as E0. unfold nl_divide_gauss in E0. apply bind_ok in E0. destruct E0 as (d & Ed & E0). destruct (nl_copy_spec h Wh) as (d' & Ed' & CD). rewrite Ed in Ed'. injection Ed' as <-.
  pose proof (nl_wf_copy h d Wh CD) as Wd. pose proof (nl_ok_copy h d A b OKh CD) as OKd. pose proof CD as ((D1 & D2 & D3 & D4 & D5) & D6 & D7 & D8 & D9).
  rewrite Vg, D2, (proj2 (subsetb_incl _ _) Igh) in E0. unfold opt_same in D8. rewrite Eu in D8. destruct (nl_upd d) as [u'|] eqn:Eu'; [|contradiction]. destruct D8 as (SO & _). pose proof SO as (Wu & Vu & _).
  destruct (divide_full u' g Wu Wg) as (q & Eq & Wq & Vq & Lq). rewrite Eq in E0. cbn [bind] in E0. pose proof OKh as (_ & _ & _ & _ & _ & _ & O7 & O8). unfold upd_ok in O8. rewrite Eu in O8. destruct O8 as (_ & Su & Iu).
  assert (Sq : sym_prec q) by (apply (divide_symm u' g q Wu Wg (sym_same u u' SO Su) Sg Eq)).
  assert (OKq : nl_ok (set_upd d q) A b).
  { destruct OKd as (P1 & P2 & P3 & P4 & P5 & P6 & P7 & _). do 7 (split; [assumption|]). split; [exact Wq|]. split; [exact Sq|]. intros v Hv. cbn [nl_cal set_upd]. rewrite D2.
    apply Vq in Hv. destruct Hv as [Hv|Hv]; [apply Iu; now rewrite <- Vu|now apply Igh]. }
  pose proof (cond_copy_id h d c Ed Ec Sc) as Ecd. assert (INd : informed (set_upd d q) c) by (split; [exact Sc|]; cbn [set_upd nl_cing nl_ev]; rewrite D1, D6; now repeat split).
  destruct (nl_recompute_spec o (set_upd d q) A b c Ho OKq Ecd INd) as (j0 & Er0 & Wj0 & _). rewrite Er0 in E0. apply ok_inj in E0.
  assert (Gr : nl_good A b c r).
  { subst r. split; [|split; [exact OKq|split; [exact Ecd|exact INd]]]. destruct Wd as (W1 & W2 & W3 & W4 & W5 & W6). split; [exact W1|]. split; [exact W2|]. split; [exact W3|]. split; [exact Wj0|].
    split; [|exact W6]. intros x Hx. cbn [set_joint set_upd nl_upd] in Hx. injection Hx as <-. exact Wq. }
  split; [split; [congruence|split; [congruence|split; [congruence|now exists c]]]|].
  intros e l lg He Hl Hg. rewrite <- K3 in He. pose proof Gr as (Wr & OKr & Ecr & INr). destruct (nl_joint_spec o r A b c Ho Wr OKr Ecr INr) as (j1 & Ej1 & (_ & _ & _ & Lj1) & _). unfold joint_lp in *. rewrite Ej in Hl. rewrite Ej1. cbn [bind] in *.
  destruct (Lr e He) as (l1 & l2 & lu & lg' & L1 & L2 & L3 & L4 & L5 & _). rewrite Hg in L4. injection L4 as <-. rewrite L5 in Hl. injection Hl as <-. rewrite K6 in Lj1. destruct (Lj1 e He) as (m1 & m2 & m3 & M1 & M2 & M3 & M). rewrite M.
  rewrite L1 in M1. injection M1 as <-. rewrite (noise_lp_copy h r A b e SK), L2 in M2. injection M2 as <-. unfold upd_lp in M3. subst r. cbn [set_joint set_upd nl_upd] in M3.
  destruct (Lq e (ga_vars q) (Permutation_refl _)) as (a1 & a2 & A1 & A2 & _ & A3). rewrite A3 in M3. injection M3 as <-. rewrite (same_obj_lp' u u' e SO), L3 in A1. injection A1 as <-. rewrite Hg in A2. injection A2 as <-.
  f_equal. destruct l1, l2, lu; cbn; try reflexivity. f_equal. ring.
Qed.
Theorem nm_divide_joint o f A b cvs a g ja : oracle_ok o -> NoDup (nl_vars f) -> nm_good f A b cvs a -> nm_joint_distribution o a = Ok ja -> (forall h, In h (nm_nlgs a) -> nl_upd h <> None) ->
  wf_gauss g -> sym_prec g -> ga_vac g = false -> incl (ga_vars g) (nl_cal f) ->
  exists r jr, nm_divide o a (AGauss g) = Ok r /\ nm_good f A b cvs r /\ length (nm_nlgs r) = length (nm_nlgs a) /\ nm_joint_distribution o r = Ok jr /\
    forall e p lg, obeys (nl_ev f) e -> mixpot ja e = Ok (Fin p) -> lp g e = Ok (Fin lg) -> mixpot jr e = Ok (Fin (p / exp lg)).
Proof.
  intros Ho Hd Ga Eja Hu Wg Sg Vg Ig. pose proof Ga as (Hn & Va & H). unfold nm_divide. cbn [bind].
  destruct (mapM_F2 (fun h => nl_divide_gauss o h g) (fun h r => like f A b cvs r /\ forall e l lg, obeys (nl_ev f) e -> joint_lp o h e = Ok l -> lp g e = Ok (Fin lg) -> joint_lp o r e = Ok (vsub l (Fin lg))) (nm_nlgs a)) as (fs & Ef & F).
  { intros h Hh. apply like_divide; auto. }
  rewrite Ef. cbn [bind]. destruct (mk_nlgm_ok o f A b cvs fs true Ho Hd) as (r & Er & _ & Gr & Fr).
  { apply F2_length in F. destruct fs; [destruct (nm_nlgs a); [congruence|discriminate F]|discriminate]. }
  { intros h Hh. destruct (F2_in_r _ _ _ h F Hh) as (h0 & _ & L & _). exact L. }
  destruct (nm_joint_spec o f A b cvs r Ho Gr) as (jr & Ejr & _ & _ & _ & Pr & _). destruct (nm_joint_spec o f A b cvs a Ho Ga) as (ja' & Eja' & _ & _ & _ & _ & Pa). rewrite Eja in Eja'. injection Eja' as <-.
  exists r, jr. split; [exact Er|]. split; [exact Gr|]. split; [now rewrite <- (F2_length _ _ _ Fr), <- (F2_length _ _ _ F)|]. split; [exact Ejr|]. intros e p lg He Hp Hg.
  destruct (Pa e p Hp) as (ls & Fl & Il & ->). rewrite (Pr e (map (fun l => vsub l (Fin lg)) ls)).
  - do 2 f_equal. clear -Il. induction ls as [|l ls IH]; [cbn; unfold Rdiv; ring|]. cbn [map]. rewrite !Rsum_cons, IH by (intros x Hx; apply Il; now right).
    specialize (Il l (or_introl eq_refl)). destruct l; cbn in Il |- *; try contradiction; unfold Rdiv; rewrite ?Rmult_plus_distr_r; [ring|]. f_equal. unfold Rminus. now rewrite exp_plus, exp_Ropp.
  - clear -F Fr Fl He Hg. revert ls Fl. generalize (nm_nlgs r) Fr. clear Fr. induction F as [|h h1 hs hs1 (_ & Hh) F IH]; intros ds Fr ls Fl; inversion Fr; subst; inversion Fl; subst; constructor; [|now apply IH].
    match goal with X : forall e l, _ -> joint_lp o h1 e = Ok l -> _ |- _ => apply X; [exact He|] end. now apply Hh.
  - intros l Hl. apply in_map_iff in Hl. destruct Hl as (l0 & <- & Hl). specialize (Il l0 Hl). destruct l0; cbn in *; auto.
Qed.

(** Instances. *)
Lemma stdg_finite vars l w : NoDup vars -> finite (stdg vars l w).
Proof. intros Hd e. rewrite stdg_lp by exact Hd. now eexists. Qed.
Definition exx : gauss := stdg ["x2"] [3] 1.
Lemma cing_instance : exists o A b c f j g r c' jr q, oracle_ok o /\ nl_good A b c f /\ nl_joint_distribution o f = Ok j /\ finite c /\ solid g /\ finite g /\ incl (ga_vars g) (ga_vars c) /\ ga_vars g = ["x2"] /\
  nl_multiply_gauss f g = Ok r /\ nl_good A b c' r /\ nl_joint_distribution o r = Ok jr /\ incl (ga_vars g) (ga_vars c') /\ g_divide c' g = Ok q /\ solid q.
Proof.
  destruct made_instance as (o & A & b & f & j & Ho & G & P & K1 & K2 & K8 & K6 & Ej & Dj & Vj). assert (Sx : solid exx) by apply stdg_solid, nd1. assert (Fx : finite exx) by apply stdg_finite, nd1.
  assert (Sc : solid exc) by apply stdg_solid, nd_x21. assert (Fc : finite exc) by apply stdg_finite, nd_x21. assert (Ix : incl (ga_vars exx) (ga_vars exc)) by (intros v [<-|[]]; now left).
  assert (If : incl (ga_vars exx) (nl_cing f)) by (rewrite K1; intros v [<-|[]]; right; now left).
  destruct (good_multiply o f A b exc exx j Ho G Ej Sx) as (r & c' & jr & Er & Gr & Vc & _ & _ & _ & Ejr & _); [right; split; [exact If|split; [exact Ix|discriminate]]|].
  assert (Ep : g_multiply exc exx = Ok c').
  { pose proof Er as E0. unfold nl_multiply_gauss in E0. apply bind_ok in E0. destruct E0 as (d & Ed & E0). destruct (nl_copy_spec f (proj1 G)) as (d' & Ed' & ((S1 & S2 & _) & _)). rewrite Ed in Ed'. injection Ed' as <-.
    change (ga_vac exx) with false in E0. cbv iota in E0. rewrite S2, (cing_not_cal f _ (proj1 G) If ltac:(discriminate)), S1, (proj2 (subsetb_incl _ _) If), (cond_copy_id f d exc Ed (proj1 (proj2 (proj2 G))) Sc) in E0. apply bind_ok in E0. destruct E0 as (u & Eu & [= <-]).
    destruct Gr as (_ & _ & Ecr & _). cbn [set_cond nl_cond] in Ecr. injection Ecr as <-. exact Eu. }
  destruct (divide_full c' exx) as (q & Eq & _); [apply Gr|apply Sx|]. destruct (quotient_solid exc exx c' q Sc Fc Sx Fx Ix Ep Eq) as (Sq & _).
  exists o, A, b, exc, f, j, exx, r, c', jr, q. do 7 (split; [assumption|]). split; [reflexivity|]. do 3 (split; [assumption|]). split; [now rewrite Vc|]. now split.
Qed.
Lemma params_instance : exists o A b c f j, oracle_ok o /\ nl_good A b c f /\ (forall u, nl_upd f = Some u -> solid u) /\ nl_upd f = Some exu /\ nl_joint_distribution o f = Ok j /\ (exists e l, lp j e = Ok (Fin l)) /\ nl_ev f = [("x1", 5)].
Proof.
  destruct id_oracle_ok as (o & Ho). destruct (ex_made (Some exu) [("x1", 5)]) as (f & E & G & P & K1 & K2 & K8 & K6); [now intros u [= <-]|repeat constructor; intros []|intros (_ & [H|[]]); discriminate H|].
  destruct (nl_init_spec ["x1"; "x2"] ["y"] exT (meye 1) (Fin 0) (Some exu) (Some exc) [("x1", 5)] nd_xy eq_refl eq_refl) as (f' & E' & _ & _ & _ & _ & _ & K5 & _); [intros u [= <-]; exact su_y|intros c [= <-]; apply stdg_solid, nd_x21|].
  rewrite E in E'. injection E' as <-. destruct (nl_joint_explicit o f exA exb exc 0 Ho G K5) as (j & Ej & _ & _ & Lj).
  exists o, exA, exb, exc, f, j. split; [exact Ho|]. split; [exact G|]. split; [rewrite K6; intros u [= <-]; exact su_y|]. split; [exact K6|]. split; [exact Ej|]. split; [|exact K8].
  set (e := fun v => if string_dec v "x1" then 5 else 0). exists e. destruct (Lj e) as (l1 & l3 & L1 & L3 & L).
  { intros v x. rewrite K8. cbn [dget]. destruct (eq_dec v "x1") as [->|]; [|discriminate]. now intros [= <-]. }
  unfold exc in L1. rewrite stdg_lp in L1 by exact nd_x21. apply ok_inj in L1. subst l1. rewrite K6 in L3. unfold exu in L3. rewrite stdg_lp in L3 by exact nd_y. apply ok_inj in L3. subst l3. eexists. exact L.
Qed.
Lemma rest_instance : exists f, nl_wf f /\ NoDup (dkeys (nl_ev f)) /\ no_info f /\
  (forall xs, In xs [["x2"]; ["x2"; "y"]; ["y"; "x1"]] -> NoDup xs /\ incl xs (nl_vars f) /\ ~ incl xs (nl_cal f) /\ (~ incl xs (nl_cing f) \/ nl_cond f = None \/ exists c, nl_cond f = Some c /\ ~ incl xs (ga_vars c))).
Proof.
  assert (Sc : solid (stdg ["x1"] [4] 0)) by apply stdg_solid, nd1.
  destruct (nl_init_spec ["x1"; "x2"] ["y"] exT (meye 1) (Fin 2) (Some exu) (Some (stdg ["x1"] [4] 0)) [] nd_xy eq_refl eq_refl) as (f & E & W & K1 & K2 & K3 & K4 & K5 & K6 & K7 & K8 & _); [intros u [= <-]; exact su_y|now intros c [= <-]|].
  exists f. split; [exact W|]. split; [rewrite K8; constructor|]. split.
  { exists "x2". rewrite K1, K7, K8. split; [right; now left|]. split; [intros []|]. intros c [= <-] [H|[]]. discriminate H. }
  unfold nl_vars. rewrite K1, K2, K7. intros xs [<-|[<-|[<-|[]]]]; (split; [apply (proj1 (nodupb_iff _)); reflexivity|]; split; [apply subsetb_incl; reflexivity|]; split; [intros H; apply subsetb_incl in H; discriminate H|]).
  - right. right. eexists. split; [reflexivity|]. intros H. apply subsetb_incl in H. discriminate H.
  - left. intros H. apply subsetb_incl in H. discriminate H.
  - left. intros H. apply subsetb_incl in H. discriminate H.
Qed.
Lemma divide_mix_instance : exists o f A b cvs a g ja, oracle_ok o /\ NoDup (nl_vars f) /\ nm_good f A b cvs a /\ nm_joint_distribution o a = Ok ja /\ (forall h, In h (nm_nlgs a) -> nl_upd h <> None) /\
  wf_gauss g /\ sym_prec g /\ ga_vac g = false /\ ga_vars g = ["y"] /\ incl (ga_vars g) (nl_cal f) /\ finite g /\ length (nm_nlgs a) = 2%nat /\ forall e, obeys (nl_ev f) e -> exists p, mixpot ja e = Ok (Fin p).
Proof.
  destruct made_instance as (o & A & b & f & j & Ho & G & P & K1 & K2 & K8 & K6 & Ej & Dj & Vj). assert (Sg : solid exg) by apply stdg_solid, nd_y.
  assert (Lf : like f A b (ga_vars exc) f) by (repeat (split; [reflexivity|]); now exists exc).
  destruct (like_multiply o f A b (ga_vars exc) f exg Ho Lf Sg) as (r & Er & Lr & Pr); [left; rewrite K2; intros v Hv; exact Hv|].
  assert (Ur : nl_upd r <> None).
  { unfold nl_multiply_gauss in Er. apply bind_ok in Er. destruct Er as (d & Ed & Er). destruct (nl_copy_spec f (proj1 G)) as (d' & Ed' & ((S1 & S2 & _) & _)). rewrite Ed in Ed'. injection Ed' as <-.
    change (ga_vac exg) with false in Er. cbv iota in Er. rewrite S2, K2 in Er. change (subsetb (ga_vars exg) ["y"]) with true in Er. cbv iota in Er. apply bind_ok in Er. destruct Er as (u & _ & [= <-]). discriminate. }
  destruct (mk_nlgm_ok o f A b (ga_vars exc) [f; r] true Ho (proj1 (proj1 G))) as (a & Ea & _ & Ga & Fa); [discriminate|intros h [<-|[<-|[]]]; assumption|].
  assert (Ua : forall h, In h (nm_nlgs a) -> nl_upd h <> None).
  { unfold mk_nlgm in Ea. apply bind_ok in Ea. destruct Ea as (_ & _ & Ea). apply bind_ok in Ea. destruct Ea as (cs & Ec & Ea). apply ok_inj in Ea. subst a. cbn [nm_nlgs]. cbn [mapM] in Ec.
    apply bind_ok in Ec. destruct Ec as (d1 & E1 & Ec). apply bind_ok in E1. destruct E1 as (_ & _ & E1). apply bind_ok in Ec. destruct Ec as (cs' & Ec & Ecs). apply ok_inj in Ecs. subst cs.
    apply bind_ok in Ec. destruct Ec as (d2 & E2 & Ec). apply bind_ok in E2. destruct E2 as (_ & _ & E2). apply bind_ok in Ec. destruct Ec as (cs'' & Ec & Ecs). apply ok_inj in Ecs. apply ok_inj in Ec. subst cs' cs''.
    assert (U : forall x y, nl_wf x -> nl_upd x <> None -> nl_copy x = Ok y -> nl_upd y <> None).
    { intros x y Wx Nx Ey. destruct (nl_copy_spec x Wx) as (y' & Ey' & CD). rewrite Ey in Ey'. injection Ey' as <-. destruct CD as (_ & _ & _ & U & _). unfold opt_same in U. destruct (nl_upd x); [|congruence]. destruct (nl_upd y); [discriminate|contradiction]. }
    destruct Lr as (_ & _ & _ & c & _ & (Wr & _)).
    intros h [<-|[<-|[]]]; [apply (U f); [apply G|rewrite K6; discriminate|exact E1]|apply (U r); assumption]. }
  destruct (nm_joint_spec o f A b (ga_vars exc) a Ho Ga) as (ja & Eja & _ & _ & _ & Pja & _).
  exists o, f, A, b, (ga_vars exc), a, exg, ja. split; [exact Ho|]. split; [apply G|]. split; [exact Ga|]. split; [exact Eja|]. split; [exact Ua|]. split; [apply Sg|]. split; [now apply solid_sym|]. split; [apply Sg|].
  split; [reflexivity|]. split; [rewrite K2; intros v Hv; exact Hv|]. split; [apply stdg_finite, nd_y|]. split; [apply F2_length in Fa; now rewrite <- Fa|].
  intros e He. destruct (plain_joint o f A b exc e Ho G P He) as (l & L & Il). unfold exg in *. destruct (stdg_finite ["y"] [3] 1 nd_y e) as (x & Lg). eexists. apply (Pja e [l; vadd l (Fin x)]).
  - inversion Fa as [|? d1 ? ? D1 Fa']; subst. inversion Fa' as [|? d2 ? ? D2 Fa'']; subst. inversion Fa''; subst. constructor; [now apply D1|]. constructor; [|constructor]. apply D2; [exact He|]. apply (Pr e l _ He L Lg).
  - intros y [<-|[<-|[]]]; [exact Il|]. destruct l; cbn in *; auto.
Qed.
