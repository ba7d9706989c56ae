(** Tools for nonlinear Gaussians: reductions and products that stay positive definite or
    symmetric, and joint parameters with observed rows. *)
From Verif Require Export NlgModel LinGauss FactExamples2.
Local Open Scope R_scope.

Lemma reduce_solid f vrs values : solid f -> NoDup vrs -> incl vrs (ga_vars f) -> ~ incl (ga_vars f) vrs -> length values = length vrs ->
  exists r, g_reduce f vrs values = Ok r /\ solid r /\ ga_vars r = rest f vrs /\ forall e, map e vrs = values -> lp r e = lp f e.
Proof.
  intros S Hdv Hi Hni Hl. pose proof S as (W & _). pose proof (solid_sym f S) as HS.
  destruct (g_reduce_spec f vrs values W HS Hdv Hi Hni Hl) as (r & Er & Wr & Sr & Vr & Lr). exists r. split; [exact Er|]. split; [|split; [exact Vr|exact Lr]].
  pose proof W as (Hd & _). destruct (get_can_solid f S) as (f' & K & h & g & E & PK & Hsh). pose proof Hsh as (H1 & H2 & H3 & H4).
  pose proof Er as E2. unfold g_reduce in E2. set (vars := ga_vars f) in *. unfold py_assert in E2. rewrite (proj2 (subsetb_incl vrs vars) Hi) in E2. cbn [bind] in E2.
  change (ssort (set_diff vars vrs)) with (rest f vrs) in E2. set (xs := rest f vrs) in *.
  assert (Hxs : forall v, In v xs <-> In v vars /\ ~ In v vrs) by (intros v; apply rest_In).
  assert (Dx : NoDup xs) by now apply rest_NoDup. assert (Ix : incl xs vars) by (intros v Hv; now apply Hxs).
  rewrite (mapM_pos vars vrs Hi), (mapM_pos vars xs Ix) in E2. cbn [bind] in E2. rewrite E in E2. cbn [bind snd] in E2.
  set (xi := map (pos vars) xs) in *. set (yi := map (pos vars) vrs) in *.
  assert (Lx : length xi = length xs) by apply map_length. assert (Ly : length yi = length vrs) by apply map_length.
  assert (Rx : inr (length vars) xi) by now apply pos_inr. assert (Ry : inr (length vars) yi) by now apply pos_inr.
  assert (R0 : inr 1 [0%nat]) by (intros i [<-|[]]; lia).
  rewrite !(mix_ok K) in E2 by (rewrite ?H1, ?H2; assumption). rewrite !(mix_ok h) in E2 by (rewrite ?H3, ?H4; assumption). cbn [bind] in E2.
  rewrite (mmul_ok (msel K xi yi) (mcol values)) in E2 by (cbn; congruence). cbn [bind] in E2.
  destruct (msub_ok (msel h xi [0%nat]) (mmul0 (msel K xi yi) (mcol values))) as (hr & Ehr & N1 & N2 & N3); [reflexivity..|].
  rewrite Ehr in E2. cbn [bind] in E2.
  assert (Nx : xs <> []).
  { intros C. apply Hni. intros v Hv. destruct (in_dec string_dec v vrs) as [Hin|Hn]; [exact Hin|].
    exfalso. assert (In v xs) as HC by now apply Hxs. rewrite C in HC. exact HC. }
  assert (Nxi : exists a l', xi = a :: l').
  { unfold xi. destruct xs as [|a l']; [congruence|]. cbn [map]. eauto. }
  destruct Nxi as (a & l' & Exi).
  assert (Em : forall (T : Type) (x y : T), match xi with [] => x | _ :: _ => y end = y) by (intros; now rewrite Exi).
  rewrite Em in E2. clear Em. cbn [bind fst snd] in E2.
  rewrite (mmul_ok (mtr (msel h yi [0%nat])) (mcol values)) in E2 by (cbn; congruence). cbn [bind] in E2.
  rewrite (quad_ok (length vrs)) in E2 by (cbn; congruence). cbn [bind] in E2.
  match type of E2 with mk_can xs _ _ ?g0 = _ => set (g' := g0) in * end.
  assert (Hs' : shaped (length xs) (msel K xi xi, hr, g')). { cbn. rewrite N1, N2. cbn. rewrite Lx. now repeat split. }
  rewrite (mk_can_ok xs (msel K xi xi) hr g' Dx Hs') in E2. injection E2 as <-.
  assert (P : posdef (msel K xi xi)). { apply posdef_sel; [exact PK|now rewrite H1|now apply NoDup_map_pos]. }
  split; [exact Wr|]. split; [apply posdef_not_vacuous; [reflexivity|exact P]|]. split; [intros p q _ Hq; discriminate Hq|].
  split; [|intros C m w Hq; discriminate Hq]. intros K0 h0 g0 Hk. injection Hk as <- _ _. exact P.
Qed.

(** Products of Gaussians with symmetric precisions have symmetric precisions. *)
Lemma multiply_symm f1 f2 : wf_gauss f1 -> wf_gauss f2 -> sym_prec f1 -> sym_prec f2 ->
  exists r, g_multiply f1 f2 = Ok r /\ wf_gauss r /\ sym_prec r /\ ga_vars r = new_vars (ga_vars f1) (ga_vars f2) /\
    forall e l1 l2, lp f1 e = Ok l1 -> lp f2 e = Ok l2 -> lp r e = Ok (vadd l1 l2).
Proof.
  intros W1 W2 S1 S2. destruct (g_multiply_spec f1 f2 W1 W2) as (r & Er & Wr & Vr & Lr). exists r. split; [exact Er|]. split; [exact Wr|].
  split; [|split; [exact Vr|exact Lr]]. pose proof W1 as (D1 & _). pose proof W2 as (D2 & _).
  destruct (get_can_wf f1 W1) as (f1' & K1 & h1 & g1 & E1 & _ & _ & (A1 & A2 & A3 & A4) & _).
  destruct (get_can_wf f2 W2) as (f2' & K2 & h2 & g2 & E2 & _ & _ & (B1 & B2 & B3 & B4) & _).
  pose proof (get_can_symm _ _ _ _ _ W1 S1 E1) as Y1. pose proof (get_can_symm _ _ _ _ _ W2 S2 E2) as Y2.
  pose proof Er as E. unfold g_multiply, absorb_or_cancel in E. rewrite E1, E2 in E. cbn [bind snd] in E.
  rewrite ix_square_ok, ix_column_ok in E by assumption. cbn [bind fst snd] in E. set (nv := new_vars (ga_vars f1) (ga_vars f2)) in *.
  unfold py_assert in E. destruct (eqb nv nv) eqn:Eq; [|discriminate E]. cbn [bind] in E.
  assert (Dn : NoDup nv) by now apply new_vars_NoDup.
  match type of E with mk_can nv ?M ?t ?g = _ => set (M0 := M) in *; set (t0 := t) in * end.
  rewrite (mk_can_ok nv M0 t0 (vadd g1 g2) Dn) in E by (cbn; now repeat split). injection E as <-.
  intros p Hp. injection Hp as <-. cbn [fst]. intros i j Hi Hj. cbn [M0 ent].
  assert (NS : forall K vars u v, symm K -> nr K = length vars -> named_entry K vars u v = named_entry K vars v u).
  { intros K vars u v HK L. unfold named_entry. destruct (index_opt u vars) as [a|] eqn:Ea; destruct (index_opt v vars) as [b|] eqn:Eb; try reflexivity.
    apply HK; rewrite L; apply nth_error_Some; [rewrite (index_opt_nth _ _ _ Ea)|rewrite (index_opt_nth _ _ _ Eb)]; discriminate. }
  rewrite (NS K1 (ga_vars f1)), (NS K2 (ga_vars f2)) by assumption. reflexivity.
Qed.

(** Joint parameters of a transform that agrees with an affine map on the points. *)
Lemma joint_affine_meq A b X T Y names : (0 < nc X)%nat -> nr X = nc A -> T X names = Ok Y -> meq Y (SigmaFacts.affine A b X) ->
  exists Cj mj, joint_params X T names = Ok (Cj, mj) /\ joint_blocks A b (cov_bias X) (mean_cols X) Cj mj.
Proof.
  intros Hp Hx ET (Y1 & Y2 & Y3). unfold joint_params. rewrite ET. cbn [bind]. cbn [SigmaFacts.affine nr nc] in Y1, Y2.
  destruct (vcat_ok X Y (eq_sym Y2)) as (J & E & N1 & N2 & J1 & J2'). rewrite E. cbn [bind].
  assert (J2 : forall i k, (i < nr A)%nat -> (k < nc X)%nat -> ent J (nc A + i) k = ent (SigmaFacts.affine A b X) i k).
  { intros i k Hi Hk. rewrite <- Hx, J2'. apply Y3; congruence. }
  do 2 eexists. split; [reflexivity|]. rewrite Y1, Hx in *.
  assert (M1 : forall i, (i < nc A)%nat -> ent (mean_cols J) i 0 = ent (mean_cols X) i 0) by (intros i Hi; apply mean_cols_row; [exact N2|intros; now apply J1]).
  assert (M2 : forall i, (i < nr A)%nat -> ent (mean_cols J) (nc A + i) 0 = ent (mean_cols (SigmaFacts.affine A b X)) i 0)
    by (intros i Hi; apply mean_cols_row; [exact N2|intros k Hk; apply J2; congruence]).
  unfold joint_blocks. split; [exact N1|]. split; [exact N1|]. split; [exact N1|]. split; [reflexivity|].
  split; [exact M1|]. split; [intros i Hi; rewrite M2 by exact Hi; now apply SigmaFacts.mean_affine|]. split; [|split; [|split]].
  - intros i j Hi Hj. cbn [cov_bias ent]. rewrite !M1, N2 by assumption. f_equal. apply rsum_ext. intros k Hk. now rewrite !J1.
  - intros i j Hi Hj. rewrite <- (SigmaFacts.cov_affine_cross A b X i j Hp Hx Hi). cbn [cov_bias ent]. rewrite (M1 j), (M2 i), N2 by assumption.
    f_equal. apply rsum_ext. intros k Hk. now rewrite J2, J1.
  - intros i j Hi Hj. rewrite <- (SigmaFacts.cov_affine_cross A b X i j Hp Hx Hi). cbn [cov_bias ent]. rewrite (M1 j), (M2 i), N2 by assumption.
    f_equal. apply rsum_ext. intros k Hk. rewrite J2, J1 by assumption. ring.
  - intros i j Hi Hj. rewrite <- (SigmaFacts.cov_affine_both A b X i j Hp Hx Hi Hj). cbn [cov_bias ent]. rewrite !M2, N2 by assumption.
    change (nc (SigmaFacts.affine A b X)) with (nc X). f_equal. apply rsum_ext. intros k Hk. now rewrite !J2.
Qed.

(** Observed rows. *)
Lemma extend_ok X values : exists Xe, extend_points X values = Ok Xe /\ nr Xe = (length values + nr X)%nat /\ nc Xe = nc X /\
  (forall i k, (i < length values)%nat -> ent Xe i k = nth i values 0) /\ (forall i k, ent Xe (length values + i) k = ent X i k).
Proof.
  unfold extend_points. destruct values as [|v l].
  - exists X. cbn. split; [reflexivity|]. split; [reflexivity|]. split; [reflexivity|]. split; [intros; lia|reflexivity].
  - rewrite (proj2 (Nat.ltb_lt 0 (length (v :: l)))) by (cbn; lia). set (vs := v :: l).
    destruct (vcat_ok (Mat (length vs) (nc X) (fun i _ => nth i vs 0)) X eq_refl) as (J & E & N1 & N2 & J1 & J2). cbn [nr nc] in *.
    exists J. split; [exact E|]. split; [exact N1|]. split; [exact N2|]. split; [|exact J2]. intros i k Hi. now rewrite J1.
Qed.
Lemma extend_stats X values Xe : (0 < nc X)%nat -> extend_points X values = Ok Xe -> let k := length values in
  (forall i, (i < k)%nat -> ent (mean_cols Xe) i 0 = nth i values 0) /\
  (forall i, ent (mean_cols Xe) (k + i) 0 = ent (mean_cols X) i 0) /\
  (forall i j, (i < k)%nat -> ent (cov_bias Xe) i j = 0 /\ ent (cov_bias Xe) j i = 0) /\
  (forall i j, ent (cov_bias Xe) (k + i) (k + j) = ent (cov_bias X) i j).
Proof.
  intros Hp E k. destruct (extend_ok X values) as (Xe' & E' & N1 & N2 & X1 & X2). rewrite E in E'. injection E' as <-. fold k in N1, X1, X2.
  assert (Hn : INR (nc X) <> 0) by (apply not_0_INR; lia).
  assert (M1 : forall i, (i < k)%nat -> ent (mean_cols Xe) i 0 = nth i values 0).
  { intros i Hi. cbn [mean_cols ent]. rewrite N2. rewrite (rsum_ext _ _ (fun _ => nth i values 0)) by (intros; now apply X1). rewrite SigmaFacts.rsum_const. field. exact Hn. }
  assert (M2 : forall i, ent (mean_cols Xe) (k + i) 0 = ent (mean_cols X) i 0) by (intros i; apply mean_cols_row; [exact N2|intros; apply X2]).
  split; [exact M1|]. split; [exact M2|]. split.
  - intros i j Hi. cbn [cov_bias ent]. rewrite (M1 i Hi). split.
    + rewrite rsum_zero; [unfold Rdiv; ring|]. intros l Hl. rewrite (X1 i) by exact Hi. ring.
    + rewrite rsum_zero; [unfold Rdiv; ring|]. intros l Hl. rewrite (X1 i) by exact Hi. ring.
  - intros i j. cbn [cov_bias ent]. rewrite !M2, N2. f_equal. apply rsum_ext. intros l Hl. now rewrite !X2.
Qed.
Lemma drop_blocks Ae b X values Xe Cj mj : (0 < nc X)%nat -> extend_points X values = Ok Xe -> nc Ae = (length values + nr X)%nat ->
  joint_blocks Ae b (cov_bias Xe) (mean_cols Xe) Cj mj ->
  joint_blocks (Mat (nr Ae) (nr X) (fun i l => ent Ae i (length values + l)))
    (Mat (nr Ae) 1 (fun i _ => rsum (length values) (fun l => ent Ae i l * nth l values 0) + ent b i 0)) (cov_bias X) (mean_cols X)
    (drop_both Cj (length values)) (drop_rows mj (length values)).
Proof.
  intros Hp E HA (H1 & H2 & H3 & H4 & H5 & H6 & H7 & H8 & H9 & H10). destruct (extend_stats X values Xe Hp E) as (S1 & S2 & S3 & S4).
  set (k := length values) in *. rewrite HA in *. unfold joint_blocks. cbn [nr nc ent drop_both drop_rows].
  split; [lia|]. split; [lia|]. split; [lia|]. split; [exact H4|].
  assert (Z : forall i j, rsum k (fun l => ent Ae i l * ent (cov_bias Xe) l j) = 0).
  { intros i j. apply rsum_zero. intros l Hl. destruct (S3 l j Hl) as (-> & _). ring. }
  split; [|split; [|split; [|split; [|split]]]].
  - intros i Hi. rewrite H5 by lia. apply S2.
  - intros i Hi. rewrite Nat.add_assoc. rewrite H6 by exact Hi. rewrite rsum_add. rewrite (rsum_ext k _ (fun l => ent Ae i l * nth l values 0)) by (intros l Hl; now rewrite S1).
    rewrite (rsum_ext (nr X) _ (fun l => ent Ae i (k + l) * ent (mean_cols X) l 0)) by (intros l Hl; now rewrite S2). ring.
  - intros i j Hi Hj. rewrite H7 by lia. apply S4.
  - intros i j Hi Hj. rewrite Nat.add_assoc. rewrite H8 by lia. rewrite rsum_add, Z, Rplus_0_l. apply rsum_ext. intros l Hl. now rewrite S4.
  - intros i j Hi Hj. rewrite Nat.add_assoc. rewrite H9 by lia. rewrite rsum_add, Z, Rplus_0_l. apply rsum_ext. intros l Hl. now rewrite S4.
  - intros i j Hi Hj. rewrite !Nat.add_assoc. rewrite H10 by lia. rewrite rsum_add. rewrite rsum_zero, Rplus_0_l.
    + apply rsum_ext. intros l Hl. rewrite rsum_add. rewrite rsum_zero, Rplus_0_l; [apply rsum_ext; intros q Hq; now rewrite S4|].
      intros q Hq. destruct (S3 q (k + l)%nat Hq) as (_ & ->). ring.
    + intros l Hl. apply rsum_zero. intros q Hq. destruct (S3 l q Hl) as (-> & _). ring.
Qed.
