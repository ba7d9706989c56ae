(** Gaussian functions with a definite precision, and what a cluster does with a second message from
    the same neighbour. *)
From Verif Require NlgMore.
From Verif Require Export NlgTree6.
Local Open Scope string_scope.
Local Open Scope list_scope.
Local Open Scope R_scope.

Definition gd (vs : list string) (p : renv -> R) : Prop :=
  exists g, ggood true g /\ (forall v, In v (ga_vars g) <-> In v vs) /\ forall e, gval g e = p e.

Lemma gd_gf vs p : gd vs p -> gf vs p.
Proof. intros (g & G & H). exists g. split; [now apply (ggood_weak true)|exact H]. Qed.
Lemma gd_same vs ws p q : (forall v, In v vs <-> In v ws) -> (forall e, q e = p e) -> gd vs p -> gd ws q.
Proof. intros H E (g & G & V & L). exists g. split; [exact G|]. split; [intros v; rewrite V; apply H|intros e; now rewrite E]. Qed.
Lemma gf_const vs k : 0 < k -> gf vs (fun _ => k).
Proof.
  intros Hk. set (u := dedup vs). assert (N : NoDup u) by apply NoDup_dedup.
  set (a := stdg u [] (ln k)). set (b := stdg u [] 0). assert (Sa : solid a) by now apply stdg_solid. assert (Sb : solid b) by now apply stdg_solid.
  destruct (g_divide_spec a b (proj1 Sa) (proj1 Sb)) as (r & E & W & V & L). pose proof (divide_symm a b r (proj1 Sa) (proj1 Sb) (solid_sym a Sa) (solid_sym b Sb) E) as S.
  assert (G : forall e, gval r e = k).
  { intros e. unfold gval, lp. rewrite (L e _ _ (stdg_lp u [] (ln k) e N) (stdg_lp u [] 0 e N)). cbn [vsub vopp vadd pot]. rewrite <- (exp_ln k Hk) at 2. f_equal. lra. }
  exists r. split; [|split; [|exact G]].
  - split; [exact W|]. split; [exact S|]. split; [intros e; now rewrite G|]. split; [|discriminate]. intros x. unfold curv. rewrite !G. lra.
  - intros v. rewrite V, new_vars_In. cbn [a b stdg cov_obj ga_vars]. unfold u. rewrite In_dedup. tauto.
Qed.
Lemma gf_sub vs ws p : gf vs p -> incl vs ws -> gf ws p.
Proof.
  intros G I. apply (gf_same (vs ++ ws) _ (fun e => p e * 1)); [intros v; rewrite in_app_iff; split; [intros [H|H]; auto|now right]|intros e; ring|].
  apply gf_mul; [exact G|apply gf_const; lra].
Qed.
Lemma gf_times vs p q : gf vs p -> gf vs q -> gf vs (fun e => p e * q e).
Proof. intros G H. apply (gf_same (vs ++ vs) _ (fun e => p e * q e)); [intros v; rewrite in_app_iff; tauto|reflexivity|now apply gf_mul]. Qed.
Lemma gd_times vs p q : gd vs p -> gf vs q -> gd vs (fun e => p e * q e).
Proof.
  intros (g & G & V & L) (h & H & V' & L'). destruct (gmul_law false g h (ggood_weak true g G) H) as (r & _ & Gr & Vr & Lr).
  assert (VV : forall v, In v (ga_vars r) <-> In v vs) by (intros v; rewrite Vr, V, V'; tauto).
  exists r. split; [|split; [exact VV|intros e; now rewrite Lr, L, L']].
  pose proof Gr as (W & S & P & Q & _). pose proof G as (Wg & _ & Pg & _ & Dg). pose proof H as (_ & _ & Ph & Qh & _).
  do 4 (split; [assumption|]). intros _. apply (summ_posdef r W). intros x (v & Hv & Hx). rewrite (curv_mul (gval r) (gval g) (gval h) x Pg Ph Lr).
  assert (0 < curv (gval g) x) by (apply (proj1 (summ_posdef g Wg) (Dg eq_refl)); exists v; split; [now apply V, VV|exact Hx]). pose proof (Qh x). lra.
Qed.
Lemma ready_gd o x v : oracle_ok o -> nready x -> In v (nfree x) -> gd (nfree x) (npot x).
Proof.
  intros Ho R Hv. destruct (ready_message o x [v] Ho R) as (x1 & r & J & _ & _ & _ & _ & _ & SJ & PJ & VJ & GJ & _); [discriminate|repeat constructor; intros []|now intros w [<-|[]]|].
  exists J. split; [now apply solid_proper|now split].
Qed.
Lemma down_unique vs ws p q q' : down vs ws p q -> down vs ws p q' -> forall e, q e = q' e.
Proof. intros (_ & D) (_ & D') e. destruct (enum vs ws) as (rem & N & H). exact (iint_unique rem p e _ _ (proj2 (D rem N H) e) (proj2 (D' rem N H) e)). Qed.
Lemma gd_down vs S p : gd vs p -> S <> [] -> NoDup S -> incl S vs -> exists m, ggood true m /\ ga_vars m = S /\ down vs S p (gval m).
Proof.
  intros (g & G & V & L) NE ND I. destruct id_oracle_ok as (o & Ho). destruct (good_twin g G) as (c & Pc & Vc & Lc). pose proof Pc as (Gc & Fc).
  assert (I' : incl S (ga_vars c)) by (intros v Hv; rewrite Vc; now apply V, I). destruct (gproper_marg o c S Ho Pc ND I') as (m & Em & _).
  destruct (gmarg_law true o c S m Ho Gc Fc ND I' Em) as (Gm & Vm & _). exists m. split; [exact Gm|]. split; [exact Vm|].
  apply (down_same (ga_vars c) _ S _ (gval c) _ (gval m)); [intros v; now rewrite Vc, V|tauto|intros e; now rewrite Lc, L|reflexivity|].
  apply (down_marg o); auto. now apply (ggood_weak true).
Qed.
(** A quotient that is known to be a definite function. *)
Lemma div_definite a c p : ggood false a -> ggood false c -> gd (ga_vars a) p -> incl (ga_vars c) (ga_vars a) -> (forall e, gval a e = p e * gval c e) ->
  exists r, g_divide a c = Ok r /\ solid r /\ posg r /\ ga_vars r = ga_vars a /\ forall e, gval r e = p e.
Proof.
  intros Ga Gc (d & Gd & Vd & Ld) I H. destruct (gdiv_law false a c d Ga Gc (ggood_weak true d Gd) Vd I) as (r & E & Gr & Vr & Lr); [intros e; now rewrite H, Ld|].
  exists r. split; [exact E|]. pose proof Gr as (W & S & P & Q & _).
  assert (Gt : ggood true r).
  { do 4 (split; [assumption|]). intros _. apply (summ_fun (gval d)); [exact Lr|]. apply (summ_same _ (ga_vars d)); [intros v; now rewrite Vr, Vd|]. now apply Gd. }
  split; [apply can_solid; [exact Gt|exact (absorb_flag _ _ _ _ _ E)|exact (absorb_cov _ _ _ _ _ E)]|]. split; [exact P|]. split; [|intros e; now rewrite Lr, Ld].
  destruct (g_divide_spec a c (proj1 Ga) (proj1 Gc)) as (r' & E' & _ & V' & _). rewrite E in E'. injection E' as <-. rewrite V'. now apply new_vars_left.
Qed.
(** A product over two sets of variables that share [S]: the part over the one, integrated. *)
Lemma down_split vr vd S r u x : gf vr r -> gf vd u -> S <> [] -> incl S vr -> (forall v, In v vr -> In v vd -> In v S) -> down (vr ++ vd) S (fun e => r e * u e) x ->
  exists p, down vr S r p /\ gf S p.
Proof.
  intros Gr Gu NE Ir Sh (_ & D). destruct id_oracle_ok as (o & Ho). destruct (enum vr S) as (rem & N & H). destruct (enum (vr ++ vd) S) as (all & N' & H'). destruct (D all N' H') as (Su & _).
  assert (Sub : incl rem all) by (intros v Hv; apply H in Hv; apply H'; split; [apply in_or_app; left|]; apply Hv).
  assert (St : summ (fun e => r e * u e) rem) by (intros y Hy; apply Su; intros v Hv; apply Hy; intros C; now apply Hv, Sub).
  assert (Hu : forall e e', (forall v, ~ In v rem -> e v = e' v) -> u e = u e').
  { intros e e' A. apply (gf_dep vd u e e' Gu). intros v Hv. apply A. intros C. apply H in C. destruct C as (C1 & C2). apply C2. now apply Sh. }
  pose proof (fun e => gf_pos _ _ e Gr) as Pr. pose proof (fun e => gf_pos _ _ e Gu) as Pu.
  assert (Sr : summ r rem).
  { apply (summ_mul r (fun e => r e * u e) (fun e => / u e)); auto.
    - intros e. now apply Rmult_lt_0_compat.
    - intros e. now apply Rinv_0_lt_compat.
    - intros e e' A. now rewrite (Hu e e' A).
    - intros e. field. apply Rgt_not_eq, Pu. }
  pose proof Gr as (g & G & V & L). destruct S as [|w S0] eqn:ES; [congruence|]. rewrite <- ES in *.
  destruct (pl_int _ _ _ _ _ (gauss_plaws false o Ho) g rem w G N) as (h & Gh & Vh & Ih); cbn [gauss_ops f_vars] in *.
  - intros v Hv. now apply V, H.
  - apply V, Ir. rewrite ES. now left.
  - intros C. apply H in C. destruct C as (_ & C). apply C. rewrite ES. now left.
  - apply (summ_fun r); [exact L|exact Sr].
  - exists (gval h). apply (down_one vr S r (gval h) rem); auto. intros e. apply (iint_ext rem (gval g)); [exact L|apply Ih, Permutation_refl].
Qed.

(** * What a factor has heard from the cluster it depends on *)
Definition heard (x : nfac) (a : gauss) : Prop :=
  match x with
  | FG _ => True
  | FN f => exists c, nl_cond f = Some c /\ (forall v, In v (ga_vars c) <-> In v (ga_vars a)) /\ forall e, gval c e = gval a e
  end.
Lemma wait_heard o x S a y : nwait x S -> solid a -> posg a -> ga_vars a = S -> nf_mul o x (FG a) = Ok y -> heard y a.
Proof.
  intros Wx Sa Pa Va E. destruct x as [g|f]; cbn [nwait nf_mul] in *; apply bind_ok in E; destruct E as (r & Er & E); injection E as <-; [exact I|]. pose proof Sa as (Wa & Fa & _).
  destruct Wx as ((A & b & w & Wf & OK & Ew) & Ec & Gu & NE & NS & IS & DS & CS). rewrite <- Va in IS, NE.
  destruct (nl_multiply_cing f a Wf Wa Fa IS NE) as (r' & c & Er' & Wr & SK & K6 & KU & Ecr & Vc & Sc & OKr & Lr). rewrite Er in Er'. injection Er' as <-.
  exists c. split; [exact Ecr|]. split.
  - intros v. rewrite Vc, Ec. split; [intros [H|(c0 & [=] & _)]; exact H|now left].
  - intros e. destruct (Lr e (Fin 0)) as (lg & L1 & L2); [unfold cond_lp; now rewrite Ec|]. unfold cond_lp in L2. rewrite Ecr, vadd_0_l in L2. unfold gval. now rewrite L1, L2.
Qed.
Lemma receive_heard o x S m a y : nready x -> takes x S -> wf_gauss m -> (forall v, In v (ga_vars m) <-> In v S) -> nf_mul o x (FG m) = Ok y -> heard x a -> heard y a.
Proof.
  intros R T Wm V E Hx. destruct x as [g|f]; cbn [nready takes nf_mul] in *; apply bind_ok in E; destruct E as (r & Er & E); injection E as <-; [exact I|].
  destruct R as (A & b & c & w & Wf & _). destruct Hx as (c0 & Ec & Vc & Lc).
  assert (K : opt_same (nl_cond f) (nl_cond r)).
  { destruct (ga_vac m) eqn:Va.
    - destruct (nl_multiply_vac f m Wf Va) as (r' & Er' & CD). rewrite Er in Er'. injection Er' as <-. apply CD.
    - destruct (nl_multiply_cal f m Wf Wm Va) as (r' & Er' & _ & _ & _ & KC & _); [intros v Hv; apply T, V, Hv|]. rewrite Er in Er'. injection Er' as <-. exact KC. }
  rewrite Ec in K. unfold opt_same in K. destruct (nl_cond r) as [c'|] eqn:Ec'; [|contradiction]. destruct K as (SO & _). pose proof SO as (_ & V' & _).
  exists c'. split; [exact Ec'|]. split; [intros v; rewrite V'; apply Vc|]. intros e. rewrite <- Lc. unfold gval. now rewrite (same_obj_lp' c0 c' e SO).
Qed.

(** A second message from the cluster that a factor depends on takes the place of the first. *)
Theorem renew o x y S a m (B : renv -> R) : oracle_ok o -> nwait x S -> S <> [] -> nready y -> nkind x y -> heard y a -> ggood true a -> ga_vars a = S -> ga_vac a = false -> gf (nfree x) B ->
  (forall e, npot y e = npot x e * gval a e * B e) -> solid m -> posg m -> ga_vars m = S ->
  exists z1 z, nf_mul o y (FG m) = Ok z1 /\ nf_cancel o z1 (FG a) = Ok z /\ nready z /\ nkind y z /\ heard z m /\ forall e, npot z e = npot x e * gval m e * B e.
Proof.
  intros Ho Wx NE Ry K He Ga Va Fa GB Hy Sm Pm Vm. destruct (solid_proper m Sm Pm) as (Gm & Fm). pose proof Sm as (Wm & _). pose proof Ga as (Wa & Sya & Pa & _). pose proof (ggood_weak true a Ga) as Gaf.
  assert (Gx : gf (nfree x) (npot x)) by now apply (wait_gf o x S).
  destruct (wait_receive o x S m Wx Sm Pm Vm) as (y0 & Ey0 & Ry0 & K0 & G0).
  assert (IS : incl S (nfree x)) by now apply wait_free.
  assert (Gxm : gd (nfree x) (fun e => npot x e * gval m e)).
  { destruct S as [|v S0]; [congruence|]. apply (gd_same (nfree y0) _ (npot y0)); [intros u; now apply nkind_free|intros e; now rewrite G0|]. apply (ready_gd o y0 v Ho Ry0). apply (nkind_free x y0 v K0), IS. now left. }
  destruct x as [gx|fx], y as [g|f]; try contradiction; cbn [nready nkind nf_mul npot nfree heard] in *.
  - destruct Ry as (Sg & Pg). destruct (solid_proper g Sg Pg) as (Gg & _).
    destruct (gmul_law true g m Gg Gm) as (r & Er & Gr & Vr & Lr). rewrite Er. cbn [bind].
    assert (Vr' : forall v, In v (ga_vars r) <-> In v (ga_vars gx)) by (intros v; rewrite Vr, Vm, K; split; [intros [H|H]; [exact H|now apply IS]|now left]).
    destruct (div_definite r a (fun e => gval gx e * gval m e * B e) (ggood_weak true r Gr) Gaf) as (q & Eq & Sq & Pq & Vq & Lq).
    + apply (gd_same (ga_vars gx) _ (fun e => gval gx e * gval m e * B e)); [intros v; now rewrite Vr'|reflexivity|]. now apply gd_times.
    + rewrite Va. intros v Hv. now apply Vr', IS.
    + intros e. rewrite Lr, Hy. ring.
    + exists (FG r), (FG q). split; [reflexivity|]. cbn [nf_cancel]. rewrite Eq. cbn [bind]. split; [reflexivity|]. split; [now split|]. split; [intros v; now rewrite Vq, Vr', K|]. split; [exact I|exact Lq].
  - pose proof K as (SKx & Kev). pose proof SKx as (X1 & X2 & _). destruct Wx as (_ & Ecx & _ & _ & NS & ISc & DS & CS).
    destruct Ry as (A & b & c & w & Wf & OK & Ew & Ec & IN & Pc & Gu). destruct He as (c' & Ec' & Vc & Lc). rewrite Ec in Ec'. injection Ec' as <-. pose proof IN as (Sc & Ic & Ha & Hn).
    assert (Im : incl (ga_vars m) (nl_cing f)) by (rewrite Vm, X1; exact ISc).
    destruct (nl_multiply_cing f m Wf Wm Fm Im) as (r & c1 & Er & Wr & SK & K6 & KU & Ecr & Vc1 & Sc1 & OKr & Lr); [rewrite Vm; exact NE|]. pose proof SK as (K1 & K2 & K3 & K4 & K5).
    rewrite Er. cbn [bind]. exists (FN r). cbn [nf_cancel].
    assert (S1 : solid c1) by (apply Sc1; [exact Sm|intros c0 E0; rewrite Ec in E0; now injection E0 as <-]).
    assert (V1 : forall v, In v (ga_vars c1) <-> In v S).
    { intros v. rewrite Vc1, Vm. split; [intros [H|(c0 & E0 & H)]; [exact H|]|now left]. rewrite Ec in E0. injection E0 as <-. rewrite <- Va. now apply Vc. }
    assert (G1 : forall e, gval c1 e = gval m e * gval a e).
    { intros e. destruct (gpos_fin c e (Pc e)) as (xc & Xc & GXc). destruct (gpos_fin m e (Pm e)) as (xm & Xm & GXm). destruct (Lr e (Fin xc)) as (lg & L1 & L2); [unfold cond_lp; now rewrite Ec|].
      rewrite Xm in L1. injection L1 as <-. unfold cond_lp in L2. rewrite Ecr in L2. unfold gval at 1. rewrite L2. cbn [vadd pot]. rewrite exp_plus, <- GXc, <- GXm, Lc. ring. }
    assert (P1 : posg c1) by (intros e; rewrite G1; apply Rmult_lt_0_compat; [apply Pm|apply Pa]).
    destruct (solid_proper c1 S1 P1) as (Gc1 & _).
    destruct (div_definite c1 a (gval m) (ggood_weak true c1 Gc1) Gaf) as (q & Eq & Sq & Pq & Vq & Lq).
    { exists m. split; [exact Gm|]. split; [intros v; now rewrite V1, Vm|reflexivity]. } { rewrite Va. intros v Hv. now apply V1. } { exact G1. }
    destruct (nl_copy_spec r Wr) as (d & Ed & CD). pose proof (nl_wf_copy r d Wr CD) as Wd. pose proof CD as (SKd & L6 & L7 & L8 & L9). pose proof SKd as (L1 & L2 & L3 & L4 & L5).
    pose proof (cond_copy_id r d c1 Ed Ecr S1) as Ecd. pose proof (nl_ok_copy r d A b (OKr A b OK) CD) as OKd.
    assert (Ia : incl (ga_vars a) (nl_cing r)) by (rewrite Va, K1, X1; exact ISc). assert (Na : ga_vars a <> []) by (rewrite Va; exact NE).
    assert (INq : informed (set_cond d q) q).
    { split; [exact Sq|]. cbn [set_cond nl_cing nl_ev]. rewrite L1, K1, X1, L6, K6, Kev. split; [intros v Hv; rewrite Vq in Hv; apply V1 in Hv; now apply ISc|].
      split; [intros v Hv; rewrite Vq, V1; now apply CS|]. intros C. destruct S as [|v S0]; [congruence|]. apply (DS v (or_introl eq_refl)), C. rewrite Vq. apply V1. now left. }
    destruct (nl_recompute_spec o (set_cond d q) A b q Ho OKd eq_refl INq) as (jr & Ejr & Wjr & _).
    exists (FN (set_joint (set_cond d q) jr)). split; [reflexivity|]. unfold nl_divide_gauss. rewrite Ed. cbn [bind]. rewrite Fa, L2, (NlgMore.cing_not_cal r _ Wr Ia Na), L1, (proj2 (subsetb_incl _ _) Ia), Ecd, Eq. cbn [bind].
    rewrite Ejr. cbn [bind]. split; [reflexivity|].
    assert (SKf : same_kind f (set_joint (set_cond d q) jr)) by (repeat split; cbn; congruence).
    assert (UU : opt_same (nl_upd f) (nl_upd d)).
    { unfold opt_same in *. destruct (nl_upd f), (nl_upd r), (nl_upd d); try contradiction; auto. destruct KU as ((A1 & A2 & A3 & A4) & A5), L8 as ((B1 & B2 & B3 & B4) & B5). split; [|auto]. split; [exact B1|]. repeat split; congruence. }
    split.
    + exists A, b, q, w. split; [|split; [exact OKd|split; [cbn; congruence|split; [reflexivity|split; [exact INq|split; [exact Pq|]]]]]].
      * destruct Wd as (W1 & W2 & W3 & W4 & W5 & W6). do 3 (split; [assumption|]). split; [exact Wjr|]. split; [exact W5|]. intros c0 E0. cbn in E0. injection E0 as <-. apply Sq.
      * exact (optgood_same (nl_upd f) (nl_upd d) UU Gu).
    + split; [split; [exact SKf|cbn; congruence]|]. split; [exists q; split; [reflexivity|]; split; [intros v; now rewrite Vq, V1, Vm|exact Lq]|].
      intros e. pose proof (Hy e) as He. cbn [npot]. generalize dependent (nl_pot fx e). intros X He. unfold nl_pot in He |- *. cbn [set_joint set_cond nl_ev nl_cond nl_upd]. rewrite L6, K6, (density_kind f _ _ SKf), (optval_same _ _ _ UU). cbn [optval].
      rewrite Ec in He. cbn [optval] in He. rewrite Lq.
      assert (Ea : gval c (over (nl_ev f) e) = gval a e) by (rewrite Lc; apply gval_over; rewrite Va, Kev; exact DS).
      assert (Em : gval m (over (nl_ev f) e) = gval m e) by (apply gval_over; rewrite Vm, Kev; exact DS).
      rewrite Ea in He. rewrite Em. pose proof (Pa e) as Pae. apply (Rmult_eq_reg_l (gval a e)); [|now apply Rgt_not_eq].
      transitivity (gval m e * (gval a e * nl_density f (over (nl_ev f) e) * optval (nl_upd f) (over (nl_ev f) e))); [ring|]. rewrite He. ring.
Qed.
