(** Gaussian factors with positive definite precisions: message passing never fails. *)
From Verif Require Export GaussLaws2 PosTotal IntKL2.
From Verif Require Import FactOps.
#[global] Set Bullet Behavior "Strict Subproofs".
Local Open Scope list_scope.
Local Open Scope R_scope.
Local Notation pos := GaussOps.pos.

(** A positive definite precision, positive potentials everywhere and no vacuity flag. *)
Definition gproper (f : gauss) : Prop := ggood true f /\ ga_vac f = false.

Lemma good_posdef f f' K h g : ggood true f -> get_can f = Ok (f', (K, h, g)) -> posdef K.
Proof.
  intros (W & S & P & Q & D) E. destruct (ggood_canon f W S P) as (f1 & K1 & h1 & g1 & E1 & Sh & Y & G). rewrite E in E1. injection E1 as <- <- <- ->.
  pose proof W as (Hd & _). destruct Sh as (HK & _). apply (posdef_qn (ga_vars f) K Hd HK Y). intros x Hx. rewrite <- (curv_qn (gval f) _ K h g1 x G).
  now apply (proj1 (summ_posdef f W) (D eq_refl)).
Qed.
Lemma good_regular f : ggood true f -> regular f.
Proof.
  intros G K h g E. pose proof (good_posdef f f K h g G (get_can_some f K h g E)) as P. split; [apply P|now apply posdef_det].
Qed.
Lemma good_unflagged f : ggood true f -> fresh_flag f -> gproper f.
Proof.
  intros G F. split; [exact G|]. apply (fresh_ready true f G F). left. destruct G as (_ & _ & _ & _ & D). now apply D.
Qed.
Lemma good_twin f : ggood true f -> exists c, gproper c /\ ga_vars c = ga_vars f /\ forall e, gval c e = gval f e.
Proof.
  intros (W & S & P & Q & D). destruct (ggood_canon f W S P) as (f1 & K & h & g & E & Sh & Y & G). pose proof W as (Hd & _).
  set (c := can_obj (ga_vars f) (K, h, Fin g)). assert (Wc : wf_gauss c) by now apply wf_can_obj.
  assert (Gc : forall e, gval c e = gval f e).
  { intros e. rewrite G. unfold gval, lp. rewrite (lp_canon c c K h (Fin g) e Wc (get_can_some (can_obj (ga_vars f) (K, h, Fin g)) K h (Fin g) eq_refl)). reflexivity. }
  assert (Cc : forall x, curv (gval c) x = curv (gval f) x) by (intros x; unfold curv; now rewrite !Gc).
  exists c. split; [|split; [reflexivity|exact Gc]]. split; [|reflexivity]. split; [exact Wc|]. split; [intros p Hp; injection Hp as <-; exact Y|].
  split; [intros e; now rewrite Gc|]. split; [intros x; now rewrite Cc|]. intros Hb. apply (summ_posdef c Wc). intros x Hx. rewrite Cc. now apply (proj1 (summ_posdef f W) (D Hb)).
Qed.

(** * Marginals *)
Lemma gproper_marg o f xs : oracle_ok o -> gproper f -> NoDup xs -> incl xs (ga_vars f) -> exists r, g_marginalize o f xs true = Ok r /\ ga_vac r = false.
Proof.
  intros Ho (G & Va) Dx Ix. pose proof (ggood_weak true f G) as G0. pose proof G as (W & S & P & Q & D). pose proof W as (Hd & Hf & _).
  destruct (ggood_canon f W S P) as (f' & K & h & g & Ec & Sh & Y & Gf).
  destruct (so_split o (ga_vars f) xs Ho Hd Dx Ix) as (HP & Hys). set (ys := so o (set_diff (ga_vars f) xs)) in *.
  destruct (ga_can f) as [[[K0 h0] g0]|] eqn:Ecan.
  - pose proof (get_can_some f K0 h0 g0 Ecan) as E0. rewrite E0 in Ec. injection Ec as <- -> -> ->.
    assert (Su : summ (gval f) ys).
    { intros x Hx Hn. apply (D eq_refl); [|exact Hn]. intros v Hv. apply Hx. intros C. apply Hv. now apply Hys. }
    destruct (integral_block o f f K h g xs ys Ho G0 E0 Sh Y Gf HP eq_refl Su) as (S' & h' & g' & ES & SS & SY & SI).
    unfold g_marginalize, GaussModel.marginal_vars. rewrite Va, Ecan. fold ys. rewrite ES. eexists. split; [reflexivity|]. cbn [ga_vac].
    set (c := can_obj xs (S', h', Fin g')). assert (Wc : wf_gauss c) by now apply wf_can_obj.
    assert (Ecc : get_can c = Ok (c, (S', h', Fin g'))) by now apply (get_can_some (can_obj xs (S', h', Fin g')) S' h' (Fin g') eq_refl).
    assert (Gc : forall e, exp (can_form xs S' h' e + g') = gval c e).
    { intros e. unfold gval, lp. now rewrite (lp_canon c c S' h' (Fin g') e Wc Ecc). }
    apply (integral_of_ext f xs ys _ _ Gc) in SI.
    assert (GG : ggood true c) by (apply (integral_good true f xs ys c G Wc); auto; intros p Hp; injection Hp as <-; exact SY).
    apply posdef_not_vacuous; [destruct SS as (-> & -> & _); reflexivity|]. exact (good_posdef c c S' h' (Fin g') GG Ecc).
  - destruct (ga_cov f) as [[[C m] w]|] eqn:Ecov; [|destruct Hf; congruence]. destruct (cov_only_solid f C m w G0 Va Ecan Ecov) as (So & Pl).
    destruct (marg_integral o ys f xs Ho So Pl HP) as (r' & E' & V & Sr & _). exists r'. split; [exact E'|apply Sr].
Qed.

(** * Divergences *)
Lemma weak_normalize f : ggood true f -> ga_vac f = false ->
  exists C m, g_normalize f = Ok (cov_obj (ga_vars f) (C, m, Fin 0)) /\ shaped (length (ga_vars f)) (C, m, Fin 0) /\ 0 < mdet C.
Proof.
  intros G Va. pose proof (good_regular f G) as R. pose proof G as (W & _).
  destruct (g_copy_ok f W) as (c & Ec & Vc & Cc & Cv & Wc). 
  assert (Fl : ga_vac c = false).
  { unfold g_copy in Ec. destruct (ga_cov f) as [[[C m] w]|] eqn:E1; destruct (ga_can f) as [[[K h] g]|] eqn:E2.
    - apply bind_ok in Ec. destruct Ec as (c0 & H0 & H1). injection H1 as <-. cbn [ga_vac]. unfold mk_cov in H0.
      do 5 (apply bind_ok in H0; destruct H0 as (? & _ & H0)). now injection H0 as <-.
    - unfold mk_cov in Ec. do 5 (apply bind_ok in Ec; destruct Ec as (? & _ & Ec)). now injection Ec as <-.
    - destruct (mk_can_flag _ _ _ _ _ Ec) as (_ & F). rewrite (F K h g) by congruence. pose proof W as (_ & _ & Hc & _). destruct (Hc _ E2) as (H1 & H2 & _).
      apply posdef_not_vacuous; [congruence|]. exact (good_posdef f f K h g G (get_can_some f K h g E2)).
    - discriminate. }
  assert (Rc : regular c) by (intros K h g E; apply (R K h g); congruence).
  destruct (get_cov_ext c Wc Rc Fl) as (c' & p & E & (Wc' & _ & Va' & Vc' & _) & Ep). destruct p as [[C m] w].
  exists C, m. unfold g_normalize. rewrite Ec. cbn [bind]. unfold get_cov in E. apply bind_ok in E. destruct E as (c2 & E2 & E).
  rewrite E2. cbn [bind]. destruct (ga_cov c2) as [p2|] eqn:Ep2; [|discriminate E]. injection E as -> ->. rewrite Vc', Va', Vc, Fl.
  split; [reflexivity|]. destruct Wc' as (_ & _ & _ & Hv). destruct (Hv _ Ep) as (Sh & _ & DC). rewrite Vc', Vc in Sh. split; [exact Sh|exact DC].
Qed.
Lemma same_fun_good f f' : ggood true f -> ga_vac f = false -> same_fun f f' -> regular f' -> ggood true f' /\ ga_vac f' = false.
Proof.
  intros (W & S & P & Q & D) Va (W' & HP & Va' & L) R'. assert (Gv : forall e, gval f' e = gval f e) by (intros e; unfold gval, lp; now rewrite L).
  assert (Cc : forall x, curv (gval f') x = curv (gval f) x) by (intros x; unfold curv; now rewrite !Gv).
  split; [|congruence]. split; [exact W'|]. split; [intros [[K h] g] Hp; cbn; now apply (R' K h g)|]. split; [intros e; now rewrite Gv|].
  split; [intros x; now rewrite Cc|]. intros Hb. apply (summ_posdef f' W'). intros x (v & Hv & Hx). rewrite Cc. apply (proj1 (summ_posdef f W) (D Hb)).
  exists v. split; [now apply (Permutation_in _ HP)|exact Hx].
Qed.
Theorem kl_total f1 f2 : gproper f1 -> gproper f2 -> (forall v, In v (ga_vars f1) <-> In v (ga_vars f2)) ->
  exists k f1' f2', g_kl_divergence f1 f2 = Ok (Fin k, f1', f2').
Proof.
  intros (G1 & V1) (G2 & V2) Hv. pose proof G1 as (W1 & _). pose proof G2 as (W2 & _). pose proof W1 as (D1 & _). pose proof W2 as (D2 & _).
  pose proof (Permutation_length (NoDup_Permutation D1 D2 Hv)) as HL.
  destruct (g_equals_ok f1 f2 default_tol default_tol W1 W2 (good_regular f2 G2) V2 V1) as (b & f2' & E & SF & R2 & _).
  destruct (same_fun_good f2 f2' G2 V2 SF R2) as (G2' & V2'). destruct SF as (W2' & HP & _).
  unfold g_kl_divergence. rewrite HL, Nat.eqb_refl. cbn [negb]. rewrite V1, V2. cbn [andb orb]. rewrite E. cbn [bind].
  destruct b; [eauto|]. destruct (weak_normalize f1 G1 V1) as (C1 & m1 & N1 & S1 & P1). destruct (weak_normalize f2' G2' V2') as (C2 & m2 & N2 & S2 & P2).
  rewrite N1, N2. cbn [bind]. rewrite (Permutation_length HP) in S2. rewrite HL in S1.
  assert (A : forall vars C m, NoDup vars -> shaped (length vars) (C, m, Fin 0) -> 0 < mdet C ->
    exists f' h g, get_can (cov_obj vars (C, m, Fin 0)) = Ok (f', (minv C, h, g)) /\ get_cov f' = Ok (f', (C, m, Fin 0))).
  { intros vars C m Hd Sh P. unfold get_can, cov_obj. rewrite (update_canform_cov vars false C m (Fin 0) Sh P). cbn [bind ga_can].
    do 3 eexists. split; [reflexivity|]. now apply get_cov_some. }
  destruct (A (ga_vars f1) C1 m1 D1) as (p & hp & gp & Ep & Cp); [now rewrite HL|exact P1|].
  destruct (A (ga_vars f2') C2 m2) as (q & hq & gq & Eq & Cq); [apply W2'|now rewrite (Permutation_length HP)|exact P2|].
  rewrite Eq. cbn [bind]. rewrite Ep. cbn [bind fst snd]. rewrite Cp. cbn [bind fst snd]. rewrite Cq. cbn [bind fst snd].
  pose proof S1 as (A1 & A2 & A3 & A4). pose proof S2 as (B1 & B2 & B3 & B4).
  assert (N : forall C, np_det (minv C) = Ok (mdet (minv C))).
  { intros C. unfold np_det. cbn [minv nr nc]. now rewrite Nat.eqb_refl. }
  rewrite !N. cbn [bind]. rewrite !mdet_minv by lra. pose proof (Rinv_0_lt_compat _ P1) as I1. pose proof (Rinv_0_lt_compat _ P2) as I2.
  unfold py_assert, Req_b. destruct (Req_EM_T (/ mdet C2) 0) as [Z|_]; [lra|]. cbn [negb bind].
  rewrite mmul_ok by (cbn; congruence). cbn [bind]. destruct (msub_ok m1 m2) as (d & Ed & D3 & D4 & D5); [congruence|congruence|]. rewrite Ed. cbn [bind].
  rewrite (quad_ok (length (ga_vars f2)) d (minv C2)) by (cbn; congruence). cbn [bind].
  destruct (Rlt_b 0 (/ mdet C1 / / mdet C2)); eauto.
Qed.

(** * The laws *)
Theorem gproper_plaws o : oracle_ok o -> plaws (gauss_ops o) gproper gsound gready gval.
Proof.
  intros Ho. pose proof (gauss_plaws true o Ho) as L. pose proof (pl_prod _ _ _ _ _ L) as PL. split.
  - split.
    + intros f (G & _). now apply PL.
    + intros a b (Ga & _) (Gb & _). destruct (pr_mul _ _ _ PL a b Ga Gb) as (r & E & Gr & H). exists r. split; [exact E|]. split; [|exact H].
      apply good_unflagged; [exact Gr|exact (absorb_flag _ _ _ _ _ E)].
    + intros f vs xs r (G & _) N I Hl E. destruct (pr_reduce _ _ _ PL f vs xs r G N I Hl E) as (Gr & H). split; [|exact H].
      apply good_unflagged; [exact Gr|exact (reduce_flag _ _ _ _ E)].
  - intros f e e' (G & _). now apply (pl_ext _ _ _ _ _ L).
  - intros f e (G & _). now apply (pl_pos _ _ _ _ _ L).
  - intros f vs xs v (G & _). now apply (pl_reduce_ok _ _ _ _ _ L).
  - intros f vs xs r (G & _). now apply (pl_ready _ _ _ _ _ L).
  - intros a b r (Ga & _) (Gb & _). now apply (pl_mul_ready _ _ _ _ _ L).
  - intros a b r (Ga & _) (Gb & _). now apply (pl_cancel_ready _ _ _ _ _ L).
  - intros a f (Ga & _) (Gf & _). now apply (pl_sound_same _ _ _ _ _ L).
  - intros a b r (Ga & _) (Gb & _). now apply (pl_sound_mul _ _ _ _ _ L).
  - intros a b c (Ga & _) (Gb & _) (Gc & _) Hv I H. destruct (pl_cancel _ _ _ _ _ L a b c Ga Gb Gc Hv I H) as (r & E & Gr & R). exists r. split; [exact E|].
    split; [|exact R]. apply good_unflagged; [exact Gr|exact (absorb_flag _ _ _ _ _ E)].
  - intros f vs r Gp Rd Nv D I E. pose proof Gp as (G & _). destruct (pl_marg _ _ _ _ _ L f vs r G Rd Nv D I E) as (Gr & H). split; [|exact H]. split; [exact Gr|].
    destruct (gproper_marg o f vs Ho Gp D I) as (r' & E' & F). cbn [gauss_ops f_marg] in E. congruence.
  - intros f a b vs r (G & _) Rd (Ga & _) (Gb & _) Nv D I Hv Ib H E. destruct (pl_split _ _ _ _ _ L f a b vs r G Rd Ga Gb Nv D I Hv Ib H E) as (c & Gc & Vc & Hc).
    destruct (good_twin c Gc) as (c' & Gc' & V' & H'). exists c'. split; [exact Gc'|]. cbn [gauss_ops f_vars] in *. split; [intros v; now rewrite V'|]. intros e. now rewrite H'.
  - intros f ys v (G & _) D I Hv Nv S. destruct (pl_int _ _ _ _ _ L f ys v G D I Hv Nv S) as (c & Gc & Vc & Hc).
    destruct (good_twin c Gc) as (c' & Gc' & V' & H'). exists c'. split; [exact Gc'|]. cbn [gauss_ops f_vars] in *. split; [intros u; now rewrite V'|]. intros ys' e HP. rewrite H'. now apply Hc.
  - intros f h xs ys (G & _) (Gh & _). now apply (pl_app _ _ _ _ _ L).
Qed.
Theorem gproper_tlaws o : oracle_ok o -> tlaws (gauss_ops o) gproper gsound gready.
Proof.
  intros Ho. split; cbn [gauss_ops f_vars f_marg f_kl f_dist].
  - intros f ((_ & _ & _ & _ & D) & _). left. now apply D.
  - intros f (_ & V). exact V.
  - intros f vs G _ D I. destruct (gproper_marg o f vs Ho G D I) as (r & E & _). eauto.
  - intros a b Ga Gb Hv. destruct (kl_total a b Ga Gb Hv) as (k & a' & b' & E). rewrite E. cbn [bind fst]. exists (Fin k). split; [reflexivity|discriminate].
  - intros a _. eexists. split; [reflexivity|]. unfold g_distance_from_vacuous. destruct (ga_vac a); discriminate.
Qed.
