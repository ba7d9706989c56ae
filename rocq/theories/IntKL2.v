(** The code's divergence is the integral. *)
From Verif Require Export IntKL.
From Verif Require SigmaFacts.
#[global] Set Bullet Behavior "Strict Subproofs".
Local Open Scope R_scope.

Lemma normalize_obj f f' C m w : solid f -> get_cov f = Ok (f', (C, m, Fin w)) -> g_normalize f = Ok (cov_obj (ga_vars f) (C, m, Fin 0)).
Proof.
  intros S G. destruct (normalize_full f f' C m w S G) as (r & E & (_ & Vr & _) & _ & V & Gr & _). rewrite E. f_equal. pose proof E as E0. unfold g_normalize in E0.
  apply bind_ok in E0. destruct E0 as (c & _ & E0). apply bind_ok in E0. destruct E0 as (c' & _ & E0). destruct (ga_cov c') as [[[C' m'] w']|]; [|discriminate E0].
  injection E0 as <-. cbn [ga_vars ga_vac] in V, Vr. unfold get_cov, update_covform in Gr. cbn [ga_vac ga_cov bind] in Gr. rewrite Vr in Gr. cbn [bind ga_cov] in Gr.
  injection Gr as -> ->. unfold cov_obj. congruence.
Qed.
Lemma get_cov_some f p : ga_vac f = false -> ga_cov f = Some p -> get_cov f = Ok (f, p).
Proof. intros V E. unfold get_cov, update_covform. rewrite V, E. cbn [bind]. now rewrite E. Qed.
(** Filling in the other form keeps the object solid. *)
Lemma solid_get_can f f' p : solid f -> get_can f = Ok (f', p) -> solid f' /\ ga_vars f' = ga_vars f /\ forall g' q, get_cov f = Ok (g', q) -> exists g'', get_cov f' = Ok (g'', q).
Proof.
  intros S E. pose proof S as (W & Vac & Coh & PK & PC). pose proof W as (Hd & Hf & Hc & Hv).
  destruct (get_can_solid f S) as (f1 & K & h & g & E1 & P & Sh). rewrite E in E1. injection E1 as <- ->.
  destruct (get_can_wf f W) as (f1 & K1 & h1 & g1 & E1 & V1 & C1 & _ & W1 & A1 & D1). rewrite E in E1. injection E1 as <- <- <- <-.
  destruct (ga_can f) as [q0|] eqn:Ec.
  - destruct q0 as [[K0 h0] g0]. rewrite (get_can_some f K0 h0 g0 Ec) in E. injection E as <- _ _ _. split; [exact S|]. split; [reflexivity|]. intros g' q G. exists g'. exact G.
  - destruct (ga_cov f) as [q0|] eqn:Ev; [|destruct Hf; congruence]. split; [|split; [exact V1|]].
    + split; [exact W1|]. split; [congruence|]. split.
      * intros p0 q Hp Hq. right. exists f'. rewrite C1 in Hp. injection Hp as <-. replace (cov_only f') with f; [exact E|].
        unfold cov_only. destruct f as [v va ca co], f' as [v' va' ca' co']. cbn in *. congruence.
      * split; [intros K0 h0 g0 Hk; rewrite C1 in Hk; injection Hk as <- _ _; exact P|]. intros C m w Hk. rewrite D1 in Hk. exact (PC C m w Hk).
    + intros g' q G. rewrite (get_cov_some f q0 Vac Ev) in G. injection G as _ <-. exists f'. apply get_cov_some; congruence.
Qed.
Lemma solid_get_cov f f' p : solid f -> get_cov f = Ok (f', p) -> solid f' /\ ga_vars f' = ga_vars f /\ get_cov f' = Ok (f', p).
Proof.
  intros S E. pose proof S as (W & Vac & Coh & PK & PC). pose proof W as (Hd & Hf & Hc & Hv).
  assert (R : regular f). { intros K h g Hk. pose proof (PK K h g Hk) as P. split; [apply P|now apply posdef_det]. }
  destruct (get_cov_ext f W R Vac) as (f1 & p1 & E1 & (W1 & R1 & A1 & V1 & C1 & D1 & L1) & Cv). rewrite E in E1. injection E1 as <- <-.
  destruct p as [[C m] w]. destruct (solid_lp_cov f f' C m w S E) as (Sh & P & _).
  destruct (ga_cov f) as [q0|] eqn:Ev.
  - rewrite (get_cov_some f q0 Vac Ev) in E. injection E as <- ->. split; [exact S|]. split; [reflexivity|]. now apply get_cov_some.
  - destruct (ga_can f) as [q0|] eqn:Ec; [|destruct Hf; congruence]. split; [|split; [exact V1|apply get_cov_some; congruence]].
    split; [exact W1|]. split; [congruence|]. split.
    + intros p0 q Hp Hq. left. exists f'. rewrite Cv in Hq. injection Hq as <-. replace (can_only f') with f; [exact E|].
      unfold can_only. destruct f as [v va ca co], f' as [v' va' ca' co']. cbn in *. rewrite (C1 q0 eq_refl). congruence.
    + split; [intros K0 h0 g0 Hk|intros C0 m0 w0 Hk; rewrite Cv in Hk; injection Hk as <- _ _; exact P]. rewrite (C1 q0 eq_refl) in Hk. injection Hk as ->. exact (PK K0 h0 g0 eq_refl).
Qed.
Lemma equals_object f1 f2 b f1' f2' : ga_vars f1 = ga_vars f2 -> ga_vac f1 = false -> solid f2 ->
  g_equals f1 f2 default_tol default_tol = Ok (b, f1', f2') -> (exists p, get_can f2 = Ok (f2', p)) \/ (exists p, get_cov f2 = Ok (f2', p)) \/ f2' = f2.
Proof.
  intros EV V1 S2 E. unfold g_equals in E. destruct (seteqb (ga_vars f1) (ga_vars f2)); cbn [negb] in E; [|injection E as _ _ <-; auto].
  apply bind_ok in E. destruct E as (c & _ & E). apply bind_ok in E. destruct E as (c' & _ & E). rewrite V1, Bool.andb_false_r in E.
  destruct (ga_can f1) as [[[K h] g]|].
  - left. apply bind_ok in E. destruct E as ([b0 r0] & E0 & E). injection E as _ _ <-. cbn [snd]. unfold canform_equals in E0. apply bind_ok in E0. destruct E0 as ([r1 p1] & G & E0). cbn [fst snd] in E0.
    destruct (solid_get_can f2 r1 p1 S2 G) as (Sr & Vr & _). destruct (get_can_same f2 r1 p1 (proj1 S2) G) as (_ & _ & Cr).
    destruct (negb (visclose g (snd p1) default_tol default_tol)); [injection E0 as _ <-; exists p1; exact G|].
    rewrite (reorder_id r1) in E0 by congruence. cbn [bind] in E0. destruct p1 as [[K1 h1] g1]. rewrite (get_can_some r1 K1 h1 g1 Cr) in E0. cbn [bind fst snd] in E0.
    apply bind_ok in E0. destruct E0 as (b1 & _ & E0). destruct b1; cbn [negb] in E0; [apply bind_ok in E0; destruct E0 as (b2 & _ & E0)|]; injection E0 as _ <-; exists (K1, h1, g1); exact G.
  - apply bind_ok in E. destruct E as (f1a & _ & E). destruct (ga_cov f1a) as [[[C m] w]|]; [|injection E as _ _ <-; auto]. right. left.
    apply bind_ok in E. destruct E as ([b0 r0] & E0 & E). injection E as _ _ <-. cbn [snd]. unfold covform_equals in E0. apply bind_ok in E0. destruct E0 as ([r1 p1] & G & E0). cbn [fst snd] in E0.
    destruct (solid_get_cov f2 r1 p1 S2 G) as (Sr & Vr & Gr).
    destruct (negb (visclose (vexp w) (vexp (snd p1)) default_tol default_tol)); [injection E0 as _ <-; exists p1; exact G|].
    rewrite (reorder_id r1) in E0 by congruence. cbn [bind] in E0. rewrite Gr in E0. destruct p1 as [[C1 m1] w1]. cbn [bind fst snd] in E0.
    apply bind_ok in E0. destruct E0 as (b1 & _ & E0). destruct b1; cbn [negb] in E0; [apply bind_ok in E0; destruct E0 as (b2 & _ & E0)|]; injection E0 as _ <-; exists (C1, m1, w1); exact G.
Qed.
Lemma equals_solid f1 f2 g2 C m w : ga_vars f1 = ga_vars f2 -> solid f1 -> solid f2 -> get_cov f2 = Ok (g2, (C, m, w)) ->
  exists b f2' g2', g_equals f1 f2 default_tol default_tol = Ok (b, f1, f2') /\ solid f2' /\ ga_vars f2' = ga_vars f2 /\ get_cov f2' = Ok (g2', (C, m, w)).
Proof.
  intros EV S1 S2 G. pose proof S1 as (W1 & V1 & _). pose proof S2 as (W2 & V2 & _ & PK & _).
  assert (R : regular f2). { intros K h g Hk. pose proof (PK K h g Hk) as P. split; [apply P|now apply posdef_det]. }
  destruct (g_equals_step f1 f2 W1 W2 R V1 V2 EV) as (b & f2' & E & _ & _).
  destruct (equals_object f1 f2 b f1 f2' EV V1 S2 E) as [(p & G')|[(p & G')| ->]].
  - destruct (solid_get_can f2 f2' p S2 G') as (Sr & Vr & Gr). destruct (Gr _ _ G) as (g2' & Gq). exists b, f2', g2'. now repeat (split; [assumption|]).
  - destruct (solid_get_cov f2 f2' p S2 G') as (Sr & Vr & Gr). rewrite G in G'. injection G' as <- <-. exists b, g2, g2. now repeat (split; [assumption|]).
  - exists b, f2, g2. now repeat (split; [assumption|]).
Qed.
Lemma cov_obj_can vars C m w : NoDup vars -> shaped (length vars) (C, m, w) -> posdef C ->
  exists f' h g, get_can (cov_obj vars (C, m, w)) = Ok (f', (minv C, h, g)) /\ get_cov f' = Ok (f', (C, m, w)).
Proof.
  intros Hd Sh P. unfold get_can. unfold cov_obj. rewrite (update_canform_cov vars false C m w Sh (posdef_det C P)). cbn [bind ga_can].
  do 3 eexists. split; [reflexivity|]. now apply get_cov_some.
Qed.
(** The computation after the equality check, whatever that check compared. *)
Lemma kl_core f1 f2 g2 f1' C1 m1 w1 g2' C2 m2 w2 : solid f1 -> solid g2 -> ga_vac f2 = false -> length (ga_vars f1) = length (ga_vars f2) -> length (ga_vars g2) = length (ga_vars f2) ->
  get_cov f1 = Ok (f1', (C1, m1, Fin w1)) -> get_cov g2 = Ok (g2', (C2, m2, Fin w2)) -> g_equals f1 f2 default_tol default_tol = Ok (false, f1, g2) ->
  g_kl_divergence f1 f2 = Ok (Fin (kl_raw (length (ga_vars f1)) C1 m1 C2 m2), f1, g2) /\ 0 <= kl_raw (length (ga_vars f1)) C1 m1 C2 m2.
Proof.
  intros S1 Sg V2 EL El2 G1 Gg E. pose proof S1 as ((Hd & _) & V1 & _). pose proof Sg as ((Hd2 & _) & _). set (vars := ga_vars f1) in *.
  destruct (solid_lp_cov f1 f1' C1 m1 (Fin w1) S1 G1) as (Sh1 & P1 & _). destruct (solid_lp_cov g2 g2' C2 m2 (Fin w2) Sg Gg) as (Sh2 & P2 & _). rewrite El2, <- EL in Sh2. fold vars in Sh1.
  pose proof (kl_nonneg vars C1 m1 C2 m2 Hd Sh1 Sh2 P1 P2) as NN. split; [|exact NN].
  unfold g_kl_divergence. fold vars. rewrite <- EL, Nat.eqb_refl. cbn [negb]. rewrite V1, V2. cbn [andb orb]. rewrite E. cbn [bind].
  rewrite (normalize_obj f1 f1' C1 m1 w1 S1 G1). cbn [bind]. rewrite (normalize_obj g2 g2' C2 m2 w2 Sg Gg). cbn [bind]. fold vars.
  assert (Sh2' : shaped (length (ga_vars g2)) (C2, m2, Fin 0)) by (rewrite El2, <- EL; exact Sh2).
  destruct (cov_obj_can (ga_vars g2) C2 m2 (Fin 0) Hd2 Sh2' P2) as (q & hq & gq & Eq & Cq). destruct (cov_obj_can vars C1 m1 (Fin 0) Hd Sh1 P1) as (p & hp & gp & Ep & Cp).
  rewrite Eq. cbn [bind]. rewrite Ep. cbn [bind fst snd]. rewrite Cp. cbn [bind fst snd]. rewrite Cq. cbn [bind fst snd].
  pose proof Sh1 as (A1 & A2 & A3 & A4). pose proof Sh2 as (B1 & B2 & B3 & B4). pose proof (posdef_det C1 P1) as D1. pose proof (posdef_det C2 P2) as D2.
  assert (N1 : forall C, np_det (minv C) = Ok (mdet (minv C))).
  { intros C. unfold np_det. cbn [minv nr nc]. now rewrite Nat.eqb_refl. }
  rewrite !N1. cbn [bind]. rewrite !mdet_minv by lra.
  pose proof (Rinv_0_lt_compat _ D1) as I1. pose proof (Rinv_0_lt_compat _ D2) as I2.
  unfold py_assert, Req_b. destruct (Req_EM_T (/ mdet C2) 0) as [Z|_]; [lra|]. cbn [negb bind].
  rewrite mmul_ok by (cbn; congruence). cbn [bind]. destruct (msub_ok m1 m2) as (d & Ed & D3 & D4 & D5); [congruence|congruence|]. rewrite Ed. cbn [bind].
  rewrite (quad_ok (length vars) d (minv C2)) by (cbn; congruence). cbn [bind].
  assert (HX : 0 < / mdet C1 / / mdet C2) by now apply Rdiv_lt_0_compat. unfold Rlt_b. destruct (Rlt_dec 0 (/ mdet C1 / / mdet C2)) as [_|Z]; [|contradiction].
  do 3 f_equal. rewrite <- (Rabs_right (kl_raw _ _ _ _ _)) by lra. do 2 f_equal. unfold kl_raw. rewrite !mdet_minv by lra. f_equal. f_equal. f_equal. f_equal.
  apply qsum_ext; [reflexivity|]. intros i Hi. apply D5; rewrite ?A3, ?A4; [exact Hi|constructor].
Qed.
Theorem g_kl_spec f1 f2 f1' C1 m1 w1 f2' C2 m2 w2 : solid f1 -> solid f2 -> ga_vars f1 = ga_vars f2 ->
  get_cov f1 = Ok (f1', (C1, m1, Fin w1)) -> get_cov f2 = Ok (f2', (C2, m2, Fin w2)) ->
  exists b g2 k p q, g_equals f1 f2 default_tol default_tol = Ok (b, f1, g2) /\ g_kl_divergence f1 f2 = Ok (Fin k, f1, g2) /\
    g_normalize f1 = Ok p /\ g_normalize f2 = Ok q /\ 0 <= k /\ (b = true -> k = 0) /\
    (b = false -> forall ys e, Permutation ys (ga_vars f1) -> iint ys (fun e => gval p e * (ln (gval p e) - ln (gval q e))) e k).
Proof.
  intros S1 S2 EV G1 G2. destruct (equals_solid f1 f2 f2' C2 m2 (Fin w2) EV S1 S2 G2) as (b & g2 & g2' & E & Sg & Vg & Gg).
  destruct (solid_lp_cov f1 f1' C1 m1 (Fin w1) S1 G1) as (Sh1 & P1 & _). destruct (solid_lp_cov f2 f2' C2 m2 (Fin w2) S2 G2) as (Sh2 & P2 & _). rewrite <- EV in Sh2.
  pose proof S1 as ((Hd & _) & V1 & _). pose proof S2 as (_ & V2 & _).
  exists b, g2, (if b then 0 else kl_raw (length (ga_vars f1)) C1 m1 C2 m2). do 2 eexists. split; [exact E|]. split; [|split; [exact (normalize_obj f1 f1' C1 m1 w1 S1 G1)|split; [exact (normalize_obj f2 f2' C2 m2 w2 S2 G2)|]]].
  - destruct b.
    + unfold g_kl_divergence. rewrite <- EV, Nat.eqb_refl. cbn [negb]. rewrite V1, V2. cbn [andb orb]. rewrite E. reflexivity.
    + apply (kl_core f1 f2 g2 f1' C1 m1 w1 g2' C2 m2 w2); congruence.
  - split; [destruct b; [lra|now apply kl_nonneg]|]. split; [intros ->; reflexivity|]. intros -> ys e HP. rewrite <- EV. now apply kl_integral.
Qed.

(** * Where the computation goes wrong *)
Lemma eye_posdef n : posdef (meye n).
Proof.
  split; [intros i j _ _; cbn; rewrite Nat.eqb_sym; reflexivity|]. intros u (i & Hi & Hu). cbn [meye nr] in *.
  unfold qsum. rewrite (rsum_ext _ _ (fun i => u i * u i)).
  - apply (rsum_pos_one _ _ i); [intros k _; apply Rle_0_sqr|exact Hi|now apply Rsqr_pos_lt].
  - intros k Hk. rewrite (rsum_ext _ _ (fun j => idn k j * (u k * u j))) by (intros j _; unfold idn; cbn; destruct (Nat.eqb k j); change R1 with 1; change R0 with 0; ring).
    rewrite rsum_idn by exact Hk. reflexivity.
Qed.
Lemma minv_eye n i j : (i < n)%nat -> (j < n)%nat -> ent (minv (meye n)) i j = idn i j.
Proof.
  intros Hi Hj. destruct (inv_unique n (meye n) (meye n) eq_refl) as (_ & H); [|rewrite <- H by assumption; reflexivity].
  intros a b Ha Hb. change (rsum n (fun k => idn a k * ent (meye n) k b) = idn a b). now rewrite rsum_idn.
Qed.
Lemma kl_eye n m1 m2 : kl_raw n (meye n) m1 (meye n) m2 = 1 / 2 * rsum n (fun i => (ent m1 i 0 - ent m2 i 0) * (ent m1 i 0 - ent m2 i 0)).
Proof.
  assert (D : mdet (meye n) = 1) by apply mdet_eye. unfold kl_raw. rewrite !mdet_minv by lra. rewrite D.
  replace (/ 1 / / 1) with 1 by field. rewrite ln_1.
  replace (mtrace (mmul0 (minv (meye n)) (meye n))) with (INR n).
  - replace (qsum n (minv (meye n)) (fun i => ent m1 i 0 - ent m2 i 0)) with (rsum n (fun i => (ent m1 i 0 - ent m2 i 0) * (ent m1 i 0 - ent m2 i 0))); [ring|].
    unfold qsum. apply rsum_ext. intros i Hi.
    rewrite (rsum_ext _ (fun j => _ * ent (minv (meye n)) i j * _) (fun j => idn i j * ((ent m1 i 0 - ent m2 i 0) * (ent m1 j 0 - ent m2 j 0)))) by (intros j Hj; rewrite minv_eye by assumption; ring).
    now rewrite rsum_idn.
  - unfold mtrace. cbn [mmul0 nr minv nc]. cbn [meye nr nc]. rewrite (rsum_ext _ _ (fun _ => 1)).
    + rewrite SigmaFacts.rsum_const. symmetry. apply Rmult_1_r.
    + intros i Hi. cbn [mmul0 ent]. change (rsum n (fun k => ent (minv (meye n)) i k * ent (meye n) k i) = 1). pose proof (minv_l (meye n) i i) as H. cbn [meye nr] in H. fold (meye n) in H. rewrite H; [unfold idn; now rewrite Nat.eqb_refl|rewrite D; apply R1_neq_R0|exact Hi|exact Hi].
Qed.
Definition stdg (vars : list string) (l : list R) (w : R) : gauss := cov_obj vars (meye (length vars), Mat (length vars) 1 (fun i _ => nth i l 0), Fin w).
Lemma stdg_solid vars l w : NoDup vars -> solid (stdg vars l w).
Proof. intros Hd. apply solid_cov; [exact Hd|now repeat split|apply eye_posdef]. Qed.
Lemma stdg_norm vars l w : NoDup vars -> g_normalize (stdg vars l w) = Ok (stdg vars l 0).
Proof. intros Hd. exact (normalize_obj (stdg vars l w) _ _ _ w (stdg_solid vars l w Hd) eq_refl). Qed.
Lemma weights_far : visclose (vexp (Fin 0)) (vexp (Fin 1)) default_tol default_tol = false.
Proof.
  cbn [vexp visclose]. rewrite exp_0. apply Rle_b_false. pose proof (exp_ineq1 1) as H. specialize (H ltac:(lra)). unfold default_tol.
  rewrite (Rabs_left (1 - exp 1)) by lra. rewrite Rabs_right by lra. lra.
Qed.
Lemma equals_far vars vars' l l' : NoDup vars -> NoDup vars' -> Permutation vars vars' ->
  g_equals (stdg vars l 0) (stdg vars' l' 1) default_tol default_tol = Ok (false, stdg vars l 0, stdg vars' l' 1).
Proof.
  intros Hd Hd' HP. pose proof (stdg_solid vars' l' 1 Hd') as S2. destruct (solid_copy _ S2) as (c & Ec & Sc & Vc).
  unfold g_equals. change (ga_vars (stdg vars l 0)) with vars. change (ga_vars (stdg vars' l' 1)) with vars'. assert (seteqb vars vars' = true) as ->.
  { apply seteqb_iff. intros x. split; apply Permutation_in; [exact HP|now apply Permutation_sym]. }
  cbn [negb]. rewrite Ec. cbn [bind].
  assert (exists c', (if eqb vars vars' then Ok c else g_reorder c vars) = Ok c') as (c' & ->).
  { destruct (eqb vars vars'); [now exists c|]. destruct (g_reorder_spec c vars (proj1 Sc)) as (r & Er & _); [rewrite Vc; exact HP|]. now exists r. }
  cbn [bind]. rewrite Bool.andb_false_r. change (ga_can (stdg vars l 0)) with (@None (mat * mat * val)). cbv iota. change (update_covform (stdg vars l 0)) with (Ok (stdg vars l 0)). cbn [bind].
  change (ga_cov (stdg vars l 0)) with (Some (meye (length vars), Mat (length vars) 1 (fun i _ => nth i l 0), Fin 0)). cbv iota. unfold covform_equals. unfold stdg at 1. rewrite get_cov_obj. cbn [bind fst snd].
  rewrite weights_far. reflexivity.
Qed.
Lemma named_eye vars u v : NoDup vars -> In u vars -> In v vars -> named_entry (minv (meye (length vars))) vars u v = if string_dec u v then 1 else 0.
Proof.
  intros Hd Hu Hv. destruct (pos_nth vars u Hu) as (Pu & Nu). destruct (pos_nth vars v Hv) as (Pv & Nv). rewrite named_pos by assumption. rewrite minv_eye by assumption.
  unfold idn. destruct (Nat.eqb_spec (pos vars u) (pos vars v)) as [E|E]; destruct (string_dec u v) as [E'|E']; try reflexivity; exfalso; congruence.
Qed.
Lemma Rsum_pick (F : string -> R) l u : NoDup l -> In u l -> Rsum (map (fun v => (if string_dec u v then 1 else 0) * F v) l) = F u.
Proof.
  intros Hd Hu. destruct (in_split u l Hu) as (l1 & l2 & ->). pose proof (NoDup_remove_2 _ _ _ Hd) as Hn. rewrite map_app. cbn [map]. rewrite Rsum_app, Rsum_cons, !Rsum_zero.
  - destruct (string_dec u u); [ring|contradiction].
  - intros x Hx. destruct (string_dec u x) as [->|_]; [|ring]. exfalso. apply Hn, in_or_app. now right.
  - intros x Hx. destruct (string_dec u x) as [->|_]; [|ring]. exfalso. apply Hn, in_or_app. now left.
Qed.
Lemma stdg_lp vars l w e : NoDup vars -> lp (stdg vars l w) e = Ok (Fin (w - 1 / 2 * ln ((2 * PI) ^ length vars) -
  / 2 * Rsum (map (fun u => (e u - named_coord (Mat (length vars) 1 (fun i _ => nth i l 0)) vars u) * (e u - named_coord (Mat (length vars) 1 (fun i _ => nth i l 0)) vars u)) vars))).
Proof.
  intros Hd. unfold stdg. rewrite cov_lp by (exact Hd || apply eye_posdef || now repeat split). set (m := Mat _ 1 _). do 2 f_equal.
  assert (mdet (meye (length vars)) = 1) as -> by apply mdet_eye. rewrite Rmult_1_r. f_equal. f_equal. apply Rsum_ext. intros u Hu.
  rewrite (Rsum_ext _ (fun v => (if string_dec u v then 1 else 0) * ((e u - named_coord m vars u) * (e v - named_coord m vars v)))) by (intros v Hv; rewrite named_eye by assumption; ring).
  now rewrite (Rsum_pick (fun v => (e u - named_coord m vars u) * (e v - named_coord m vars v))).
Qed.
Lemma nd1 (x : string) : NoDup [x].
Proof. constructor; [intros []|constructor]. Qed.
(** Same function, variables listed the other way round, different weights: the answer is 1, the integral is 0. *)
Theorem kl_order_refuted : exists f1 f2 p q f1' f2', solid f1 /\ solid f2 /\ Permutation (ga_vars f1) (ga_vars f2) /\
  g_normalize f1 = Ok p /\ g_normalize f2 = Ok q /\ (forall e, gval p e = gval q e) /\
  g_kl_divergence f1 f2 = Ok (Fin 1, f1', f2') /\
  forall ys e, Permutation ys (ga_vars f1) -> iint ys (fun e => gval p e * (ln (gval p e) - ln (gval q e))) e 0.
Proof.
  assert (H1 : NoDup ["a"%string; "b"%string]) by now apply nd2. assert (H2 : NoDup ["b"%string; "a"%string]) by now apply nd2.
  assert (HP : Permutation ["a"%string; "b"%string] ["b"%string; "a"%string]) by apply perm_swap.
  exists (stdg ["a"; "b"]%string [1; 0] 0), (stdg ["b"; "a"]%string [0; 1] 1), (stdg ["a"; "b"]%string [1; 0] 0), (stdg ["b"; "a"]%string [0; 1] 0).
  exists (stdg ["a"; "b"]%string [1; 0] 0), (stdg ["b"; "a"]%string [0; 1] 1).
  assert (EQ : forall e, gval (stdg ["a"; "b"]%string [1; 0] 0) e = gval (stdg ["b"; "a"]%string [0; 1] 0) e).
  { intros e. unfold gval. rewrite !stdg_lp by assumption. f_equal. f_equal. f_equal. f_equal. cbn. ring. }
  split; [now apply stdg_solid|]. split; [now apply stdg_solid|]. split; [exact HP|]. split; [now apply stdg_norm|]. split; [now apply stdg_norm|]. split; [exact EQ|]. split.
  - destruct (kl_core (stdg ["a"; "b"]%string [1; 0] 0) (stdg ["b"; "a"]%string [0; 1] 1) (stdg ["b"; "a"]%string [0; 1] 1) _ _ _ 0 _ _ _ 1
      (stdg_solid _ _ _ H1) (stdg_solid _ _ _ H2) eq_refl eq_refl eq_refl eq_refl eq_refl (equals_far _ _ _ _ H1 H2 HP)) as (E & _).
    rewrite E. do 3 f_equal. rewrite kl_eye. change (length (ga_vars (stdg ["a"%string; "b"%string] [1; 0] 0))) with 2%nat. unfold rsum. cbn [seq map Rsum fold_right ent nth]. cbn. f_equal. lra.
  - intros ys e _. apply (iint_ext ys (fun _ => 0)); [|apply iint_zero]. intros e'. rewrite EQ. ring.
Qed.
(** Different variables: a number instead of an error. *)
Theorem kl_scope_refuted : exists f1 f2 f1' f2', solid f1 /\ solid f2 /\ ga_vars f1 = ["a"%string] /\ ga_vars f2 = ["b"%string] /\ g_kl_divergence f1 f2 = Ok (Fin 0, f1', f2').
Proof.
  pose proof (nd1 "a") as H1. pose proof (nd1 "b") as H2. exists (stdg ["a"%string] [0] 0), (stdg ["b"%string] [0] 0). do 2 eexists.
  split; [now apply stdg_solid|]. split; [now apply stdg_solid|]. split; [reflexivity|]. split; [reflexivity|].
  destruct (kl_core (stdg ["a"]%string [0] 0) (stdg ["b"]%string [0] 0) (stdg ["b"]%string [0] 0) _ _ _ 0 _ _ _ 0
      (stdg_solid _ _ _ H1) (stdg_solid _ _ _ H2) eq_refl eq_refl eq_refl eq_refl eq_refl eq_refl) as (E & _).
  rewrite E. do 3 f_equal. rewrite kl_eye. change (length (ga_vars (stdg ["a"%string] [0] 0))) with 1%nat. unfold rsum. cbn. f_equal. lra.
Qed.
(** Close but different Gaussians: the answer is 0, the integral is not. *)
Theorem kl_close_refuted : exists f1 f2 p q f1' f2' k, solid f1 /\ solid f2 /\ ga_vars f1 = ga_vars f2 /\ g_normalize f1 = Ok p /\ g_normalize f2 = Ok q /\
  g_kl_divergence f1 f2 = Ok (Fin 0, f1', f2') /\ 0 < k /\
  forall ys e, Permutation ys (ga_vars f1) -> iint ys (fun e => gval p e * (ln (gval p e) - ln (gval q e))) e k.
Proof.
  pose proof (nd1 "a") as H1. set (d := 1 / 20000). exists (stdg ["a"%string] [0] 0), (stdg ["a"%string] [d] 0), (stdg ["a"%string] [0] 0), (stdg ["a"%string] [d] 0).
  pose proof (stdg_solid ["a"%string] [0] 0 H1) as S1. pose proof (stdg_solid ["a"%string] [d] 0 H1) as S2.
  destruct (equals_solid (stdg ["a"%string] [0] 0) (stdg ["a"%string] [d] 0) _ _ _ _ eq_refl S1 S2 eq_refl) as (b & g2 & g2' & E & _).
  exists (stdg ["a"%string] [0] 0), g2. eexists. split; [exact S1|]. split; [exact S2|]. split; [reflexivity|]. split; [now apply stdg_norm|]. split; [now apply stdg_norm|]. split.
  - unfold g_kl_divergence. change (ga_vars (stdg ["a"%string] [0] 0)) with ["a"%string]. change (ga_vars (stdg ["a"%string] [d] 0)) with ["a"%string]. cbn [length Nat.eqb negb].
    change (ga_vac (stdg ["a"%string] [0] 0)) with false. change (ga_vac (stdg ["a"%string] [d] 0)) with false. cbn [andb orb]. rewrite E. cbn [bind]. assert (b = true) as ->; [|reflexivity].
    unfold g_equals in E. change (seteqb (ga_vars (stdg ["a"%string] [0] 0)) (ga_vars (stdg ["a"%string] [d] 0))) with true in E. cbn [negb] in E.
    apply bind_ok in E. destruct E as (c & _ & E). apply bind_ok in E. destruct E as (c' & _ & E). rewrite Bool.andb_false_r in E. change (ga_can (stdg ["a"%string] [0] 0)) with (@None (mat * mat * val)) in E. cbv iota in E. change (update_covform (stdg ["a"%string] [0] 0)) with (Ok (stdg ["a"%string] [0] 0)) in E. cbn [bind] in E.
    change (ga_cov (stdg ["a"%string] [0] 0)) with (Some (meye 1, Mat 1 1 (fun i _ => nth i [0] 0), Fin 0)) in E. cbv iota in E.
    apply bind_ok in E. destruct E as ([b0 r0] & E0 & E). injection E as <- _. unfold covform_equals in E0. unfold stdg at 1 in E0. rewrite get_cov_obj in E0. cbn [bind fst snd] in E0.
    assert (visclose (vexp (Fin 0)) (vexp (Fin 0)) default_tol default_tol = true) as Ev.
    { cbn [vexp visclose]. apply Rle_b_true. rewrite Rminus_eq_0, Rabs_R0, exp_0, Rabs_R1. unfold default_tol. lra. }
    rewrite Ev in E0. cbn [negb] in E0. rewrite reorder_id in E0 by reflexivity. cbn [bind] in E0. rewrite get_cov_obj in E0. cbn [bind fst snd] in E0.
    assert (forall (x y : R) a b, Rabs (x - y) <= default_tol + default_tol * Rabs y -> allclose (Mat 1 1 (fun i _ => nth i [x] a)) (Mat 1 1 (fun i _ => nth i [y] b)) default_tol default_tol = Ok true) as AC.
    { intros x y a b' H. unfold allclose. cbn. rewrite (Rle_b_true _ _ H). reflexivity. }
    cbn [ga_vars length] in E0. rewrite AC in E0.
    + cbn [bind negb] in E0. destruct (allclose_self (meye 1) (meye 1) default_tol default_tol) as (b1 & Eb & Hb); [unfold default_tol; lra|unfold default_tol; lra|reflexivity|reflexivity|].
      rewrite Eb, Hb in E0 by reflexivity. cbn [bind] in E0. injection E0 as <- _. reflexivity.
    + unfold d, default_tol. rewrite Rabs_left by lra. rewrite Rabs_right by lra. lra.
  - assert (K : kl_raw 1 (meye 1) (Mat 1 1 (fun i _ => nth i [0] 0)) (meye 1) (Mat 1 1 (fun i _ => nth i [d] 0)) = 1 / 2 * (d * d)) by (rewrite kl_eye; unfold rsum; cbn; ring).
    split; [|intros ys e HP; apply (kl_integral ["a"%string] (meye 1) (Mat 1 1 (fun i _ => nth i [0] 0)) (meye 1) (Mat 1 1 (fun i _ => nth i [d] 0))); [exact H1|now repeat split|now repeat split|apply eye_posdef|apply eye_posdef|exact HP]].
    cbn [length]. rewrite K. unfold d. lra.
Qed.
(** Instances used by the property file. *)
Lemma mix_ab_params : exists ps, Forall2 has_params (gm_comps mix_ab) ps.
Proof. destruct ex_ab_weight as (f' & C & m & w & E). exists [(C, m, w); (C, m, w)]. repeat constructor; exists f'; exact E. Qed.
Lemma kl_instance : exists f1 f2 g2, solid f1 /\ solid f2 /\ ga_vars f1 = ga_vars f2 /\ ga_vars f1 = ["a"; "b"]%string /\
  g_equals f1 f2 default_tol default_tol = Ok (false, f1, g2) /\ (exists C m, get_cov f1 = Ok (f1, (C, m, Fin 0))) /\ (exists C m, get_cov f2 = Ok (f2, (C, m, Fin 1))).
Proof.
  assert (H1 : NoDup ["a"%string; "b"%string]) by now apply nd2. exists (stdg ["a"; "b"]%string [1; 0] 0), (stdg ["a"; "b"]%string [0; 1] 1), (stdg ["a"; "b"]%string [0; 1] 1).
  split; [now apply stdg_solid|]. split; [now apply stdg_solid|]. split; [reflexivity|]. split; [reflexivity|]. split; [apply equals_far; [exact H1|exact H1|apply Permutation_refl]|].
  split; do 2 eexists; reflexivity.
Qed.
(** The vacuous cases, and the length check. *)
Lemma kl_vacuous f1 f2 :
  (length (ga_vars f1) <> length (ga_vars f2) -> g_kl_divergence f1 f2 = Err ValueError) /\
  (length (ga_vars f1) = length (ga_vars f2) -> ga_vac f1 = true -> ga_vac f2 = true -> g_kl_divergence f1 f2 = Ok (Fin 0, f1, f2)) /\
  (length (ga_vars f1) = length (ga_vars f2) -> ga_vac f1 <> ga_vac f2 -> g_kl_divergence f1 f2 = Ok (PInf, f1, f2)).
Proof.
  unfold g_kl_divergence. split; [|split].
  - intros H. apply Nat.eqb_neq in H. now rewrite H.
  - intros -> -> ->. now rewrite Nat.eqb_refl.
  - intros -> H. rewrite Nat.eqb_refl. destruct (ga_vac f1), (ga_vac f2); try reflexivity; congruence.
Qed.
(** The mean is not listed in the order of the factor's variable names. *)
Lemma rev_oracle_ok : oracle_ok {| so := @rev string; ko := fun l => l |}.
Proof. split; intros l _; [apply Permutation_rev|apply Permutation_refl]. Qed.
Theorem fg_mean_order : exists o f a m, oracle_ok o /\ solid f /\ plain f /\ mk_fg o [f] = Ok a /\ fg_get_mean a = Ok m /\ fg_vars a = ["b"; "a"]%string /\
  named_coord m (fg_vars a) "b" = 1 /\
  forall ys e, Permutation ys (fg_vars a) -> iint ys (gvals (fg_factors a)) e 1 /\ iint ys (fun e => e "b"%string * gvals (fg_factors a) e) e 0.
Proof.
  assert (H1 : NoDup ["a"%string; "b"%string]) by now apply nd2. set (f := stdg ["a"; "b"]%string [1; 0] 0).
  assert (S1 : solid f) by now apply stdg_solid. assert (P1 : plain f). { apply cov_plain; [exact H1|now repeat split|apply eye_posdef]. }
  assert (Ec : g_copy f = Ok f). { unfold g_copy. cbn [f stdg cov_obj ga_cov ga_can ga_vars]. rewrite mk_cov_ok; [reflexivity|exact H1|now repeat split]. }
  exists {| so := @rev string; ko := fun l => l |}, f, {| fg_vars := ["b"; "a"]%string; fg_factors := [f] |}, (Mat 2 1 (fun i _ => nth i [1; 0] 0)).
  split; [exact rev_oracle_ok|]. split; [exact S1|]. split; [exact P1|]. split; [unfold mk_fg; cbn [mapM]; rewrite Ec; reflexivity|].
  split. { unfold fg_get_mean, fg_joint. cbn [fg_factors]. rewrite Ec. reflexivity. }
  split; [reflexivity|]. split; [reflexivity|]. intros ys e HP. cbn [fg_vars] in HP. assert (HP' : Permutation ys (ga_vars f)) by (rewrite HP; apply perm_swap).
  assert (GE : forall e, gval f e = gvals [f] e) by (intros e'; unfold gvals; cbn; ring).
  split.
  - apply (iint_ext _ (gval f)); [exact GE|]. pose proof (proj2 (weight_integral f f _ _ _ ys e S1 P1 eq_refl HP')) as H. cbn [pot] in H. now rewrite exp_0 in H.
  - apply (iint_ext _ (fun e => e "b"%string * gval f e)); [intros e'; now rewrite GE|]. pose proof (raw_moment1 f f _ _ _ ys e "b"%string S1 P1 eq_refl HP' (or_intror (or_introl eq_refl))) as H.
    match type of H with iint _ _ _ ?J => replace J with 0 in H end; [exact H|]. cbn. ring.
Qed.
