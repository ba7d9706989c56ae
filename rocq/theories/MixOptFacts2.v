(** The value found by argmax, and the mixture of from_sklearn_gmm. *)
From Verif Require Export MixOptFacts.
#[global] Set Bullet Behavior "Strict Subproofs".
Local Open Scope R_scope.

(** A search keeps the number of coordinates and never ends above its start. *)
Definition descends (opt : optimiser) (f : objective) : Prop := forall x0 x s, opt f x0 = Ok (x, s) ->
  length x = length x0 /\ forall u v, f x0 = Ok (Fin v) -> f x = Ok (Fin u) -> u <= v.

Lemma params_pos a ps e : wf_mix a -> (forall c, In c (gm_comps a) -> solid c) -> Forall2 has_params (gm_comps a) ps ->
  0 < mval a e /\ mix_potential a (map e (gm_vars a)) = Ok (Fin (mval a e)) /\ neg_log a (map e (gm_vars a)) = Ok (Fin (- ln (mval a e))) /\
  forall c, In c (gm_comps a) -> plain c /\ 0 < gval c e /\ gval c e <= mval a e.
Proof.
  intros W S F.
  assert (G : forall c, In c (gm_comps a) -> plain c /\ forall e, 0 < gval c e).
  { intros c Hc. destruct (F2_in_l _ _ _ c F Hc) as (p & _ & (c' & E)). destruct p as [[C m] w]. cbn [fst snd] in E.
    destruct (gval_form c c' C m w (S c Hc) E) as (k & L). split.
    - intros e' l El. rewrite L in El. injection El as <-. exact I.
    - intros e'. rewrite (lp_gval _ _ _ (L e')). apply exp_pos. }
  destruct (mval_sum a e W (fun c Hc => proj1 (G c Hc))) as (E & Es).
  assert (Hle : forall cs, (forall c, In c cs -> 0 < gval c e) -> 0 <= Rsum (map (fun c => gval c e) cs) /\ forall c, In c cs -> gval c e <= Rsum (map (fun c => gval c e) cs)).
  { induction cs as [|c cs IH]; intros H; [split; [cbn; lra|intros c []]|]. destruct IH as (I1 & I2); [intros; apply H; now right|].
    cbn [map]. rewrite Rsum_cons. pose proof (H c (or_introl eq_refl)). split; [lra|]. intros d [<-|Hd]; [lra|]. specialize (I2 d Hd). lra. }
  destruct (Hle (gm_comps a) (fun c Hc => proj2 (G c Hc) e)) as (_ & Hm). rewrite <- Es in Hm.
  assert (Hp : 0 < mval a e).
  { destruct W as (Hn & _). destruct (gm_comps a) as [|c cs]; [congruence|]. pose proof (Hm c (or_introl eq_refl)). pose proof (proj2 (G c (or_introl eq_refl)) e). lra. }
  split; [exact Hp|]. split; [exact E|]. split.
  - unfold neg_log. pose proof (mixlp_rlog a e _ W E) as El. unfold mixlp in El. rewrite El. cbn [bind]. unfold rlog, Rlt_b.
    destruct (Rlt_dec 0 (mval a e)); [|contradiction]. cbn [vmul]. do 2 f_equal. ring.
  - intros c Hc. destruct (G c Hc) as (Pc & Hc0). split; [exact Pc|]. split; [apply Hc0|now apply Hm].
Qed.
Lemma argmax_ratio opt a ps rs : wf_mix a -> (forall c, In c (gm_comps a) -> solid c) -> Forall2 has_params (gm_comps a) ps ->
  searches opt (neg_log a) a rs -> (forall r, In r rs -> snd r = true) -> descends opt (neg_log a) ->
  exists x p, mix_argmax opt a = Ok (Some x) /\ length x = length (gm_vars a) /\ mix_potential a x = Ok (Fin p) /\ 0 < p /\
    (forall c y q, In c (gm_comps a) -> mean_of c y -> mix_potential a y = Ok (Fin q) -> q <= p) /\
    forall e q, mixpot a e = Ok (Fin q) -> q <= INR (length (gm_comps a)) * p.
Proof.
  intros W S F Sr Hs D. pose proof W as (Hn & Hc).
  assert (Dn : NoDup (gm_vars a)).
  { destruct (gm_comps a) as [|c cs]; [congruence|]. destruct (Hc c (or_introl eq_refl)) as ((Dc & _) & <-). exact Dc. }
  assert (HM : forall c y, In c (gm_comps a) -> mean_of c y -> exists e, map e (gm_vars a) = y).
  { intros c y Ic (c' & C & m & w & E & Ly & _). apply point_env; [exact Dn|]. rewrite Ly. destruct (Hc c Ic) as (Wc & <-). apply (get_cov_shape c c' _ Wc E). }
  assert (HR : forall r, In r rs -> exists e, map e (gm_vars a) = fst r).
  { intros r Hr. destruct (F2_in_r _ _ _ r Sr Hr) as (c & Ic & (x0 & M & E)). destruct r as [x s]. destruct (D _ _ _ E) as (L & _). destruct (HM c x0 Ic M) as (e & He).
    apply point_env; [exact Dn|]. cbn [fst]. rewrite L, <- He. apply map_length. }
  destruct (argmax_best opt a rs Sr) as (_ & B).
  { intros r Hr _. destruct (HR r Hr) as (e & He). exists (mval a e). rewrite <- He. apply (params_pos a ps e W S F). }
  assert (exists r, In r rs) as (r & Hr). { inversion Sr as [Hz|c r ? rs' _ _ Hz]; [congruence|]. exists r. now left. }
  destruct (B r Hr (Hs r Hr)) as (x & p & E & Ix & Ep & M). exists x, p. split; [exact E|].
  destruct (HR _ Ix) as (ex & Hex). cbn [fst] in Hex. split; [rewrite <- Hex; apply map_length|]. split; [exact Ep|].
  assert (p = mval a ex) as Hpx. { rewrite <- Hex in Ep. destruct (params_pos a ps ex W S F) as (_ & E1 & _). rewrite Ep in E1. congruence. }
  split; [rewrite Hpx; apply (params_pos a ps ex W S F)|].
  assert (K : forall c y q, In c (gm_comps a) -> mean_of c y -> mix_potential a y = Ok (Fin q) -> q <= p).
  { intros c y q Ic My Eq. destruct (F2_in_l _ _ _ c Sr Ic) as (r' & Hr' & (x0 & M0 & E0)). rewrite (mean_unique c x0 y M0 My) in E0.
    destruct (HM c y Ic My) as (ey & Hey). destruct (HR r' Hr') as (er & Her). pose proof (Hs r' Hr') as Sr'. destruct r' as [z s]. cbn [fst snd] in *. subst s.
    destruct (D _ _ _ E0) as (_ & De). rewrite <- Hey, <- Her in De.
    destruct (params_pos a ps ey W S F) as (P1 & Q1 & N1 & _). destruct (params_pos a ps er W S F) as (P2 & Q2 & N2 & _).
    specialize (De _ _ N1 N2). rewrite <- Hey in Eq. assert (q = mval a ey) as -> by congruence.
    rewrite Her in Q2. specialize (M z _ Hr' Q2). apply Rle_trans with (mval a er); [|exact M].
    destruct (Rle_lt_dec (mval a ey) (mval a er)) as [H|H]; [exact H|]. apply ln_increasing in H; lra. }
  split; [exact K|]. intros e q Eq. destruct (params_pos a ps e W S F) as (_ & E1 & _ & _). unfold mixpot in Eq. assert (q = mval a e) as -> by congruence.
  destruct (mval_sum a e W) as (_ & ->). { intros c Ic. apply (params_pos a ps e W S F). exact Ic. }
  assert (Kc : forall c, In c (gm_comps a) -> gval c e <= p).
  { intros c Ic. destruct (get_cov_solid c (S c Ic)) as (c' & C & m & w & G). destruct (Hc c Ic) as (Wc & Vc). pose proof (get_cov_shape c c' _ Wc G) as (_ & _ & Nm & _).
    set (y := map (fun i => ent m i 0) (seq 0 (nr m))).
    assert (My : mean_of c y).
    { exists c', C, m, w. split; [exact G|]. unfold y. split; [now rewrite map_length, seq_length|]. intros i Hi.
      rewrite (nth_indep _ 0 (ent m 0 0)) by (rewrite map_length, seq_length; exact Hi). now rewrite (map_nth (fun i => ent m i 0)), seq_nth. }
    destruct (HM c y Ic My) as (ey & Hey). destruct (params_pos a ps ey W S F) as (_ & Q1 & _ & G1). destruct (G1 c Ic) as (Pc & _ & G2).
    rewrite Hey in Q1. specialize (K c y _ Ic My Q1). pose proof (gval_at_mean c y ey e (S c Ic) Pc My) as Z. rewrite Vc in Z. specialize (Z Hey). lra. }
  clear -Kc. induction (gm_comps a) as [|c cs IH]; [cbn; lra|]. cbn [map]. rewrite Rsum_cons. change (length (c :: cs)) with (S (length cs)). rewrite S_INR.
  pose proof (Kc c (or_introl eq_refl)). assert (Rsum (map (fun c => gval c e) cs) <= INR (length cs) * p) by (apply IH; intros; apply Kc; now right). lra.
Qed.

(** * from_sklearn_gmm *)
Definition density (vars : list string) (m : list R) (C : mat) (e : string -> R) : R :=
  exp (- / 2 * qsum (length vars) (minv C) (fun i => e (nth i vars ""%string) - nth i m 0)) / sqrt ((2 * PI) ^ length vars * mdet C).
Lemma sklearn_spec params vars : NoDup vars -> params <> [] ->
  (forall m C w, In (m, C, w) params -> length m = length vars /\ nr C = length vars /\ nc C = length vars /\ posdef C /\ 0 <= w) ->
  exists r, from_sklearn params vars = Ok r /\ wf_mix r /\ gm_vars r = vars /\ length (gm_comps r) = length params /\
    (forall e, mixpot r e = Ok (Fin (Rsum (map (fun p : list R * mat * R => let '(m, C, w) := p in w * density vars m C e) params)))) /\
    forall ys e, Permutation ys vars -> iint ys (mval r) e (Rsum (map snd params)).
Proof.
  intros Hd Hn H.
  destruct (mapM_F2 (fun p : list R * mat * R => let '(m, C, w) := p in mk_cov vars C (mcol m) (rlog w))
    (fun p c => solid c /\ plain c /\ ga_vars c = vars /\ (exists C m, get_cov c = Ok (c, (C, m, rlog (snd p)))) /\ 0 <= snd p /\
       forall e, gval c e = let '(m, C, w) := p in w * density vars m C e) params) as (cs & Ec & F).
  { intros [[m C] w] Hp. destruct (H m C w Hp) as (H1 & H2 & H3 & P & Hw). cbn [snd].
    assert (Sh : shaped (length vars) (C, mcol m, rlog w)) by (cbn; auto).
    exists (cov_obj vars (C, mcol m, rlog w)). split; [now apply mk_cov_ok|].
    pose proof (solid_cov vars C (mcol m) (rlog w) Hd Sh P) as So. split; [exact So|].
    assert (L : forall e, lp (cov_obj vars (C, mcol m, rlog w)) e = Ok (vadd (vsub (rlog w) (Fin (1 / 2 * ln ((2 * PI) ^ length vars * mdet C))))
      (Fin (- (1 / 2) * qsum (length vars) (minv C) (fun i => ent (mcol m) i 0 - nth i (map e vars) 0))))).
    { intros e. unfold lp. cbn [cov_obj ga_vars]. unfold cov_obj. rewrite lp_cov_only. apply cov_log_potential_ok; [exact Sh|split; [apply P|now apply posdef_det]|apply map_length]. }
    assert (Hdet : 0 < (2 * PI) ^ length vars * mdet C) by (apply Rmult_lt_0_compat; [apply pow_lt; pose proof PI_RGT_0; lra|now apply posdef_det]).
    assert (Hl : is_lp (rlog w)). { unfold rlog, Rlt_b, Req_b. destruct (Rlt_dec 0 w); [exact I|]. destruct (Req_EM_T w 0); [exact I|lra]. }
    split. { intros e l El. rewrite L in El. injection El as <-. destruct (rlog w); cbn in Hl |- *; auto. }
    split; [reflexivity|]. split; [exists C, (mcol m); reflexivity|]. split; [exact Hw|].
    intros e. rewrite (lp_gval _ _ _ (L e)). unfold rlog, Rlt_b, Req_b. destruct (Rlt_dec 0 w) as [Hpos|Hz].
    - cbn [vsub vopp vadd pot]. unfold density.
      replace (qsum (length vars) (minv C) (fun i => ent (mcol m) i 0 - nth i (map e vars) 0)) with (qsum (length vars) (minv C) (fun i => e (nth i vars ""%string) - nth i m 0)).
      2:{ unfold qsum. apply rsum_ext. intros i Hi. apply rsum_ext. intros j Hj. rewrite !nth_map_e by assumption. cbn [mcol ent]. ring. }
      set (q := qsum _ _ _). set (d := (2 * PI) ^ length vars * mdet C) in *.
      assert (Es : sqrt d = exp (1 / 2 * ln d)). { rewrite <- (exp_ln d) at 1 by exact Hdet. replace (ln d) with (1 / 2 * ln d + 1 / 2 * ln d) at 1 by lra. rewrite exp_plus. apply sqrt_square. left. apply exp_pos. }
      rewrite Es. set (l := ln d) in *. replace (exp (- / 2 * q) / exp (1 / 2 * l)) with (exp (- / 2 * q + - (1 / 2 * l))) by (rewrite exp_plus, exp_Ropp; reflexivity). rewrite <- (exp_ln w) at 2 by exact Hpos. rewrite <- exp_plus. f_equal. lra.
    - destruct (Req_EM_T w 0) as [->|]; [cbn; ring|lra]. }
  assert (Ncs : cs <> []) by (intros ->; inversion F; congruence).
  destruct (mk_mix_ok cs vars Ncs) as (r & Er & Vr & Wr & Fr).
  { intros c Hc. destruct (F2_in_r _ _ _ c F Hc) as (p & _ & ((Wc & _) & _ & Vc & _)). now split. }
  exists r. unfold from_sklearn. rewrite Ec. cbn [bind]. split; [exact Er|]. split; [exact Wr|]. split; [exact Vr|].
  split. { rewrite <- (Forall2_length _ _ _ Fr). symmetry. apply (Forall2_length _ _ _ F). }
  assert (PL : forall c, In c (gm_comps r) -> plain c).
  { intros c Hc. destruct (F2_in_r _ _ _ c Fr Hc) as (d & Hdd & So). destruct (F2_in_r _ _ _ d F Hdd) as (p & _ & (_ & Pd & _)). intros e l El. rewrite (same_obj_lp' d c e So) in El. now apply (Pd e). }
  assert (EV : forall e, Rsum (map (fun c => gval c e) (gm_comps r)) = Rsum (map (fun c => gval c e) cs)).
  { intros e. clear -Fr. induction Fr as [|c d cs ds So Fr IH]; [reflexivity|]. cbn [map]. rewrite !Rsum_cons, IH. f_equal. apply gval_lp_eq. now apply same_obj_lp'. }
  split.
  - intros e. destruct (mval_sum r e Wr PL) as (E & Es). rewrite E. do 2 f_equal. rewrite Es, EV. clear -F.
    induction F as [|p c ps cs (_ & _ & _ & _ & _ & G) F IH]; [reflexivity|]. cbn [map]. rewrite !Rsum_cons, IH. f_equal. apply G.
  - intros ys e HP. apply (iint_ext ys (fun e => Rsum (map (fun c => gval c e) cs))).
    { intros e'. rewrite <- EV. symmetry. now apply mval_sum. }
    clear -F HP. induction F as [|p c ps cs (Sc & Pc & Vc & (C & m & G) & Hw & _) F IH]; [apply iint_zero|]. cbn [map]. rewrite Rsum_cons.
    apply (iint_ext ys (fun e => gval c e + Rsum (map (fun c => gval c e) cs))); [intros; reflexivity|]. apply iint_plus; [|exact IH].
    replace (snd p) with (pot (rlog (snd p))).
    + apply (weight_integral c c C m _ ys e Sc Pc G). now rewrite Vc.
    + unfold rlog, Rlt_b, Req_b. destruct (Rlt_dec 0 (snd p)); [cbn; now apply exp_ln|]. destruct (Req_EM_T (snd p) 0) as [->|]; [reflexivity|lra].
Qed.
