(** Weights, normalisation and mixtures as integrals. *)
From Verif Require Export IntMarg MixExamples.
#[global] Set Bullet Behavior "Strict Subproofs".
Local Open Scope R_scope.

Lemma lp_gval f e l : lp f e = Ok l -> gval f e = pot l.
Proof. unfold gval. now intros ->. Qed.
Lemma gval_lp_eq f g e : lp f e = lp g e -> gval f e = gval g e.
Proof. unfold gval. now intros ->. Qed.
(** The whole integral is the weight. *)
Theorem weight_integral f f' C m w ys e : solid f -> plain f -> get_cov f = Ok (f', (C, m, w)) -> Permutation ys (ga_vars f) ->
  is_lp w /\ iint ys (gval f) e (pot w).
Proof.
  intros S Pl G HP. destruct id_oracle_ok as (o & Ho).
  assert (HP' : Permutation (ys ++ []) (ga_vars f)) by now rewrite app_nil_r.
  destruct (marg_integral o ys f [] Ho S Pl HP') as (r & E & V & Sr & Plr & I).
  destruct (marg_solid o f [] Ho S (NoDup_nil _)) as (f1 & C' & m' & w' & r1 & r1' & C1 & m1 & G' & E' & _ & _ & _ & G1 & R1 & R2); [intros v []|].
  rewrite G in G'. injection G' as _ <- <- <-. rewrite E in E'. injection E' as <-.
  destruct (solid_lp_cov r r1' C1 m1 w Sr G1) as (H1 & P1 & L). rewrite V in H1, L.
  assert (Lr : forall e, lp r e = Ok w).
  { intros e0. rewrite L. cbn [map]. rewrite (cov_log_potential_ok 0 C1 m1 w [] H1); [|split; [apply P1|now apply posdef_det]|reflexivity].
    rewrite mdet_0 by apply H1. cbn [pow]. rewrite Rmult_1_r, ln_1. unfold qsum, rsum. cbn [seq map Rsum fold_right].
    destruct w as [|w| |]; try reflexivity. cbn. do 2 f_equal. ring. }
  split; [exact (Plr e w (Lr e))|]. rewrite <- (lp_gval r e w (Lr e)). apply I.
Qed.
(** Normalising. *)
Theorem normalize_full f f' C m w : solid f -> get_cov f = Ok (f', (C, m, Fin w)) ->
  exists r, g_normalize f = Ok r /\ solid r /\ plain r /\ ga_vars r = ga_vars f /\ get_cov r = Ok (r, (C, m, Fin 0)) /\
    (forall e l, lp f e = Ok l -> lp r e = Ok (vsub l (Fin w))).
Proof.
  intros S G. destruct (solid_copy f S) as (d & Ed & Sd & Vd). destruct (copy_get_cov f d f' (C, m, Fin w) (proj1 S) G Ed ltac:(apply Sd)) as (d' & Gd).
  destruct (solid_lp_cov f f' C m (Fin w) S G) as (Sh & P & L). pose proof S as ((Hd & _) & _).
  pose proof Gd as Gd0. unfold get_cov in Gd0. apply bind_ok in Gd0. destruct Gd0 as (c' & Eu & Ec). destruct (ga_cov c') as [p|] eqn:Ecc; [|discriminate].
  injection Ec as -> ->.
  assert (Vc : ga_vars d' = ga_vars f /\ ga_vac d' = false).
  { pose proof Sd as (_ & Vac & _). unfold update_covform in Eu. rewrite Vac in Eu. destruct (ga_cov d); [injection Eu as <-; now split|].
    destruct (ga_can d) as [[[K h] g]|]; [|discriminate]. apply bind_ok in Eu. destruct Eu as (x1 & _ & Eu). apply bind_ok in Eu. destruct Eu as (x2 & _ & Eu).
    apply bind_ok in Eu. destruct Eu as (x3 & _ & Eu). apply bind_ok in Eu. destruct Eu as (x4 & _ & Eu). injection Eu as <-. now split. }
  destruct Vc as (Vc & Ac). exists (cov_obj (ga_vars f) (C, m, Fin 0)).
  assert (Sh0 : shaped (length (ga_vars f)) (C, m, Fin 0)) by exact Sh.
  assert (O0 : forall w0 : val, cov_ok (C, m, w0)) by (intros w0; split; [apply P|now apply posdef_det]).
  assert (Sr : solid (cov_obj (ga_vars f) (C, m, Fin 0))).
  { split; [now apply wf_cov_obj|]. split; [reflexivity|]. split; [intros p q Hp; discriminate Hp|]. split; cbn; intros K0 h0 g0 Hk; [discriminate Hk|]. injection Hk as <- _ _. exact P. }
  assert (LL : forall e l, lp f e = Ok l -> lp (cov_obj (ga_vars f) (C, m, Fin 0)) e = Ok (vsub l (Fin w))).
  { intros e l. rewrite L. unfold lp, cov_obj. cbn [ga_vars]. rewrite lp_cov_only.
    rewrite !(cov_log_potential_ok (length (ga_vars f))) by (auto; apply map_length). intros [= <-]. cbn. do 2 f_equal. ring. }
  split; [unfold g_normalize; rewrite Ed; cbn [bind]; rewrite Eu; cbn [bind]; rewrite Ecc, Vc, Ac; reflexivity|].
  split; [exact Sr|]. split; [|split; [reflexivity|split; [reflexivity|exact LL]]].
  intros e l Hl. destruct (lp_exists f e (proj1 S)) as (l0 & H0). rewrite (LL e l0 H0) in Hl. injection Hl as <-.
  unfold lp in H0. fold (lp f e) in H0. rewrite L, (cov_log_potential_ok (length (ga_vars f))) in H0 by (auto; apply map_length). injection H0 as <-. exact I.
Qed.
Theorem normalize_integral f f' C m w ys e : solid f -> get_cov f = Ok (f', (C, m, Fin w)) -> Permutation ys (ga_vars f) ->
  exists r, g_normalize f = Ok r /\ iint ys (gval r) e 1.
Proof.
  intros S G HP. destruct (normalize_full f f' C m w S G) as (r & E & Sr & Pl & V & Gr & _). exists r. split; [exact E|].
  replace 1 with (pot (Fin 0)) by (cbn; apply exp_0). rewrite <- V in HP. exact (proj2 (weight_integral r r C m (Fin 0) ys e Sr Pl Gr HP)).
Qed.

(** * Mixtures *)
Definition mval (a : gmix) (e : string -> R) : R := match mixpot a e with Ok (Fin p) => p | _ => 0 end.
Lemma iint_plus ys : forall F G e I J, iint ys F e I -> iint ys G e J -> iint ys (fun e => F e + G e) e (I + J).
Proof.
  induction ys as [|y ys IH]; intros F G e I J; cbn; [congruence|]. intros (P & HP & HI) (Q & HQ & HJ).
  exists (fun t => P t + Q t). split; [intros t; now apply IH|now apply is_int_plus].
Qed.
Lemma iint_zero ys : forall e, iint ys (fun _ => 0) e 0.
Proof. induction ys as [|y ys IH]; intros e; cbn; [reflexivity|]. exists (fun _ => 0). split; [intros t; apply IH|apply is_int_zero]. Qed.
Lemma iint_sum {A} (cs : list A) (F : A -> (string -> R) -> R) (I : A -> R) ys e : (forall c, In c cs -> iint ys (F c) e (I c)) ->
  iint ys (fun e => Rsum (map (fun c => F c e) cs)) e (Rsum (map I cs)).
Proof.
  induction cs as [|c cs IH]; intros H; cbn; [apply iint_zero|]. apply iint_plus; [apply H; now left|apply IH; intros c' Hc'; apply H; now right].
Qed.
Lemma mval_sum a e : wf_mix a -> (forall c, In c (gm_comps a) -> plain c) ->
  mixpot a e = Ok (Fin (mval a e)) /\ mval a e = Rsum (map (fun c => gval c e) (gm_comps a)).
Proof.
  intros W HP. destruct (wf_mix_lps a e W) as (ls & F & _ & _ & _).
  assert (Hl : forall l, In l ls -> is_lp l).
  { intros l Hl. destruct (F2_in_r _ _ _ l F Hl) as (c & Hc & El). exact (HP c Hc e l El). }
  pose proof (mixpot_of a e ls W F Hl) as E. unfold mval. rewrite E. split; [reflexivity|]. f_equal. clear -F.
  induction F as [|c l cs ls Hl F IH]; [reflexivity|]. cbn. now rewrite (lp_gval c e l Hl), IH.
Qed.
Theorem mix_integral o a xs ys : oracle_ok o -> wf_mix a -> (forall c, In c (gm_comps a) -> solid c /\ plain c) -> Permutation (ys ++ xs) (gm_vars a) ->
  exists r, mix_marginalize o a xs true = Ok r /\ wf_mix r /\ gm_vars r = xs /\ (forall c, In c (gm_comps r) -> solid c /\ plain c) /\
    forall e, iint ys (mval a) e (mval r e).
Proof.
  intros Ho Wa HS HP. pose proof Wa as (Na & Ha).
  destruct (mapM_F2 (fun c => g_marginalize o c xs true) (fun c r => solid r /\ plain r /\ ga_vars r = xs /\ forall e, iint ys (gval c) e (gval r e)) (gm_comps a)) as (cs & E & F).
  { intros c Hc. destruct (Ha c Hc) as (_ & V). rewrite <- V in HP. destruct (HS c Hc) as (Sc & Pc).
    destruct (marg_integral o ys c xs Ho Sc Pc HP) as (r & Er & Vr & Sr & Pr & I). exists r. split; [exact Er|]. now repeat (split; [assumption|]). }
  unfold mix_marginalize. rewrite E. cbn [bind]. destruct (mk_mix_ok cs xs) as (r & Er & Vr & Wr & Fr).
  - intros ->. inversion F as [Hz|]. now apply Na.
  - intros c Hc. destruct (F2_in_r _ _ _ c F Hc) as (c0 & _ & (Sc & _ & V & _)). split; [apply Sc|exact V].
  - exists r. split; [exact Er|]. split; [exact Wr|]. split; [exact Vr|]. pose proof (mk_mix_copies cs r Er) as Fc.
    assert (Hr : forall d, In d (gm_comps r) -> solid d /\ plain d).
    { intros d Hd. destruct (F2_in_r _ _ _ d Fc Hd) as (c & Hc & Ed). destruct (F2_in_r _ _ _ c F Hc) as (c0 & _ & (Sc & Pc & V & _)).
      destruct (solid_copy c Sc) as (d' & Ed' & Sd & Vd). assert (d' = d) as -> by congruence. split; [exact Sd|].
      destruct (F2_in_r _ _ _ d Fr Hd) as (c1 & Hc1 & So).
      intros e l Hl. destruct (F2_in_r _ _ _ c1 F Hc1) as (c2 & _ & (_ & Pc1 & _)). rewrite (same_obj_lp' c1 d e So) in Hl. exact (Pc1 e l Hl). }
    split; [exact Hr|]. intros e. rewrite (proj2 (mval_sum r e Wr (fun d Hd => proj2 (Hr d Hd)))).
    apply (iint_ext ys (fun e => Rsum (map (fun c => gval c e) (gm_comps a)))).
    { intros e0. symmetry. apply (proj2 (mval_sum a e0 Wa (fun c Hc => proj2 (HS c Hc)))). }
    clear -F Fr. revert F. generalize (gm_comps a) as l. induction Fr as [|c d cs ds So Fr IH]; intros l F.
    + inversion F. cbn. apply iint_zero.
    + inversion F as [|c0 ? l0 ? (Sc & Pc & V & I) F']; subst. cbn [map]. rewrite Rsum_cons. 
      apply (iint_ext ys (fun e => gval c0 e + Rsum (map (fun c => gval c e) l0))); [intros; reflexivity|].
      apply iint_plus; [rewrite (gval_lp_eq d c e (same_obj_lp' c d e So)); apply I|now apply IH].
Qed.
Theorem mix_weight_integral a ys e : wf_mix a -> (forall c, In c (gm_comps a) -> solid c /\ plain c) -> Permutation ys (gm_vars a) ->
  exists w, mix_get_log_weight a = Ok w /\ is_lp w /\ iint ys (mval a) e (pot w).
Proof.
  intros Wa HS HP. pose proof Wa as (Na & Ha).
  destruct (mapM_F2 get_log_weight (fun c w => is_lp w /\ forall e, iint ys (gval c) e (pot w)) (gm_comps a)) as (ws & E & F).
  { intros c Hc. destruct (Ha c Hc) as (_ & V). rewrite <- V in HP. destruct (HS c Hc) as (Sc & Pc).
    destruct id_oracle_ok as (o & Ho).
    destruct (marg_solid o c [] Ho Sc (NoDup_nil _)) as (f1 & C & m & w & _ & _ & _ & _ & G & _); [intros v []|].
    exists w. unfold get_log_weight. rewrite G. split; [reflexivity|]. split.
    - exact (proj1 (weight_integral c f1 C m w ys e Sc Pc G HP)).
    - intros e0. exact (proj2 (weight_integral c f1 C m w ys e0 Sc Pc G HP)). }
  assert (Hl : forall w, In w ws -> is_lp w) by (intros w Hw; destruct (F2_in_r _ _ _ w F Hw) as (c & _ & (H & _)); exact H).
  assert (Hn : ws <> []) by (intros ->; inversion F as [Hz|]; now apply Na).
  exists (lse ws). split; [unfold mix_get_log_weight; rewrite E; cbn [bind]; destruct ws; [congruence|reflexivity]|].
  destruct (lse_lp ws Hl) as (H1 & H2). split; [exact H1|]. rewrite H2.
  apply (iint_ext ys (fun e => Rsum (map (fun c => gval c e) (gm_comps a)))).
  { intros e0. symmetry. apply (proj2 (mval_sum a e0 Wa (fun c Hc => proj2 (HS c Hc)))). }
  clear -F. induction F as [|c w cs ws (_ & I) F IH]; [apply iint_zero|]. cbn [map]. rewrite Rsum_cons.
  apply (iint_ext ys (fun e => gval c e + Rsum (map (fun c => gval c e) cs))); [intros; reflexivity|]. apply iint_plus; [apply I|exact IH].
Qed.
(** The order of integration does not matter. *)
Theorem integral_order f xs ys ys' e I J : solid f -> plain f -> Permutation (ys ++ xs) (ga_vars f) -> Permutation ys ys' ->
  iint ys (gval f) e I -> iint ys' (gval f) e J -> I = J.
Proof.
  intros S Pl HP HQ HI HJ. destruct id_oracle_ok as (o & Ho).
  destruct (marg_integral o ys f xs Ho S Pl HP) as (r & E & _ & _ & _ & I1).
  destruct (marg_integral o ys' f xs Ho S Pl) as (r' & E' & _ & _ & _ & I2). { now rewrite <- HQ. }
  rewrite E in E'. injection E' as <-. rewrite (iint_unique ys _ e I _ HI (I1 e)). symmetry. exact (iint_unique ys' _ e J _ HJ (I2 e)).
Qed.
(** * Examples *)
Local Open Scope string_scope.
Lemma ex_ab_plain : plain ex_ab.
Proof. apply (plain_g ex_ab ex_ab exK exh (Fin 0) wf_ab (get_can_some ex_ab exK exh (Fin 0) eq_refl)). exact I. Qed.
Lemma ex_ab_int : (exists o, oracle_ok o) /\ solid ex_ab /\ plain ex_ab /\ Permutation (["a"] ++ ["b"]) (ga_vars ex_ab).
Proof. exact (conj id_oracle_ok (conj ex_ab_solid (conj ex_ab_plain (Permutation_refl _)))). Qed.
Lemma mix_ab_int : (exists o, oracle_ok o) /\ wf_mix mix_ab /\ (forall c, In c (gm_comps mix_ab) -> solid c /\ plain c) /\ Permutation (["a"] ++ ["b"]) (gm_vars mix_ab).
Proof.
  split; [exact id_oracle_ok|]. split; [exact mix_ab_wf|]. split; [intros c [<-|[<-|[]]]; exact (conj ex_ab_solid ex_ab_plain)|apply Permutation_refl].
Qed.
Lemma ex_ab_weight : exists f' C m w, get_cov ex_ab = Ok (f', (C, m, Fin w)).
Proof.
  destruct (get_cov_can_only ex_ab exK exh (Fin 0) wf_ab eq_refl exK_posdef) as (f' & E). exists f'. do 3 eexists. exact E.
Qed.
