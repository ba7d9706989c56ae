(** Marginals of Gaussian objects in any state of their two forms, and of mixtures. *)
From Verif Require Export MixNorm.
#[global] Set Bullet Behavior "Strict Subproofs".
Local Open Scope R_scope.

Definition can_only (f : gauss) : gauss := {| ga_vars := ga_vars f; ga_vac := false; ga_can := ga_can f; ga_cov := None |}.
Definition cov_only (f : gauss) : gauss := {| ga_vars := ga_vars f; ga_vac := false; ga_can := None; ga_cov := ga_cov f |}.
(** When both forms are present one of them was computed from the other. *)
Definition coherent (f : gauss) : Prop := forall p q, ga_can f = Some p -> ga_cov f = Some q ->
  (exists f', get_cov (can_only f) = Ok (f', q)) \/ (exists f', get_can (cov_only f) = Ok (f', p)).
Definition solid (f : gauss) : Prop :=
  wf_gauss f /\ ga_vac f = false /\ coherent f /\
  (forall K h g, ga_can f = Some (K, h, g) -> posdef K) /\ (forall C m w, ga_cov f = Some (C, m, w) -> posdef C).

Lemma restricted_meq_r A B B' vars xs : meq B B' -> restricted A B vars xs -> restricted A B' vars xs.
Proof.
  intros (M1 & M2 & M3) (R1 & R2 & R3). split; [congruence|]. split; [congruence|]. intros u v Hu Hv. rewrite <- (R3 u v Hu Hv).
  rewrite !named_pos by assumption. symmetry. apply M3; rewrite ?R1, ?R2; now apply pos_nth.
Qed.
Lemma restricted1_meq_r A B B' vars xs : meq B B' -> restricted1 A B vars xs -> restricted1 A B' vars xs.
Proof.
  intros (M1 & M2 & M3) (R1 & R2 & R3). split; [congruence|]. split; [congruence|]. intros u Hu. rewrite <- (R3 u Hu).
  rewrite !named_pos1 by assumption. symmetry. apply M3; rewrite ?R1, ?R2; [now apply pos_nth|lia].
Qed.
Lemma get_cov_can_only f K h g : wf_gauss f -> ga_can f = Some (K, h, g) -> posdef K ->
  exists f', get_cov (can_only f) = Ok (f', (minv K, mmul0 (minv K) h,
    vadd (vadd g (Fin (1 / 2 * qsum (length (ga_vars f)) K (fun i => ent (mmul0 (minv K) h) i 0))))
         (Fin (1 / 2 * ln ((2 * PI) ^ length (ga_vars f) * / mdet K))))).
Proof.
  intros (_ & _ & Hc & _) Ec P. pose proof (posdef_det K P) as HD. unfold get_cov, can_only. rewrite Ec.
  rewrite (update_covform_can (ga_vars f) K h g (Hc _ Ec)) by lra. cbn [bind ga_cov]. eexists.
  rewrite rlog_pos; [reflexivity|]. apply Rmult_lt_0_compat; [apply pow_pos, twopi_pos|now apply Rinv_0_lt_compat].
Qed.
Lemma marg_solid o f xs : oracle_ok o -> solid f -> NoDup xs -> incl xs (ga_vars f) ->
  exists f' C m w r r' C1 m1, get_cov f = Ok (f', (C, m, w)) /\ g_marginalize o f xs true = Ok r /\ solid r /\ ga_vars r = xs /\
    ga_vac r = false /\ get_cov r = Ok (r', (C1, m1, w)) /\ restricted C C1 (ga_vars f) xs /\ restricted1 m m1 (ga_vars f) xs.
Proof.
  intros Ho (W & Vac & Coh & PK & PC) Dx Ix. pose proof W as (Hd & Hf & Hc & Hv).
  destruct (ga_can f) as [[[K h] g]|] eqn:Ec.
  - pose proof (PK K h g eq_refl) as P.
    destruct (marg_can o (ga_vars f) K h g f xs Ho Hd (Hc _ eq_refl) P Dx Ix eq_refl Vac Ec)
      as (r & S & h' & g' & Er & Eqr & PS & SS & C' & m' & G & R1 & R2).
    assert (Wr : wf_gauss r).
    { rewrite Eqr. split; [exact Dx|]. split; [left; discriminate|]. split; intros p Hp; [|discriminate]. injection Hp as <-. exact SS. }
    assert (Sr : solid r).
    { split; [exact Wr|]. rewrite Eqr. split; [reflexivity|]. split; [intros p q _ Hq; discriminate Hq|]. split; cbn; intros K0 h0 g0 Hk; [|discriminate Hk].
      injection Hk as <- _ _. exact PS. }
    assert (Vr : ga_vars r = xs) by now rewrite Eqr. assert (Ar : ga_vac r = false) by now rewrite Eqr.
    destruct (get_cov_can_only f K h g W Ec P) as (f0 & E0).
    destruct (ga_cov f) as [[[C m] w]|] eqn:Ev.
    + assert (Ef : get_cov f = Ok (f, (C, m, w))).
      { unfold get_cov, update_covform. rewrite Vac, Ev. cbn [bind]. now rewrite Ev. }
      destruct (Coh _ _ Ec Ev) as [(f1 & E1)|(f1 & E1)].
      * rewrite E0 in E1. injection E1 as _ <- <- <-. do 8 eexists. split; [exact Ef|]. split; [exact Er|]. split; [exact Sr|]. split; [exact Vr|].
        split; [exact Ar|]. split; [exact G|]. now split.
      * pose proof (PC C m w eq_refl) as P2. destruct (Hv _ eq_refl) as (Sv & _).
        destruct (marginal_forms o (ga_vars f) C m w (cov_only f) K h g f1 f xs Ho Hd Sv P2 Dx Ix) as
          (q1 & q2 & C1 & m1 & q2' & C2 & m2 & Q1 & Q2 & Q3 & Q4 & Q5 & Q6 & W1 & W2 & G1 & G2 & M1 & M2 & Rc & Rm & _); auto.
        { unfold cov_only. rewrite Ev. now apply mk_cov_ok. }
        do 8 eexists. split; [exact Ef|]. split; [exact Q2|]. split; [assert (q2 = r) as -> by congruence; exact Sr|]. split; [exact Q4|]. split; [exact Q6|]. split; [exact G2|].
        split; [exact (restricted_meq_r C C1 C2 _ _ M1 Rc)|exact (restricted1_meq_r m m1 m2 _ _ M2 Rm)].
    + assert (Ef : f = can_only f) by (destruct f; cbn in *; subst; reflexivity).
      rewrite <- Ef in E0. do 8 eexists. split; [exact E0|]. split; [exact Er|]. split; [exact Sr|]. split; [exact Vr|].
      split; [exact Ar|]. split; [exact G|]. now split.
  - destruct (ga_cov f) as [[[C m] w]|] eqn:Ev; [|destruct Hf; congruence].
    destruct (Hv _ eq_refl) as (Sv & _). pose proof (PC C m w eq_refl) as P.
    destruct (marg_cov o f (ga_vars f) C m w xs Hd Sv P Dx Ix eq_refl Vac Ec Ev) as (C1 & m1 & Er & S1 & P1 & R1 & R2).
    do 8 eexists. split; [unfold get_cov, update_covform; rewrite Vac, Ev; cbn [bind]; now rewrite Ev|]. split; [exact Er|].
    split; [|split; [reflexivity|split; [reflexivity|split; [reflexivity|now split]]]].
    split; [|split; [reflexivity|split; [intros p q Hp; discriminate Hp|split; cbn; intros K0 h0 g0 Hk; [discriminate Hk|injection Hk as <- _ _; exact P1]]]].
    split; [exact Dx|]. split; [right; discriminate|]. split; intros p Hp; [discriminate|]. injection Hp as <-. split; [exact S1|]. split; [apply P1|now apply posdef_det].
Qed.
(** The parameters of the copies held by the new mixture. *)
Lemma copy_get_cov c d c' p : wf_gauss c -> get_cov c = Ok (c', p) -> g_copy c = Ok d -> ga_vac d = false -> exists d', get_cov d = Ok (d', p).
Proof.
  intros W E Ed Vd. destruct (g_copy_ok c W) as (d0 & Ed0 & V & Cc & Dd & Wd). rewrite Ed in Ed0. injection Ed0 as <-.
  unfold get_cov, update_covform in *. rewrite Vd, Dd, Cc, V. destruct (ga_vac c); [discriminate|]. destruct (ga_cov c) as [q|] eqn:Ev.
  - cbn [bind] in *. rewrite Ev in E. rewrite Dd. injection E as <- <-. eauto.
  - destruct (ga_can c) as [[[K h] g]|]; [|discriminate E]. apply bind_ok in E. destruct E as (f1 & E1 & E).
    apply bind_ok in E1. destruct E1 as (C & EC & E1). apply bind_ok in E1. destruct E1 as (m & Em & E1).
    apply bind_ok in E1. destruct E1 as (q & Eq & E1). apply bind_ok in E1. destruct E1 as (dd & Edd & E1). injection E1 as <-. cbn [ga_cov] in E.
    rewrite EC. cbn [bind]. rewrite Em. cbn [bind]. rewrite Eq. cbn [bind]. rewrite Edd. cbn [bind ga_cov]. injection E as _ <-. eauto.
Qed.

Lemma solid_copy f : solid f -> exists d, g_copy f = Ok d /\ solid d /\ ga_vars d = ga_vars f.
Proof.
  intros (W & Vac & Coh & PK & PC). pose proof W as (Hd & Hf & Hc & Hv). destruct (g_copy_ok f W) as (d & Ed & V & Cc & Dd & Wd).
  exists d. split; [exact Ed|]. split; [|exact V]. split; [exact Wd|]. split; [|split; [|split]].
  - unfold g_copy in Ed. destruct (ga_cov f) as [[[C m] w]|] eqn:Ev.
    + destruct (Hv _ eq_refl) as (Sv & _). rewrite (mk_cov_ok _ C m w Hd Sv) in Ed. destruct (ga_can f); cbn [bind] in Ed; injection Ed as <-; reflexivity.
    + destruct (ga_can f) as [[[K h] g]|] eqn:Ec; [|discriminate Ed]. rewrite (mk_can_ok _ K h g Hd (Hc _ eq_refl)) in Ed. injection Ed as <-. cbn [ga_vac].
      destruct (Hc _ eq_refl) as (S1 & S2 & _). apply posdef_not_vacuous; [congruence|]. now apply (PK K h g).
  - intros p q Hp Hq. unfold can_only, cov_only. rewrite V, Cc, Dd. apply (Coh p q); congruence.
  - intros K h g Hk. apply (PK K h g). congruence.
  - intros C m w Hk. apply (PC C m w). congruence.
Qed.
Definition marg_comp (vars xs : list string) (c d : gauss) : Prop :=
  exists c' C m w d' C1 m1, get_cov c = Ok (c', (C, m, w)) /\ get_cov d = Ok (d', (C1, m1, w)) /\
    restricted C C1 vars xs /\ restricted1 m m1 vars xs.
Lemma mix_marg_spec o a xs : oracle_ok o -> wf_mix a -> (forall c, In c (gm_comps a) -> solid c) -> NoDup xs -> incl xs (gm_vars a) ->
  exists r, mix_marginalize o a xs true = Ok r /\ wf_mix r /\ gm_vars r = xs /\ (forall c, In c (gm_comps r) -> solid c) /\
    Forall2 (marg_comp (gm_vars a) xs) (gm_comps a) (gm_comps r) /\
    mix_get_log_weight r = mix_get_log_weight a.
Proof.
  intros Ho Wa HS Dx Ix. pose proof Wa as (Na & Ha).
  destruct (mapM_F2 (fun c => g_marginalize o c xs true) (fun c r => solid r /\ ga_vars r = xs /\ marg_comp (gm_vars a) xs c r) (gm_comps a)) as (cs & E & F).
  { intros c Hc. destruct (Ha c Hc) as (_ & V). rewrite <- V in Ix |- *.
    destruct (marg_solid o c xs Ho (HS c Hc) Dx Ix) as (f' & C & m & w & r & r' & C1 & m1 & E1 & E2 & S & Vr & _ & E3 & R1 & R2).
    exists r. split; [exact E2|]. split; [exact S|]. split; [exact Vr|]. exists f', C, m, w, r', C1, m1. now repeat (split; [assumption|]). }
  unfold mix_marginalize. rewrite E. cbn [bind]. destruct (mk_mix_ok cs xs) as (r & Er & Vr & Wr & Fr).
  - intros ->. inversion F as [Hz|]. now apply Na.
  - intros c Hc. destruct (F2_in_r _ _ _ c F Hc) as (c0 & _ & (S & V & _)). split; [apply S|exact V].
  - exists r. split; [exact Er|]. split; [exact Wr|]. split; [exact Vr|]. pose proof (mk_mix_copies cs r Er) as Fc.
    assert (Hcs : forall c, In c cs -> solid c) by (intros c Hc; destruct (F2_in_r _ _ _ c F Hc) as (c0 & _ & (S & _)); exact S).
    split; [|assert (FF : Forall2 (marg_comp (gm_vars a) xs) (gm_comps a) (gm_comps r)); [|split; [exact FF|]]].
    + intros d Hd. destruct (F2_in_r _ _ _ d Fc Hd) as (c & Hc & Ed). destruct (solid_copy c (Hcs c Hc)) as (d' & Ed' & S & _). congruence.
    + clear -F Fc Hcs. revert F. generalize (gm_comps a) as l. intros l F. revert F. revert l. induction Fc as [|c d cs ds Ed Fc IH]; intros l F.
      * inversion F. constructor.
      * inversion F as [|c0 ? l0 ? (S & V & M) F']; subst. constructor; [|apply IH; [intros c' Hc'; apply Hcs; now right|exact F']].
        destruct M as (c' & C & m & w & d' & C1 & m1 & E1 & E2 & R1 & R2).
        destruct (solid_copy c S) as (d0 & Ed0 & Sd & _). rewrite Ed in Ed0. injection Ed0 as <-.
        destruct (copy_get_cov c d d' (C1, m1, w)) as (d1 & E3); [apply S|exact E2|exact Ed|apply Sd|].
        exists c', C, m, w, d1, C1, m1. now repeat (split; [assumption|]).
    + unfold mix_get_log_weight. f_equal. clear -FF. induction FF as [|c d cs ds M FF IH]; [reflexivity|]. cbn [mapM].
      destruct M as (c' & C & m & w & d' & C1 & m1 & E1 & E2 & _). unfold get_log_weight at 1 3. rewrite E1, E2. cbn [bind snd]. now rewrite IH.
Qed.
