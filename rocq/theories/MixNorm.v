(** Mixtures: total weight, normalising and marginalising. *)
From Verif Require Export MixMoments.
#[global] Set Bullet Behavior "Strict Subproofs".
Local Open Scope R_scope.

Lemma vadd_fin_assoc a u x : vadd (Fin a) (vadd u (Fin x)) = vadd (vadd (Fin a) u) (Fin x).
Proof. destruct u; cbn; try reflexivity. f_equal. ring. Qed.
Lemma add_log_weight_spec f x : wf_gauss f -> wf_gauss (add_log_weight f (Fin x)) /\ ga_vars (add_log_weight f (Fin x)) = ga_vars f /\
  forall e l, lp f e = Ok l -> lp (add_log_weight f (Fin x)) e = Ok (vadd l (Fin x)).
Proof.
  intros W. pose proof W as (Hd & Hf & Hc & Hv). destruct f as [vars vac can cov]. cbn [ga_vars ga_can ga_cov] in *.
  unfold add_log_weight. cbn [ga_vars ga_vac ga_can ga_cov].
  split; [|split; [reflexivity|]].
  - split; [exact Hd|]. cbn [ga_vars ga_can ga_cov]. split; [|split].
    + destruct Hf as [Hf|Hf]; [left; destruct can as [[[A v] s]|]; cbn; [discriminate|congruence]|right; destruct cov as [[[A v] s]|]; cbn; [discriminate|congruence]].
    + intros p Hp. destruct can as [[[A v] s]|]; [|discriminate]. injection Hp as <-. exact (Hc _ eq_refl).
    + intros p Hp. destruct cov as [[[A v] s]|]; [|discriminate]. injection Hp as <-. exact (Hv _ eq_refl).
  - intros e l. unfold lp, log_potential, align_point. cbn [bind ga_vars ga_can ga_cov]. destruct cov as [[[C m] w]|], can as [[[K h] g]|]; cbn [option_map].
    + destruct (Hv _ eq_refl) as (Sv & Ov). rewrite !(cov_log_potential_ok (length vars)) by (try exact Sv; try exact Ov; apply map_length). cbn [bind].
      rewrite !(can_log_potential_ok (length vars)) by (try exact (Hc _ eq_refl); apply map_length). cbn [bind]. intros El. injection El as <-.
      now rewrite vadd_fin_assoc.
    + destruct (Hv _ eq_refl) as (Sv & Ov). rewrite !(cov_log_potential_ok (length vars)) by (try exact Sv; try exact Ov; apply map_length). cbn [bind].
      intros El. injection El as <-. f_equal. destruct w; cbn; try reflexivity. f_equal. ring.
    + rewrite !(can_log_potential_ok (length vars)) by (try exact (Hc _ eq_refl); apply map_length). cbn [bind]. intros El. injection El as <-.
      now rewrite vadd_fin_assoc.
    + destruct Hf; congruence.
Qed.
Lemma mk_mix_copies fs r : mk_mix fs = Ok r -> Forall2 (fun f c => g_copy f = Ok c) fs (gm_comps r).
Proof.
  intros E. destruct fs as [|f fs]; [discriminate|]. unfold mk_mix in E. apply bind_ok in E. destruct E as (cs & Ec & E).
  destruct (forallb _ cs); [|discriminate]. injection E as <-. now apply mapM_Ok_inv in Ec.
Qed.
Lemma copy_has_cov f p c : wf_gauss f -> ga_cov f = Some p -> g_copy f = Ok c -> get_cov c = Ok (c, p).
Proof.
  intros W Ev E. pose proof W as (Hd & _ & _ & Hv). destruct (Hv _ Ev) as (Hs & _). unfold g_copy in E. rewrite Ev in E. destruct p as [[C m] w].
  destruct (ga_can f) as [q|]; rewrite (mk_cov_ok _ C m w Hd Hs) in E; cbn [bind] in E; injection E as <-; reflexivity.
Qed.
Lemma log_weight_sum cs ps : ps <> [] -> Forall2 has_params cs ps -> (let* ws := mapM get_log_weight cs in logsumexp ws) = Ok (Fin (ln (weight_sum ps))).
Proof.
  intros Hn F. assert (E : mapM get_log_weight cs = Ok (map (fun p : mat * mat * val => snd p) (map vp ps))).
  { clear Hn. induction F as [|c p cs ps (c' & E) F IH]; [reflexivity|]. cbn [mapM map vp snd]. unfold get_log_weight at 1. rewrite E. cbn [bind snd].
    rewrite IH. reflexivity. }
  rewrite E. cbn [bind]. now apply lse_weights.
Qed.
Lemma mix_log_weight a ps : wf_mix a -> Forall2 has_params (gm_comps a) ps -> mix_get_log_weight a = Ok (Fin (ln (weight_sum ps))).
Proof. intros (Na & _) F. apply log_weight_sum; [intros ->; inversion F; congruence|exact F]. Qed.

Lemma mix_normalize_spec a ps : wf_mix a -> (forall c, In c (gm_comps a) -> regular c) -> Forall2 has_params (gm_comps a) ps ->
  exists r, mix_normalize a = Ok r /\ wf_mix r /\ gm_vars r = gm_vars a /\ mix_get_log_weight r = Ok (Fin 0) /\
    forall e p, mixpot a e = Ok (Fin p) -> mixpot r e = Ok (Fin (p / weight_sum ps)).
Proof.
  intros Wa HR F. pose proof Wa as (Na & Ha). assert (Hps : ps <> []) by (intros ->; inversion F; congruence).
  pose proof (weight_sum_pos ps Hps) as HW. set (W := weight_sum ps) in *.
  assert (G : exists rs, mapM get_cov (gm_comps a) = Ok rs /\ map (fun r : gauss * (mat * mat * val) => snd (snd r)) rs = map (fun p : cparams => Fin (snd p)) ps /\
    Forall2 (fun c r => get_cov c = Ok r) (gm_comps a) rs /\
    Forall2 (fun r p => snd r = vp p) rs ps).
  { clear -F. induction F as [|c p cs ps (c' & E) F IH]; [exists []; repeat split; constructor|]. destruct IH as (rs & E1 & E2 & F1 & F2).
    exists ((c', vp p) :: rs). cbn [mapM]. rewrite E. cbn [bind]. rewrite E1. split; [reflexivity|]. cbn [map snd vp]. split; [now rewrite E2|]. split; constructor; auto. }
  destruct G as (rs & E1 & E2 & F1 & F2). unfold mix_normalize. rewrite E1. cbn [bind]. rewrite E2.
  pose proof (lse_weights ps Hps) as EL. rewrite map_map in EL. cbn [vp snd] in EL. rewrite EL. cbn [bind vmul]. fold W.
  set (x := -1 * ln W).
  assert (Ex : exp x = / W) by (replace x with (- ln W) by (unfold x; ring); rewrite exp_Ropp, exp_ln by exact HW; reflexivity).
  assert (G : exists cs, mapM (fun r : gauss * (mat * mat * val) => let* c := g_copy (fst r) in Ok (add_log_weight c (Fin x))) rs = Ok cs /\
    (forall c, In c cs -> wf_gauss c /\ ga_vars c = gm_vars a) /\
    Forall2 (fun c p => ga_cov c = Some (fst (fst p), snd (fst p), Fin (snd p + x))) cs ps /\
    forall e ls, Forall2 (fun c l => lp c e = Ok l) (gm_comps a) ls -> Forall2 (fun c l => lp c e = Ok l) cs (map (fun l => vadd l (Fin x)) ls)).
  { assert (Ha' : forall c, In c (gm_comps a) -> wf_gauss c /\ ga_vars c = gm_vars a /\ regular c) by (intros c Hc; destruct (Ha c Hc); auto).
    clearbody x. clear -F1 F2 Ha'. revert ps F2. revert Ha'. generalize (gm_vars a) as vs. intros vs Ha'. induction F1 as [|c r cs rs Er F1 IH]; intros ps F2.
    - inversion F2. exists []. split; [reflexivity|]. split; [intros c []|]. split; [constructor|]. intros e ls G. inversion G. constructor.
    - inversion F2 as [|? p ? ps' Hp F2']; subst. destruct (IH (fun c' Hc' => Ha' c' (or_intror Hc')) ps' F2') as (ds & E & H1 & H2 & H3).
      destruct r as [c' q]. cbn [snd] in Hp. subst q. destruct (Ha' c (or_introl eq_refl)) as (Wc & Vc & Rc).
      destruct (get_cov_same c c' _ Wc Rc Er) as ((Wc' & _ & _ & L) & V' & Cv & _).
      destruct (g_copy_ok c' Wc') as (d & Ed & Vd & Cd & Dd & Wd). destruct (add_log_weight_spec d x Wd) as (Wx & Vx & Lx).
      exists (add_log_weight d (Fin x) :: ds). cbn [mapM fst]. rewrite Ed. cbn [bind]. rewrite E. split; [reflexivity|]. split; [|split].
      + intros c0 [<-|H0]; [split; [exact Wx|congruence]|now apply H1].
      + constructor; [|exact H2]. unfold add_log_weight. cbn [ga_cov]. rewrite Dd, Cv. reflexivity.
      + intros e ls G. inversion G as [|? l ? ls' Hl G']; subst. cbn [map]. constructor; [|now apply H3]. apply Lx.
        assert (lp d e = lp c' e) as -> by (apply same_obj_lp'; split; [exact Wd|now split]). unfold lp. rewrite L. exact Hl. }
  destruct G as (cs & Ec & H1 & H2 & H3). rewrite Ec. cbn [bind].
  destruct (mk_mix_ok cs (gm_vars a)) as (r & Er & Vr & Wr & Fr).
  - intros Hz. rewrite Hz in H2. inversion H2 as [Hq|]. now apply Hps.
  - exact H1.
  - exists r. split; [exact Er|]. split; [exact Wr|]. split; [exact Vr|]. split.
    + pose proof (mk_mix_copies cs r Er) as Fc.
      assert (Fp : Forall2 has_params (gm_comps r) (map (fun p : cparams => (fst p, snd p + x)) ps)).
      { assert (Hw : forall c, In c cs -> wf_gauss c) by (intros c Hc; now apply H1). clearbody x. clear -Fc H2 Hw. revert ps H2. induction Fc as [|c d cs ds Ed Fc IH]; intros ps H2.
        - inversion H2. constructor.
        - inversion H2 as [|? p ? ps' Hp H2']; subst. cbn [map]. constructor; [|apply IH; [intros c' Hc'; apply Hw; now right|exact H2']].
          exists d. cbn [fst snd]. apply (copy_has_cov c); [apply Hw; now left|exact Hp|exact Ed]. }
      rewrite (mix_log_weight r _ Wr Fp). do 2 f_equal. rewrite <- ln_1. f_equal. unfold weight_sum. rewrite map_map. cbn [snd].
      rewrite (Rsum_ext _ (fun p : cparams => exp x * exp (snd p))) by (intros p _; rewrite exp_plus; ring). rewrite Rsum_scal. fold (weight_sum ps). fold W.
      rewrite Ex. field. lra.
    + intros e p Ep. destruct (mixpot_fin a e p Wa Ep) as (ls & Fa & La & ->).
      rewrite (mixpot_of r e (map (fun l => vadd l (Fin x)) ls) Wr).
      * do 2 f_equal.         clear -La Ex. induction ls as [|l ls IH]; [unfold Rsum; cbn; unfold Rdiv; ring|]. cbn [map]. rewrite !Rsum_cons, IH by (intros y Hy; apply La; now right).
        destruct (pot_vadd l (Fin x) (La l (or_introl eq_refl)) I) as (_ & ->). cbn [pot]. rewrite Ex. unfold Rdiv. ring.
      * apply (F2_lp_comp cs _ e _ Fr). now apply H3.
      * intros l Hl. apply in_map_iff in Hl. destruct Hl as (y & <- & Hy). apply pot_vadd; [auto|exact I].
Qed.
