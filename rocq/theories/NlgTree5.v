(** Which trees are clear: branches that were told nothing; an example of a tree. *)
From Verif Require Export NlgTree4.
Local Open Scope string_scope.
Local Open Scope list_scope.
Local Open Scope R_scope.

Lemma curv_density f A b w ev x : nl_ok f A b -> nl_w f = Fin w ->
  curv (fun e => nl_density f (over ev e)) x = qsum (length (nl_cal f)) (minv (nl_Q f)) (fun i => mean_of A b f (over ev x) i - mean_of A b f (over ev (fun _ => 0)) i).
Proof.
  intros OK Ew. unfold curv. rewrite !(density_explicit f A b _ w OK Ew), !ln_exp. set (k := w - _). set (n := length (nl_cal f)). set (M := minv (nl_Q f)).
  set (u := mean_of A b f (over ev (fun _ => 0))). set (d := fun i => mean_of A b f (over ev x) i - u i).
  assert (E1 : qsum n M (mean_of A b f (over ev x)) = qsum n M (fun i => u i + d i)).
  { unfold qsum. apply rsum_ext. intros i _. apply rsum_ext. intros j _. unfold d. ring. }
  assert (E2 : qsum n M (mean_of A b f (over ev (fun v => - x v))) = qsum n M (fun i => u i - d i)).
  { assert (H : forall i, mean_of A b f (over ev (fun v => - x v)) i = u i - d i) by (intros i; pose proof (mean_of_over A b f ev x i); unfold d, u in *; lra).
    unfold qsum. apply rsum_ext. intros i _. apply rsum_ext. intros j _. now rewrite !H. }
  pose proof (qsum_par n M u d) as E. rewrite E1, E2. fold d. lra.
Qed.
Lemma density_def f A b w ev x : nl_ok f A b -> nl_w f = Fin w -> (exists i, (i < length (nl_cal f))%nat /\ mean_of A b f (over ev x) i <> mean_of A b f (over ev (fun _ => 0)) i) ->
  0 < curv (fun e => nl_density f (over ev e)) x.
Proof.
  intros OK Ew (i & Hi & Di). rewrite (curv_density f A b w ev x OK Ew). pose proof OK as (_ & _ & Q1 & Q2 & PQ & _). pose proof (posdef_minv _ PQ) as (_ & P).
  assert (N : nr (minv (nl_Q f)) = length (nl_cal f)) by (rewrite <- Q1; reflexivity). rewrite N in P. apply P. exists i. split; [exact Hi|]. lra.
Qed.

(** A factor that was told nothing about the variables it depends on: integrated over these it is constant. *)
Definition untold (x : nfac) : Prop :=
  match x with FG _ => False | FN f => nl_upd f = None /\ forall v, In v (nl_cal f) -> ~ In v (dkeys (nl_ev f)) end.
Lemma untold_down o x S : oracle_ok o -> nwait x S -> untold x -> exists c, 0 < c /\ down (nfree x) S (npot x) (fun _ => c).
Proof.
  intros Ho Wx Ux. pose proof (wait_gf o x S Ho Wx) as G. pose proof (wait_free x S Wx) as IS. destruct x as [|f]; [destruct Ux|]. destruct Ux as (Eu & Hc). cbn [nwait] in Wx.
  destruct Wx as ((A & b & w & Wf & OK & Ew) & Ec & Gu & NE & NS & ISc & DS & CS). pose proof OK as (ND & NC & Q1 & Q2 & PQ & HT & _). unfold nl_vars in ND.
  destruct (NoDup_app_elim _ _ ND) as (Dg & Dc & Dis). exists (exp w). split; [apply exp_pos|].
  assert (HP : forall e, nl_pot f e = nl_density f (over (nl_ev f) e)) by (intros e; unfold nl_pot; rewrite Ec, Eu; cbn [optval]; ring).
  refine (proj1 (down_one _ S _ (fun _ => exp w) (nl_cal f) G NE IS Dc _ _ _)); change (npot (FN f)) with (nl_pot f); cbn [nfree].
  - intros v. rewrite In_free. unfold nl_vars. rewrite in_app_iff. split; [intros H; split; [split; [now right|now apply Hc]|]; intros C; exact (Dis v (ISc v C) H)|].
    intros (([H|H] & H2) & H3); [destruct (CS v H); contradiction|exact H].
  - intros x Hx (v & Hv). unfold curv. rewrite !HP. apply (density_def f A b w (nl_ev f) x OK Ew).
    assert (Iv : In v (nl_cal f)) by (destruct (in_dec string_dec v (nl_cal f)) as [H|H]; [exact H|]; destruct (Hv (Hx v H))).
    destruct (In_nth _ _ "" Iv) as (i & Hi & Ei). exists i. split; [exact Hi|]. unfold mean_of. rewrite Ei.
    assert (ES : forall l, incl l (nl_cing f) -> Rsum (map (fun u => A v u * over (nl_ev f) x u) l) = Rsum (map (fun u => A v u * over (nl_ev f) (fun _ => 0) u) l)).
    { induction l as [|u l IH]; [reflexivity|]. intros Il. cbn [map]. rewrite !Rsum_cons, IH by (intros z Hz; apply Il; now right). f_equal. f_equal. unfold over. destruct (dget (nl_ev f) u); [reflexivity|].
      apply Hx. intros C. exact (Dis u (Il u (or_introl eq_refl)) C). }
    rewrite (ES _ (incl_refl _)). unfold over at 1 3. assert (Dn : dget (nl_ev f) v = None) by (destruct (dget (nl_ev f) v) eqn:Dv; [|reflexivity]; destruct (Hc v Iv); now apply (dget_Some_key _ _ r)).
    rewrite Dn. intros C. apply Hv. lra.
  - intros e. destruct (HT (mcol (map (over (nl_ev f) e) (nl_cing f))) (nl_cing f) (Permutation_refl _)) as (Y & EY & (Y1 & Y2 & Y3)); [apply map_length|]. cbn [nr nc mcol] in Y1, Y2.
    set (g := cov_obj (nl_cal f) (nl_Q f, Y, nl_w f)). assert (Sg : solid g) by (apply solid_cov; [exact Dc|now repeat split|exact PQ]).
    assert (Pg : plain g). { intros e' v. unfold g. rewrite Ew, cov_lp by (exact Dc || exact PQ || now repeat split). now intros [= <-]. }
    apply (iint_ext_on (nl_cal f) (gval g)).
    + intros e' He. rewrite HP. unfold nl_density.
      assert (EM : map (over (nl_ev f) e') (nl_cing f) = map (over (nl_ev f) e) (nl_cing f)).
      { apply map_ext_in. intros u Hu. unfold over. destruct (dget (nl_ev f) u); [reflexivity|]. apply He. intros C. exact (Dis u Hu C). }
      rewrite EM, EY. fold g. symmetry. apply gval_over. exact Hc.
    + rewrite <- (f_equal pot Ew : pot (nl_w f) = exp w). refine (proj2 (weight_integral g g (nl_Q f) Y (nl_w f) (nl_cal f) e Sg Pg _ _)); [apply get_cov_obj|apply Permutation_refl].
Qed.
(** Branches of such factors. *)
Fixpoint untoldF (t : nforest) : Prop := match t with FNil => True | FCons d k s => untold (cl_fac d) /\ untoldF k /\ untoldF s end.
Lemma untold_forest o t : oracle_ok o -> forall p, tree p t -> untoldF t -> exists c, 0 < c /\ forall vs f, gf vs f -> incl (cvars p) vs -> (forall v, In v vs -> In v (fvars t) -> In v (cvars p)) ->
  vs <> [] -> down (vs ++ fvars t) vs (fun e => f e * fpot t e) (fun e => c * f e).
Proof.
  intros Ho. induction t as [|d k IHk s IHs]; intros p T U.
  - exists 1. split; [lra|]. intros vs f G _ _ _. apply (down_same vs _ vs _ f _ f); try tauto; [intros v; cbn [fvars]; now rewrite app_nil_r|intros e; cbn [fpot]; ring|intros e; ring|apply down_refl].
  - pose proof T as T0. cbn [tree] in T. destruct T as ((S & E & HS) & HF & _ & T1 & T2). destruct U as (Ud & Uk & Us). pose proof (ed_wait _ _ _ E) as Wd. pose proof (ed_ne _ _ _ E) as NES.
    pose proof (wait_gf o _ S Ho Wd) as Gd. pose proof (wait_free _ _ Wd) as ISd. pose proof (takes_free _ _ (ed_takes _ _ _ E)) as ISp.
    assert (NEd : cvars d <> []). { intros C. rewrite C in ISd. destruct S as [|v S]; [congruence|]. exact (ISd v (or_introl eq_refl)). }
    destruct (untold_down o _ S Ho Wd Ud) as (c0 & Hc0 & D0). destruct (IHk d T1 Uk) as (c1 & Hc1 & D1). destruct (IHs p T2 Us) as (c2 & Hc2 & D2).
    specialize (D1 _ _ Gd (incl_refl _) (fun v H _ => H) NEd). pose proof (forest_gf o d k _ _ Ho T1 Gd) as Gdk.
    assert (DB : down (cvars d ++ fvars k) S (fun e => own d e * fpot k e) (fun _ => c1 * c0)).
    { apply (down_trans _ (cvars d) _ _ (fun e => c1 * own d e)); [exact Gdk|exact NES|exact D1|]. apply (down_const _ _ _ (fun _ => c0)); [intros e; exact (gf_pos _ _ e Gd)|exact Hc1|exact D0]. }
    exists (c1 * c0 * c2). split; [repeat apply Rmult_lt_0_compat; assumption|]. intros vs f G Iv Hv Nv. cbn [fvars fpot].
    pose proof (forest_gf o p s _ _ Ho T2 G) as Gs.
    assert (GA : gf (vs ++ cvars d ++ fvars k ++ fvars s) (fun e => f e * (own d e * fpot k e * fpot s e))) by exact (forest_gf o p _ _ _ Ho T0 G).
    apply (down_trans _ (vs ++ fvars s) _ _ (fun e => c1 * c0 * (f e * fpot s e))); [exact GA|exact Nv| |].
    + apply (down_same ((cvars d ++ fvars k) ++ (vs ++ fvars s)) _ (S ++ (vs ++ fvars s)) _ (fun e => own d e * fpot k e * (f e * fpot s e)) _ (fun e => c1 * c0 * (f e * fpot s e))); try reflexivity.
      * intros v. rewrite !in_app_iff. tauto.
      * intros v. rewrite !in_app_iff. split; [intros [H|H]; [left; now apply Iv, ISp|exact H]|tauto].
      * intros e. ring.
      * apply (down_join _ S _ _ (fun _ => c1 * c0)); [intros e; exact (gf_pos _ _ e Gdk)|exact Gs| |exact DB]. intros v H1 H2. apply HS; [|exact H1]. apply in_app_or in H2. destruct H2 as [H2|H2]; [|now apply HF].
        apply Hv; [exact H2|]. cbn [fvars]. rewrite app_assoc. apply in_or_app. now left.
    + apply (down_same (vs ++ fvars s) _ vs _ (fun e => c1 * c0 * (f e * fpot s e)) _ (fun e => c1 * c0 * (c2 * f e))); try reflexivity; [intros e; ring|].
      apply down_const; [intros e; exact (gf_pos _ _ e Gs)|now apply Rmult_lt_0_compat|]. apply D2; auto. intros v H1 H2. apply Hv; [exact H1|]. cbn [fvars]. rewrite !in_app_iff. tauto.
Qed.
Lemma untold_clear o p d k s : oracle_ok o -> tree p (FCons d k s) -> untold (cl_fac d) -> untoldF k ->
  exists S m, dget (cl_seps p) (cl_id d) = Some S /\ down (cvars d ++ fvars k) S (fun e => own d e * fpot k e) m /\ forall e e', m e = m e'.
Proof.
  intros Ho T Ud Uk. cbn [tree] in T. destruct T as ((S & E & HS) & HF & _ & T1 & T2). pose proof (ed_wait _ _ _ E) as Wd. pose proof (ed_ne _ _ _ E) as NES.
  pose proof (wait_gf o _ S Ho Wd) as Gd. pose proof (wait_free _ _ Wd) as ISd.
  assert (NEd : cvars d <> []). { intros C. rewrite C in ISd. destruct S as [|v S]; [congruence|]. exact (ISd v (or_introl eq_refl)). }
  destruct (untold_down o _ S Ho Wd Ud) as (c0 & Hc0 & D0). destruct (untold_forest o k Ho d T1 Uk) as (c1 & Hc1 & D1).
  specialize (D1 _ _ Gd (incl_refl _) (fun v H _ => H) NEd). pose proof (forest_gf o d k _ _ Ho T1 Gd) as Gdk.
  exists S, (fun _ => c1 * c0). split; [exact (ed_p _ _ _ E)|]. split; [|reflexivity].
  apply (down_trans _ (cvars d) _ _ (fun e => c1 * own d e)); [exact Gdk|exact NES|exact D1|]. apply (down_const _ _ _ (fun _ => c0)); [intros e; exact (gf_pos _ _ e Gd)|exact Hc1|exact D0].
Qed.
