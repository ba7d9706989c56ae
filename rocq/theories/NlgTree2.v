(** What a cluster of a tree does: messages out of a factor that is ready, messages into it. *)
From Verif Require Export NlgTree1.
Local Open Scope string_scope.
Local Open Scope list_scope.
Local Open Scope R_scope.

Definition nfree (x : nfac) : list string := match x with FG g => ga_vars g | FN f => free f end.
Definition npot (x : nfac) (e : renv) : R := match x with FG g => gval g e | FN f => nl_pot f e end.
Definition nready (x : nfac) : Prop := match x with FG g => solid g /\ posg g | FN f => nl_ready f end.
(** A nonlinear Gaussian that becomes ready with a message about [S]. *)
Definition nl_wait (f : nlg) (S : list string) : Prop :=
  (exists A b w, nl_wf f /\ nl_ok f A b /\ nl_w f = Fin w) /\ nl_cond f = None /\ optgood (nl_upd f) /\ S <> [] /\ NoDup S /\ incl S (nl_cing f) /\
  (forall v, In v S -> ~ In v (dkeys (nl_ev f))) /\ (forall v, In v (nl_cing f) -> In v S \/ In v (dkeys (nl_ev f))).
Definition nwait (x : nfac) (S : list string) : Prop :=
  match x with FG g => solid g /\ posg g /\ incl S (ga_vars g) | FN f => nl_wait f S end.
(** Messages about [S] from clusters that depend on it. *)
Definition takes (x : nfac) (S : list string) : Prop :=
  match x with FG g => incl S (ga_vars g) | FN f => incl S (nl_cal f) /\ forall v, In v S -> ~ In v (dkeys (nl_ev f)) end.
Definition nkind (x y : nfac) : Prop :=
  match x, y with
  | FG g, FG g' => forall v, In v (ga_vars g') <-> In v (ga_vars g)
  | FN f, FN f' => same_kind f f' /\ nl_ev f' = nl_ev f
  | _, _ => False
  end.
(** A message marked as carrying no information is not multiplied into a nonlinear Gaussian. *)
Definition dropped (x : nfac) (m : gauss) : bool := match x with FG _ => false | FN _ => ga_vac m end.

Lemma nkind_refl x : nkind x x.
Proof. destruct x; cbn; [reflexivity|]. now repeat split. Qed.
Lemma nkind_trans x y z : nkind x y -> nkind y z -> nkind x z.
Proof.
  destruct x, y, z; cbn; try tauto.
  - intros H1 H2 v. now rewrite H2.
  - intros ((A1 & A2 & A3 & A4 & A5) & A6) ((B1 & B2 & B3 & B4 & B5) & B6). repeat split; congruence.
Qed.
Lemma nkind_free x y v : nkind x y -> (In v (nfree y) <-> In v (nfree x)).
Proof.
  destruct x, y; cbn; try tauto; [intros H; apply H|]. intros ((A1 & A2 & _) & A6). rewrite !In_free. unfold nl_vars. now rewrite A1, A2, A6.
Qed.
Lemma nkind_takes x y S : nkind x y -> takes x S -> takes y S.
Proof.
  destruct x, y; cbn; try tauto; [intros H I v Hv; now apply H, I|]. intros ((A1 & A2 & _) & A6). now rewrite A2, A6.
Qed.
Lemma takes_free x S : takes x S -> incl S (nfree x).
Proof. destruct x; cbn; [auto|]. intros (I & D) v Hv. apply In_free. split; [unfold nl_vars; apply in_or_app; right; now apply I|now apply D]. Qed.
Lemma wait_free x S : nwait x S -> incl S (nfree x).
Proof.
  destruct x; cbn; [intros H; apply H|]. intros (_ & _ & _ & _ & _ & I & D & _) v Hv. apply In_free. split; [unfold nl_vars; apply in_or_app; left; now apply I|now apply D].
Qed.

Lemma optval_same u v e : opt_same u v -> optval v e = optval u e.
Proof. unfold opt_same, optval. destruct u, v; try tauto. intros (SO & _). unfold gval. now rewrite (same_obj_lp' _ _ e SO). Qed.
Lemma optgood_same u v : opt_same u v -> optgood u -> optgood v.
Proof. unfold opt_same, optgood. destruct u, v; try tauto. intros (SO & _). now apply ggood_same. Qed.
Lemma density_kind f d e : same_kind f d -> nl_density d e = nl_density f e.
Proof. intros (K1 & K2 & K3 & K4 & K5). unfold nl_density. now rewrite K1, K2, K3, K4, K5. Qed.
Lemma pot_copy f d e : copy_of f d -> nl_pot d e = nl_pot f e.
Proof. intros (SK & K6 & _ & K8 & K9). unfold nl_pot. rewrite K6, (density_kind f d _ SK), (optval_same _ _ _ K8), (optval_same _ _ _ K9). reflexivity. Qed.
Lemma ready_copy f d : nl_ready f -> copy_of f d -> nl_ready d.
Proof.
  intros (A & b & c & w & Wf & OK & Ew & Ec & IN & Pc & Gu) CD. destruct (informed_copy f d c Ec IN CD) as (c' & Ec' & IN' & V' & L'). pose proof CD as ((_ & _ & _ & _ & K5) & _ & _ & K8 & _).
  exists A, b, c', w. split; [now apply (nl_wf_copy f)|]. split; [now apply (nl_ok_copy f)|]. split; [congruence|]. split; [exact Ec'|]. split; [exact IN'|].
  split; [intros e; unfold gval; rewrite L'; apply Pc|now apply (optgood_same (nl_upd f))].
Qed.
Lemma marg_joint o f j xs : nl_joint_distribution o f = Ok j -> ga_vac j = false -> incl xs (nl_vars f) -> nl_marginalize o f xs true = g_marginalize o j xs true.
Proof.
  intros Ej Va Ix. unfold nl_marginalize. cbn [marginal_vars]. rewrite (proj2 (subsetb_incl _ _) Ix). cbn [py_assert bind].
  unfold nl_joint_distribution in Ej. apply bind_ok in Ej. destruct Ej as (d & Ed & Ej). rewrite Ed. cbn [bind].
  apply bind_ok in Ej. destruct Ej as (d' & Ed' & Ej). injection Ej as Ej. rewrite Ed'. cbn [bind]. now rewrite Ej, Va.
Qed.
Lemma reduce_none f : nl_wf f -> exists d, nl_reduce f [] [] = Ok d /\ copy_of f d.
Proof.
  intros W. destruct (nl_copy_spec f W) as (d & Ed & CD). exists d. split; [|exact CD]. unfold nl_reduce. rewrite Ed. cbn. now destruct d.
Qed.
Lemma solid_of_marg o J S r : oracle_ok o -> solid J -> posg J -> NoDup S -> incl S (ga_vars J) -> g_marginalize o J S true = Ok r -> ga_vars r = S /\ solid r /\ posg r.
Proof.
  intros Ho SJ PJ NS IS E. pose proof SJ as ((Hd & _) & _). destruct (so_split o (ga_vars J) S Ho Hd NS IS) as (HP & _).
  destruct (marg_integral o _ J S Ho SJ (posg_plain J PJ) HP) as (r' & E' & V & Sr & _). rewrite E in E'. injection E' as <-. split; [exact V|]. split; [exact Sr|].
  destruct (solid_proper J SJ PJ) as (G & Va). destruct (gmarg_law true o J S r Ho G Va NS IS E) as ((_ & _ & P & _) & _). exact P.
Qed.
(** A message out, before the message that came in is cancelled. *)
Theorem ready_message o x S : oracle_ok o -> nready x -> S <> [] -> NoDup S -> incl S (nfree x) ->
  exists x1 r J, nf_reduce x [] [] = Ok x1 /\ nf_marg o x1 S = Ok (FG r) /\ ga_vars r = S /\ solid r /\ posg r /\
    solid J /\ posg J /\ (forall v, In v (ga_vars J) <-> In v (nfree x)) /\ (forall e, gval J e = npot x e) /\ g_marginalize o J S true = Ok r.
Proof.
  intros Ho R NE NS IS. destruct x as [g|f]; cbn [nready nfree npot nf_reduce nf_marg] in *.
  - destruct R as (Sg & Pg). destruct (solid_proper g Sg Pg) as (G & _). pose proof Sg as (W & _).
    assert (NI : ~ incl (ga_vars g) []). { intros C. destruct S as [|v S]; [congruence|]. exact (C v (IS v (or_introl eq_refl))). }
    destruct (g_reduce_spec g [] [] W (solid_sym g Sg) (NoDup_nil _)) as (r & Er & _); [intros v []|exact NI|reflexivity|].
    destruct (greduce_law true g [] [] r G (NoDup_nil _)) as (Gr & Vr & Lr); [intros v []|reflexivity|exact Er|].
    destruct (reduce_cov g [] [] r Er) as (F1 & F2). pose proof (can_solid r Gr F1 F2) as Sr. pose proof Gr as (_ & _ & Pr & _).
    assert (Ir : incl S (ga_vars r)) by (intros v Hv; apply Vr; split; [now apply IS|intros []]).
    destruct (gproper_marg o r S Ho (good_unflagged r Gr F1) NS Ir) as (m & Em & _).
    destruct (solid_of_marg o r S m Ho Sr Pr NS Ir Em) as (Vm & Sm & Pm).
    rewrite Er. cbn [bind]. exists (FG r), m, r. split; [reflexivity|]. cbn [nf_marg]. rewrite Em. cbn [bind]. split; [reflexivity|]. do 5 (split; [assumption|]).
    split; [intros v; rewrite Vr; split; [tauto|intros H; split; [exact H|intros []]]|]. split; [intros e; now apply Lr|reflexivity].
  - pose proof R as (A & b & c & w & Wf & _). destruct (reduce_none f Wf) as (d & Ed & CD). pose proof (ready_copy f d R CD) as Rd.
    destruct (ready_joint o d Ho Rd) as (J & EJ & SJ & PJ & VJ & GJ). pose proof PJ as ((_ & _ & PJ' & _) & Va). pose proof CD as ((K1 & K2 & _) & K6 & _).
    assert (FV : forall v, In v (free d) <-> In v (free f)) by (intros v; rewrite !In_free; unfold nl_vars; now rewrite K1, K2, K6).
    assert (IJ : incl S (ga_vars J)) by (intros v Hv; apply VJ, FV, IS, Hv).
    assert (Iv : incl S (nl_vars d)) by (intros v Hv; apply IS, FV, In_free in Hv; apply Hv).
    destruct (gproper_marg o J S Ho PJ NS IJ) as (r & Er & _). destruct (solid_of_marg o J S r Ho SJ PJ' NS IJ Er) as (Vr & Sr & Pr).
    rewrite Ed. cbn [bind]. exists (FN d), r, J. split; [reflexivity|]. cbn [nf_marg]. rewrite (marg_joint o d J S EJ Va Iv), Er. cbn [bind]. split; [reflexivity|]. do 5 (split; [assumption|]).
    split; [intros v; now rewrite VJ, FV|]. split; [intros e; now rewrite GJ, (pot_copy f d e CD)|reflexivity].
Qed.

(** A message in, to a factor that waits for it. *)
Theorem wait_receive o x S a : nwait x S -> solid a -> posg a -> ga_vars a = S ->
  exists y, nf_mul o x (FG a) = Ok y /\ nready y /\ nkind x y /\ (forall e, npot y e = npot x e * gval a e).
Proof.
  intros Wx Sa Pa Va. destruct (solid_proper a Sa Pa) as (Ga & Fa). pose proof Sa as (Wa & _). destruct x as [g|f]; cbn [nwait nf_mul nready nkind npot] in *.
  - destruct Wx as (Sg & Pg & IS). destruct (solid_proper g Sg Pg) as (Gg & _).
    destruct (gmul_law true g a Gg Ga) as (r & Er & Gr & Vr & Lr). destruct (mul_cov g a r Er) as (F1 & F2).
    rewrite Er. cbn [bind]. exists (FG r). split; [reflexivity|]. split; [split; [now apply can_solid|intros e; apply Gr]|]. split; [|exact Lr].
    intros v. rewrite Vr, Va. split; [intros [H|H]; [exact H|now apply IS]|now left].
  - destruct Wx as ((A & b & w & Wf & OK & Ew) & Ec & Gu & NE & NS & IS & DS & CS). rewrite <- Va in IS, NE.
    destruct (nl_multiply_cing f a Wf Wa Fa IS NE) as (r & c & Er & Wr & SK & K6 & KU & Ecr & Vc & Sc & OKr & Lr). pose proof SK as (K1 & K2 & K3 & K4 & K5).
    rewrite Er. cbn [bind]. exists (FN r). split; [reflexivity|].
    assert (Vca : forall v, In v (ga_vars c) <-> In v S).
    { intros v. rewrite Vc, Ec, Va. split; [intros [H|(c0 & [=] & _)]; exact H|now left]. }
    assert (Gc : forall e, gval c e = gval a e).
    { intros e. destruct (Lr e (Fin 0)) as (lg & L1 & L2); [unfold cond_lp; now rewrite Ec|]. unfold cond_lp in L2. rewrite Ecr, vadd_0_l in L2. unfold gval. now rewrite L1, L2. }
    split; [|split; [now split|]].
    + exists A, b, c, w. split; [exact Wr|]. split; [now apply OKr|]. split; [congruence|]. split; [exact Ecr|]. split; [|split; [intros e; rewrite Gc; apply Pa|now apply (optgood_same (nl_upd f))]].
      split; [apply Sc; [exact Sa|intros c0 E0; rewrite Ec in E0; discriminate]|]. rewrite K1, K6. split; [intros v Hv; apply IS; rewrite Va; now apply Vca|].
      split; [intros v Hv; rewrite Vca; now apply CS|]. intros C. destruct S as [|v S]; [congruence|]. apply (DS v (or_introl eq_refl)), C, Vca. now left.
    + intros e. cbn [npot]. unfold nl_pot. rewrite K6, Ecr, Ec, (density_kind f r _ SK), (optval_same _ _ _ KU). cbn [optval]. rewrite Gc, (gval_over a); [ring|]. rewrite Va. exact DS.
Qed.
(** What a waiting factor says is a Gaussian function. *)
Theorem wait_gauss o x S : oracle_ok o -> nwait x S -> exists N, ggood false N /\ (forall v, In v (ga_vars N) <-> In v (nfree x)) /\ (forall e, gval N e = npot x e).
Proof.
  intros Ho Wx. pose proof (wait_free x S Wx) as IF. destruct x as [g|f].
  - cbn in *. destruct Wx as (Sg & Pg & _). destruct (solid_proper g Sg Pg) as (G & _). exists g. split; [now apply (ggood_weak true)|]. now split.
  - pose proof Wx as ((A & b & w & Wf & OK & Ew) & Ec & Gu & NE & NS & IS & DS & CS).
    set (a := stdg S [] 0). assert (Sa : solid a) by now apply stdg_solid. assert (Pa : posg a) by (intros e; unfold gval, a; rewrite stdg_lp by exact NS; apply exp_pos).
    destruct (wait_receive o (FN f) S a Wx Sa Pa eq_refl) as (y & _ & Ry & Ky & Gy). destruct y as [|r]; [destruct Ky|]. cbn [nready nkind npot] in *.
    destruct (ready_joint o r Ho Ry) as (J & EJ & SJ & PJ & VJ & GJ). pose proof PJ as ((WJ & SyJ & PJ' & _) & _). pose proof Sa as (Wa & _).
    assert (FV : forall v, In v (ga_vars J) <-> In v (free f)) by (intros v; rewrite VJ; exact (nkind_free (FN f) (FN r) v Ky)).
    destruct (g_divide_spec J a WJ Wa) as (N & EN & WN & VN & LN). pose proof (divide_symm J a N WJ Wa SyJ (solid_sym a Sa) EN) as SN.
    assert (VN' : forall v, In v (ga_vars N) <-> In v (free f)).
    { intros v. rewrite VN, new_vars_In, FV. split; [intros [H|H]; [exact H|now apply IF]|now left]. }
    assert (GN : forall e, gval N e = nl_pot f e).
    { intros e. destruct (gpos_fin J e (PJ' e)) as (x1 & X1 & G1). destruct (gpos_fin a e (Pa e)) as (x2 & X2 & G2). unfold lp in X1, X2, LN.
      unfold gval at 1, lp. rewrite (LN e _ _ X1 X2). cbn [vsub vopp vadd pot]. rewrite exp_plus, exp_Ropp, <- G1, <- G2, GJ, Gy. field. apply Rgt_not_eq, Pa. }
    exists N. split; [|now split]. split; [exact WN|]. split; [exact SN|].
    assert (PN : posg N). { intros e. rewrite GN. apply (pot_pos f A b w e OK Ew); [rewrite Ec; discriminate|exact Gu]. }
    split; [exact PN|]. split; [|discriminate]. intros x.
    rewrite (curv_mul (gval N) (fun e => nl_density f (over (nl_ev f) e)) (fun e => optval (nl_upd f) (over (nl_ev f) e))).
    + pose proof (density_over f A b w (nl_ev f) x OK Ew). pose proof (optgood_over (nl_upd f) (nl_ev f) x Gu). lra.
    + intros e. now apply (density_pos f A b _ w).
    + intros e. now apply optgood_pos.
    + intros e. rewrite GN. unfold nl_pot. rewrite Ec. cbn [optval]. ring.
Qed.

(** A message in, to a factor that is ready. *)
Theorem ready_receive o x S m : nready x -> takes x S -> ggood false m -> (forall v, In v (ga_vars m) <-> In v S) ->
  exists y, nf_mul o x (FG m) = Ok y /\ nready y /\ nkind x y /\ (forall e, npot y e = npot x e * if dropped x m then 1 else gval m e).
Proof.
  intros R T G V. pose proof G as (Wm & Sm & Pm & Qm & _). destruct x as [g|f]; cbn [nready takes nf_mul nkind npot dropped] in *.
  - destruct R as (Sg & Pg). destruct (solid_proper g Sg Pg) as (Gg & _). pose proof Gg as (Wg & _ & _ & Qg & Dg).
    destruct (gmul_law false g m (ggood_weak true g Gg) G) as (r & Er & Gr & Vr & Lr). destruct (mul_cov g m r Er) as (F1 & F2). pose proof Gr as (Wr & Sr & Pr & Qr & _).
    assert (VV : forall v, In v (ga_vars r) <-> In v (ga_vars g)) by (intros v; rewrite Vr, V; split; [intros [H|H]; [exact H|now apply T]|now left]).
    assert (Gt : ggood true r).
    { split; [exact Wr|]. split; [exact Sr|]. split; [exact Pr|]. split; [exact Qr|]. intros _. apply (summ_posdef r Wr). intros x (v & Hv & Hx).
      rewrite (curv_mul (gval r) (gval g) (gval m) x Pg Pm Lr). assert (0 < curv (gval g) x) by (apply (proj1 (summ_posdef g Wg) (Dg eq_refl)); exists v; split; [now apply VV|exact Hx]).
      pose proof (Qm x). lra. }
    rewrite Er. cbn [bind]. exists (FG r). split; [reflexivity|]. split; [split; [now apply can_solid|exact Pr]|]. now split.
  - destruct T as (IS & DS). pose proof R as (A & b & c & w & Wf & OK & Ew & Ec & IN & Pc & Gu). destruct (ga_vac m) eqn:Va.
    + destruct (nl_multiply_vac f m Wf Va) as (r & Er & CD). rewrite Er. cbn [bind]. exists (FN r). split; [reflexivity|]. split; [now apply (ready_copy f)|].
      split; [split; apply CD|]. intros e. cbn [npot]. rewrite (pot_copy f r e CD). ring.
    + assert (Im : incl (ga_vars m) (nl_cal f)) by (intros v Hv; apply IS, V, Hv).
      destruct (nl_multiply_cal f m Wf Wm Va Im) as (r & Er & Wr & SK & K6 & KC & OKr & Lr). pose proof SK as (K1 & K2 & K3 & K4 & K5). pose proof Er as E0.
      rewrite Er. cbn [bind]. exists (FN r). split; [reflexivity|].
      assert (UU : exists u, nl_upd r = Some u /\ ggood false u /\ forall e, gval u e = optval (nl_upd f) e * gval m e).
      { unfold nl_multiply_gauss in E0. destruct (nl_copy_spec f Wf) as (d & Ed & CD). rewrite Ed in E0. cbn [bind] in E0. pose proof CD as (SKd & _ & _ & K8 & _). pose proof SKd as (_ & L2 & _).
        rewrite Va, L2, (proj2 (subsetb_incl _ _) Im) in E0. apply bind_ok in E0. destruct E0 as (u & Eu & E0). injection E0 as <-. exists u. split; [reflexivity|].
        unfold opt_same, optgood, optval in *. destruct (nl_upd f) as [u0|], (nl_upd d) as [u1|]; try contradiction.
        - destruct K8 as (SO & _). destruct (gmul_law false u1 m (ggood_same false u0 u1 SO Gu) G) as (u' & Eu' & Gu' & _ & Lu'). rewrite Eu in Eu'. injection Eu' as <-.
          split; [exact Gu'|]. intros e. rewrite Lu'. unfold gval at 1 3. now rewrite (same_obj_lp' u0 u1 e SO).
        - destruct (same_obj_copy m Wm) as (u' & Eu' & SO & _). rewrite Eu in Eu'. injection Eu' as <-. split; [now apply (ggood_same false m)|].
          intros e. unfold gval at 1. rewrite (same_obj_lp' m u e SO). unfold gval. lra. }
      destruct UU as (u & Eu & Gu' & Lu). unfold opt_same in KC. rewrite Ec in KC. destruct (nl_cond r) as [c'|] eqn:Ec'; [|contradiction]. destruct KC as (SO & HS).
      pose proof SO as (_ & V' & _). assert (Gc : forall e, gval c' e = gval c e) by (intros e; unfold gval; now rewrite (same_obj_lp' c c' e SO)).
      pose proof IN as (Sc & Ic & Ha & Hn). split; [|split; [now split|]].
      * exists A, b, c', w. split; [exact Wr|]. split; [now apply OKr|]. split; [congruence|]. split; [exact Ec'|]. split; [split; [now apply HS|]; rewrite V', K1, K6; now repeat split|].
        split; [intros e; rewrite Gc; apply Pc|]. rewrite Eu. exact Gu'.
      * intros e. cbn [npot]. unfold nl_pot. rewrite K6, Ec, Ec', Eu, (density_kind f r _ SK). cbn [optval]. rewrite Gc, Lu, (gval_over m); [ring|]. intros v Hv. apply DS, V, Hv.
Qed.
