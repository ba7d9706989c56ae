(** Nonlinear Gaussians with affine transforms as factors of a graph: their potentials, joints and
    marginals when the updates are only positive semidefinite. *)
From Verif Require Export NlgGraphModel NlgExamples GaussGraph.
Local Open Scope string_scope.
Local Open Scope list_scope.
Local Open Scope R_scope.

(** * The potential of a nonlinear Gaussian, read off its parts *)
Definition optval (u : option gauss) (e : renv) : R := match u with None => 1 | Some g => gval g e end.
(** The density of the conditional variables given the conditioning variables. *)
Definition nl_density (f : nlg) (e : renv) : R :=
  match nl_T f (mcol (map e (nl_cing f))) (nl_cing f) with
  | Ok Y => gval (cov_obj (nl_cal f) (nl_Q f, Y, nl_w f)) e
  | Err _ => 0
  end.
(** At the observed values. *)
Definition nl_pot (f : nlg) (e : renv) : R :=
  let e' := over (nl_ev f) e in optval (nl_cond f) e' * nl_density f e' * optval (nl_upd f) e'.
Definition free (f : nlg) : list string := filter (fun v => negb (mem v (dkeys (nl_ev f)))) (nl_vars f).
Definition posg (g : gauss) : Prop := forall e, 0 < gval g e.
Definition optgood (u : option gauss) : Prop := match u with None => True | Some g => ggood false g end.

Lemma In_free f v : In v (free f) <-> In v (nl_vars f) /\ ~ In v (dkeys (nl_ev f)).
Proof.
  unfold free. rewrite filter_In. split; intros (A & B); split; try exact A.
  - intros C. apply mem_In in C. rewrite C in B. discriminate.
  - destruct (mem v (dkeys (nl_ev f))) eqn:E; [|reflexivity]. apply mem_In in E. contradiction.
Qed.
Lemma over_obeys (ev : dict string R) e : obeys ev (over ev e).
Proof. intros v x H. unfold over. now rewrite H. Qed.
Lemma over_out (ev : dict string R) e v : ~ In v (dkeys ev) -> over ev e v = e v.
Proof. intros H. unfold over. destruct (dget ev v) eqn:E; [|reflexivity]. exfalso. apply H. now apply dget_Some_key in E. Qed.
Lemma gval_over g ev e : (forall v, In v (ga_vars g) -> ~ In v (dkeys ev)) -> gval g (over ev e) = gval g e.
Proof. intros H. apply FactMarg.gval_ext. intros v Hv. now apply over_out, H. Qed.

(** * Canonical form only *)
Lemma mk_can_cov vars K h g r : mk_can vars K h g = Ok r -> ga_cov r = None.
Proof.
  unfold mk_can. intros H. apply bind_ok in H. destruct H as (_ & _ & H). apply bind_ok in H. destruct H as (K' & _ & H). apply bind_ok in H. destruct H as (h' & _ & H).
  apply bind_ok in H. destruct H as (_ & _ & H). apply bind_ok in H. destruct H as (_ & _ & H). now injection H as <-.
Qed.
Lemma absorb_cov f1 f2 op vop r : absorb_or_cancel f1 f2 op vop = Ok r -> ga_cov r = None.
Proof.
  unfold absorb_or_cancel. intros H. apply bind_ok in H. destruct H as (r1 & _ & H). apply bind_ok in H. destruct H as (r2 & _ & H).
  destruct (snd r1) as [[K1 h1] g1]. destruct (snd r2) as [[K2' h2] g2]. apply bind_ok in H. destruct H as (kc & _ & H). apply bind_ok in H. destruct H as (hc & _ & H).
  apply bind_ok in H. destruct H as (_ & _ & H). exact (mk_can_cov _ _ _ _ _ H).
Qed.
Lemma mul_cov f1 f2 r : g_multiply f1 f2 = Ok r -> fresh_flag r /\ ga_cov r = None.
Proof. intros H. split; [exact (absorb_flag _ _ _ _ _ H)|exact (absorb_cov _ _ _ _ _ H)]. Qed.
Lemma reduce_cov f vs xs r : g_reduce f vs xs = Ok r -> fresh_flag r /\ ga_cov r = None.
Proof.
  intros H. split; [exact (reduce_flag _ _ _ _ H)|].
  unfold g_reduce in H. apply bind_ok in H. destruct H as (_ & _ & H). apply bind_ok in H. destruct H as (oi & _ & H). apply bind_ok in H. destruct H as (ui & _ & H).
  apply bind_ok in H. destruct H as (c & _ & H). destruct (snd c) as [[K h] g].
  repeat (apply bind_ok in H; destruct H as (? & _ & H)). now injection H as <-.
Qed.
Lemma posg_plain g : posg g -> plain g.
Proof. intros P e l El. specialize (P e). unfold gval in P. rewrite El in P. destruct l; cbn in *; try exact I; lra. Qed.
Lemma solid_proper g : solid g -> posg g -> gproper g.
Proof.
  intros S P. apply def_proper. pose proof S as (W & Va & _). split; [exact W|]. split; [exact Va|].
  destruct (get_can_solid g S) as (f' & K & h & c & E & PK & _). destruct (ggood_canon g W (solid_sym g S) P) as (f1 & K1 & h1 & g1 & E1 & _).
  rewrite E in E1. injection E1 as <- <- <- ->. exists f', K, h, g1. now split.
Qed.
Lemma can_solid g : ggood true g -> fresh_flag g -> ga_cov g = None -> solid g.
Proof.
  intros G F C. destruct (good_unflagged g G F) as (_ & Va). pose proof G as (W & _). split; [exact W|]. split; [exact Va|]. split.
  - intros p q _ Hq. rewrite C in Hq. discriminate.
  - split; [|intros C0 m w Hq; rewrite C in Hq; discriminate]. intros K h c Hc. exact (good_posdef g g K h c G (get_can_some g K h c Hc)).
Qed.
Lemma ggood_same b f d : same_obj f d -> ggood b f -> ggood b d.
Proof.
  intros SO (W & S & P & Q & D). assert (E : forall e, gval d e = gval f e) by (intros e; unfold gval; now rewrite (same_obj_lp' f d e SO)).
  split; [apply SO|]. split; [now apply (sym_same f)|]. split; [intros e; rewrite E; apply P|].
  split; [intros x; unfold curv; rewrite !E; apply Q|]. intros Hb. destruct SO as (_ & -> & _). apply (summ_fun (gval f)); [exact E|now apply D].
Qed.

(** * Curvature at observed values *)
Lemma curv_over (p : renv -> R) ev x vars K h g : (forall e, p e = exp (can_form vars K h e + g)) ->
  curv (fun e => p (over ev e)) x = qn vars K (fun v => match dget ev v with Some _ => 0 | None => x v end).
Proof.
  intros H. rewrite <- (second_diff p vars K h g (over ev (fun _ => 0)) _ H). unfold curv. f_equal; [f_equal|]; f_equal; rewrite !H; f_equal; f_equal;
    rewrite !can_form_qn; (f_equal; [f_equal; apply qn_ext|apply lnn_ext]); intros v _; unfold over; destruct (dget ev v); ring.
Qed.
Lemma good_over u ev x : ggood false u -> 0 <= curv (fun e => gval u (over ev e)) x.
Proof.
  intros (W & S & P & Q & _). destruct (ggood_canon u W S P) as (f' & K & h & g & _ & _ & _ & G).
  rewrite (curv_over (gval u) ev x _ K h g G), <- (curv_qn (gval u) _ K h g _ G). apply Q.
Qed.
Lemma optgood_over u ev x : optgood u -> 0 <= curv (fun e => optval u (over ev e)) x.
Proof. destruct u as [u|]; [apply good_over|]. intros _. unfold curv. cbn. rewrite ln_1. lra. Qed.
Lemma optgood_pos u e : optgood u -> 0 < optval u e.
Proof. destruct u as [u|]; [intros (_ & _ & P & _); apply P|intros _; cbn; lra]. Qed.

(** * The density *)
Lemma qsum_par n M u d : qsum n M (fun i => u i + d i) + qsum n M (fun i => u i - d i) = 2 * qsum n M u + 2 * qsum n M d.
Proof.
  unfold qsum. rewrite <- !rsum_scal, <- !rsum_plus. apply rsum_ext. intros i _. rewrite <- !rsum_scal, <- !rsum_plus. apply rsum_ext. intros j _.
  ring.
Qed.
Definition mean_of (A : string -> string -> R) (b : string -> R) (f : nlg) (e : renv) (i : nat) : R :=
  e (nth i (nl_cal f) "") - (Rsum (map (fun v => A (nth i (nl_cal f) "") v * e v) (nl_cing f)) + b (nth i (nl_cal f) "")).
Lemma density_explicit f A b e w : nl_ok f A b -> nl_w f = Fin w ->
  nl_density f e = exp (w - 1 / 2 * ln ((2 * PI) ^ length (nl_cal f) * mdet (nl_Q f)) - 1 / 2 * qsum (length (nl_cal f)) (minv (nl_Q f)) (mean_of A b f e)).
Proof.
  intros (Hd & Hc & Q1 & Q2 & PQ & HT & _) Ew. unfold nl_density.
  destruct (HT (mcol (map e (nl_cing f))) (nl_cing f) (Permutation_refl _)) as (Y & -> & (Y1 & Y2 & Y3)); [apply map_length|]. cbn [nr nc mcol] in Y1, Y2, Y3.
  unfold gval, lp, cov_obj. cbn [ga_vars]. rewrite lp_cov_only, Ew.
  rewrite (cov_log_potential_ok (length (nl_cal f))) by ((now repeat split) || apply map_length || (split; [apply PQ|now apply posdef_det])).
  cbn [vsub vopp vadd pot]. f_equal. set (n := length (nl_cal f)).
  assert (Q : forall u v, (forall i, (i < n)%nat -> u i = - v i) -> qsum n (minv (nl_Q f)) u = qsum n (minv (nl_Q f)) v).
  { intros u v H. unfold qsum. apply rsum_ext. intros i Hi. apply rsum_ext. intros j Hj. rewrite (H i Hi), (H j Hj). ring. }
  rewrite (Q _ (mean_of A b f e)); [lra|].
  intros i Hi. rewrite Y3 by (rewrite ?Y1, ?Y2; lia). cbn [ent mcol]. unfold mean_of. rewrite <- rsum_list.
  rewrite (rsum_ext _ _ (fun l => A (nth i (nl_cal f) "") (nth l (nl_cing f) "") * e (nth l (nl_cing f) ""))).
  - rewrite (nth_indep _ 0 (e "")) by (rewrite map_length; exact Hi). rewrite map_nth. ring.
  - intros l Hl. rewrite (nth_indep _ 0 (e "")) by (rewrite map_length; exact Hl). now rewrite map_nth.
Qed.
Lemma density_noise f A b e w : nl_ok f A b -> nl_w f = Fin w -> exists x, noise_lp f A b e = Ok (Fin x) /\ nl_density f e = exp x.
Proof. intros OK Ew. eexists. split; [exact (nl_noise_explicit f A b e w OK Ew)|exact (density_explicit f A b e w OK Ew)]. Qed.
Lemma mean_of_over A b f ev x i : (mean_of A b f (over ev x) i + mean_of A b f (over ev (fun v => - x v)) i = 2 * mean_of A b f (over ev (fun _ => 0)) i)%R.
Proof.
  assert (H : forall l, Rsum (map (fun v => A (nth i (nl_cal f) "") v * over ev x v) l) + Rsum (map (fun v => A (nth i (nl_cal f) "") v * over ev (fun u => - x u) v) l) =
    2 * Rsum (map (fun v => A (nth i (nl_cal f) "") v * over ev (fun _ => 0) v) l)).
  { induction l as [|v l IH]; [cbn; lra|]. cbn [map]. rewrite !Rsum_cons. unfold over in *. destruct (dget ev v); lra. }
  unfold mean_of. specialize (H (nl_cing f)). assert (E : over ev x (nth i (nl_cal f) "") + over ev (fun v => - x v) (nth i (nl_cal f) "") = 2 * over ev (fun _ => 0) (nth i (nl_cal f) "")).
  { unfold over. destruct (dget ev (nth i (nl_cal f) "")); lra. }
  lra.
Qed.
Lemma density_over f A b w ev x : nl_ok f A b -> nl_w f = Fin w -> 0 <= curv (fun e => nl_density f (over ev e)) x.
Proof.
  intros OK Ew. unfold curv. rewrite !(density_explicit f A b _ w OK Ew), !ln_exp. set (k := w - _). set (n := length (nl_cal f)). set (M := minv (nl_Q f)).
  set (u := mean_of A b f (over ev (fun _ => 0))). set (d := fun i => mean_of A b f (over ev x) i - u i).
  assert (E1 : qsum n M (mean_of A b f (over ev x)) = qsum n M (fun i => u i + d i)).
  { unfold qsum. apply rsum_ext. intros i _. apply rsum_ext. intros j _. unfold d. ring. }
  assert (E2 : qsum n M (mean_of A b f (over ev (fun v => - x v))) = qsum n M (fun i => u i - d i)).
  { assert (H : forall i, mean_of A b f (over ev (fun v => - x v)) i = u i - d i) by (intros i; pose proof (mean_of_over A b f ev x i); unfold d, u in *; lra).
    unfold qsum. apply rsum_ext. intros i _. apply rsum_ext. intros j _. now rewrite !H. }
  pose proof (qsum_par n M u d) as E. rewrite E1, E2. pose proof OK as (_ & _ & Q1 & _ & PQ & _).
  assert (0 <= qsum n M d) by (apply qsum_nonneg; [now apply posdef_minv|exact Q1]). lra.
Qed.
Lemma density_pos f A b e w : nl_ok f A b -> nl_w f = Fin w -> 0 < nl_density f e.
Proof. intros OK Ew. rewrite (density_explicit f A b e w OK Ew). apply exp_pos. Qed.

(** * Factors with a distribution over their conditioning variables *)
Definition nl_ready (f : nlg) : Prop := exists A b c w, nl_wf f /\ nl_ok f A b /\ nl_w f = Fin w /\ nl_cond f = Some c /\ informed f c /\ posg c /\ optgood (nl_upd f).
Definition no_upd (f : nlg) : nlg :=
  {| nl_cing := nl_cing f; nl_cal := nl_cal f; nl_T := nl_T f; nl_Q := nl_Q f; nl_w := nl_w f;
     nl_joint := nl_joint f; nl_upd := None; nl_cond := nl_cond f; nl_ev := nl_ev f |}.
Lemma pot3 l1 l2 l3 : pot (vadd (vadd (Fin l1) (Fin l2)) (Fin l3)) = exp l1 * exp l2 * exp l3.
Proof. cbn. now rewrite !exp_plus. Qed.
Lemma joint_pot o f A b c w j : nl_ok f A b -> nl_w f = Fin w -> nl_cond f = Some c -> informed f c -> posg c -> optgood (nl_upd f) ->
  nl_joint_distribution o f = Ok j -> is_joint f A b c j -> (forall v, In v (ga_vars j) <-> In v (free f)) /\ (forall e, gval j e = nl_pot f e).
Proof.
  intros OK Ew Ec IN Pc Gu Ej (Wj & Sj & Vj & Lj). pose proof IN as (Sc & Ic & Ha & Hn). split.
  - intros v. rewrite Vj, In_free. unfold nl_vars. rewrite in_app_iff. split; intros (H1 & H2); split; try exact H2.
    + destruct H1; [left; now apply Ic|now right].
    + destruct H1 as [H|H]; [|now right]. destruct (Ha v H); [now left|contradiction].
  - intros e. rewrite <- (gval_over j (nl_ev f) e) by (intros v Hv; now apply Vj in Hv). unfold nl_pot. rewrite Ec. cbn [optval].
    destruct (Lj (over (nl_ev f) e) (over_obeys _ e)) as (l1 & l2 & l3 & L1 & L2 & L3 & L). set (e' := over (nl_ev f) e) in *.
    destruct (gpos_fin c e' (Pc e')) as (x1 & X1 & G1). rewrite X1 in L1. injection L1 as <-.
    destruct (density_noise f A b e' w OK Ew) as (x2 & X2 & G2). rewrite X2 in L2. injection L2 as <-.
    assert (exists x3, l3 = Fin x3 /\ optval (nl_upd f) e' = exp x3) as (x3 & -> & G3).
    { unfold upd_lp, optgood, optval in *. destruct (nl_upd f) as [u|].
      - destruct Gu as (_ & _ & Pu & _). destruct (gpos_fin u e' (Pu e')) as (x3 & X3 & G3). rewrite X3 in L3. injection L3 as <-. now exists x3.
      - injection L3 as <-. exists 0. now rewrite exp_0. }
    unfold gval at 1. rewrite L, pot3. now rewrite G1, G2, G3.
Qed.
Lemma pot_pos f A b w e : nl_ok f A b -> nl_w f = Fin w -> (forall c, nl_cond f = Some c -> posg c) -> optgood (nl_upd f) -> 0 < nl_pot f e.
Proof.
  intros OK Ew Pc Gu. unfold nl_pot. apply Rmult_lt_0_compat; [apply Rmult_lt_0_compat|].
  - destruct (nl_cond f) as [c|]; cbn; [now apply Pc|lra].
  - now apply (density_pos f A b _ w).
  - now apply optgood_pos.
Qed.
Theorem ready_joint o f : oracle_ok o -> nl_ready f -> exists j, nl_joint_distribution o f = Ok j /\ solid j /\ gproper j /\
  (forall v, In v (ga_vars j) <-> In v (free f)) /\ (forall e, gval j e = nl_pot f e).
Proof.
  intros Ho (A & b & c & w & Wf & OK & Ew & Ec & IN & Pc & Gu).
  destruct (nl_joint_spec o f A b c Ho Wf OK Ec IN) as (j & Ej & IJ & So).
  destruct (joint_pot o f A b c w j OK Ew Ec IN Pc Gu Ej IJ) as (Vj & Gj). pose proof IJ as (Wj & Sj & _).
  assert (Pj : posg j) by (intros e; rewrite Gj; apply (pot_pos f A b w e OK Ew); [intros c0 E0; rewrite Ec in E0; now injection E0 as <-|exact Gu]).
  exists j. split; [exact Ej|].
  destruct (nl_upd f) as [u|] eqn:Eu.
  2: { pose proof (So I) as S. split; [exact S|]. split; [now apply solid_proper|]. now split. }
  set (f0 := no_upd f).
  assert (W0 : nl_wf f0) by (destruct Wf as (A1 & A2 & A3 & A4 & A5 & A6); do 4 (split; [assumption|]); split; [intros u0 E0; discriminate E0|exact A6]).
  assert (OK0 : nl_ok f0 A b) by (destruct OK as (A1 & A2 & A3 & A4 & A5 & A6 & A7 & A8); do 7 (split; [assumption|]); exact I).
  destruct (nl_joint_spec o f0 A b c Ho W0 OK0 Ec IN) as (j0 & Ej0 & IJ0 & So0). specialize (So0 I).
  destruct (joint_pot o f0 A b c w j0 OK0 Ew Ec IN Pc I Ej0 IJ0) as (Vj0 & Gj0).
  assert (P0 : posg j0) by (intros e; rewrite Gj0; apply (pot_pos f0 A b w e OK0 Ew); [intros c0 E0; cbn in E0; rewrite Ec in E0; now injection E0 as <-|exact I]).
  destruct (solid_proper j0 So0 P0) as ((W0' & _ & _ & Q0 & D0) & _).
  assert (GU : forall e, gval j e = gval j0 e * gval u (over (nl_ev f) e)).
  { intros e. rewrite Gj, Gj0. unfold nl_pot, f0, no_upd, nl_density. cbn. rewrite Eu. cbn. ring. }
  pose proof Gu as (_ & _ & Pu & _).
  assert (CU : forall x, curv (gval j) x = curv (gval j0) x + curv (fun e => gval u (over (nl_ev f) e)) x) by (intros x; apply curv_mul; [exact P0|intros e; apply Pu|exact GU]).
  assert (G : ggood true j).
  { split; [exact Wj|]. split; [exact Sj|]. split; [exact Pj|]. split.
    - intros x. rewrite CU. pose proof (Q0 x). pose proof (good_over u (nl_ev f) x Gu). lra.
    - intros _. apply (summ_posdef j Wj). intros x (v & Hv & Hx). rewrite CU.
      assert (0 < curv (gval j0) x) by (apply (proj1 (summ_posdef j0 W0') (D0 eq_refl)); exists v; split; [apply Vj0; now apply Vj in Hv|exact Hx]).
      pose proof (good_over u (nl_ev f) x Gu). lra. }
  assert (FL : fresh_flag j /\ ga_cov j = None).
  { unfold nl_joint_distribution in Ej. apply bind_ok in Ej. destruct Ej as (d & Ed & Ej). apply bind_ok in Ej. destruct Ej as (d' & Ed' & Ej). injection Ej as Ej.
    destruct (nl_copy_spec f Wf) as (d0 & Ed0 & CD). rewrite Ed in Ed0. injection Ed0 as <-. pose proof CD as (_ & _ & _ & K8 & K9).
    rewrite Eu in K8. rewrite Ec in K9. unfold opt_same in K8, K9. destruct (nl_upd d) as [u'|] eqn:Eu'; [|contradiction]. destruct (nl_cond d) as [c'|] eqn:Ec'; [|contradiction].
    unfold nl_recompute in Ed'. rewrite Eu', Ec' in Ed'. apply bind_ok in Ed'. destruct Ed' as (v1 & _ & Ed'). apply bind_ok in Ed'. destruct Ed' as (v2 & _ & Ed').
    destruct (informed_copy f d c Ec IN CD) as (c2 & Ec2 & IN2 & _). rewrite Ec' in Ec2. injection Ec2 as <-.
    pose proof (nl_ok_copy f d A b OK CD) as (Hd & _ & _ & _ & _ & _ & Hk & _). destruct (nl_cobs d c' Hd Hk IN2) as (SE & _). rewrite SE in Ed'. cbn [negb] in Ed'.
    do 8 (apply bind_ok in Ed'; destruct Ed' as (? & _ & Ed')). apply bind_ok in Ed'. destruct Ed' as (j1 & Hm & Ed').
    apply bind_ok in Ed'. destruct Ed' as (j2 & Hr & Ed'). injection Ed' as <-. cbn [nl_joint set_joint] in Ej. subst j2.
    destruct (Nat.ltb 0 _); [exact (reduce_cov _ _ _ _ Hr)|]. injection Hr as <-. exact (mul_cov _ _ _ Hm). }
  destruct FL as (F1 & F2). pose proof (can_solid j G F1 F2) as S. split; [exact S|]. split; [now apply good_unflagged|]. now split.
Qed.
