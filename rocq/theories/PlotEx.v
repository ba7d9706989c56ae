(** Plots of nonlinear Gaussians; examples. *)
From Coq Require Import Lra Lia Permutation.
From Verif Require Import UtilsFacts2.
From Verif Require Export PlotMore.
From Verif Require Import FactOps FactMarg MixFacts NlgExamples NlgOps NlgMix NlgGeneral NlgJoint IntKL2 GaussExamples DenseExamples.
Local Open Scope nat_scope.
Local Open Scope string_scope.
Local Open Scope list_scope.
Local Open Scope R_scope.

Lemma mk_can_zero vars w j : make_vacuous vars w = Ok j -> vars <> [] -> ga_vars j = vars /\ ga_vac j = true /\ g_copy j = Ok j.
Proof.
  intros E Nv. unfold make_vacuous in E. assert (Hd : NoDup vars).
  { unfold mk_can in E. destruct (nodupb vars) eqn:D; [now apply nodupb_iff|discriminate E]. }
  set (n := length vars) in *. assert (Sh : shaped n (mzeros n n, mzeros n 1, w)) by (now repeat split).
  rewrite (mk_can_ok vars _ _ w Hd Sh) in E. injection E as <-. cbn [ga_vars ga_vac]. split; [reflexivity|].
  split; [unfold n; destruct vars; [congruence|apply zeros_vacuous]|]. unfold g_copy. cbn [ga_cov ga_can ga_vars]. rewrite (mk_can_ok vars _ _ w Hd Sh). reflexivity.
Qed.
Lemma vacuous_plot vars w j log ylim : make_vacuous vars w = Ok j -> exists e, g_plot j log None ylim = Err e.
Proof.
  intros E. destruct vars as [|v vars].
  - unfold make_vacuous in E. cbn [length] in E. rewrite (mk_can_ok [] (mzeros 0 0) (mzeros 0 1) w ltac:(constructor) ltac:(now repeat split)) in E. injection E as <-. now exists NotImplementedError.
  - destruct (mk_can_zero _ _ _ E ltac:(discriminate)) as (V & K & C). unfold g_plot. rewrite V. destruct vars as [|v' [|v'' vars]]; cbn [length].
    + unfold get_cov, update_covform. rewrite K. cbn [bind]. eauto.
    + unfold g_plot_2d, g_limits_2d. rewrite C. cbn [bind]. unfold get_cov, update_covform. rewrite K. cbn [bind]. eauto.
    + eauto.
Qed.
Lemma nl_plot_fresh o cing cal T Q w upd cond ev f : mk_nlg cing cal T Q w None upd cond ev = Ok f -> exists e, nl_plot o f = Err e.
Proof.
  intros E. unfold mk_nlg in E. repeat (apply bind_ok in E; destruct E as (? & ? & E)). injection E as <-. unfold nl_plot.
  match goal with |- exists e, (let* _ := ?c in _) = _ => destruct c as [c0|e0] end; cbn [bind]; [|eauto].
  destruct (nl_recompute o c0) as [c1|e1]; cbn [bind]; [|eauto]. cbn [nl_joint].
  match goal with H : make_vacuous _ _ = Ok ?j |- _ => destruct (vacuous_plot _ _ _ false None H) as (e & Ee) end. rewrite Ee. cbn [bind]. eauto.
Qed.
Lemma nl_plot_current o f j vx vy : nl_joint_distribution o f = Ok j -> same_fun j (nl_joint f) -> wf_gauss j -> ga_vars (nl_joint f) = [vx; vy] -> ga_vars j = [vx; vy] -> solid (nl_joint f) ->
  exists f' xm ym zm xl yl g p, nl_plot o f = Ok (f', [Contour xm ym zm vx vy]) /\ mesh_of (fun x y => potential j [x; y]) xl yl 100 xm ym zm /\
    get_cov (nl_joint f) = Ok (g, p) /\ three_sigma_of p 0 xl /\ three_sigma_of p 1 yl.
Proof.
  intros Ej Sf Wj V Vj So. unfold nl_joint_distribution in Ej. apply bind_ok in Ej. destruct Ej as (c & Ec & Ej). apply bind_ok in Ej. destruct Ej as (c' & Er & _).
  destruct (gauss_contour (nl_joint f) false None None vx vy V So) as (g & p & xm & ym & zm & xl & yl & Ep & M & Eg & Hx & Hy).
  exists (set_joint f (nl_joint f)), xm, ym, zm, xl, yl, g, p. unfold nl_plot. rewrite Ec. cbn [bind]. rewrite Er. cbn [bind]. rewrite Ep. cbn [bind fst snd]. split; [reflexivity|].
  split; [|now split]. destruct M as (A & B & C & D). split; [exact A|]. split; [exact B|]. split; [exact C|]. intros i k Hi Hk. destruct (D i k Hi Hk) as (D1 & D2 & D3). split; [exact D1|]. split; [exact D2|].
  rewrite <- D3. symmetry. apply (same_value_n j (nl_joint f) false [_; _] Wj Sf); [congruence|now rewrite Vj].
Qed.
Lemma nl_ex : exists o f j vx vy, oracle_ok o /\ mk_nlg ["x1"; "x2"] ["y"] exT (meye 1) (Fin 0) None (Some exu) (Some exc) [("x1", 5)] = Ok f /\
  nl_joint_distribution o f = Ok j /\ solid j /\ ga_vars j = [vx; vy] /\ nl_good exA exb exc f.
Proof.
  pose proof SparseExamples.id_oracle_ok as Ho. set (o := SparseExamples.id_oracle) in *. destruct (ex_made (Some exu) [("x1", 5)]) as (f & E & G & P & K1 & K2 & K8 & K6); [now intros u [= <-]|repeat constructor; intros []|intros (_ & [H|[]]); discriminate H|].
  destruct (nl_joint_spec o f exA exb exc Ho (proj1 G) (proj1 (proj2 G)) (proj1 (proj2 (proj2 G))) (proj2 (proj2 (proj2 G)))) as (j & Ej & ((Dj & _) & _ & Vj & _) & Sj).
  assert (Pm : Permutation ["y"; "x2"] (ga_vars j)).
  { apply NoDup_Permutation; [repeat constructor; cbn; intuition congruence|exact Dj|]. intros v. rewrite Vj, K2, K8. cbn. intuition congruence. }
  pose proof (Permutation_length Pm) as L. destruct (ga_vars j) as [|vx [|vy [|]]] eqn:Ev; cbn in L; try lia.
  exists o, f, j, vx, vy. split; [exact Ho|]. split; [exact E|]. split; [exact Ej|]. split; [apply Sj; rewrite K6; apply stdg_solid; repeat constructor; intros []|]. split; [exact Ev|exact G].
Qed.
Lemma nl_plot_refuted : exists o f j d e, oracle_ok o /\ nl_joint_distribution o f = Ok j /\ solid j /\ g_plot j false None None = Ok (j, [d]) /\ nl_plot o f = Err e.
Proof.
  destruct nl_ex as (o & f & j & vx & vy & Ho & E & Ej & Sj & Vj & _). destruct (nl_plot_fresh o _ _ _ _ _ _ _ _ f E) as (e & Ee).
  destruct (gauss_contour j false None None vx vy Vj Sj) as (g & p & xm & ym & zm & xl & yl & Ep & _). do 5 eexists. split; [exact Ho|]. split; [exact Ej|]. split; [exact Sj|]. split; [exact Ep|exact Ee].
Qed.
Lemma nl_plot_instance : exists o f j vx vy, oracle_ok o /\ nl_joint_distribution o f = Ok j /\ same_fun j (nl_joint f) /\ wf_gauss j /\ ga_vars (nl_joint f) = [vx; vy] /\ ga_vars j = [vx; vy] /\ solid (nl_joint f).
Proof.
  destruct nl_ex as (o & f & j & vx & vy & Ho & E & Ej & Sj & Vj & G & OK & Ec & IN).
  exists o, (set_joint f j), j, vx, vy. split; [exact Ho|]. split.
  - unfold nl_joint_distribution in *. apply bind_ok in Ej. destruct Ej as (c & Ecp & Ej). apply bind_ok in Ej. destruct Ej as (c' & Er & Ej).
    assert (Ecp' : nl_copy (set_joint f j) = Ok (set_joint c j)).
    { unfold nl_copy, mk_nlg in *. cbn [set_joint nl_cing nl_cal nl_T nl_Q nl_w nl_joint nl_upd nl_cond nl_ev].
      repeat match type of Ecp with (let* _ := ?x in _) = _ => destruct x eqn:?; cbn [bind] in Ecp |- *; [|discriminate Ecp] end.
      rewrite (copy_solid_id j Sj). cbn [bind]. injection Ecp as <-. reflexivity. }
    rewrite Ecp'. cbn [bind].
    assert (R : forall h h' g, nl_recompute o h = Ok h' -> nl_recompute o (set_joint h g) = Ok h').
    { intros h h' g Eh. unfold nl_recompute in *. cbn [set_joint nl_cing nl_cal nl_T nl_Q nl_w nl_joint nl_upd nl_cond nl_ev nl_vars] in *. exact Eh. }
    rewrite (R c c' j Er). cbn [bind]. exact Ej.
  - cbn [set_joint nl_joint]. split; [apply same_fun_refl; apply Sj|]. split; [apply Sj|]. split; [exact Vj|]. split; [exact Vj|exact Sj].
Qed.

(** The logarithms of the components are added up. *)
Definition ex_one (m w : R) : gauss := stdg ["x"] [m] w.
Definition ex_two : gmix := {| gm_vars := ["x"]; gm_comps := [ex_one 0 0; ex_one 3 0] |}.
Lemma nd_x : NoDup ["x"]. Proof. repeat constructor; intros []. Qed.
Lemma ex_two_solid : solid_mix ex_two.
Proof. split; [discriminate|]. intros c [<-|[<-|[]]]; (split; [apply stdg_solid, nd_x|reflexivity]). Qed.
Definition ex_can : gauss := {| ga_vars := ["x"]; ga_vac := false; ga_can := Some (meye 1, mzeros 1 1, Fin (-1)); ga_cov := None |}.
Definition ex_twin : gmix := {| gm_vars := ["x"]; gm_comps := [ex_can; ex_can] |}.
Lemma ex_can_solid : solid ex_can.
Proof.
  split; [split; [apply nd_x|]; split; [left; discriminate|]; split; intros p Hp; [injection Hp as <-; now repeat split|discriminate Hp]|].
  split; [reflexivity|]. split; [intros p q _ Hq; discriminate Hq|]. split; intros K h g Hk; [injection Hk as <- _ _; apply eye_posdef|discriminate Hk].
Qed.
Lemma ex_twin_solid : solid_mix ex_twin.
Proof. split; [discriminate|]. intros c [<-|[<-|[]]]; (split; [exact ex_can_solid|reflexivity]). Qed.
Lemma ex_can_value x : log_potential ex_can [x] None = Ok (Fin (- (1 / 2) * (x * x) - 1)).
Proof. cbn -[Rmult Rplus INR]. f_equal. f_equal. unfold rsum, Rsum. cbn. field. Qed.
Lemma ex_can_plain : IntMarg.plain ex_can.
Proof. intros e l H. unfold lp in H. cbn [ga_vars ex_can map] in H. rewrite ex_can_value in H. injection H as <-. exact Logic.I. Qed.
Lemma mix_log_curve_refuted : exists a a' xs ys i, solid_mix a /\ mix_plot a true None None false = Ok (a', [Curve xs ys]) /\ (i < 200)%nat /\
  mix_log_potential a [nth i xs 0] None <> Ok (nth i ys NaN).
Proof.
  destruct (mix_curve ex_twin true None None false "x" eq_refl (solid_mix_wf _ ex_twin_solid) ltac:(intros _; exact ex_twin_solid)) as (a' & cs & xs & ys & lo & hi & E & _ & _ & (_ & _ & S) & -> & _).
  exists ex_twin, a', xs, ys, 0%nat. split; [exact ex_twin_solid|]. split; [exact E|]. split; [lia|]. destruct (S 0%nat ltac:(lia)) as (_ & S0). set (x := nth 0 xs 0) in *.
  unfold sum_values in S0. cbn [ex_twin gm_comps foldM g_value] in S0. rewrite ex_can_value in S0. cbn [bind vadd] in S0. rewrite <- S0.
  unfold mix_log_potential. cbn [ex_twin gm_comps mapM]. rewrite ex_can_value. cbn [bind logsumexp]. unfold lse. cbn [existsb is_nan is_pinf orb map pot].
  set (l := - (1 / 2) * (x * x) - 1). assert (Hl : l < 0) by (unfold l; pose proof (Rle_0_sqr x) as Q; unfold Rsqr in Q; lra).
  unfold rlog. pose proof (exp_pos l) as P. unfold Rsum. cbn [fold_right]. unfold Rlt_b. destruct (Rlt_dec 0 _) as [_|N]; [|exfalso; apply N; cbn; lra].
  intros C. injection C as C. assert (F : exp (0 + l + l) = exp l * exp l) by (rewrite <- exp_plus; f_equal; ring). rewrite <- C in F. rewrite exp_ln in F by (cbn; lra).
  assert (exp l < 1) by (rewrite <- exp_0; now apply exp_increasing). cbn in F. nra.
Qed.
(** Given limits are dropped unless both are given. *)
Lemma mix_partial_limits a log l : length (gm_vars a) = 2%nat -> forall individual,
  mix_plot a log (Some l) None individual = mix_plot a log None None individual /\ mix_plot a log None (Some l) individual = mix_plot a log None None individual.
Proof. intros L individual. unfold mix_plot. rewrite L. split; reflexivity. Qed.
Definition ex_pair : gmix := {| gm_vars := ["x"; "y"]; gm_comps := [stdg ["x"; "y"] [0; 1] 0; stdg ["x"; "y"] [5; 2] 1] |}.
Lemma nd_xy : NoDup ["x"; "y"]. Proof. repeat constructor; cbn; intuition congruence. Qed.
Lemma ex_pair_solid : solid_mix ex_pair.
Proof. split; [discriminate|]. intros c [<-|[<-|[]]]; (split; [apply stdg_solid, nd_xy|reflexivity]). Qed.
Lemma mix_limits_refuted : exists a l l' r, solid_mix a /\ l <> l' /\ mix_plot a false (Some l) None false = Ok r /\ mix_plot a false (Some l') None false = Ok r.
Proof.
  destruct (mix_contour ex_pair false None None false "x" "y" eq_refl (solid_mix_wf _ ex_pair_solid) ltac:(intros _; exact ex_pair_solid)) as (a' & xm & ym & zm & xl & yl & E & _).
  exists ex_pair, (0, 1), (2, 3). eexists. split; [exact ex_pair_solid|]. split; [intros C; injection C as C _; lra|].
  split; (rewrite (proj1 (mix_partial_limits ex_pair false _ eq_refl false)); exact E).
Qed.
(** One component. *)
Lemma mix_single_log a c x : gm_comps a = [c] -> (exists l, log_potential c [x] None = Ok l /\ is_lp l) ->
  sum_values true (gm_comps a) x (Fin 0) = mix_log_potential a [x] None.
Proof.
  intros E (l & El & Hl). unfold sum_values, mix_log_potential. rewrite E. cbn [foldM mapM g_value]. rewrite El. cbn [bind logsumexp]. f_equal.
  destruct l as [|r| |]; try destruct Hl; unfold lse; cbn [existsb is_nan is_pinf orb map pot vadd Rsum fold_right].
  - rewrite Rplus_0_r. unfold rlog, Rlt_b. destruct (Rlt_dec 0 0); [lra|]. unfold Req_b. now destruct (Req_EM_T 0 0).
  - rewrite Rplus_0_r. unfold rlog, Rlt_b. destruct (Rlt_dec 0 (exp r)) as [_|N]; [|destruct N; apply exp_pos]. now rewrite ln_exp, Rplus_0_l.
Qed.
Lemma mix_log_curve_one a c xlim ylim individual v : gm_comps a = [c] -> gm_vars a = [v] -> wf_mix a -> plain c -> (xlim = None -> solid_mix a) ->
  exists a' cs xs ys lo hi, mix_plot a true xlim ylim individual = Ok (a', cs ++ [Curve xs ys]) /\ samples (fun x => mix_log_potential a [x] None) lo hi 200 xs ys.
Proof.
  intros E V W P S. destruct (mix_curve a true xlim ylim individual v V W S) as (a' & cs & xs & ys & lo & hi & Ep & _ & _ & Sm & _). exists a', cs, xs, ys, lo, hi. split; [exact Ep|].
  revert Sm. apply samples_ext. intros x. apply (mix_single_log a c x E). destruct W as (_ & W). destruct (W c ltac:(rewrite E; now left)) as (Wc & Vc).
  destruct (wf_value c true [x] Wc ltac:(rewrite Vc, V; reflexivity)) as (l & El). exists l. split; [exact El|]. apply (P (fun _ => x)). unfold lp. rewrite Vc, V. exact El.
Qed.
(** Tables without names for their values. *)
Lemma dset_In {V} (d : list (string * V)) k v p : In p (dset d k v) -> In p d \/ p = (k, v).
Proof.
  induction d as [|[k1 v1] d IH]; cbn; [intros [<-|[]]; now right|]. destruct (eq_dec k k1) as [->|]; cbn; (intros [<-|H]; [auto|]); [auto|]. destruct (IH H); auto.
Qed.
Lemma dict_of_In {V} (l : list (string * V)) p : In p (dict_of l) -> In p l.
Proof.
  induction l as [|[k v] l IH] using rev_ind; [easy|]. rewrite dict_of_snoc. intros H. apply in_or_app. destruct (dset_In _ _ _ _ H) as [H1|E1]; [left; auto|right; left; now symmetry].
Qed.
Lemma default_numbers vs cs v ns a : dget (names_default vs cs) v = Some ns -> In a ns -> exists i, a = AInt i.
Proof.
  intros H Ha. apply dget_In in H. unfold names_default in H. apply dict_of_In in H. apply in_map_iff in H. destruct H as ([v' c] & E & _). injection E as _ <-. apply in_map_iff in Ha. destruct Ha as (i & <- & _). now exists i.
Qed.
Lemma bars_default f e : wf_dense f -> d_in_range f e -> dvars f <> [] -> dnames f = names_default (dvars f) (dcards f) -> d_plot f = Err TypeError.
Proof. intros W R N D. apply (bars_numbers f e W R N). intros v ns a H. rewrite D in H. now apply (default_numbers _ _ v ns a H). Qed.
Lemma bars_refuted : exists f e, wf_dense f /\ d_in_range f e /\ d_plot f = Err TypeError.
Proof.
  exists ed_ab, (fun _ => 0%nat). assert (R : d_in_range ed_ab (fun _ => 0%nat)).
  { intros v c Hc. unfold d_has_card in Hc. cbn in Hc. destruct Hc as [E|[E|[]]]; injection E as <- <-; lia. }
  split; [exact ed_ab_wf|]. split; [exact R|]. apply (bars_default ed_ab (fun _ => 0%nat) ed_ab_wf R); [discriminate|reflexivity].
Qed.
(** Mixtures of nonlinear Gaussians. *)
Lemma nm_plot_contour o a js vx vy : mapM (nl_joint_distribution o) (nm_nlgs a) = Ok js -> js <> [] -> (forall j, In j js -> solid j /\ ga_vars j = [vx; vy]) ->
  exists xm ym zm xl yl, nm_plot o a = Ok [Contour xm ym zm vx vy] /\
    mesh_of (fun x y => foldM (fun acc j => let* p := potential j [x; y] in Ok (vadd acc p)) js (Fin 0)) xl yl 100 xm ym zm /\ covers js 0 xl /\ covers js 1 yl.
Proof.
  intros Ej N H. set (m := {| gm_vars := [vx; vy]; gm_comps := js |}).
  assert (S : solid_mix m) by (split; [exact N|exact H]).
  assert (Em : mk_mix js = Ok m).
  { unfold mk_mix. rewrite (mapM_ok g_copy (fun c => c)) by (intros c Hc; apply copy_solid_id; now apply H). rewrite map_id. destruct js as [|j js]; [congruence|]. cbn [bind]. rewrite (proj2 (H j (or_introl eq_refl))).
    assert (forallb (fun c => eqb [vx; vy] (ga_vars c)) (j :: js) = true) as ->; [|reflexivity]. apply forallb_forall. intros c Hc. rewrite (proj2 (proj2 S c Hc)). cbn [gm_vars m]. unfold eqb. now destruct (eq_dec [vx; vy] [vx; vy]). }
  destruct (mix_contour m false None None false vx vy eq_refl (solid_mix_wf _ S) ltac:(intros _; exact S)) as (a' & xm & ym & zm & xl & yl & E & _ & _ & M & Cx & Cy).
  exists xm, ym, zm, xl, yl. unfold nm_plot. rewrite Ej. cbn [bind]. rewrite Em. cbn [bind]. rewrite E. cbn [bind snd]. split; [reflexivity|]. split; [exact M|]. split; [exact Cx|exact Cy].
Qed.
Lemma nm_plot_instance : exists o a js vx vy, oracle_ok o /\ mapM (nl_joint_distribution o) (nm_nlgs a) = Ok js /\ length js = 2%nat /\ js <> [] /\ (forall j, In j js -> solid j /\ ga_vars j = [vx; vy]).
Proof.
  destruct nl_ex as (o & f & j & vx & vy & Ho & E & Ej & Sj & Vj & _).
  exists o, {| nm_vars := [vx; vy]; nm_nlgs := [f; f]; nm_split := false |}, [j; j], vx, vy. split; [exact Ho|]. cbn [nm_nlgs mapM]. rewrite Ej. split; [reflexivity|]. split; [reflexivity|]. split; [discriminate|].
  intros k [<-|[<-|[]]]; now split.
Qed.
