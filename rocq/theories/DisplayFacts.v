(** Facts about what is printed. *)
From Coq Require Import String List Lia Lra.
Import ListNotations.
From Verif Require Export DisplayModel MixMarg.
From Verif Require Import GaussFacts GaussOps GaussEq GaussMarg IntMarg IntKL PlotFacts BaseFacts GraphFacts.
Local Open Scope string_scope.
Local Open Scope nat_scope.
Local Open Scope list_scope.

(** The parameters as printed. *)
Definition cov_text (p : mat * mat * val) : list item := let '(C, m, w) := p in [IArr "cov" C; IArr "mean" m; INum "log_weight" w].
Definition can_text (p : mat * mat * val) (b : bool) : list item := let '(K, h, g) := p in [IArr "prec" K; IArr "h" h; INum "g" g; IFlag "is_vacuous" b].

Lemma copy_full f : wf_gauss f -> exists c, g_copy f = Ok c /\ ga_vars c = ga_vars f /\ ga_can c = ga_can f /\ ga_cov c = ga_cov f /\ wf_gauss c /\
  ga_vac c = match ga_cov f, ga_can f with None, Some (K, _, _) => prec_vacuous K | _, _ => false end.
Proof.
  intros W. destruct (g_copy_ok f W) as (c & E & V & A & B & Wc). exists c. do 5 (split; [assumption|]).
  pose proof W as (Hd & Hf & Hc & Hv). unfold g_copy in E. destruct f as [vars vac can cov]. cbn [ga_can ga_cov ga_vars] in *.
  destruct cov as [[[C m] w]|], can as [[[K h] g]|]; [| | |discriminate E].
  - rewrite (mk_cov_ok vars C m w Hd (proj1 (Hv _ eq_refl))) in E. cbn [bind] in E. injection E as <-. reflexivity.
  - rewrite (mk_cov_ok vars C m w Hd (proj1 (Hv _ eq_refl))) in E. injection E as <-. reflexivity.
  - rewrite (mk_can_ok vars K h g Hd (Hc _ eq_refl)) in E. injection E as <-. reflexivity.
Qed.
Lemma cov_items_stored f p : wf_gauss f -> ga_cov f = Some p -> cov_items f = Ok (cov_text p).
Proof.
  intros W E. unfold cov_items. destruct (copy_full f W) as (c & -> & _ & _ & B & _ & V). cbn [bind]. unfold update_covform.
  rewrite E in V. rewrite V, B, E. cbn [bind]. rewrite B, E. destruct p as [[C m] w]. reflexivity.
Qed.
Lemma can_items_stored f p : wf_gauss f -> ga_can f = Some p ->
  can_items f = Ok (can_text p (match ga_cov f with Some _ => false | None => prec_vacuous (fst (fst p)) end)).
Proof.
  intros W E. unfold can_items. destruct (copy_full f W) as (c & -> & _ & A & _ & _ & V). cbn [bind]. unfold update_canform.
  rewrite A, E. cbn [bind]. rewrite A, E. rewrite V, E. destruct p as [[K h] g]. cbn [fst]. destruct (ga_cov f); reflexivity.
Qed.
(** [show] prints the forms the object has, as they are. *)
Theorem show_stored f : wf_gauss f ->
  g_show f = Ok (INames "vars" (ga_vars f) ::
    match ga_cov f with Some p => cov_text p | None => [] end ++
    match ga_can f with Some p => can_text p (match ga_cov f with Some _ => false | None => prec_vacuous (fst (fst p)) end) | None => [] end).
Proof.
  intros W. unfold g_show. destruct (ga_cov f) as [p|] eqn:Ev; [rewrite (cov_items_stored f p W Ev)|]; cbn [bind];
    (destruct (ga_can f) as [q|] eqn:Ec; [rewrite (can_items_stored f q W Ec), Ev|]; reflexivity).
Qed.
(** [__repr__] of a proper Gaussian. *)
Lemma get_can_text f : solid f -> exists f' p, get_can f = Ok (f', p) /\ can_items f = Ok (can_text p false).
Proof.
  intros Sf. pose proof Sf as (W & Vac & Coh & PK & PC). pose proof W as (Hd & Hf & Hc & Hv).
  destruct (copy_full f W) as (c & Ec & Vc & A & B & Wc & V).
  destruct (get_can_solid f Sf) as (f' & K & h & g & E & P & Sh). exists f', (K, h, g). split; [exact E|].
  unfold can_items. rewrite Ec. cbn [bind]. unfold get_can in E.
  destruct (ga_can f) as [[[K0 h0] g0]|] eqn:Ecan.
  - unfold update_canform in E |- *. rewrite Ecan in E. cbn [bind] in E. rewrite Ecan in E. injection E as <- <- <- <-.
    rewrite A. cbn [bind]. rewrite A. rewrite V. destruct (ga_cov f); cbn [can_text]; [reflexivity|].
    rewrite (posdef_not_vacuous K0); [reflexivity| |exact P]. destruct (Hc _ eq_refl) as (H1 & H2 & _). congruence.
  - destruct (ga_cov f) as [q|] eqn:Ecov; [|destruct Hf; congruence].
    assert (c = f) as ->; [|].
    { destruct c as [v1 v2 v3 v4], f as [w1 w2 w3 w4]. cbn in *. congruence. }
    destruct (update_canform f) as [f1|] eqn:EU; [|discriminate E]. cbn [bind] in E |- *.
    assert (ga_vac f1 = false) as HV.
    { unfold update_canform in EU. rewrite Ecan, Ecov in EU. destruct q as [[C m] w].
      destruct (np_inv C); [|discriminate]. cbn [bind] in EU. destruct (mmul _ _); [|discriminate]. cbn [bind] in EU.
      destruct (quad _ _); [|discriminate]. cbn [bind] in EU. destruct (det_2pi _); [|discriminate]. cbn [bind] in EU.
      destruct (utils_log _); [|discriminate]. cbn [bind] in EU. injection EU as <-. exact Vac. }
    destruct (ga_can f1) as [[[K1 h1] g1]|]; [|discriminate E]. injection E as <- <- <- <-. rewrite HV. reflexivity.
Qed.
Lemma get_cov_text f : solid f -> exists f' p, get_cov f = Ok (f', p) /\ cov_items f = Ok (cov_text p).
Proof.
  intros Sf. pose proof Sf as (W & Vac & Coh & PK & PC). pose proof W as (Hd & Hf & Hc & Hv).
  destruct (copy_full f W) as (c & Ec & Vc & A & B & Wc & V).
  destruct (cov_of_solid f Sf) as (f' & C & m & w & E & _). exists f', (C, m, w). split; [exact E|].
  assert (Vac' : ga_vac c = false).
  { rewrite V. destruct (ga_cov f); [reflexivity|]. destruct (ga_can f) as [[[K h] g]|] eqn:Ecan; [|reflexivity].
    apply posdef_not_vacuous; [destruct (Hc _ eq_refl) as (H1 & H2 & _); congruence|now apply (PK K h g)]. }
  assert (c = f) as ->.
  { destruct c as [v1 v2 v3 v4], f as [w1 w2 w3 w4]. cbn in *. congruence. }
  unfold cov_items. rewrite Ec. cbn [bind]. unfold get_cov in E. destruct (update_covform f) as [f1|]; [|discriminate E]. cbn [bind] in E |- *.
  destruct (ga_cov f1) as [[[C1 m1] w1]|]; [|discriminate E]. injection E as <- <- <- <-. reflexivity.
Qed.
Theorem repr_solid f : solid f -> exists K h g C m w fk fc,
  g_repr f = Ok (INames "vars" (ga_vars f) :: can_text (K, h, g) false ++ cov_text (C, m, w)) /\
  mk_can (ga_vars f) K h g = Ok fk /\ mk_cov (ga_vars f) C m w = Ok fc /\
  forall e, lp fk e = lp f e /\ lp fc e = lp f e.
Proof.
  intros Sf. pose proof Sf as (W & Vac & _). destruct (get_can_text f Sf) as (f1 & [[K h] g] & E1 & T1). destruct (get_cov_text f Sf) as (f2 & [[C m] w] & E2 & T2).
  destruct (get_can_solid f Sf) as (f1' & K' & h' & g' & E1' & PK & ShK). rewrite E1 in E1'. injection E1' as <- <- <- <-.
  destruct (solid_lp_cov f f2 C m w Sf E2) as (ShC & PC & L).
  pose proof (mk_can_ok (ga_vars f) K h g (proj1 W) ShK) as Mk. pose proof (mk_cov_ok (ga_vars f) C m w (proj1 W) ShC) as Mc.
  rewrite (posdef_not_vacuous K) in Mk; [|destruct ShK as (H1 & H2 & _); congruence|exact PK].
  do 6 eexists. exists (can_obj (ga_vars f) (K, h, g)), (cov_obj (ga_vars f) (C, m, w)).
  split; [unfold g_repr; rewrite Vac; cbn [negb]; rewrite T1; cbn [bind]; rewrite T2; cbn [bind]; reflexivity|].
  split; [exact Mk|]. split; [exact Mc|]. intros e. split; [symmetry; now apply (lp_can_obj f f1 K h g e W E1)|].
  pose proof (solid_cov (ga_vars f) C m w (proj1 W) ShC PC) as Sc.
  destruct (solid_lp_cov (cov_obj (ga_vars f) (C, m, w)) (cov_obj (ga_vars f) (C, m, w)) C m w Sc eq_refl) as (_ & _ & L').
  rewrite L, L'. reflexivity.
Qed.
(** Without a covariance form [__repr__] fails. *)
Theorem repr_vacuous f K h g : wf_gauss f -> ga_cov f = None -> ga_can f = Some (K, h, g) -> prec_vacuous K = true -> g_repr f = Err PyException.
Proof.
  intros W Ev Ec HV. unfold g_repr. assert (E : cov_items f = Err PyException).
  { unfold cov_items. destruct (copy_full f W) as (c & -> & _ & _ & _ & _ & V). cbn [bind]. rewrite Ev, Ec in V. unfold update_covform. rewrite V, HV. reflexivity. }
  rewrite E. rewrite (can_items_stored f _ W Ec). destruct (ga_vac f); reflexivity.
Qed.
Theorem repr_singular f K h g : wf_gauss f -> ga_cov f = None -> ga_can f = Some (K, h, g) -> prec_vacuous K = false -> mdet K = 0%R -> g_repr f = Err LinAlgError.
Proof.
  intros W Ev Ec HV D. unfold g_repr. pose proof W as (Hd & _ & Hc & _). destruct (Hc _ Ec) as (H1 & H2 & _). assert (E : cov_items f = Err LinAlgError).
  { unfold cov_items. destruct (copy_full f W) as (c & -> & _ & A & B & _ & V). cbn [bind]. rewrite Ev, Ec in V. unfold update_covform. rewrite V, HV, B, Ev, A, Ec.
    unfold np_inv. rewrite H1, H2, Nat.eqb_refl, D. unfold Req_b. destruct (Req_EM_T 0 R0); [reflexivity|contradiction]. }
  rewrite E. rewrite (can_items_stored f _ W Ec). destruct (ga_vac f); reflexivity.
Qed.
(** [show_vis]. *)
Theorem show_vis_solid f : solid f -> exists f' C m w,
  g_show_vis f = Ok (f', {| vi_heat := C; vi_rows := ga_vars f; vi_cols := ga_vars f; vi_bars := m; vi_ticks := ga_vars f |}) /\
  same_fun f f' /\ ga_vars f' = ga_vars f /\ nr C = length (ga_vars f) /\ nc C = length (ga_vars f) /\ nr m = length (ga_vars f) /\
  forall e, lp f e = cov_log_potential C m w (mcol (map e (ga_vars f))).
Proof.
  intros Sf. destruct (cov_of_solid f Sf) as (f' & C & m & w & E & S & V & Sh & P). destruct (solid_lp_cov f f' C m w Sf E) as (_ & _ & L).
  pose proof Sh as (H1 & H2 & H3 & H4). exists f', C, m, w. split; [|split; [exact S|split; [exact V|auto]]].
  unfold g_show_vis. rewrite E. cbn [bind]. rewrite V, H1, H2, H3, H4, !Nat.eqb_refl. reflexivity.
Qed.
Theorem show_vis_vacuous f : ga_vac f = true -> g_show_vis f = Err PyException.
Proof. intros H. unfold g_show_vis, get_cov, update_covform. now rewrite H. Qed.
