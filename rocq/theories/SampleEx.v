(** Moments of samples, and instances for the properties of samples. *)
From Verif Require Export SampleNlg.
From Verif Require Import IntMoment2 IntFull IntKL IntKL2 MixExamples GaussExamples.
#[global] Set Bullet Behavior "Strict Subproofs".
Local Open Scope string_scope.
Local Open Scope list_scope.
Local Open Scope R_scope.

Theorem sample_moments f f' C m w e : solid f -> get_cov f = Ok (f', (C, m, Fin w)) ->
  iint (ga_vars f) (std_density (ga_vars f)) e 1 /\
  (forall u, In u (ga_vars f) -> iint (ga_vars f) (fun z => sampled f z u * std_density (ga_vars f) z) e (named_coord m (ga_vars f) u)) /\
  (forall u v, In u (ga_vars f) -> In v (ga_vars f) ->
     iint (ga_vars f) (fun z => (sampled f z u - named_coord m (ga_vars f) u) * (sampled f z v - named_coord m (ga_vars f) v) * std_density (ga_vars f) z) e (named_entry C (ga_vars f) u v)).
Proof.
  intros S G. destruct (solid_lp_cov f f' C m (Fin w) S G) as (Sh & P & L0).
  assert (Pf : plain f).
  { intros e0 l L. rewrite L0, (cov_log_potential_ok (length (ga_vars f))) in L; [|exact Sh|split; [apply P|now apply posdef_det]|apply map_length]. injection L as <-. exact I. }
  split; [|split].
  - apply (iint_ext _ (fun z => (fun _ => 1) (sampled f z) * std_density (ga_vars f) z)); [intros z; ring|]. apply (sample_law f f' C m w (fun _ => 1) e 1 S G).
    apply (iint_ext _ (gval f)); [intros z; ring|]. rewrite Rmult_1_l. exact (proj2 (weight_integral f f' C m (Fin w) _ e S Pf G (Permutation_refl _))).
  - intros u Hu. apply (sample_law f f' C m w (fun x => x u) e _ S G). exact (raw_moment1 f f' C m (Fin w) _ e u S Pf G (Permutation_refl _) Hu).
  - intros u v Hu Hv. apply (sample_law f f' C m w (fun x => (x u - named_coord m (ga_vars f) u) * (x v - named_coord m (ga_vars f) v)) e _ S G).
    exact (cov_moment _ f f' C m (Fin w) e u v S Pf G (Permutation_refl _) Hu Hv).
Qed.
Lemma mix_ab_probs : exists ps, mix_probs mix_ab = Ok ps.
Proof.
  destruct mix_ab_int as (_ & W & HS & _). destruct (weights_ok mix_ab W HS) as (ws & Ew & F). unfold mix_probs. rewrite Ew. cbn [bind].
  exists (map (fun w => w / Rsum ws) ws). apply probs_ok.
  destruct ex_ab_weight as (f' & C & m & w & G). cbn [mix_ab gm_comps] in F. inversion F as [|? w1 ? l1 (_ & (? & ? & ? & ? & G1 & _ & ->) & _) F1]; subst. inversion F1 as [|? w2 ? l2 (_ & (? & ? & ? & ? & G2 & _ & ->) & _) F2]; subst. inversion F2; subst.
  rewrite G in G1, G2. injection G1 as <- <- <- <-. injection G2 as <- <- <- <-. cbn. pose proof (exp_pos w). intros X. lra.
Qed.
(** A covariance that is not positive definite. *)
Lemma flat_cov : exists f f' C m w, mk_cov ["a"; "b"] (Mat 2 2 (fun _ _ => 1)) (mzeros 2 1) (Fin 0) = Ok f /\ get_cov f = Ok (f', (C, m, w)) /\ symm C /\ ~ posdef C.
Proof.
  rewrite mk_cov_ok; [|now apply nd2|now repeat split]. do 5 eexists. split; [reflexivity|]. split; [reflexivity|]. split; [intros i j _ _; reflexivity|].
  intros (_ & H). specialize (H (fun i => match i with 0%nat => 1 | _ => -1 end)). cbn [nr] in H. unfold qsum, rsum in H. cbn in H.
  assert (X : exists i, (i < 2)%nat /\ match i with 0%nat => 1 | _ => -1 end <> 0) by (exists 0%nat; split; [lia|lra]). specialize (H X). lra.
Qed.
Lemma zero_mix : exists a, wf_mix a /\ (forall c, In c (gm_comps a) -> solid c /\ plain c) /\ iint (gm_vars a) (mval a) (fun _ => 0) 0.
Proof.
  assert (Hd : NoDup ["a"]) by (repeat constructor; intros []). assert (Sh : forall w, shaped (length ["a"]) (meye 1, mzeros 1 1, w)) by (intros w; now repeat split).
  set (f := cov_obj ["a"] (meye 1, mzeros 1 1, NInf)). assert (S : solid f) by (apply solid_cov; [exact Hd|apply Sh|apply eye_posdef]).
  assert (L : forall e, lp f e = Ok NInf).
  { intros e. destruct (solid_lp_cov f f (meye 1) (mzeros 1 1) NInf S (get_cov_obj _ _)) as (_ & P & L0). rewrite L0, (cov_log_potential_ok 1); [reflexivity|apply Sh|split; [apply P|now apply posdef_det]|reflexivity]. }
  assert (Pf : plain f) by (intros e l; rewrite L; intros [= <-]; exact I).
  exists {| gm_vars := ["a"]; gm_comps := [f] |}. assert (W : wf_mix {| gm_vars := ["a"]; gm_comps := [f] |}) by (split; [discriminate|intros c [<-|[]]; split; [apply S|reflexivity]]).
  split; [exact W|]. split; [intros c [<-|[]]; now split|]. cbn [gm_vars]. apply (iint_ext _ (gval f)).
  - intros x. assert (E : mval {| gm_vars := ["a"]; gm_comps := [f] |} x = Rsum (map (fun c => gval c x) [f])) by (apply (mval_sum _ x W); intros c [<-|[]]; exact Pf). rewrite E. cbn. ring.
  - exact (proj2 (weight_integral f f (meye 1) (mzeros 1 1) NInf ["a"] (fun _ => 0) S Pf (get_cov_obj _ _) (Permutation_refl _))).
Qed.
Lemma no_samples : exists a c ps, wf_mix a /\ (forall c, In c (gm_comps a) -> solid c /\ plain c) /\ In c (gm_comps a) /\ mix_probs a = Ok ps /\
  (forall Zs, mix_sample a [] Zs = Err ValueError) /\ forall Z, exists c' X, g_sample c 0 Z = Ok (c', X) /\ nr X = length (gm_vars a) /\ nc X = 0%nat.
Proof.
  destruct mix_ab_int as (_ & W & HS & _). destruct mix_ab_probs as (ps & Ep). exists mix_ab, ex_ab, ps. split; [exact W|]. split; [exact HS|]. split; [now left|]. split; [exact Ep|]. split.
  - intros Zs. apply (mix_sample_ok mix_ab [] Zs ps W HS Ep); [intros k []|reflexivity].
  - intros Z. destruct ex_ab_weight as (f' & C & m & w & G). destruct (g_sample_columns ex_ab f' C m (Fin w) 0 Z ex_ab_solid G) as (X & E & X1 & X2 & _). exists f', X. now split.
Qed.
Lemma random_ab : exists f, make_random_gaussian ["a"; "b"] (fun i j => INR (i + j + 1)) (fun i _ => INR i) = Ok f /\ solid f /\ ga_vars f = ["a"; "b"].
Proof.
  destruct (proj2 (proj2 (random_spec ["a"; "b"] (fun i j => INR (i + j + 1)) (fun i _ => INR i)))) as (f & _ & _ & _ & E & V & S & _); [discriminate|now apply nd2|intros i _; apply lt_0_INR; lia|].
  exists f. split; [exact E|]. split; [exact S|exact V].
Qed.
