(** Cluster graphs over Gaussian mixtures have no edges. *)
From Coq Require Import Lia Relation_Operators.
From Verif Require Export MixGraphModel GraphTheorems.
From Verif Require Import IntKL2 IntFull SparseExamples MixMarg PlotMix NlgFacts NlgMix GraphMk.
From Verif Require Import GraphTree.
Local Open Scope nat_scope.
Local Open Scope string_scope.
Local Open Scope list_scope.

Lemma no_distance_no_paths {F V} (ops : fops F V) o factors ev special g : oracle_ok o -> (forall f, exists e, f_dist ops f = Err e) ->
  mk_graph ops o factors ev special = Ok g -> g_paths g = [].
Proof.
  intros Ho H E. destruct (mk_graph_made ops o factors ev special g Ho E) as (reduced & final & M).
  destruct (g_paths g) as [|p ps] eqn:Ep; [reflexivity|exfalso]. destruct (mk_path _ _ _ _ _ _ _ _ M 0 p ltac:(now rewrite Ep)) as (_ & I).
  unfold info_gain in I. destruct (H (m_fac (p_next p))) as (e & He). congruence.
Qed.
Lemma mix_graph_alone o factors ev special g : oracle_ok o -> mk_graph (mix_ops o) o factors ev special = Ok g ->
  g_paths g = [] /\ forall v i j, ~ In v (all_evidence ev special) -> in_scope (mix_ops o) g v i -> in_scope (mix_ops o) g v j -> i = j.
Proof.
  intros Ho E. pose proof (no_distance_no_paths (mix_ops o) o factors ev special g Ho ltac:(intros f; eexists; reflexivity) E) as P. split; [exact P|].
  intros v i j Hv Hi Hj. destruct (running_intersection (mix_ops o) o factors ev special g v Ho E Hv) as (_ & C & _). specialize (C i j Hi Hj).
  assert (N : forall a b, ~ edge_var g v a b). { intros a b (S & (k & p & ci & cj & Hp & _) & _). rewrite P in Hp. destruct k; discriminate. }
  clear Hi Hj. induction C as [a b H|a|a b c _ IH1 _ IH2]; [destruct (N a b H)|reflexivity|congruence].
Qed.
Definition mgx (vs : list string) : gmix := {| gm_vars := vs; gm_comps := [stdg vs [0; 1]%R 0; stdg vs [2; 3]%R 0] |}.
Lemma mgx_solid x y : x <> y -> solid_mix (mgx [x; y]).
Proof.
  intros N. split; [discriminate|]. assert (D : NoDup [x; y]) by (constructor; [intros [H|[]]; congruence|constructor; [intros []|constructor]]).
  intros c [<-|[<-|[]]]; (split; [now apply stdg_solid|reflexivity]).
Qed.
Lemma mix_reduce_nothing a : solid_mix a -> gm_vars a <> [] -> exists r, mix_reduce a [] [] = Ok r /\ solid_mix r /\ forall v, In v (gm_vars r) <-> In v (gm_vars a).
Proof.
  intros (Hn & H) Nv. unfold mix_reduce. set (vs := ssort (set_diff (gm_vars a) [])).
  destruct (mapM_F2 (fun c => g_reduce c [] []) (fun c r => solid r /\ ga_vars r = vs) (gm_comps a)) as (rs & E & F).
  { intros c Hc. destruct (H c Hc) as (Sc & Vc). destruct (reduce_solid c [] [] Sc (NoDup_nil _)) as (r & Er & Sr & Vr & _); [intros v []| |reflexivity|].
    - intros I. rewrite Vc in I. destruct (gm_vars a) as [|v l]; [congruence|]. destruct (I v (or_introl eq_refl)).
    - exists r. split; [exact Er|]. split; [exact Sr|]. rewrite Vr. unfold rest, vs. now rewrite Vc. }
  assert (G : forall r, In r rs -> solid r /\ ga_vars r = vs) by (intros r Hr; now destruct (F2_in_r _ _ _ r F Hr) as (c & _ & Pr)).
  rewrite E. cbn [bind]. assert (Ne : rs <> []) by (intros ->; inversion F; congruence).
  assert (Ec : mapM g_copy rs = Ok rs) by (rewrite (mapM_ok g_copy (fun c => c)); [now rewrite map_id|]; intros c Hc; apply copy_solid_id; now apply G).
  destruct rs as [|r0 rs']; [congruence|]. unfold mk_mix. rewrite Ec. cbn [bind].
  assert (forallb (fun c => eqb (ga_vars r0) (ga_vars c)) (r0 :: rs') = true) as ->.
  { apply forallb_forall. intros c Hc. apply eqb_true. destruct (G c Hc) as (_ & ->). apply G. now left. }
  eexists. split; [reflexivity|]. split.
  - split; [discriminate|]. intros c Hc. destruct (G c Hc) as (Sc & Vc). split; [exact Sc|]. cbn [gm_vars]. rewrite Vc. symmetry. apply G. now left.
  - intros v. cbn [gm_vars]. rewrite (proj2 (G r0 (or_introl eq_refl))). 
    destruct (gm_comps a) as [|c0 cs]; [congruence|]. destruct (H c0 (or_introl eq_refl)) as (_ & V0). unfold vs. rewrite <- V0. change (In v (GaussReduce.rest c0 []) <-> In v (ga_vars c0)).
    rewrite GaussReduce.rest_In. cbn. tauto.
Qed.
Lemma mgx_message : exists r0 r, mix_reduce (mgx ["a"; "b"]) [] [] = Ok r0 /\ mix_marginalize id_oracle r0 ["b"] true = Ok r.
Proof.
  destruct (mix_reduce_nothing (mgx ["a"; "b"]) (mgx_solid "a" "b" ltac:(discriminate)) ltac:(discriminate)) as (r0 & E0 & (H1 & H2) & V0).
  destruct (mix_marg_spec id_oracle r0 ["b"] SparseExamples.id_oracle_ok) as (r & E & _); [split; [exact H1|]; intros c Hc; destruct (H2 c Hc) as ((W & _) & V); now split|
    intros c Hc; now destruct (H2 c Hc)|repeat constructor; intros []|intros v [<-|[]]; apply V0; cbn; auto|]. now exists r0, r.
Qed.
Lemma mgx_fails : mk_graph (mix_ops id_oracle) id_oracle [mgx ["a"; "b"]; mgx ["b"; "c"]] None [] = Err NotImplementedError.
Proof.
  destruct mgx_message as (r0 & r & E0 & E).
  assert (A : absorb_subsets (mix_ops id_oracle) [mgx ["a"; "b"]; mgx ["b"; "c"]] = Ok [mgx ["a"; "b"]; mgx ["b"; "c"]]) by reflexivity.
  unfold mk_graph. cbn -[mgx absorb_subsets build_graph mix_ops new_cluster]. rewrite A. cbn [bind].
  unfold build_graph. cbn -[mix_marginalize mix_reduce stdg]. unfold new_path at 1, make_message. cbn [mix_ops f_reduce f_marg f_dist cl_seps cl_fac cl_spec cl_id dkeys dvals map].
  change (dget_r [("c1#b,c", ["b"])] "c1#b,c") with (Ok ["b"]). cbn [bind]. rewrite E0. cbn [bind]. rewrite E. reflexivity.
Qed.
(** With no edges there is nothing to pass. *)
Lemma mix_graph_idle o factors ev special g tol n : oracle_ok o -> mk_graph (mix_ops o) o factors ev special = Ok g -> length (g_cl g) <> 1 ->
  exists g', process_graph (mix_ops o) tol n g = Ok g' /\ g_cl g' = g_cl g /\ g_passed g' = 0 /\ g_dists g' = [].
Proof.
  intros Ho E N. pose proof (proj1 (mix_graph_alone o factors ev special g Ho E)) as P.
  destruct (mk_graph_made (mix_ops o) o factors ev special g Ho E) as (reduced & final & M). pose proof (mk_order _ _ _ _ _ _ _ _ M) as O. rewrite P in O. cbn in O.
  pose proof (mk_passed _ _ _ _ _ _ _ _ M) as Q. exists (sort_paths (reset_dists g)). unfold process_graph. cbn [g_cl reset_dists].
  destruct (g_cl g) as [|c [|c' cs]] eqn:Ec; [|now contradiction N|]; (split; [unfold reset_dists at 1; cbn [g_order]; rewrite O; cbn [length]; rewrite Nat.mul_0_r; reflexivity|]);
    (split; [exact Ec|]); (split; [exact Q|reflexivity]).
Qed.
(** Two mixtures without shared variables. *)
Lemma mgx_separate : exists g, mk_graph (mix_ops id_oracle) id_oracle [mgx ["a"; "b"]; mgx ["c"; "d"]] None [] = Ok g /\ length (g_cl g) = 2.
Proof.
  assert (A : absorb_subsets (mix_ops id_oracle) [mgx ["a"; "b"]; mgx ["c"; "d"]] = Ok [mgx ["a"; "b"]; mgx ["c"; "d"]]) by reflexivity.
  unfold mk_graph. cbn -[mgx absorb_subsets build_graph mix_ops new_cluster]. rewrite A. cbn [bind].
  unfold build_graph. cbn -[mix_marginalize mix_reduce stdg]. eexists. split; reflexivity.
Qed.
