(** Converged runs over tables of both classes and over Gaussians, with the clusters at an edge. *)
From Verif Require Export GraphLocalMore GraphLocalEx.
From Verif Require Import DenseGraphEx GaussGraphEx.
From Coq Require Import Operators_Properties.
Local Open Scope string_scope.
Local Open Scope nat_scope.
Local Notation ido := SparseExamples.id_oracle.
Local Notation io := SparseExamples.id_oracle.
Local Notation ido_ok := SparseExamples.id_oracle_ok.

Lemma some_edge {F V} (ops : fops F V) o factors ev special g : oracle_ok o -> mk_graph ops o factors ev special = Ok g ->
  connected g -> 1 < length (g_cl g) -> exists i j S, edge_with g i j S.
Proof.
  intros Ho H C Hl. destruct (mk_graph_made ops o factors ev special g Ho H) as (reduced & final & M).
  pose proof (C 0 1 ltac:(lia) ltac:(lia)) as P. apply clos_rt_rt1n in P. inversion P as [|x y (k & p & Hp & H1 & H2) _]; subst.
  destruct (st_path _ _ (mk_struct _ _ _ _ _ _ _ _ M) k p Hp) as (S & HS). exists (p_snd p), (p_rcv p), S.
  now apply (made_edge ops o factors ev special reduced final g M).
Qed.
Lemma scope_kept {F} (ops : fops F nat) card good pt (L : lawful ops card good pt) o factors ev special g0 g i c0 : oracle_ok o ->
  (forall f, In f factors -> good f) -> mk_graph ops o factors ev special = Ok g0 -> history ops g0 g ->
  nth_error (g_cl g0) i = Some c0 ->
  exists c, nth_error (g_cl g) i = Some c /\ forall v, In v (f_vars ops (cl_fac c)) <-> In v (f_vars ops (cl_fac c0)).
Proof.
  intros Ho G H Hh Hi. destruct (mk_graph_made ops o factors ev special g0 Ho H) as (reduced & final & M).
  destruct (history_live ops card good pt L o factors ev special g0 Ho G reduced final g0 M (hi_init _ _)) as [_ LV0].
  destruct (history_live ops card good pt L o factors ev special g0 Ho G reduced final g M Hh) as [_ LV].
  pose proof (lv_inv _ _ _ _ _ _ _ _ LV0) as I0. pose proof (lv_inv _ _ _ _ _ _ _ _ LV) as I1.
  destruct (nth_error (g_cl g) i) as [c|] eqn:Ec.
  - exists c. split; [reflexivity|]. destruct (iv_cl _ _ _ _ _ _ _ _ I1 i c Ec) as (f & H1 & _ & (_ & H2) & _).
    destruct (iv_cl _ _ _ _ _ _ _ _ I0 i c0 Hi) as (f' & H1' & _ & (_ & H2') & _).
    assert (f = f') by congruence. subst f'. intros v. rewrite H2, H2'. tauto.
  - exfalso. apply nth_error_None in Ec. rewrite (iv_len _ _ _ _ _ _ _ _ I1), <- (iv_len _ _ _ _ _ _ _ _ I0) in Ec.
    apply nth_error_None in Ec. congruence.
Qed.

Lemma nth_fac {F V} (g : cgraph F V) l i f : map cl_fac (g_cl g) = l -> nth_error l i = Some f ->
  exists c, nth_error (g_cl g) i = Some c /\ cl_fac c = f.
Proof.
  intros <- H. rewrite nth_error_map in H. destruct (nth_error (g_cl g) i) as [c|]; [|discriminate].
  exists c. split; [reflexivity|]. cbn [option_map] in H. now injection H.
Qed.

Lemma gx_stopped : exists g max_iter g' c1 c2 res, mk_graph (sparse_ops ido) ido gx_chain0 None gx_special = Ok g /\
  length (g_cl g) <> 1 /\ process_graph (sparse_ops ido) 0 max_iter g = Ok g' /\
  length (g_dists g') < max_iter * length (g_order g) /\ (exists S, edge_with g 0 1 S) /\
  nth_error (g_cl g') 0 = Some c1 /\ nth_error (g_cl g') 1 = Some c2 /\
  In "b,c" (svars (cl_fac c1)) /\ In "b,c" (svars (cl_fac c2)) /\ get_marginal (sparse_ops ido) g' ["b,c"] = Ok res.
Proof.
  destruct gx_converges as (g & n & g' & res & H & TR & Hl & Hp & Hlt & Hr). exists g, n, g'.
  assert (Hh : history (sparse_ops ido) g g') by (eapply hi_process; [apply hi_init|left; exact Hl|exact Hp]).
  destruct (gx_links gx_chain0 gx_special g (or_intror eq_refl) (or_intror eq_refl) H) as (_ & HE & Hf & _).
  destruct (g_cl g) as [|a [|b l]] eqn:Eg; try discriminate. cbn [map] in Hf. injection Hf as Fa Fb _.
  destruct (scope_kept _ two (sgood two) spot (sparse_lawful two ido ido_ok) ido gx_chain0 None gx_special g g' 0 a ido_ok gx_chain0_good H Hh)
    as (c1 & E1 & V1); [now rewrite Eg|].
  destruct (scope_kept _ two (sgood two) spot (sparse_lawful two ido ido_ok) ido gx_chain0 None gx_special g g' 1 b ido_ok gx_chain0_good H Hh)
    as (c2 & E2 & V2); [now rewrite Eg|].
  exists c1, c2, res. split; [exact H|]. split; [discriminate|]. split; [exact Hp|]. split; [exact Hlt|].
  split.
  { destruct (mk_graph_made _ ido gx_chain0 None gx_special g ido_ok H) as (reduced & final & M).
    destruct (proj2 (HE 0 1)) as (k & p & Hk & P1 & P2); [now left|].
    destruct (st_path _ _ (mk_struct _ _ _ _ _ _ _ _ M) k p Hk) as (S & HS). rewrite P1, P2 in HS. exists S.
    now apply (made_edge _ ido gx_chain0 None gx_special reduced final g M). }
  split; [exact E1|]. split; [exact E2|]. split; [apply V1; rewrite Fa; right; now left|]. split; [apply V2; rewrite Fb; now left|exact Hr].
Qed.

Lemma dx_stopped : exists g max_iter g' c1 c2 res, mk_graph (dense_ops ido) ido dx_chain None dx_special = Ok g /\
  lined g /\ length (g_cl g) <> 1 /\ process_graph (dense_ops ido) 0 max_iter g = Ok g' /\
  length (g_dists g') < max_iter * length (g_order g) /\ nth_error (g_cl g') 0 = Some c1 /\ nth_error (g_cl g') 1 = Some c2 /\
  In "b" (dvars (cl_fac c1)) /\ In "b" (dvars (cl_fac c2)) /\ get_marginal (dense_ops ido) g' ["b"] = Ok res.
Proof.
  destruct dx_made as (g & H & H1 & TR & Hl).
  destruct (dense_bounded dx_card dx_nm ido ido_ok dx_chain None dx_special g dx_chain_good H H1 dx_env I dx_agrees dx_fits TR) as (N & HN).
  destruct (dense_never_fails dx_card dx_nm ido ido_ok dx_chain None dx_special g dx_chain_good H H1 g dx_env (hi_init _ _) I dx_agrees dx_fits) as [_ B].
  destruct (B 0%R (S N)) as (g' & Hg').
  { repeat constructor. intros []. }
  { intros c E. rewrite E in Hl. discriminate. }
  assert (Hh : history (dense_ops ido) g g') by (eapply hi_process; [apply hi_init|left; lia|exact Hg']).
  destruct (dense_marginal_some dx_card dx_nm ido ido_ok dx_chain None dx_special g dx_chain_good H H1 g' "b" (dx ["a"; "b"]) dx_env Hh I dx_agrees dx_fits) as (res & Hr).
  { left; reflexivity. }
  { right; left; reflexivity. }
  { intros []. }
  { intros [E|[]]. discriminate. }
  destruct (dx_links g H) as (_ & HE & Hf).
  destruct (run_inv dx_card dx_nm ido ido_ok dx_chain None dx_special g dx_chain_good H H1 g' Hh) as [Hh' _].
  pose proof (proj1 (built dx_card dx_nm ido ido_ok dx_chain None dx_special g dx_chain_good H H1)) as Ha.
  destruct (nth_fac g dx_chain 0 (dx ["a"; "b"]) Hf eq_refl) as (a & Ea & Fa).
  destruct (nth_fac g dx_chain 1 (dx ["b"; "c"]) Hf eq_refl) as (b & Eb & Fb).
  pose proof (aligned_lawful dx_card dx_nm ido) as L.
  destruct (scope_kept _ _ _ _ L ido dx_chain None dx_special g g' 0 a ido_ok dx_chain_good Ha Hh' Ea) as (c1 & E1 & V1).
  destruct (scope_kept _ _ _ _ L ido dx_chain None dx_special g g' 1 b ido_ok dx_chain_good Ha Hh' Eb) as (c2 & E2 & V2).
  exists g, (S N), g', c1, c2, res. split; [exact H|]. split; [exact H1|]. split; [rewrite Hl; discriminate|]. split; [exact Hg'|]. split.
  { specialize (HN g 0%R (S N) g' (hi_init _ _) (Rle_refl 0) Hg').
    assert (0 < length (g_order g)).
    { rewrite (Permutation_length (queue_all _ _ _ _ _ _ _ _ _ ido_ok H (hi_init _ _))), seq_length.
      destruct (proj2 (HE 0 1)) as (k & p & Hk & _); [now left|]. assert (k < length (g_paths g)) by (apply nth_error_Some; congruence). lia. }
    destruct (length (g_order g)); lia. }
  split; [exact E1|]. split; [exact E2|]. split; [apply V1; rewrite Fa; right; now left|]. split; [apply V2; rewrite Fb; now left|exact Hr].
Qed.
Lemma gg_edge : exists g0 g i j S ci cj, mk_graph (gauss_ops io) io gg_chain None gg_special = Ok g0 /\
  history (gauss_ops io) g0 g /\
  (forall k p e, nth_error (g_paths g) k = Some p ->
     gval (m_fac (p_next p)) e = match p_prev p with Some m => gval (m_fac m) e | None => 1%R end) /\
  edge_with g0 i j S /\ nth_error (g_cl g) i = Some ci /\ nth_error (g_cl g) j = Some cj.
Proof.
  destruct gg_calibrated as (g0 & g & res & H & Hh & TR & Hl & Q & _).
  destruct (mk_graph_made _ io gg_chain None gg_special g0 ido_ok H) as (reduced & final & M).
  destruct (some_edge (gauss_ops io) io gg_chain None gg_special g0 ido_ok H (proj1 TR) ltac:(lia)) as (i & j & S & E).
  destruct (history_static _ _ _ _ _ _ _ _ _ M Hh) as (SA & _).
  destruct (st_edge _ _ (sa_struct _ _ _ SA) i j S) as (L1 & L2 & _); [now apply (made_edge _ io gg_chain None gg_special reduced final g0 M)|].
  apply nth_error_Some in L1, L2. destruct (nth_error (g_cl g) i) as [ci|] eqn:E1; [|congruence].
  destruct (nth_error (g_cl g) j) as [cj|] eqn:E2; [|congruence]. exists g0, g, i, j, S, ci, cj. auto 10.
Qed.
