(** Remaining corollaries and examples used by PropGraph.v and PropMessage.v. *)
From Verif Require Export GraphExamples2.
Local Open Scope string_scope.
Local Open Scope nat_scope.

Lemma sparse_not_nested o factors final : oracle_ok o -> absorb_subsets (sparse_ops o) factors = Ok final ->
  (forall c i j fc fi fj, i < j -> nth_error factors c = Some fc -> nth_error factors i = Some fi ->
     nth_error factors j = Some fj -> ~ (strict_in (svars fc) (svars fi) /\ strict_in (svars fi) (svars fj))) ->
  forall a b, In a final -> In b final -> ~ strict_in (svars a) (svars b).
Proof.
  intros Ho H Hc. apply (absorb_not_nested (sparse_ops o) factors); [|exact H|].
  - intros a b r Hr. exact (s_multiply_vars o a b r Ho Hr).
  - intros c i j Hcn Hij H1 H2. unfold scope_at in *.
    destruct (nth_error factors j) as [fj|] eqn:Ej; [|destruct H2 as [A B]; apply B; intros v []].
    destruct (nth_error factors i) as [fi|] eqn:Ei; [|destruct H1 as [A B]; apply B; intros v []].
    destruct (nth_error factors c) as [fc|] eqn:Ec; [exact (Hc c i j fc fi fj Hij Ec Ei Ej (conj H1 H2))|].
    apply nth_error_None in Ec. lia.
Qed.

Lemma gx_ordered : forall c i j fc fi fj, i < j -> nth_error [gx_abc; gx_ab; gx_a; gx_cd] c = Some fc ->
  nth_error [gx_abc; gx_ab; gx_a; gx_cd] i = Some fi -> nth_error [gx_abc; gx_ab; gx_a; gx_cd] j = Some fj ->
  ~ (strict_in (svars fc) (svars fi) /\ strict_in (svars fi) (svars fj)).
Proof.
  intros c i j fc fi fj Hij Hc Hi Hj [_ [H _]].
  destruct i as [|[|[|[|i]]]]; cbn in Hi; try (destruct i; discriminate); inversion Hi; subst fi;
  destruct j as [|[|[|[|j]]]]; cbn in Hj; try (destruct j; discriminate); inversion Hj; subst fj; try lia;
  apply subsetb_incl in H; vm_compute in H; discriminate.
Qed.

Lemma graph_total' : forall F V (ops : fops F V) o factors ev special, oracle_ok o ->
  (forall a b, exists r, f_mul ops a b = Ok r) -> (forall a vs xs, exists r, f_reduce ops a vs xs = Ok r) ->
  (forall a vs, exists r, f_marg ops a vs = Ok r) -> (forall a, exists r, f_dist ops a = Ok r) ->
  (forall a b, exists r, f_cancel ops a b = Ok r) -> (forall a b, exists r, f_kl ops a b = Ok r) ->
  exists g, mk_graph ops o factors ev special = Ok g.
Proof.
  intros F V ops o factors ev special Ho H1 H2 H3 H4 H5 H6. apply graph_total; [exact Ho|].
  intros e [(a & b & E)|[(a & b & c & E)|[(a & b & E)|[(a & E)|[(a & b & E)|(a & b & E)]]]]].
  - destruct (H1 a b); congruence.
  - destruct (H2 a b c); congruence.
  - destruct (H3 a b); congruence.
  - destruct (H4 a); congruence.
  - destruct (H5 a b); congruence.
  - destruct (H6 a b); congruence.
Qed.

Lemma gx_built_final g : mk_graph (sparse_ops rev_oracle) rev_oracle (gx_a :: gx_chain) gx_ev gx_special = Ok g ->
  map (fun c => svars (cl_fac c)) (g_cl g) = [["b,c"]; ["b,c"; "1#c"]; ["1#c"; "d"]].
Proof.
  intros H. destruct (mk_graph_made _ rev_oracle _ gx_ev gx_special g rev_oracle_ok H) as (reduced & final & M).
  rewrite <- (map_map cl_fac svars), (made_facs _ _ _ _ _ _ _ _ M).
  pose proof (mk_reduced _ _ _ _ _ _ _ _ M) as E1. pose proof (mk_final _ _ _ _ _ _ _ _ M) as E2.
  cbv -[Rplus IZR Rdiv Ropp] in E1. inversion E1; subst reduced. cbv -[Rplus IZR Rdiv Ropp] in E2. inversion E2; subst final. reflexivity.
Qed.

Lemma gx_shared : exists g, mk_graph (sparse_ops rev_oracle) rev_oracle (gx_a :: gx_chain) gx_ev gx_special = Ok g /\
  ~ In "b,c" (all_evidence gx_ev gx_special) /\ in_scope (sparse_ops rev_oracle) g "b,c" 0 /\ in_scope (sparse_ops rev_oracle) g "b,c" 1.
Proof.
  destruct gx_built as (g & Hg). exists g. split; [exact Hg|]. split; [intros H; cbn in H; intuition discriminate|].
  pose proof (gx_built_final g Hg) as E. unfold in_scope. clear Hg. destruct (g_cl g) as [|c1 [|c2 rest]]; try discriminate E.
  cbn [map] in E. assert (E1 : svars (cl_fac c1) = ["b,c"]) by congruence. assert (E2 : svars (cl_fac c2) = ["b,c"; "1#c"]) by congruence.
  split; [exists c1|exists c2]; (split; [reflexivity|]); cbn [f_vars sparse_ops]; [rewrite E1|rewrite E2]; cbn; tauto.
Qed.
Lemma gx_edge : exists g j s, mk_graph (sparse_ops rev_oracle) rev_oracle (gx_a :: gx_chain) gx_ev gx_special = Ok g /\ edge_with g 0 j s.
Proof.
  destruct gx_shared as (g & Hg & Hv & H0 & H1).
  destruct (running_intersection _ rev_oracle _ _ _ g "b,c" rev_oracle_ok Hg Hv) as (_ & C & _).
  specialize (C 0 1 H0 H1). apply clos_rt_rt1n in C. inversion C as [|y z (s & E & _) _]; subst. exists g, y, s. auto.
Qed.

(** Corollaries in the form used by PropMessage.v. *)
Lemma never_stale' : forall F V (ops : fops F V) o factors ev special g0 g,
  oracle_ok o -> mk_graph ops o factors ev special = Ok g0 -> history ops g0 g ->
  forall k p, nth_error (g_paths g) k = Some p ->
  exists ci cj, nth_error (g_cl g) (p_snd p) = Some ci /\ nth_error (g_cl g) (p_rcv p) = Some cj /\
    make_message ops ci (cl_id cj) = Ok (p_next p).
Proof.
  intros F V ops o factors ev special g0 g Ho H Hh k p Hp.
  destruct (paths_end ops o factors ev special g0 g Ho H Hh k p Hp) as (ci & cj & H1 & H2). exists ci, cj.
  split; [exact H1|]. split; [exact H2|]. exact (never_stale ops o factors ev special g0 g Ho H Hh k p ci cj Hp H1 H2).
Qed.
Lemma queue_all : forall F V (ops : fops F V) o factors ev special g0 g,
  oracle_ok o -> mk_graph ops o factors ev special = Ok g0 -> history ops g0 g ->
  Permutation (g_order g) (seq 0 (length (g_paths g))).
Proof.
  intros F V ops o factors ev special g0 g Ho H Hh. destruct (mk_graph_made ops o factors ev special g0 Ho H) as (reduced & final & M).
  destruct (history_static ops _ _ _ _ _ _ _ _ M Hh) as (SA & _). exact (st_order _ _ (sa_struct _ _ _ SA)).
Qed.
Lemma greedy_steps : forall F V (ops : fops F V) o factors ev special g0 g tol max_iter g',
  oracle_ok o -> mk_graph ops o factors ev special = Ok g0 -> history ops g0 g ->
  process_graph ops tol max_iter g = Ok g' -> length (g_cl g) <> 1 ->
  exists steps, run ops (sort_paths (reset_dists g)) steps g' /\
    (forall s k, In (s, k) steps -> (forall q, q < length (g_paths s) -> gain_of (g_paths s) q <> NaN) ->
       forall q, q < length (g_paths s) -> vltb (gain_of (g_paths s) k) (gain_of (g_paths s) q) = false).
Proof.
  intros F V ops o factors ev special g0 g tol max_iter g' Ho H Hh Hp Hl.
  destruct (greedy_run ops o factors ev special g0 g tol max_iter g' Ho H Hh Hp Hl) as (steps & H1 & _ & H3 & _). eauto.
Qed.
Lemma early_stop : forall F V (ops : fops F V) o factors ev special g0 g tol max_iter g',
  oracle_ok o -> mk_graph ops o factors ev special = Ok g0 -> history ops g0 g ->
  process_graph ops tol max_iter g = Ok g' -> length (g_cl g) <> 1 ->
  (forall q, q < length (g_paths g') -> gain_of (g_paths g') q <> NaN) ->
  length (g_dists g') = max_iter * length (g_order g) \/
  (length (g_dists g') < max_iter * length (g_order g) /\
   forall k, k < length (g_paths g') -> vleb (gain_of (g_paths g') k) (Fin tol) = true).
Proof.
  intros F V ops o factors ev special g0 g tol max_iter g' Ho H Hh Hp Hl Hc.
  destruct (greedy_run ops o factors ev special g0 g tol max_iter g' Ho H Hh Hp Hl) as (steps & _ & Hs & _ & H4).
  destruct (bounded_passes ops tol max_iter g g' Hp Hl) as (ks & h & B1 & _ & _ & _ & _ & B2).
  destruct (Nat.eq_dec (length (g_dists g')) (max_iter * length (g_order g))) as [E|N]; [left; exact E|right].
  assert (LT : length (g_dists g') < max_iter * length (g_order g)) by lia. split; [exact LT|].
  apply H4; [lia|exact Hc].
Qed.
Lemma sparse_exact : forall card o factors ev special g0 g vrs res, oracle_ok o ->
  (forall f, In f factors -> sgood card f) -> mk_graph (sparse_ops o) o factors ev special = Ok g0 ->
  tree_shaped g0 -> history (sparse_ops o) g0 g ->
  (forall k p e, nth_error (g_paths g) k = Some p -> (forall v, In v (svars (m_fac (p_next p))) -> e v < card v) ->
     spot (m_fac (p_next p)) e = match p_prev p with Some m => spot (m_fac m) e | None => 1%R end) ->
  NoDup vrs -> (forall v, In v vrs -> ~ In v (dkeys special)) -> get_marginal (sparse_ops o) g vrs = Ok res ->
  (forall v, In v (svars res) <-> In v vrs) /\
  forall rem e, agrees_opt ev e -> agrees special e -> NoDup rem ->
    (forall v, In v rem <-> (exists f, In f factors /\ In v (svars f)) /\
        ~ In v (observed ev) /\ ~ In v (dkeys special) /\ ~ In v vrs) ->
    spot res e = sum_over card rem (fun e' => Rprod (map (fun f => spot f e') factors)) e.
Proof.
  intros card o factors ev special g0 g vrs res Ho G H TR Hh NT Hn Hd Hm.
  exact (exact_marginal (sparse_ops o) card (sgood card) spot (sparse_lawful card o Ho) o factors ev special g0 Ho G H g _ vrs res Hh TR
    (nothing_settled (sparse_ops o) card spot g NT) (fun _ _ => eq_refl) Hn Hd Hm).
Qed.
Lemma sparse_never_fails : forall card o factors ev special g0 e0 g, oracle_ok o ->
  (forall f, In f factors -> sgood card f) -> mk_graph (sparse_ops o) o factors ev special = Ok g0 ->
  agrees_opt ev e0 -> agrees special e0 -> (forall f, In f factors -> spot f e0 <> 0%R) ->
  history (sparse_ops o) g0 g ->
  (forall k, k < length (g_paths g) -> exists g', pass_path (sparse_ops o) g k = Ok g') /\
  (forall tol max_iter, NoDup (dkeys special) ->
     (forall c, g_cl g = [c] -> incl (dkeys special) (svars (cl_fac c))) ->
     exists g', process_graph (sparse_ops o) tol max_iter g = Ok g').
Proof.
  intros card o factors ev special g0 e0 g Ho G H P1 P2 P3 Hh.
  destruct (never_fails (sparse_ops o) card (sgood card) spot (sparse_lawful card o Ho) o factors ev special g0 Ho G H e0 g
    (conj P1 (conj P2 P3)) Hh) as (A & B & _). auto.
Qed.

(** States of the chain. *)
Lemma gs_joint_refuted : exists g0 g e,
  mk_graph (sparse_ops id_oracle) id_oracle [gs_ab; gs_bc] None gs_special = Ok g0 /\
  history (sparse_ops id_oracle) g0 g /\ (forall v, e v < 2) /\
  (let sent := Rprod (map (fun p => match p_prev p with Some m => spot (m_fac m) e | None => 1%R end) (g_paths g)) in
   if Req_EM_T sent 0 then 0%R else (Rprod (map (fun c => spot (cl_fac c) e) (g_cl g)) / sent)%R) <>
  Rprod (map (fun c => spot (cl_fac c) e) (g_cl g0)).
Proof.
  destruct gs_refuted as (g0 & g & H1 & (k & H2) & H3 & H4). exists g0, g, one_env. split; [exact H1|].
  split; [eapply hi_pass; [apply hi_init|exact H2]|]. split; [intros v; unfold one_env; lia|].
  cbn zeta. rewrite H3. destruct (Req_EM_T 0 0) as [_|C]; [|congruence].
  unfold prod_at in H4. rewrite map_map in H4. rewrite H4. lra.
Qed.
Lemma gx_sweeps : exists g ks g', mk_graph (sparse_ops id_oracle) id_oracle gx_chain0 None gx_special = Ok g /\
  tree_shaped g /\ two_sweeps g ks /\ length ks = 4 /\ foldM (pass_path (sparse_ops id_oracle)) ks g = Ok g'.
Proof.
  destruct gx_tree as (g & Hmk & TR & Hl).
  destruct (sweeps_run _ two (sgood two) spot (sparse_lawful two id_oracle id_oracle_ok) id_oracle gx_chain0 None gx_special g id_oracle_ok
    gx_chain0_good Hmk g 0 zero_env (hi_init _ _) TR gx_positive0 ltac:(lia)) as (ks & g' & H1 & H2 & H3).
  exists g, ks, g'. rewrite Hl in H2. auto.
Qed.
Lemma prev_stays card o factors ev special g0 : oracle_ok o -> (forall f, In f factors -> sgood card f) ->
  mk_graph (sparse_ops o) o factors ev special = Ok g0 -> forall ks g g', history (sparse_ops o) g0 g ->
  foldM (pass_path (sparse_ops o)) ks g = Ok g' ->
  history (sparse_ops o) g0 g' /\ length (g_paths g') = length (g_paths g) /\
  forall k p', nth_error (g_paths g') k = Some p' ->
    (In k ks \/ exists p, nth_error (g_paths g) k = Some p /\ p_prev p <> None) -> p_prev p' <> None.
Proof.
  intros Ho G Hmk. induction ks as [|k0 ks IH]; intros g g' Hh H; cbn [foldM] in H.
  - inversion H; subst. split; [exact Hh|]. split; [reflexivity|]. intros k p' Hp' [[]|(p & Hp & N)]. congruence.
  - apply bind_ok in H. destruct H as (g1 & H1 & H).
    assert (Hh1 : history (sparse_ops o) g0 g1) by (eapply hi_pass; eauto).
    destruct (IH g1 g' Hh1 H) as (Hh' & Hl & P). split; [exact Hh'|].
    destruct (mk_graph_made _ o factors ev special g0 Ho Hmk) as (reduced & final & M).
    destruct (history_static _ _ _ _ _ _ _ _ _ M Hh) as (SA & _).
    destruct (pass_path_passed _ g k0 g1 (struct_out _ _ (sa_struct _ _ _ SA)) H1) as (p0 & cr & cr' & PP).
    split; [rewrite Hl; apply (pa_plen _ _ _ _ _ _ _ PP)|].
    intros k p' Hp' HH. apply (P k p' Hp').
    destruct (in_dec Nat.eq_dec k ks) as [I|NI]; [left; exact I|right].
    assert (Hk : k < length (g_paths g1)) by (rewrite <- Hl; apply nth_error_Some; congruence).
    destruct (nth_error (g_paths g1) k) as [p1|] eqn:E1; [|apply nth_error_Some in Hk; congruence].
    exists p1. split; [reflexivity|]. destruct (pa_paths _ _ _ _ _ _ _ PP k p1 E1) as (p2 & Hp2 & _ & _ & Epr & _).
    rewrite Epr. destruct (Nat.eq_dec k k0) as [_|NE]; [discriminate|].
    destruct HH as [[->|I]|(p & Hp & N)]; [congruence|contradiction|congruence].
Qed.
Lemma gx_all_sent : exists g0 g, mk_graph (sparse_ops id_oracle) id_oracle gx_chain0 None gx_special = Ok g0 /\
  history (sparse_ops id_oracle) g0 g /\ length (g_paths g) = 4 /\ forall k p, nth_error (g_paths g) k = Some p -> p_prev p <> None.
Proof.
  destruct gx_tree as (g0 & Hmk & TR & Hl).
  destruct (gx_links gx_chain0 gx_special g0 (or_intror eq_refl) (or_intror eq_refl) Hmk) as (_ & _ & _ & Hp).
  pose (L := sparse_lawful two id_oracle id_oracle_ok).
  destruct (mk_graph_made _ id_oracle gx_chain0 None gx_special g0 id_oracle_ok Hmk) as (reduced & final & M).
  destruct (history_live _ two (sgood two) spot L id_oracle gx_chain0 None gx_special g0 id_oracle_ok gx_chain0_good reduced final g0 M (hi_init _ _)) as [Gfin LV].
  destruct gx_positive0 as (P1 & P2 & P3).
  pose proof (final_pos _ two (sgood two) spot L id_oracle gx_chain0 None gx_special reduced final g0 zero_env M gx_chain0_good P1 P3) as Pf.
  destruct (passes_ok _ two (sgood two) spot L id_oracle final None gx_special id_oracle_ok Gfin zero_env P2 Pf [0; 1; 2; 3] g0 LV) as (g & Hg).
  { intros k Hk. rewrite Hp. cbn in Hk. lia. }
  destruct (prev_stays two id_oracle gx_chain0 None gx_special g0 id_oracle_ok gx_chain0_good Hmk [0; 1; 2; 3] g0 g (hi_init _ _) Hg) as (Hh & Hl' & P).
  exists g0, g. split; [exact Hmk|]. split; [exact Hh|]. split; [lia|]. intros k p Hk. apply (P k p Hk). left.
  assert (k < 4) by (rewrite <- Hp, <- Hl'; apply nth_error_Some; congruence). cbn. lia.
Qed.
Lemma gx_moved : exists g0 g, mk_graph (sparse_ops id_oracle) id_oracle gx_chain0 None gx_special = Ok g0 /\
  history (sparse_ops id_oracle) g0 g /\ length (g_paths g) = 4 /\ exists k p, nth_error (g_paths g) k = Some p /\ p_prev p <> None.
Proof.
  destruct gx_all_sent as (g0 & g & H1 & H2 & H3 & H4). exists g0, g. split; [exact H1|]. split; [exact H2|]. split; [exact H3|].
  destruct (nth_error (g_paths g) 0) as [p|] eqn:E; [|apply nth_error_None in E; lia]. exists 0, p. split; [exact E|]. eapply H4; eauto.
Qed.
Lemma gx_process tol max_iter : exists g g', mk_graph (sparse_ops id_oracle) id_oracle gx_chain0 None gx_special = Ok g /\
  tree_shaped g /\ length (g_cl g) <> 1 /\ length (g_order g) = 4 /\ process_graph (sparse_ops id_oracle) tol max_iter g = Ok g'.
Proof.
  destruct gx_tree as (g & Hmk & TR & Hl). exists g.
  destruct (gx_links gx_chain0 gx_special g (or_intror eq_refl) (or_intror eq_refl) Hmk) as (_ & _ & _ & Hp).
  destruct gx_positive0 as (P1 & P2 & P3).
  destruct (sparse_never_fails two id_oracle gx_chain0 None gx_special g zero_env g id_oracle_ok gx_chain0_good Hmk P1 P2 P3 (hi_init _ _)) as [_ B].
  destruct (B tol max_iter) as (g' & Hg').
  - repeat constructor. intros [].
  - intros c E. rewrite E in Hl. discriminate.
  - exists g'. split; [exact Hmk|]. split; [exact TR|]. split; [lia|]. split; [|exact Hg'].
    pose proof (Permutation_length (queue_all _ _ _ _ _ _ _ _ _ id_oracle_ok Hmk (hi_init _ _))) as E. rewrite seq_length in E. lia.
Qed.
Lemma gx_processed : exists g g', mk_graph (sparse_ops id_oracle) id_oracle gx_chain0 None gx_special = Ok g /\
  length (g_cl g) <> 1 /\ length (g_order g) = 4 /\ process_graph (sparse_ops id_oracle) (1/10) 3 g = Ok g'.
Proof. destruct (gx_process (1/10)%R 3) as (g & g' & H1 & _ & H). exists g, g'. auto. Qed.
Lemma gx_converges : exists g max_iter g' res, mk_graph (sparse_ops id_oracle) id_oracle gx_chain0 None gx_special = Ok g /\
  tree_shaped g /\ length (g_cl g) <> 1 /\ process_graph (sparse_ops id_oracle) 0 max_iter g = Ok g' /\
  length (g_dists g') < max_iter * length (g_order g) /\ get_marginal (sparse_ops id_oracle) g' ["b,c"] = Ok res.
Proof.
  pose (L := sparse_lawful two id_oracle id_oracle_ok).
  destruct gx_tree as (g0 & Hmk & TR & Hl).
  destruct (messages_bounded _ two (sgood two) spot L id_oracle gx_chain0 None gx_special g0 id_oracle_ok gx_chain0_good Hmk zero_env gx_positive0 TR)
    as (N & HN).
  destruct (gx_process 0%R (S N)) as (g & g' & Hg & H2 & H3 & H4 & H5). assert (g = g0) by congruence. subst g.
  assert (Hh : history (sparse_ops id_oracle) g0 g') by (eapply hi_process; [apply hi_init|left; exact H3|exact H5]).
  destruct (marginal_some _ two (sgood two) spot L id_oracle gx_chain0 None gx_special g0 id_oracle_ok gx_chain0_good Hmk g' ["b,c"] zero_env Hh gx_positive0)
    as (res & Hres).
  - repeat constructor. intros [].
  - intros v [<-|[]] [C|[]]. discriminate.
  - destruct (mk_graph_made _ id_oracle gx_chain0 None gx_special g0 id_oracle_ok Hmk) as (reduced & final & M).
    destruct (history_live _ two (sgood two) spot L id_oracle gx_chain0 None gx_special g0 id_oracle_ok gx_chain0_good reduced final g' M Hh) as [_ LV].
    pose proof (lv_inv _ _ _ _ _ _ _ _ LV) as IV.
    destruct (gx_links gx_chain0 gx_special g0 (or_intror eq_refl) (or_intror eq_refl) Hmk) as (_ & _ & Hf & _).
    rewrite (made_facs _ _ _ _ _ _ _ _ M) in Hf.
    destruct (nth_error (g_cl g') 0) as [c|] eqn:Ec.
    + exists c. split; [eapply nth_error_In; eauto|]. destruct (iv_cl _ _ _ _ _ _ _ _ IV 0 c Ec) as (f & Hfn & _ & (_ & HV) & _).
      rewrite Hf in Hfn. cbn in Hfn. injection Hfn as <-. intros v [<-|[]]. apply HV. cbn. tauto.
    + exfalso. apply nth_error_None in Ec. pose proof (iv_len _ _ _ _ _ _ _ _ IV) as E. rewrite Hf in E. cbn in E. lia.
  - exists g0, (S N), g', res. split; [exact Hmk|]. split; [exact TR|]. split; [exact H3|]. split; [exact H5|].
    split; [|exact Hres]. specialize (HN g0 0%R (S N) g' (hi_init _ _) (Rle_refl 0) H5). rewrite H4. lia.
Qed.
Lemma gx_lookup : exists g c, mk_graph (sparse_ops id_oracle) id_oracle gx_chain0 None gx_special = Ok g /\
  nth_error (g_cl g) 1 = Some c /\ incl ["1#c"] (svars (cl_fac c)) /\ NoDup (svars (cl_fac c)) /\
  (forall j c', j < 1 -> nth_error (g_cl g) j = Some c' -> ~ incl ["1#c"] (svars (cl_fac c'))) /\
  (forall c', In c' (g_cl g) -> ~ incl ["a"; "d"] (svars (cl_fac c'))).
Proof.
  destruct gx_tree as (g & Hmk & TR & Hl). exists g.
  destruct (gx_links gx_chain0 gx_special g (or_intror eq_refl) (or_intror eq_refl) Hmk) as (_ & _ & Hf & _).
  clear TR. destruct (g_cl g) as [|c0 [|c1 [|c2 [|]]]]; try discriminate Hf. cbn [map] in Hf. unfold gx_chain0 in Hf.
  assert (E0 : cl_fac c0 = gx_ab) by congruence. assert (E1 : cl_fac c1 = gx_bc) by congruence. assert (E2 : cl_fac c2 = gx_cd0) by congruence.
  exists c1. split; [assumption|]. split; [reflexivity|]. rewrite E1. split; [intros v [<-|[]]; cbn; tauto|].
  split; [repeat constructor; cbn; intuition discriminate|]. split.
  - intros j c' Hj Hc'. assert (j = 0) by lia. subst j. cbn in Hc'. injection Hc' as <-. rewrite E0.
    intros I. apply subsetb_incl in I. vm_compute in I. discriminate.
  - intros c' [<-|[<-|[<-|[]]]]; [rewrite E0|rewrite E1|rewrite E2]; intros I; apply subsetb_incl in I; vm_compute in I; discriminate.
Qed.
Lemma gx_single : exists g c g1, mk_graph (sparse_ops id_oracle) id_oracle [gx_ab] None [] = Ok g /\ g_cl g = [c] /\
  g_spec g = [] /\ process_graph (sparse_ops id_oracle) 0 1 g = Ok g1.
Proof.
  assert (G : forall f, In f [gx_ab] -> sgood two f) by (intros f [<-|[]]; apply gx_ab_good).
  assert (HP : has_positive spot [gx_ab] None [] zero_env).
  { split; [exact I|]. split; [intros v x H; discriminate|]. intros f [<-|[]]. apply gx_pos. cbn. tauto. }
  destruct (mk_graph_some _ two (sgood two) spot (sparse_lawful two id_oracle id_oracle_ok) id_oracle _ None [] zero_env id_oracle_ok G HP) as (g & Hmk).
  destruct (mk_graph_made _ id_oracle _ None [] g id_oracle_ok Hmk) as (reduced & final & M).
  pose proof (mk_reduced _ _ _ _ _ _ _ _ M) as E1. pose proof (mk_final _ _ _ _ _ _ _ _ M) as E2.
  cbn in E1. inversion E1; subst reduced. cbv in E2. injection E2 as E2.
  pose proof (made_facs _ _ _ _ _ _ _ _ M) as Ec. rewrite <- E2 in Ec.
  destruct (sparse_never_fails two id_oracle [gx_ab] None [] g zero_env g id_oracle_ok G Hmk (proj1 HP) (proj1 (proj2 HP)) (proj2 (proj2 HP)) (hi_init _ _)) as [_ B].
  destruct (B 0%R 1) as (g1 & Hg1); [constructor|intros c _ v []|].
  assert (Hc : exists c, g_cl g = [c]).
  { destruct (g_cl g) as [|c [|]]; [discriminate Ec|eauto|discriminate Ec]. }
  destruct Hc as (c & Hc). exists g, c, g1. split; [assumption|]. split; [exact Hc|]. split; [exact (mk_spec _ _ _ _ _ _ _ _ M)|exact Hg1].
Qed.
Lemma nat_descending : descending Nat.ltb (fun x : nat => x) [5; 3; 3; 1] /\
  (forall a b, Nat.ltb a b = true -> Nat.ltb b a = false) /\
  (forall a b c, Nat.ltb a b = false -> Nat.ltb b c = false -> Nat.ltb a c = false).
Proof.
  split; [repeat constructor; intros y H; cbn in H; apply Nat.ltb_ge; lia|].
  split; intros *; rewrite ?Nat.ltb_lt, ?Nat.ltb_ge; lia.
Qed.
