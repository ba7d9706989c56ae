(** The chain of DenseLinedEx.v, asked about two variables at once. *)
From Verif Require Export DenseQuery DenseLinedEx.
Local Open Scope string_scope.
Local Open Scope nat_scope.
Local Open Scope list_scope.

Lemma tw_stays g : mk_graph (dense_ops id_oracle) id_oracle tw_chain None [] = Ok g -> stays_in_order g ["b"; "c"] /\ exists c, In c (g_cl g) /\ cl_fac c = dx ["a"; "b"; "c"].
Proof.
  intros H. destruct (mk_graph_made _ id_oracle tw_chain None [] g id_oracle_ok H) as (reduced & final & M).
  assert (Ef : final = tw_chain) by (apply (tw_final id_oracle reduced); [exact (mk_reduced _ _ _ _ _ _ _ _ M)|exact (mk_final _ _ _ _ _ _ _ _ M)]).
  subst final. pose proof (mk_struct _ _ _ _ _ _ _ _ M) as ST. pose proof (made_facs _ _ _ _ _ _ _ _ M) as E. split.
  - intros i c Hc Hv.
    assert (Fc : nth_error tw_chain i = Some (cl_fac c)) by (rewrite <- E, nth_error_map, Hc; reflexivity).
    assert (Hi : i = 0 \/ i = 1).
    { destruct i as [|[|[|i]]]; [auto|auto| |destruct i; discriminate Fc]. cbn in Fc. injection Fc as Fc. rewrite <- Fc in Hv. destruct (Hv "b" (or_introl eq_refl)) as [C|[C|[]]]; discriminate C. }
    split.
    + destruct Hi as [-> | ->]; cbn in Fc; injection Fc as <-; reflexivity.
    + intros j T HT. apply (edge_with_sep _ g i j T ST) in HT. change (graph_sep id_oracle (map dvars tw_chain) [] i j = Some T) in HT. apply tw_sep in HT. cbn in HT.
      destruct HT as [HT|[HT|[HT|[HT|[]]]]]; injection HT as <- <- <-; try reflexivity.
  - destruct (g_cl g) as [|c l]; [discriminate E|]. exists c. split; [now left|]. cbn in E. now injection E as ->.
Qed.
Lemma tw_answers g g' : mk_graph (dense_ops id_oracle) id_oracle tw_chain None [] = Ok g -> lined g -> history (dense_ops id_oracle) g g' ->
  answers_in_order g' ["b"; "c"] /\ (exists res, get_marginal (dense_ops id_oracle) g' ["b"; "c"] = Ok res) /\
  get_marginal (dense_ops id_oracle) g' ["c"; "b"] = Err AssertionError.
Proof.
  intros H H1 Hh. destruct (tw_stays g H) as (St & c0 & Hc0 & Fc0).
  pose proof (stays_ok dx_card dx_nm id_oracle id_oracle_ok tw_chain None [] g tw_good H H1 ["b"; "c"] g' St Hh) as Or.
  assert (HC : exists c, In c (g_cl g') /\ In "b" (dvars (cl_fac c)) /\ In "c" (dvars (cl_fac c))).
  { destruct (run_inv dx_card dx_nm id_oracle id_oracle_ok tw_chain None [] g tw_good H H1 g' Hh) as [Ha _].
    destruct (built dx_card dx_nm id_oracle id_oracle_ok tw_chain None [] g tw_good H H1) as [Hb _].
    destruct (mk_graph_made (aligned_ops id_oracle) id_oracle tw_chain None [] g id_oracle_ok Hb) as (reduced & final & M).
    destruct (history_live (aligned_ops id_oracle) dx_card (dgood dx_card dx_nm) dpt (aligned_lawful dx_card dx_nm id_oracle) id_oracle tw_chain None [] g id_oracle_ok tw_good reduced final g' M Ha) as [Gfin LV].
    pose proof (lv_inv _ _ _ _ _ _ _ _ LV) as IV. pose proof (made_facs _ _ _ _ _ _ _ _ M) as E.
    apply In_nth_error in Hc0. destruct Hc0 as (i & Hi). assert (Fi : nth_error final i = Some (dx ["a"; "b"; "c"])) by (rewrite <- E, nth_error_map, Hi; cbn; now rewrite Fc0).
    destruct (nth_error (g_cl g') i) as [c|] eqn:Ec.
    - destruct (iv_cl _ _ _ _ _ _ _ _ IV i c Ec) as (f2 & X2 & _ & (_ & Hs) & _). rewrite Fi in X2. injection X2 as <-. exists c. split; [eapply nth_error_In; eauto|]. split; apply Hs; cbn; auto.
    - apply nth_error_None in Ec. rewrite (iv_len _ _ _ _ _ _ _ _ IV) in Ec. assert (i < length final) by (apply nth_error_Some; congruence). lia. }
  destruct HC as (c & Hc & Cb & Cc).
  destruct (query_some dx_card dx_nm id_oracle id_oracle_ok tw_chain None [] g tw_good H H1 g' ["b"; "c"] dx_env Hh I tw_agrees tw_fits Or ltac:(intros v _ [])) as (res & Hr).
  { exists c. split; [exact Hc|]. intros v [<-|[<-|[]]]; assumption. }
  split; [exact Or|]. split; [now exists res|].
  apply (query_flipped dx_card dx_nm id_oracle id_oracle_ok tw_chain None [] g tw_good H H1 g' "b" "c" dx_env Hh I tw_agrees tw_fits Or); [intros []|intros []|discriminate|].
  exists c. auto.
Qed.
Lemma tw_asked : exists g ks g' res, mk_graph (dense_ops id_oracle) id_oracle tw_chain None [] = Ok g /\ lined g /\ tree_shaped g /\ stays_in_order g ["b"; "c"] /\
  two_sweeps g ks /\ foldM (pass_path (dense_ops id_oracle)) ks g = Ok g' /\ answers_in_order g' ["b"; "c"] /\
  get_marginal (dense_ops id_oracle) g' ["b"; "c"] = Ok res /\ get_marginal (dense_ops id_oracle) g' ["c"; "b"] = Err AssertionError.
Proof.
  destruct tw_swept as (g & ks & g' & r0 & H & H1 & _ & TR & Hl & K1 & _ & K3 & _).
  assert (Hh : history (dense_ops id_oracle) g g') by (eapply (history_passes (dense_ops id_oracle)); [apply hi_init|exact K3]).
  destruct (tw_answers g g' H H1 Hh) as (A1 & (res & A2) & A3). exists g, ks, g', res.
  split; [exact H|]. split; [exact H1|]. split; [exact TR|]. split; [exact (proj1 (tw_stays g H))|]. auto.
Qed.
(** After process_graph, for every tolerance and number of iterations. *)
Lemma tw_processed : exists g, mk_graph (dense_ops id_oracle) id_oracle tw_chain None [] = Ok g /\ lined g /\ tree_shaped g /\ length (g_cl g) = 3 /\
  forall tol max_iter, exists g' res, process_graph (dense_ops id_oracle) tol max_iter g = Ok g' /\ answers_in_order g' ["b"; "c"] /\
    get_marginal (dense_ops id_oracle) g' ["b"; "c"] = Ok res /\ get_marginal (dense_ops id_oracle) g' ["c"; "b"] = Err AssertionError.
Proof.
  destruct tw_swept as (g & ks & g' & r0 & H & H1 & _ & TR & Hl & _). exists g. do 4 (split; [assumption|]). intros tol n.
  destruct (dense_never_fails dx_card dx_nm id_oracle id_oracle_ok tw_chain None [] g tw_good H H1 g dx_env (hi_init _ _) I tw_agrees tw_fits) as (_ & P).
  destruct (P tol n) as (g1 & Hg1); [constructor|intros c _ v []|].
  assert (Hh : history (dense_ops id_oracle) g g1) by (eapply hi_process; [apply hi_init|left; rewrite Hl; discriminate|exact Hg1]).
  destruct (tw_answers g g1 H H1 Hh) as (A1 & (res & A2) & A3). exists g1, res. auto.
Qed.
