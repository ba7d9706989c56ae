(** A chain of dense tables with an edge of two variables: whether the graph can be built depends on
    the order in which the set of shared variables is listed. *)
From Verif Require Export DenseGraphEx.
Local Open Scope string_scope.
Local Open Scope nat_scope.
Local Open Scope list_scope.

Definition tw_chain : list dense := [dx ["a"; "b"; "c"]; dx ["b"; "c"; "d"]; dx ["d"; "e"]].
Lemma tw_good : forall f, In f tw_chain -> dgood dx_card dx_nm f.
Proof. intros f [<-|[<-|[<-|[]]]]; apply dx_good; nodups. Qed.
Lemma tw_fits : fits dx_card tw_chain dx_env.
Proof. intros f w _ _. unfold dx_card, dx_env. destruct (string_dec w "d"), (string_dec w "b"); lia. Qed.
Lemma tw_agrees : agrees ([] : dict string nat) dx_env.
Proof. intros v x H. discriminate. Qed.
Lemma tw_final o reduced final : evidence_reduce (dense_ops o) tw_chain None = Ok reduced -> absorb_subsets (dense_ops o) reduced = Ok final -> final = tw_chain.
Proof.
  intros E1 E2. assert (reduced = tw_chain) by (cbn in E1; now inversion E1). subst reduced.
  assert (E : absorb_subsets (dense_ops o) tw_chain = Ok tw_chain) by reflexivity. congruence.
Qed.
Lemma tw_sep i j S : graph_sep id_oracle (map dvars tw_chain) [] i j = Some S ->
  In (i, j, S) [(0, 1, ["b"; "c"]); (1, 0, ["b"; "c"]); (1, 2, ["d"]); (2, 1, ["d"])].
Proof.
  intros Hs. destruct S as [|s S'] eqn:ES.
  { exfalso. unfold graph_sep in Hs. destruct (Nat.ltb i j); [|destruct (Nat.ltb j i); [|discriminate]];
      (destruct (sep_vars id_oracle _ _ _); discriminate). }
  pose proof (proj1 (graph_sep_In id_oracle _ _ i j _ s id_oracle_ok Hs) (or_introl eq_refl)) as (_ & _ & R1 & R2 & _).
  cbn [map length tw_chain] in R1, R2.
  destruct i as [|[|[|i]]]; try lia; destruct j as [|[|[|j]]]; try lia; vm_compute in Hs; try discriminate; injection Hs as <- <-; cbn; auto 10.
Qed.
Lemma tw_neat : neat id_oracle (all_evidence None ([] : dict string nat)) tw_chain.
Proof.
  intros i j S f HS Hf. apply tw_sep in HS. split.
  - cbn in HS. intuition; match goal with E : _ = (i, j, S) |- _ => injection E as <- <- <- end; cbn in Hf; injection Hf as <-; reflexivity.
  - intros k T HT. apply tw_sep in HT. cbn in HS, HT.
    intuition; match goal with E : _ = (i, j, S), E' : _ = (i, k, T) |- _ => injection E as <- <- <-; try discriminate E'; injection E' as <- <- end; reflexivity.
Qed.
Lemma tw_made : exists g, mk_graph (dense_ops id_oracle) id_oracle tw_chain None [] = Ok g /\ lined g /\ edge_with g 0 1 ["b"; "c"] /\ tree_shaped g /\ length (g_cl g) = 3.
Proof.
  destruct (dense_graph_lined dx_card dx_nm id_oracle tw_chain None [] dx_env id_oracle_ok tw_good) as (g & H & H1);
    [intros reduced final R A; rewrite (tw_final _ _ _ R A); exact tw_neat|exact I|exact tw_agrees|exact tw_fits|].
  exists g. split; [exact H|]. split; [exact H1|].
  destruct (mk_graph_made _ id_oracle tw_chain None [] g id_oracle_ok H) as (reduced & final & M).
  assert (Ef : final = tw_chain) by (apply (tw_final id_oracle reduced); [exact (mk_reduced _ _ _ _ _ _ _ _ M)|exact (mk_final _ _ _ _ _ _ _ _ M)]).
  subst final. pose proof (mk_struct _ _ _ _ _ _ _ _ M) as ST.
  assert (Hl : length (g_cl g) = 3).
  { pose proof (made_facs _ _ _ _ _ _ _ _ M) as E. apply (f_equal (@length _)) in E. rewrite map_length in E. rewrite E. reflexivity. }
  split; [apply (made_edge _ _ _ _ _ _ _ _ M); vm_compute; reflexivity|].
  assert (HE : forall i j, linked g i j <-> In (i, j) [(0, 1); (1, 0); (1, 2); (2, 1)]).
  { intros i j. transitivity (exists s, graph_sep id_oracle (map dvars tw_chain) (all_evidence None ([] : dict string nat)) i j = Some s).
    - split.
      + intros (k & p & Hp & <- & <-). exact (st_path _ _ ST k p Hp).
      + intros (s & Hs). destruct (st_edge _ _ ST i j s Hs) as (_ & _ & _ & _ & _ & k & p & HH). exists k, p. exact HH.
    - split.
      + intros (s & Hs). apply tw_sep in Hs. cbn in Hs |- *. intuition congruence.
      + intros J. repeat (destruct J as [J|J]; [inversion J; subst; eexists; vm_compute; reflexivity|]); destruct J. }
  destruct (path3 (linked g) HE) as [P1 P2]. split; [|exact Hl]. split; [|exact P2]. unfold connected. rewrite Hl. exact P1.
Qed.
Lemma tw_swept : exists g ks g' res, mk_graph (dense_ops id_oracle) id_oracle tw_chain None [] = Ok g /\ lined g /\ edge_with g 0 1 ["b"; "c"] /\
  tree_shaped g /\ length (g_cl g) = 3 /\ two_sweeps g ks /\ length ks = 4 /\ foldM (pass_path (dense_ops id_oracle)) ks g = Ok g' /\
  get_marginal (dense_ops id_oracle) g' ["b"] = Ok res.
Proof.
  destruct tw_made as (g & H & H1 & HE & TR & Hl).
  destruct (dense_sweeps_run dx_card dx_nm id_oracle id_oracle_ok tw_chain None [] g tw_good H H1 g 0 dx_env (hi_init _ _) TR I tw_agrees tw_fits
    ltac:(lia)) as (ks & g' & K1 & K2 & K3).
  assert (Hh : history (dense_ops id_oracle) g g') by (eapply (history_passes (dense_ops id_oracle)); [apply hi_init|exact K3]).
  destruct (dense_marginal_some dx_card dx_nm id_oracle id_oracle_ok tw_chain None [] g tw_good H H1 g' "b" (dx ["a"; "b"; "c"]) dx_env Hh I tw_agrees tw_fits) as (res & Hr).
  - left; reflexivity.
  - right; left; reflexivity.
  - intros [].
  - intros [].
  - exists g, ks, g', res. rewrite Hl in K2. auto 15.
Qed.
(** The same tables, with the set listed the other way round. *)
Lemma tw_raises : mk_graph (dense_ops rev_oracle) rev_oracle tw_chain None [] = Err AssertionError.
Proof. reflexivity. Qed.
Lemma tw_either : exists card nm factors o1 o2 g, (forall f, In f factors -> dgood card nm f) /\ oracle_ok o1 /\ oracle_ok o2 /\
  mk_graph (dense_ops o1) o1 factors None [] = Ok g /\ lined g /\ mk_graph (dense_ops o2) o2 factors None [] = Err AssertionError.
Proof.
  destruct tw_made as (g & H & H1 & _). exists dx_card, dx_nm, tw_chain, id_oracle, rev_oracle, g.
  exact (conj tw_good (conj id_oracle_ok (conj rev_oracle_ok (conj H (conj H1 tw_raises))))).
Qed.
