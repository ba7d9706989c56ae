(** The constructed graph: summary, failures, running intersection, sepsets (C24 - C28). *)
From Verif Require Export GraphBuild.

(** The sepset between clusters [i] and [j], if there is an edge. *)
Definition graph_sep (o : oracle) (scopes : list (list string)) (ev : list string) (i j : nat) : option (list string) :=
  if Nat.ltb i j then nonempty_opt (sep_vars o scopes ev (i, j))
  else if Nat.ltb j i then nonempty_opt (sep_vars o scopes ev (j, i)) else None.

Lemma sep_vars_range o scopes ev i j : oracle_ok o -> nonempty_opt (sep_vars o scopes ev (i, j)) <> None -> i < j /\ j < length scopes.
Proof.
  intros Ho H. destruct (sep_vars o scopes ev (i, j)) as [|v l] eqn:E; [cbn in H; congruence|].
  assert (Hv : In v (sep_vars o scopes ev (i, j))) by (rewrite E; left; reflexivity).
  apply (In_sep_vars o scopes ev v i j Ho) in Hv. tauto.
Qed.

Lemma sepf_all o scopes ev i j : oracle_ok o ->
  sepf_done (rip_sepsets o scopes ev) (pairs (length scopes)) i j = graph_sep o scopes ev i j.
Proof.
  intros Ho. unfold sepf_done, graph_sep, edge_of.
  destruct (mem (Nat.min i j, Nat.max i j) (pairs (length scopes))) eqn:E.
  - rewrite !rip_lookup. reflexivity.
  - apply mem_nIn in E. rewrite pairs_lt in E.
    destruct (Nat.ltb i j) eqn:E1; [|destruct (Nat.ltb j i) eqn:E2; [|reflexivity]].
    + apply Nat.ltb_lt in E1. destruct (nonempty_opt (sep_vars o scopes ev (i, j))) eqn:E3; [|reflexivity].
      assert (i < j /\ j < length scopes) by (apply (sep_vars_range o scopes ev i j Ho); congruence). lia.
    + apply Nat.ltb_lt in E2. destruct (nonempty_opt (sep_vars o scopes ev (j, i))) eqn:E3; [|reflexivity].
      assert (j < i /\ i < length scopes) by (apply (sep_vars_range o scopes ev j i Ho); congruence). lia.
Qed.

Lemma graph_sep_In o scopes ev i j S v : oracle_ok o -> graph_sep o scopes ev i j = Some S ->
  (In v S <-> ~ In v ev /\ i <> j /\ i < length scopes /\ j < length scopes /\ In v (sc scopes i) /\ In v (sc scopes j) /\
     (forall k, In v (sc scopes k) -> Nat.min i j <= k)).
Proof.
  intros Ho H. unfold graph_sep in H.
  assert (G : forall a b, nonempty_opt (sep_vars o scopes ev (a, b)) = Some S -> S = sep_vars o scopes ev (a, b)).
  { intros a b E. destruct (sep_vars o scopes ev (a, b)); cbn in E; congruence. }
  destruct (Nat.ltb i j) eqn:E1; [|destruct (Nat.ltb j i) eqn:E2; [|discriminate]].
  - apply Nat.ltb_lt in E1. apply G in H. subst S. rewrite (In_sep_vars o scopes ev v i j Ho). rewrite Nat.min_l by lia.
    split.
    + intros (H1 & H2 & H3 & H4 & H5 & H6). repeat split; auto; try lia.
      intros k Hk. destruct (le_lt_dec i k); [assumption|]. exfalso. eapply H6; eauto.
    + intros (H1 & H2 & H3 & H4 & H5 & H6 & H7). repeat split; auto. intros k Hk C. apply H7 in C. lia.
  - apply Nat.ltb_lt in E2. apply G in H. subst S. rewrite (In_sep_vars o scopes ev v j i Ho). rewrite Nat.min_r by lia.
    split.
    + intros (H1 & H2 & H3 & H4 & H5 & H6). repeat split; auto; try lia.
      intros k Hk. destruct (le_lt_dec j k); [assumption|]. exfalso. eapply H6; eauto.
    + intros (H1 & H2 & H3 & H4 & H5 & H6 & H7). repeat split; auto. intros k Hk C. apply H7 in C. lia.
Qed.
Lemma graph_sep_sym o scopes ev i j : graph_sep o scopes ev i j = graph_sep o scopes ev j i.
Proof.
  unfold graph_sep. destruct (Nat.ltb i j) eqn:E1, (Nat.ltb j i) eqn:E2; auto. apply Nat.ltb_lt in E1, E2. lia.
Qed.
Lemma graph_sep_NoDup o scopes ev i j S : oracle_ok o -> graph_sep o scopes ev i j = Some S -> NoDup S.
Proof.
  intros Ho H. unfold graph_sep in H.
  assert (G : forall a b, nonempty_opt (sep_vars o scopes ev (a, b)) = Some S -> S = sep_vars o scopes ev (a, b)).
  { intros a b E. destruct (sep_vars o scopes ev (a, b)); cbn in E; congruence. }
  destruct (Nat.ltb i j); [|destruct (Nat.ltb j i); [|discriminate]]; apply G in H; subst S; now apply sep_vars_NoDup.
Qed.
Lemma graph_sep_none_empty o scopes ev i j : graph_sep o scopes ev i j <> Some [].
Proof.
  unfold graph_sep. destruct (Nat.ltb i j); [|destruct (Nat.ltb j i)]; try discriminate;
    destruct (sep_vars o scopes ev _); cbn; discriminate.
Qed.
(** Every unobserved variable of two clusters lies on the edges to the first cluster that
    contains it. *)
Lemma graph_sep_edge o scopes ev v k j : oracle_ok o -> ~ In v ev -> k < j -> j < length scopes ->
  In v (sc scopes k) -> In v (sc scopes j) -> (forall i, In v (sc scopes i) -> k <= i) ->
  exists S, graph_sep o scopes ev k j = Some S /\ In v S.
Proof.
  intros Ho Hev Hkj Hj Hk Hjv Hmin.
  assert (Hv : In v (sep_vars o scopes ev (k, j))).
  { apply In_sep_vars; auto. repeat split; auto. intros i Hi C. apply Hmin in C. lia. }
  exists (sep_vars o scopes ev (k, j)). split; [|exact Hv]. unfold graph_sep. rewrite (proj2 (Nat.ltb_lt k j) Hkj).
  destruct (sep_vars o scopes ev (k, j)); [destruct Hv|reflexivity].
Qed.

Section Mk.
Context {F V : Type} (ops : fops F V).

(** Summary of a successful construction. *)
Definition cluster_scopes (g : cgraph F V) : list (list string) := map (fun c => f_vars ops (cl_fac c)) (g_cl g).

Record made (o : oracle) (factors : list F) (ev : option (dict string V)) (special : dict string V)
    (reduced final : list F) (g : cgraph F V) : Prop := {
  mk_reduced : evidence_reduce ops factors ev = Ok reduced;
  mk_final : absorb_subsets ops reduced = Ok final;
  mk_struct : struct_ok (graph_sep o (map (f_vars ops) final) (all_evidence ev special)) g;
  mk_fresh : fresh ops g;
  mk_core : map core (g_cl g) = map core (map (new_cluster ops special) (enum final));
  mk_recv : forall i ci, nth_error (g_cl g) i = Some ci -> cl_recv ci = [];
  mk_path : forall k p, nth_error (g_paths g) k = Some p ->
     p_prev p = None /\ info_gain ops None (p_next p) = Ok (p_gain p);
  mk_order : g_order g = seq 0 (length (g_paths g));
  mk_spec : g_spec g = special;
  mk_passed : g_passed g = 0;
  mk_dists : g_dists g = [] }.

Lemma new_cluster_empty special (final : list F) c : In c (map (new_cluster ops special) (enum final)) ->
  cl_seps c = [] /\ cl_recv c = [] /\ cl_out c = [].
Proof.
  intros H. apply in_map_iff in H. destruct H as ([i f] & <- & _). unfold new_cluster. cbn.
  destruct (subset_evidence special (f_vars ops f)). auto.
Qed.
Lemma new_cluster_scopes special (final : list F) :
  map (fun c => f_vars ops (cl_fac c)) (map (new_cluster ops special) (enum final)) = map (f_vars ops) final.
Proof.
  rewrite map_map. rewrite <- (map_snd_enum final) at 2. rewrite map_map. apply map_ext. intros [i f].
  rewrite new_cluster_fac. reflexivity.
Qed.

Lemma mk_graph_made o factors ev special g : oracle_ok o -> mk_graph ops o factors ev special = Ok g ->
  exists reduced final, made o factors ev special reduced final g.
Proof.
  intros Ho H. unfold mk_graph in H. apply bind_ok in H. destruct H as (reduced & Hr & H).
  apply bind_ok in H. destruct H as (final & Hf & H). exists reduced, final.
  unfold build_graph in H. apply bind_ok in H. destruct H as (u & _ & H).
  rewrite new_cluster_scopes in H. rewrite map_length, enum_length in H.
  set (cls := map (new_cluster ops special) (enum final)) in *.
  set (d := rip_sepsets o (map (f_vars ops) final) (all_evidence ev special)) in *.
  assert (Hcl : length cls = length final) by (unfold cls; now rewrite map_length, enum_length).
  assert (B : build_ok ops d cls special ([] ++ pairs (length final)) g).
  { eapply link_fold; [| | |exact H].
    - intros i j Hij. apply pairs_lt in Hij. lia.
    - apply pairs_NoDup.
    - apply build_start; [apply ids_unique|]. intros c Hc. eapply new_cluster_empty; eauto. }
  cbn [app] in B. destruct B as [B1 B2 B3 B4 B5 B6 B7 B8 B9 B10]. split; auto.
  eapply struct_ok_ext; [|exact B1]. intros i j. unfold d.
  rewrite <- (map_length (f_vars ops) final). now apply sepf_all.
Qed.

Lemma made_scopes o factors ev special reduced final g : made o factors ev special reduced final g ->
  cluster_scopes g = map (f_vars ops) final.
Proof.
  intros H. unfold cluster_scopes. rewrite <- (new_cluster_scopes special final).
  pose proof (f_equal (map (fun t : F * string * dict string V => f_vars ops (fst (fst t)))) (mk_core _ _ _ _ _ _ _ H)) as E.
  rewrite (map_map core) in E. cbn [core fst] in E. rewrite E. rewrite map_map. reflexivity.
Qed.
Lemma made_facs o factors ev special reduced final g : made o factors ev special reduced final g ->
  map cl_fac (g_cl g) = final.
Proof.
  intros H.
  pose proof (f_equal (map (fun t : F * string * dict string V => fst (fst t))) (mk_core _ _ _ _ _ _ _ H)) as E.
  rewrite (map_map core) in E. cbn [core fst] in E. etransitivity; [exact E|]. rewrite !map_map.
  rewrite <- (map_snd_enum final) at 2. apply map_ext. intros [i f]. apply new_cluster_fac.
Qed.
Lemma made_cluster o factors ev special reduced final g i ci : made o factors ev special reduced final g ->
  nth_error (g_cl g) i = Some ci -> exists f, nth_error final i = Some f /\ cl_fac ci = f /\
    cl_id ci = cluster_id i (f_vars ops f) /\ cl_spec ci = cl_spec (new_cluster ops special (i, f)).
Proof.
  intros H Hi.
  pose proof (f_equal (fun l => nth_error l i) (mk_core _ _ _ _ _ _ _ H)) as E. cbn beta in E.
  rewrite !nth_error_map, nth_error_enum, Hi in E. destruct (nth_error final i) as [f|]; cbn [option_map] in E; [|discriminate].
  exists f. split; [reflexivity|]. unfold core in E. rewrite new_cluster_fac, new_cluster_id in E.
  inversion E as [[E1 E2 E3]]. auto.
Qed.

(** ** Failures: construction fails only because an operation of the factor class fails. *)
Definition op_error (e : exn) : Prop :=
  (exists a b, f_mul ops a b = Err e) \/ (exists a vs xs, f_reduce ops a vs xs = Err e) \/
  (exists a vs, f_marg ops a vs = Err e) \/ (exists a, f_dist ops a = Err e) \/
  (exists a b, f_cancel ops a b = Err e) \/ (exists a b, f_kl ops a b = Err e).

Lemma make_message_err (c : cluster F V) nid e : dget (cl_seps c) nid <> None -> make_message ops c nid = Err e -> op_error e.
Proof.
  intros Hn H. unfold make_message, dget_r in H. destruct (dget (cl_seps c) nid) as [S|]; [|congruence]. cbn [bind] in H.
  destruct (f_reduce ops (cl_fac c) (dkeys (cl_spec c)) (dvals (cl_spec c))) as [f1|e1] eqn:E1; cbn [bind] in H.
  2:{ inversion H; subst. right; left; eauto. }
  destruct (f_marg ops f1 S) as [f2|e2] eqn:E2; cbn [bind] in H.
  2:{ inversion H; subst. right; right; left; eauto. }
  destruct (dget (cl_recv c) nid) as [prev|]; cbn [bind] in H; [|discriminate].
  destruct (f_cancel ops f2 prev) as [f3|e3] eqn:E3; cbn [bind] in H; [discriminate|].
  inversion H; subst. do 4 right. left. eauto.
Qed.
Lemma info_gain_err prev (m : msg F) e : info_gain ops prev m = Err e -> op_error e.
Proof.
  unfold info_gain. destruct prev; intros H; [do 5 right; eauto|do 3 right; left; eauto].
Qed.
Lemma new_path_err (ci cj : cluster F V) i j e : dget (cl_seps ci) (cl_id cj) <> None -> new_path ops ci cj i j = Err e -> op_error e.
Proof.
  intros Hn H. unfold new_path in H. destruct (make_message ops ci (cl_id cj)) as [m|e1] eqn:E; cbn [bind] in H.
  2:{ inversion H; subst. eapply make_message_err; eauto. }
  destruct (info_gain ops None m) as [gn|e1] eqn:E1; cbn [bind] in H; [discriminate|].
  inversion H; subst. eapply info_gain_err; eauto.
Qed.

Lemma link_pair_err d cls0 special D g i j e : i < j -> j < length cls0 ->
  (forall S, dget d (i, j) = Some S -> S <> []) ->
  build_ok ops d cls0 special D g -> link_pair ops d g (i, j) = Err e -> op_error e.
Proof.
  intros Hij Hj Hne B H. pose proof (core_length ops _ _ _ _ _ B) as Hlen. unfold link_pair in H.
  destruct (dget d (i, j)) as [S|]; [|discriminate]. specialize (Hne S eq_refl).
  assert (Hl : Nat.ltb 0 (length S) = true) by (destruct S; [congruence|reflexivity]).
  rewrite Hl in H. cbn [py_assert bind] in H.
  destruct (py_nth_ok (g_cl g) i) as (ci & Ei & Hi); [lia|]. destruct (py_nth_ok (g_cl g) j) as (cj & Ej & Hjn); [lia|].
  rewrite Ei, Ej in H. cbn [bind] in H. unfold add_neighbour in H. rewrite Hl in H. cbn [py_assert bind] in H.
  match type of H with context [new_path ops ?a ?b i j] => destruct (new_path ops a b i j) as [p1|e1] eqn:E1 end; cbn [bind] in H.
  2:{ inversion H; subst. eapply new_path_err; [|exact E1]. cbn. rewrite dget_dset_eq. discriminate. }
  match type of H with context [new_path ops ?a ?b j i] => destruct (new_path ops a b j i) as [p2|e1] eqn:E2 end; cbn [bind] in H.
  2:{ inversion H; subst. eapply new_path_err; [|exact E2]. cbn. rewrite dget_dset_eq. discriminate. }
  match type of H with context [list_set (g_cl g) i ?x] => destruct (list_set_spec (g_cl g) i x) as (l1 & L1 & L2 & _); [lia|] end.
  rewrite L1 in H. cbn [bind] in H.
  match type of H with context [list_set l1 j ?x] => destruct (list_set_spec l1 j x) as (l2 & L3 & _); [lia|] end.
  rewrite L3 in H. discriminate.
Qed.
Lemma link_fold_err d cls0 special e : (forall ij S, dget d ij = Some S -> S <> []) -> forall l D g,
  (forall i j, In (i, j) l -> i < j /\ j < length cls0) -> NoDup (D ++ l) ->
  build_ok ops d cls0 special D g -> foldM (link_pair ops d) l g = Err e -> op_error e.
Proof.
  intros Hne. induction l as [|[i j] l IH]; intros D g Hl Hn B H; cbn [foldM] in H; [discriminate|].
  destruct (Hl i j (or_introl eq_refl)) as [Hij Hj].
  destruct (link_pair ops d g (i, j)) as [g1|e1] eqn:E; cbn [bind] in H.
  - apply (IH (D ++ [(i, j)]) g1); auto; [intros; apply Hl; right; assumption| |].
    + rewrite <- app_assoc. exact Hn.
    + eapply link_pair_ok; eauto. intros C. apply NoDup_app_elim in Hn. destruct Hn as (_ & _ & Hd).
      apply (Hd (i, j)); [exact C|left; reflexivity].
  - inversion H; subst. eapply link_pair_err; [exact Hij|exact Hj|intros S; apply Hne|exact B|exact E].
Qed.
Lemma evidence_reduce_err (factors : list F) ev e : evidence_reduce ops factors ev = Err e -> op_error e.
Proof.
  unfold evidence_reduce. induction factors as [|f fs IH]; cbn [mapM]; intros H; [discriminate|].
  destruct ev as [d|]; cbn [bind] in H.
  - destruct (subset_evidence d (f_vars ops f)) as [vrs values] eqn:Es.
    destruct (Nat.ltb 0 (length vrs)).
    + destruct (f_reduce ops f vrs values) as [r|e1] eqn:E; cbn [bind] in H.
      * destruct (mapM _ fs) as [rs|e1] eqn:E1; cbn [bind] in H; [discriminate|]. inversion H; subst. now apply IH.
      * inversion H; subst. right; left. eauto.
    + cbn [bind] in H. destruct (mapM _ fs) as [rs|e1] eqn:E1; cbn [bind] in H; [discriminate|]. inversion H; subst. now apply IH.
  - destruct (mapM _ fs) as [rs|e1] eqn:E1; cbn [bind] in H; [discriminate|]. inversion H; subst. now apply IH.
Qed.
Lemma mk_graph_err o factors ev special e : mk_graph ops o factors ev special = Err e -> op_error e.
Proof.
  unfold mk_graph. intros H.
  destruct (evidence_reduce ops factors ev) as [reduced|e1] eqn:E1; cbn [bind] in H.
  2:{ inversion H; subst. eapply evidence_reduce_err; eauto. }
  destruct (absorb_subsets ops reduced) as [final|e1] eqn:E2; cbn [bind] in H.
  2:{ inversion H; subst. left. eapply absorb_err; eauto. }
  unfold build_graph in H. rewrite (proj2 (nodupb_iff _) (ids_unique ops special final)) in H.
  cbn [negb raise_if bind] in H. rewrite new_cluster_scopes in H. rewrite map_length, enum_length in H.
  eapply (link_fold_err _ (map (new_cluster ops special) (enum final)) special e _ (pairs (length final)) []); [| | |exact H].
  - intros i j Hij. apply pairs_lt in Hij. rewrite map_length, enum_length. lia.
  - apply pairs_NoDup.
  - apply build_start; [apply ids_unique|]. intros c Hc. eapply new_cluster_empty; eauto.
  Unshelve. intros ij S HS. rewrite rip_lookup in HS. destruct (sep_vars _ _ _ ij); cbn in HS; congruence.
Qed.
End Mk.
