(** Cluster graphs over dense tables, continued: construction. *)
From Verif Require Export DenseGraph.
Local Open Scope string_scope.
Local Open Scope nat_scope.

(** ** Every final factor of the absorption has the scope of its own input factor *)
Section Heads.
Context {F V : Type} (ops : fops F V) (factors : list F).
Hypothesis mul_vars : forall a b r, f_mul ops a b = Ok r ->
  forall v, In v (f_vars ops r) <-> In v (f_vars ops a) \/ In v (f_vars ops b).
Lemma heads_nodup (groups : list (list nat)) : (forall g, In g groups -> g <> []) -> NoDup (concat groups) -> NoDup (map (hd 0) groups).
Proof.
  induction groups as [|g gs IH]; intros Hn H; cbn; [constructor|].
  destruct g as [|i js]; [exfalso; apply (Hn [] (or_introl eq_refl)); reflexivity|]. cbn in H |- *. inversion H as [|? ? H1 H2]; subst.
  constructor.
  - intros C. apply H1. apply in_or_app. right. apply in_map_iff in C. destruct C as (g & E & Hg).
    apply in_concat. exists g. split; [exact Hg|]. destruct g; [exfalso; exact (Hn [] (or_intror Hg) eq_refl)|]. cbn in E. subst. left; reflexivity.
  - apply IH; [intros g Hg; apply Hn; right; exact Hg|]. clear - H2. induction js as [|j js IHj]; cbn in H2; [exact H2|]. inversion H2; auto.
Qed.
Lemma absorb_heads final : absorb_subsets ops factors = Ok final ->
  exists hs, NoDup hs /\ Forall2 (fun h f => exists f0, nth_error factors h = Some f0 /\ forall v, In v (f_vars ops f) <-> In v (f_vars ops f0)) hs final.
Proof.
  unfold absorb_subsets. intros H. apply bind_ok in H. destruct H as (s & Hs & H).
  assert (He : forall j f, In (j, f) (enum factors) -> nth_error factors j = Some f) by (intros; now apply in_enum).
  set (s0 := {| ab_mask := repeat false (length factors); ab_dict := []; ab_final := [] |} : absorb_state F).
  assert (Hs0 : foldM (absorb_outer ops factors) (enum factors) s0 = Ok s) by exact Hs.
  destruct (fun h1 h2 h3 => order_fold ops factors mul_vars (enum factors) 0 [] s0 s h1 h2 h3 Hs0) as (groups & Hg & (HA & HB & HC & HD)).
  { intros p j f Hp. rewrite nth_error_enum in Hp. destruct (nth_error factors p) eqn:E; [|discriminate].
    inversion Hp; subst. split; [lia|exact E]. }
  { apply outer_inv_init. }
  { repeat split; try contradiction; [lia|constructor]. }
  destruct (rest_fold ops factors (enum factors) groups s He Hg) as (singles & Hr & Hsg & _).
  cbn zeta in *. set (s' := fold_left absorb_rest (enum factors) s) in *.
  apply bind_ok in H. destruct H as (u & _ & H). inversion H; subst final; clear H.
  destruct Hr as (_ & Hf & Hnd & _). exists (map (hd 0) (groups ++ map (fun i => [i]) singles)). split.
  - apply heads_nodup; [|exact Hnd]. intros g Hin ->. clear - Hin Hf.
    induction Hf as [|g f gs fs H1 _ IH]; [destruct Hin|]. destruct Hin as [->|Hin]; [destruct H1|auto].
  - apply Forall2_app_inv_l in Hf. destruct Hf as (f1 & f2 & Hf1 & Hf2 & Hfe). rewrite Hfe, map_app.
    assert (E1 : f1 = ab_final s).
    { destruct Hg as (_ & Hgf & _). clear - Hf1 Hgf. revert Hgf. generalize (ab_final s).
      induction Hf1 as [|g f gs fs H1 _ IH]; intros l Hl; inversion Hl as [|? f' ? fs' H2 Hl']; subst; [reflexivity|].
      f_equal; [|now apply IH]. destruct g; [destruct H1|]. cbn in H1, H2. destruct H1 as [_ H1], H2 as [_ H2]. congruence. }
    subst f1. apply Forall2_app.
    + rewrite enum_length in HC. cbn [Nat.add] in HC. clear - HC HD. induction HD as [|g f gs fs H1 _ IH]; cbn; constructor.
      * destruct (HC g (or_introl eq_refl)) as (i & c & js & -> & Hi & _). cbn [hd] in *.
        destruct (nth_error factors i) as [f0|] eqn:E; [|apply nth_error_None in E; lia]. exists f0. split; [reflexivity|].
        intros v. rewrite H1. unfold scope_at. now rewrite E.
      * apply IH. intros g' Hg'. apply HC. right; exact Hg'.
    + clear - Hf2. revert Hf2. generalize f2. induction singles as [|i singles IH]; intros l Hl; cbn in *;
        inversion Hl as [|? f ? fs H2 Hl']; subst; constructor; [|auto].
      cbn in H2. destruct H2 as [Hi H2]. unfold group_product in H2. apply bind_ok in H2. destruct H2 as (fi & Hfi & H2).
      inversion H2; subst fi. apply py_nth_inv in Hfi. exists f. split; [exact Hfi|tauto].
Qed.
End Heads.

Section Mk.
Variable card : string -> nat.
Variable nm : string -> list aname.
Notation good := (dgood card nm).
Variable o : oracle.
Hypothesis Ho : oracle_ok o.

Lemma fresh_binv (special : dict string nat) final d : (forall f, In f final -> good f) ->
  binv card nm (map (new_cluster (dense_ops o) special) (enum final)) d
    {| g_cl := map (new_cluster (dense_ops o) special) (enum final); g_paths := []; g_order := []; g_spec := special; g_passed := 0; g_dists := [] |}.
Proof.
  intros G. split; [reflexivity|]. cbn [g_cl]. intros i c Hc. pose proof (new_cluster_empty (dense_ops o) special final c (nth_error_In _ _ Hc)) as (E1 & E2 & E3).
  split; [|split; [exact E2|split; [rewrite E1; discriminate|exists c; auto]]].
  rewrite nth_error_map, nth_error_enum in Hc. destruct (nth_error final i) as [f|] eqn:Ef; [|discriminate]. cbn [option_map] in Hc. injection Hc as <-.
  assert (Gf : good f) by (apply G; eapply nth_error_In; eauto).
  assert (Fc : cl_fac (new_cluster (dense_ops o) special (i, f)) = f) by (unfold new_cluster; cbn; destruct (subset_evidence special (dvars f)); reflexivity).
  split.
  - now rewrite Fc.
  - rewrite E1. discriminate.
  - rewrite E1. discriminate.
  - rewrite E2. discriminate.
  - destruct (spec_of_cluster (aligned_ops o) card good dpt (aligned_lawful card nm o) special i f Gf) as (S1 & S2 & S3 & _).
    change (new_cluster (aligned_ops o) special (i, f)) with (new_cluster (dense_ops o) special (i, f)) in *.
    rewrite Fc. split; [exact S1|]. split; [|exact S3]. intros v Hv. apply S2 in Hv. tauto.
Qed.
Definition thin (obs : list string) (final : list dense) : Prop :=
  forall i j S, graph_sep o (map dvars final) obs i j = Some S -> length S = 1.
Definition neat (obs : list string) (final : list dense) : Prop :=
  forall i j S f, graph_sep o (map dvars final) obs i j = Some S -> nth_error final i = Some f ->
    listed S (dvars f) /\ forall k T, graph_sep o (map dvars final) obs i k = Some T -> keeps S T.
Lemma sep_sym obs final i j : graph_sep o (map dvars final) obs i j = graph_sep o (map dvars final) obs j i.
Proof.
  unfold graph_sep. destruct (Nat.ltb i j) eqn:E, (Nat.ltb j i) eqn:E'; try reflexivity.
  apply Nat.ltb_lt in E, E'. lia.
Qed.
Lemma thin_neat (ev : option (dict string nat)) (special : dict string nat) final : thin (all_evidence ev special) final -> (forall f, In f final -> NoDup (dvars f)) -> neat (all_evidence ev special) final.
Proof.
  intros T G i j S f HS Hf. pose proof (T i j S HS) as L1. destruct S as [|s [|s' S]]; cbn in L1; try discriminate. split.
  - apply listed_one; [apply G; eapply nth_error_In; eauto|].
    destruct (sepf_In (aligned_ops o) o final ev special Ho i j [s] s HS (or_introl eq_refl)) as (A1 & _). now apply A1.
  - intros k U HU. pose proof (T i k U HU) as L2. destruct U as [|t [|t' U]]; cbn in L2; try discriminate. apply keeps_one.
Qed.
Lemma neat_order ev special final : neat (all_evidence ev special) final -> (forall f, In f final -> good f) ->
  in_order (map (new_cluster (dense_ops o) special) (enum final)) (rip_sepsets o (map dvars final) (all_evidence ev special)).
Proof.
  intros T G.
  assert (RS : forall i j S, dget (rip_sepsets o (map dvars final) (all_evidence ev special)) (i, j) = Some S ->
    graph_sep o (map dvars final) (all_evidence ev special) i j = Some S).
  { intros i j S H. rewrite rip_lookup in H.
    assert (Hij : i < j /\ j < length (map dvars final)) by (apply (sep_vars_range o (map dvars final) (all_evidence ev special)); [exact Ho|congruence]).
    unfold graph_sep. replace (Nat.ltb i j) with true by (symmetry; apply Nat.ltb_lt; lia). exact H. }
  intros i j S H. apply RS in H. split.
  { intros ->. unfold graph_sep in H. destruct (Nat.ltb i j); [|destruct (Nat.ltb j i); [|discriminate]];
      (destruct (sep_vars o _ _ _); discriminate). }
  intros k c Hk Hc. rewrite nth_error_map, nth_error_enum in Hc. destruct (nth_error final k) as [f|] eqn:Ef; [|discriminate]. cbn [option_map] in Hc. injection Hc as <-.
  assert (Gf : good f) by (apply G; eapply nth_error_In; eauto).
  assert (Fc : cl_fac (new_cluster (dense_ops o) special (k, f)) = f) by (unfold new_cluster; cbn; destruct (subset_evidence special (dvars f)); reflexivity).
  destruct (spec_of_cluster (aligned_ops o) card good dpt (aligned_lawful card nm o) special k f Gf) as (S1 & S2 & S3 & _).
  change (new_cluster (aligned_ops o) special (k, f)) with (new_cluster (dense_ops o) special (k, f)) in *.
  rewrite Fc. assert (exists j', graph_sep o (map dvars final) (all_evidence ev special) k j' = Some S) as (j' & HS).
  { destruct Hk as [->| ->]; [eauto|]. rewrite sep_sym in H. eauto. }
  destruct (T k j' S f HS Ef) as (T1 & T2). split; [exact T1|]. split.
  - intros s Hs C. apply S2 in C. destruct (sepf_In (aligned_ops o) o final ev special Ho k j' S s HS Hs) as (A1 & A2 & A3). tauto.
  - intros a b U HU Hab. apply RS in HU. destruct Hab as [->| ->]; [eauto|]. rewrite sep_sym in HU. eauto.
Qed.
Lemma aligned_ginv factors ev special reduced final g : made (aligned_ops o) o factors ev special reduced final g ->
  (forall i c, nth_error (g_cl g) i = Some c -> cinv card nm c) -> ginv card nm g.
Proof.
  intros M C. split; [exact C|]. intros k p Hp. pose proof (mk_struct _ _ _ _ _ _ _ _ M) as ST.
  destruct (st_path _ _ ST k p Hp) as (S & HS).
  destruct (st_edge _ _ ST _ _ _ HS) as (H1 & H2 & _ & _ & HS' & _).
  destruct (nth_error (g_cl g) (p_snd p)) as [ci|] eqn:Ei; [|apply nth_error_None in Ei; lia].
  destruct (nth_error (g_cl g) (p_rcv p)) as [cj|] eqn:Ej; [|apply nth_error_None in Ej; lia].
  pose proof (mk_fresh _ _ _ _ _ _ _ _ M k p ci cj Hp Ei Ej) as Fr.
  destruct (make_sim card nm o ci (cl_id cj) (C _ _ Ei)) as [_ E2]. destruct (E2 _ Fr) as (T1 & T2 & T4 & _).
  rewrite (st_sep _ _ ST _ _ ci cj Ei Ej), HS in T1. injection T1 as ES.
  exists ci, cj, S. rewrite (st_sep _ _ ST _ _ ci cj Ei Ej), (st_sep _ _ ST _ _ cj ci Ej Ei). auto 10.
Qed.
Lemma mk_sim factors ev special :
  (forall f, In f factors -> good f) ->
  (forall reduced final, evidence_reduce (dense_ops o) factors ev = Ok reduced -> absorb_subsets (dense_ops o) reduced = Ok final ->
     neat (all_evidence ev special) final) ->
  mk_graph (dense_ops o) o factors ev special = mk_graph (aligned_ops o) o factors ev special /\
  forall g, mk_graph (aligned_ops o) o factors ev special = Ok g -> ginv card nm g.
Proof.
  intros G T. unfold mk_graph at 1 2. change (evidence_reduce (aligned_ops o) factors ev) with (evidence_reduce (dense_ops o) factors ev).
  pose proof (mk_graph_made (aligned_ops o) o factors ev special) as MM.
  destruct (evidence_reduce (dense_ops o) factors ev) as [reduced|er] eqn:R.
  2: { split; [reflexivity|]. intros g H. exfalso. unfold mk_graph in H.
       change (evidence_reduce (aligned_ops o) factors ev) with (evidence_reduce (dense_ops o) factors ev) in H. rewrite R in H. discriminate. }
  cbn [bind]. change (absorb_subsets (aligned_ops o) reduced) with (absorb_subsets (dense_ops o) reduced).
  destruct (absorb_subsets (dense_ops o) reduced) as [final|er] eqn:A.
  2: { split; [reflexivity|]. intros g H. exfalso. unfold mk_graph in H.
       change (evidence_reduce (aligned_ops o) factors ev) with (evidence_reduce (dense_ops o) factors ev) in H. rewrite R in H. cbn [bind] in H.
       change (absorb_subsets (aligned_ops o) reduced) with (absorb_subsets (dense_ops o) reduced) in H. rewrite A in H. discriminate. }
  cbn [bind]. specialize (T reduced final eq_refl A).
  assert (Gr : forall f, In f reduced -> good f).
  { pose proof (evidence_reduce_pt (aligned_ops o) card good dpt (aligned_lawful card nm o) ev factors reduced G R) as HF.
    clear - HF. intros f Hf. induction HF as [|a b l l' H _ IH]; [destruct Hf|]. destruct Hf as [<-|Hf]; [apply H|auto]. }
  assert (Gf : forall f, In f final -> good f) by exact (proj1 (absorb_pt (aligned_ops o) card good dpt (aligned_lawful card nm o) reduced final Gr A)).
  unfold build_graph at 1 2. set (cls := map (new_cluster (dense_ops o) special) (enum final)).
  change (map (new_cluster (aligned_ops o) special) (enum final)) with cls. cbn [dense_ops aligned_ops f_vars].
  assert (SC : map (fun c => dvars (cl_fac c)) cls = map dvars final) by exact (new_cluster_scopes (dense_ops o) special final).
  rewrite SC.
  destruct (foldM_same (link_pair (dense_ops o) (rip_sepsets o (map dvars final) (all_evidence ev special)))
     (link_pair (aligned_ops o) (rip_sepsets o (map dvars final) (all_evidence ev special))) (binv card nm cls (rip_sepsets o (map dvars final) (all_evidence ev special))) (pairs (length cls)))
    with (b := {| g_cl := cls; g_paths := []; g_order := []; g_spec := special; g_passed := 0; g_dists := [] |} : cgraph dense nat) as [F1 F2].
  { intros ij b _ Hb. apply link_sim; [|exact Hb]. now apply neat_order. }
  { now apply fresh_binv. }
  split.
  - destruct (raise_if _ _) as [u|er]; cbn [bind]; [exact F1|reflexivity].
  - intros g H. destruct (MM g Ho H) as (reduced' & final' & M).
    assert (reduced' = reduced) by (pose proof (mk_reduced _ _ _ _ _ _ _ _ M) as E; change (evidence_reduce (aligned_ops o) factors ev) with (evidence_reduce (dense_ops o) factors ev) in E; congruence). subst reduced'.
    assert (final' = final) by (pose proof (mk_final _ _ _ _ _ _ _ _ M) as E; change (absorb_subsets (aligned_ops o) reduced) with (absorb_subsets (dense_ops o) reduced) in E; congruence). subst final'.
    apply (aligned_ginv factors ev special reduced final g M).
    unfold mk_graph in H. change (evidence_reduce (aligned_ops o) factors ev) with (evidence_reduce (dense_ops o) factors ev) in H. rewrite R in H. cbn [bind] in H.
    change (absorb_subsets (aligned_ops o) reduced) with (absorb_subsets (dense_ops o) reduced) in H. rewrite A in H. cbn [bind] in H.
    unfold build_graph in H. change (map (new_cluster (aligned_ops o) special) (enum final)) with cls in H. cbn [aligned_ops f_vars] in H.
    rewrite SC in H. apply bind_ok in H. destruct H as (u & _ & H). intros i c Hc. exact (proj1 (bi_cl _ _ _ _ _ (F2 g H) i c Hc)).
Qed.
End Mk.
