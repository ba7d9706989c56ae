(** Two sweeps over a freshly built tree of dense tables with zeros. *)
From Coq Require Import ZArith.
From Verif Require Export DenseZeroLaws.
Local Open Scope string_scope.
Local Open Scope nat_scope.
Local Open Scope list_scope.

Section Sim.
Context (card : string -> nat) (nm : string -> list aname).
Notation good := (zgood card nm).
Variable o : oracle.

Lemma cancel_moved a m r : listed (dvars m) (dvars a) -> d_cancel a m = Ok r -> dvars r = moved (dvars m) (dvars a).
Proof.
  intros L H. unfold d_cancel in H. apply bind_ok in H. destruct H as (u & _ & H). apply bind_ok in H. destruct H as (w & _ & H).
  apply bind_ok in H. destruct H as (tv & Ht & H). apply bind_ok in H. destruct H as (u' & _ & H).
  apply bind_ok in H. destruct H as (ns & _ & H). rewrite <- (tensor_vars _ _ _ _ _ _ L Ht).
  unfold mk_dense in H. repeat (apply bind_ok in H; destruct H as (? & _ & H)). injection H as <-. reflexivity.
Qed.
Lemma zreduce_vars f vs xs r : good f -> NoDup vs -> incl vs (dvars f) -> length xs = length vs ->
  d_reduce f vs (map Z.of_nat xs) = Ok r -> dvars r = filter (fun v => negb (mem v vs)) (dvars f).
Proof.
  intros G Hn Hi Hl H. pose proof (zg_wf _ _ _ G) as W.
  assert (Hl' : length (map Z.of_nat xs) = length vs) by now rewrite map_length.
  assert (Hr : forall v z c, In (v, z) (combine vs (map Z.of_nat xs)) -> d_has_card f v c -> (0 <= z < Z.of_nat c)%Z).
  { intros v z c Hz Hc. destruct (Z_lt_dec z (Z.of_nat c)) as [L|L].
    - split; [|exact L]. apply in_combine_r in Hz. apply in_map_iff in Hz. destruct Hz as (x & <- & _). lia.
    - exfalso. rewrite (d_reduce_out_of_range f vs _ v z c (wd_s _ W) Hn Hl' Hz Hc) in H by (left; lia). discriminate. }
  destruct (d_reduce_spec f vs _ W Hn Hl' Hr) as (r' & H1 & H2 & H3 & _). congruence.
Qed.
(** What one message needs of its cluster. *)
Lemma zmake c nid : good (cl_fac c) ->
  (forall S, dget (cl_seps c) nid = Some S -> S <> [] /\ listed S (dvars (cl_fac c)) /\ (forall s, In s S -> ~ In s (dkeys (cl_spec c))) /\
     (forall f, dget (cl_recv c) nid = Some f -> dvars f = S)) ->
  NoDup (dkeys (cl_spec c)) -> incl (dkeys (cl_spec c)) (dvars (cl_fac c)) -> length (dvals (cl_spec c)) = length (dkeys (cl_spec c)) ->
  make_message (dense_ops o) c nid = make_message (zero_ops o) c nid /\
  forall m, make_message (zero_ops o) c nid = Ok m -> dget (cl_seps c) nid = Some (dvars (m_fac m)).
Proof.
  intros G S K1 K2 K3. unfold make_message, dget_r.
  destruct (dget (cl_seps c) nid) as [sep|] eqn:E; [|split; [reflexivity|discriminate]].
  destruct (S sep eq_refl) as (Hn & Hs & Hk & R). cbn [bind dense_ops zero_ops f_reduce f_marg f_cancel].
  destruct (d_reduce (cl_fac c) (dkeys (cl_spec c)) (map Z.of_nat (dvals (cl_spec c)))) as [f1|er] eqn:E1; [|split; [reflexivity|discriminate]].
  cbn [bind]. destruct (zreduce_law card nm _ _ _ f1 G K1 K2 K3 E1) as (G1 & V1 & _).
  assert (Hs1 : listed sep (dvars f1)).
  { rewrite (zreduce_vars _ _ _ f1 G K1 K2 K3 E1). apply listed_filter; [exact Hs|]. intros v Hv. apply negb_true_iff, mem_nIn. now apply Hk. }
  pose proof (ws_vars f1 (zg_wf card nm f1 G1)) as N1.
  destruct (zmarg_law card nm o f1 sep G1) as (f2 & M1 & G2 & _ & V2 & _).
  { now apply (listed_NoDup sep (dvars f1)). }
  { intros v Hv. now apply (listed_In sep). }
  unfold listed in Hs1. rewrite Hs1 in M1, V2 |- *. rewrite M1. cbn [bind].
  destruct (dget (cl_recv c) nid) as [prev|] eqn:E2.
  - rewrite V2, (R prev eq_refl). assert (Q : eqb sep sep = true) by now apply eqb_true. rewrite Q.
    assert (Q' : Nat.ltb 0 (length sep) = true) by (destruct sep; [congruence|reflexivity]). rewrite Q'. cbn [andb]. split; [reflexivity|].
    intros m Hm. apply bind_ok in Hm. destruct Hm as (f3 & H3 & Hm). injection Hm as <-. cbn [m_fac]. f_equal.
    assert (Ls : listed sep sep) by (apply filter_all; intros x Hx; now apply mem_In).
    rewrite (cancel_moved f2 prev f3); [|rewrite V2, (R prev eq_refl); exact Ls|exact H3]. rewrite V2, (R prev eq_refl).
    unfold moved. rewrite filter_none; [reflexivity|]. intros x Hx. apply negb_false_iff. now apply mem_In.
  - split; [reflexivity|]. intros m Hm. cbn [bind] in Hm. injection Hm as <-. cbn. now rewrite V2.
Qed.

(** ** Construction *)
Record zinv (cls0 : list (cluster dense nat)) (g : cgraph dense nat) : Prop := {
  zi_len : length (g_cl g) = length cls0;
  zi_cl : forall i c, nth_error (g_cl g) i = Some c ->
    (forall nid S, dget (cl_seps c) nid = Some S -> S <> [] /\ listed S (dvars (cl_fac c)) /\ forall s, In s S -> ~ In s (dkeys (cl_spec c))) /\
    cl_recv c = [] /\ good (cl_fac c) /\
    NoDup (dkeys (cl_spec c)) /\ incl (dkeys (cl_spec c)) (dvars (cl_fac c)) /\ length (dvals (cl_spec c)) = length (dkeys (cl_spec c)) /\
    exists c0, nth_error cls0 i = Some c0 /\ cl_fac c = cl_fac c0 /\ cl_spec c = cl_spec c0 }.
Lemma zlink_sim d cls0 g ij : in_order cls0 d -> zinv cls0 g -> link_pair (dense_ops o) d g ij = link_pair (zero_ops o) d g ij /\
  (forall g', link_pair (zero_ops o) d g ij = Ok g' -> zinv cls0 g').
Proof.
  intros D B. destruct ij as [i j]. unfold link_pair. destruct (dget d (i, j)) as [S|] eqn:E.
  2: { split; [reflexivity|]. intros g' H. injection H as <-. exact B. }
  destruct (D i j S E) as (HnS & Hs). assert (Q : Nat.ltb 0 (length S) = true) by (destruct S; [congruence|reflexivity]). rewrite ?Q. cbn [py_assert bind].
  destruct (py_nth (g_cl g) i) as [ci|er] eqn:Ei; [|split; [reflexivity|discriminate]].
  destruct (py_nth (g_cl g) j) as [cj|er] eqn:Ej; [|split; [reflexivity|discriminate]].
  apply py_nth_inv in Ei, Ej. cbn [bind]. unfold add_neighbour. rewrite ?Q. cbn [py_assert bind].
  set (ci1 := {| cl_fac := cl_fac ci |}). set (cj1 := {| cl_fac := cl_fac cj |}).
  assert (Gs : forall k c nid, (k = i \/ k = j) -> nth_error (g_cl g) k = Some c -> forall n T, dget (dset (cl_seps c) nid S) n = Some T ->
     T <> [] /\ listed T (dvars (cl_fac c)) /\ forall s, In s T -> ~ In s (dkeys (cl_spec c))).
  { intros k c nid Hk Hc n T H. destruct (zi_cl _ _ B k c Hc) as (A2 & A3 & A4 & A5 & A6 & A7 & c0 & B3 & B4 & B5).
    destruct (eq_dec n nid) as [->|N].
    - rewrite dget_dset_eq in H. injection H as <-. split; [exact HnS|]. rewrite B4, B5. destruct (Hs k c0 Hk B3) as (X1 & X2 & _). auto.
    - rewrite dget_dset_ne in H by exact N. now apply A2 in H. }
  assert (M : forall k c nid nid', (k = i \/ k = j) -> nth_error (g_cl g) k = Some c ->
    let c1 := {| cl_fac := cl_fac c; cl_id := cl_id c; cl_seps := dset (cl_seps c) nid S; cl_recv := cl_recv c;
            cl_out := cl_out c; cl_spec := cl_spec c |} in
    make_message (dense_ops o) c1 nid' = make_message (zero_ops o) c1 nid').
  { intros k c nid nid' Hk Hc c1. destruct (zi_cl _ _ B k c Hc) as (A2 & A3 & A4 & A5 & A6 & A7 & c0 & B3 & B4 & B5).
    apply zmake; cbn; auto. intros T H. destruct (Gs k c nid Hk Hc nid' T H) as (X1 & X2 & X3).
    split; [exact X1|]. split; [exact X2|]. split; [exact X3|]. rewrite A3. discriminate. }
  unfold new_path. pose proof (M i ci (cl_id cj) (cl_id cj1) (or_introl eq_refl) Ei) as M1. pose proof (M j cj (cl_id ci) (cl_id ci1) (or_intror eq_refl) Ej) as M2.
  cbn zeta in M1, M2. fold ci1 in M1. fold cj1 in M2. rewrite M1, M2.
  split; [reflexivity|]. intros g' H. repeat (apply bind_ok in H; destruct H as (? & ? & H)). injection H as <-.
  repeat match goal with L : list_set _ _ _ = Ok _ |- _ => destruct (list_set_inv _ _ _ _ L) as (? & ? & ?); clear L end.
  split; cbn [g_cl].
  - rewrite <- (zi_len _ _ B). congruence.
  - intros k c Hc.
    match goal with N2 : forall _, nth_error ?l2 _ = _, K : nth_error ?l2 k = Some c |- _ => rewrite N2 in K end.
    destruct (Nat.eq_dec k j) as [->|Nj].
    + injection Hc as <-. cbn. split; [exact (Gs j cj (cl_id ci) (or_intror eq_refl) Ej)|apply (zi_cl _ _ B j cj Ej)].
    + match goal with N2 : forall _, nth_error ?l2 _ = _, K : nth_error ?l2 k = Some c |- _ => rewrite N2 in K end.
      destruct (Nat.eq_dec k i) as [->|Ni]; [|now apply (zi_cl _ _ B)].
      injection Hc as <-. cbn. split; [exact (Gs i ci (cl_id cj) (or_introl eq_refl) Ei)|apply (zi_cl _ _ B i ci Ei)].
Qed.
Hypothesis Ho : oracle_ok o.
Lemma zfac (special : dict string nat) k f : cl_fac (new_cluster (dense_ops o) special (k, f)) = f.
Proof. unfold new_cluster; cbn; destruct (subset_evidence special (dvars f)); reflexivity. Qed.
Lemma zfresh (special : dict string nat) final : (forall f, In f final -> good f) ->
  zinv (map (new_cluster (dense_ops o) special) (enum final))
    {| g_cl := map (new_cluster (dense_ops o) special) (enum final); g_paths := []; g_order := []; g_spec := special; g_passed := 0; g_dists := [] |}.
Proof.
  intros G. split; [reflexivity|]. cbn [g_cl]. intros i c Hc. pose proof (new_cluster_empty (dense_ops o) special final c (nth_error_In _ _ Hc)) as (E1 & E2 & E3).
  split; [rewrite E1; discriminate|]. split; [exact E2|].
  pose proof Hc as Hc0. rewrite nth_error_map, nth_error_enum in Hc. destruct (nth_error final i) as [f|] eqn:Ef; [|discriminate]. cbn [option_map] in Hc. injection Hc as <-.
  assert (Gf : good f) by (apply G; eapply nth_error_In; eauto).
  destruct (spec_of_cluster (zero_ops o) card good dpt (zero_lawful card nm o) special i f Gf) as (S1 & S2 & S3 & _).
  change (new_cluster (zero_ops o) special (i, f)) with (new_cluster (dense_ops o) special (i, f)) in *.
  rewrite zfac. split; [exact Gf|]. split; [exact S1|]. split; [|split; [exact S3|]].
  - intros v Hv. apply S2 in Hv. tauto.
  - eexists. split; [exact Hc0|]. rewrite zfac. auto.
Qed.
Lemma zneat_order ev special final : neat o (all_evidence ev special) final -> (forall f, In f final -> good f) ->
  in_order (map (new_cluster (dense_ops o) special) (enum final)) (rip_sepsets o (map dvars final) (all_evidence ev special)).
Proof.
  intros T G.
  assert (RS : forall i j S, dget (rip_sepsets o (map dvars final) (all_evidence ev special)) (i, j) = Some S ->
    graph_sep o (map dvars final) (all_evidence ev special) i j = Some S).
  { intros i j S H. rewrite rip_lookup in H.
    assert (Hij : i < j /\ j < length (map dvars final)) by (apply (sep_vars_range o (map dvars final) (all_evidence ev special)); [exact Ho|congruence]).
    unfold graph_sep. replace (Nat.ltb i j) with true by (symmetry; apply Nat.ltb_lt; lia). exact H. }
  intros i j S H. apply RS in H. split.
  { intros ->. unfold graph_sep in H. destruct (Nat.ltb i j); [|destruct (Nat.ltb j i); [|discriminate]];
      (destruct (sep_vars o _ _ _); discriminate). }
  intros k c Hk Hc. rewrite nth_error_map, nth_error_enum in Hc. destruct (nth_error final k) as [f|] eqn:Ef; [|discriminate]. cbn [option_map] in Hc. injection Hc as <-.
  assert (Gf : good f) by (apply G; eapply nth_error_In; eauto).
  destruct (spec_of_cluster (zero_ops o) card good dpt (zero_lawful card nm o) special k f Gf) as (S1 & S2 & S3 & _).
  change (new_cluster (zero_ops o) special (k, f)) with (new_cluster (dense_ops o) special (k, f)) in *.
  rewrite zfac. assert (exists j', graph_sep o (map dvars final) (all_evidence ev special) k j' = Some S) as (j' & HS).
  { destruct Hk as [->| ->]; [eauto|]. rewrite (sep_sym o) in H. eauto. }
  destruct (T k j' S f HS Ef) as (T1 & T2). split; [exact T1|]. split.
  - intros s Hs C. apply S2 in C. destruct (sepf_In (zero_ops o) o final ev special Ho k j' S s HS Hs) as (A1 & A2 & A3). tauto.
  - intros a b U HU Hab. apply RS in HU. destruct Hab as [->| ->]; [eauto|]. rewrite (sep_sym o) in HU. eauto.
Qed.
Lemma zmk_sim factors ev special :
  (forall f, In f factors -> good f) ->
  (forall reduced final, evidence_reduce (dense_ops o) factors ev = Ok reduced -> absorb_subsets (dense_ops o) reduced = Ok final ->
     neat o (all_evidence ev special) final) ->
  mk_graph (dense_ops o) o factors ev special = mk_graph (zero_ops o) o factors ev special.
Proof.
  intros G T. unfold mk_graph at 1 2. change (evidence_reduce (zero_ops o) factors ev) with (evidence_reduce (dense_ops o) factors ev).
  destruct (evidence_reduce (dense_ops o) factors ev) as [reduced|er] eqn:R; [|reflexivity].
  cbn [bind]. change (absorb_subsets (zero_ops o) reduced) with (absorb_subsets (dense_ops o) reduced).
  destruct (absorb_subsets (dense_ops o) reduced) as [final|er] eqn:A; [|reflexivity].
  cbn [bind]. specialize (T reduced final eq_refl A).
  assert (Gr : forall f, In f reduced -> good f).
  { pose proof (evidence_reduce_pt (zero_ops o) card good dpt (zero_lawful card nm o) ev factors reduced G R) as HF.
    clear - HF. intros f Hf. induction HF as [|a b l l' H _ IH]; [destruct Hf|]. destruct Hf as [<-|Hf]; [apply H|auto]. }
  assert (Gf : forall f, In f final -> good f) by exact (proj1 (absorb_pt (zero_ops o) card good dpt (zero_lawful card nm o) reduced final Gr A)).
  unfold build_graph at 1 2. set (cls := map (new_cluster (dense_ops o) special) (enum final)).
  change (map (new_cluster (zero_ops o) special) (enum final)) with cls. cbn [dense_ops zero_ops f_vars].
  assert (SC : map (fun c => dvars (cl_fac c)) cls = map dvars final) by exact (new_cluster_scopes (dense_ops o) special final).
  rewrite SC.
  destruct (foldM_same (link_pair (dense_ops o) (rip_sepsets o (map dvars final) (all_evidence ev special)))
     (link_pair (zero_ops o) (rip_sepsets o (map dvars final) (all_evidence ev special))) (zinv cls) (pairs (length cls)))
    with (b := {| g_cl := cls; g_paths := []; g_order := []; g_spec := special; g_passed := 0; g_dists := [] |} : cgraph dense nat) as [F1 F2].
  { intros ij b _ Hb. apply zlink_sim; [|exact Hb]. now apply zneat_order. }
  { now apply zfresh. }
  destruct (raise_if _ _) as [u|er]; cbn [bind]; [exact F1|reflexivity].
Qed.
End Sim.

Section Run.
Variable card : string -> nat.
Variable nm : string -> list aname.
Notation good := (zgood card nm).
Variable o : oracle.
Hypothesis Ho : oracle_ok o.
Context (factors : list dense) (ev : option (dict string nat)) (special : dict string nat) (g0 : cgraph dense nat).
Hypothesis G : forall f, In f factors -> good f.
Hypothesis Hmk : mk_graph (dense_ops o) o factors ev special = Ok g0.
Hypothesis Hlin : lined g0.
Notation L := (zero_lawful card nm o).

Lemma zneat_final reduced final : evidence_reduce (dense_ops o) factors ev = Ok reduced -> absorb_subsets (dense_ops o) reduced = Ok final ->
  neat o (all_evidence ev special) final.
Proof.
  intros R A i j S f HS Hf.
  destruct (mk_graph_made (dense_ops o) o factors ev special g0 Ho Hmk) as (reduced' & final' & M).
  assert (reduced' = reduced) by (pose proof (mk_reduced _ _ _ _ _ _ _ _ M); congruence). subst reduced'.
  assert (final' = final) by (pose proof (mk_final _ _ _ _ _ _ _ _ M); congruence). subst final'.
  pose proof (made_facs _ _ _ _ _ _ _ _ M) as Fc.
  assert (exists c, nth_error (g_cl g0) i = Some c /\ cl_fac c = f) as (c & Hc & Ec).
  { rewrite <- Fc, nth_error_map in Hf. destruct (nth_error (g_cl g0) i) as [c|]; [|discriminate]. cbn in Hf. injection Hf as <-. eauto. }
  destruct (Hlin i j S c) as (L1 & L2); [apply (made_edge (dense_ops o) o factors ev special reduced final g0 M); exact HS|exact Hc|].
  split; [now rewrite <- Ec|]. intros k T HT. apply (L2 k T). apply (made_edge (dense_ops o) o factors ev special reduced final g0 M). exact HT.
Qed.
Lemma zbuilt : mk_graph (zero_ops o) o factors ev special = Ok g0.
Proof. rewrite <- (zmk_sim card nm o Ho factors ev special G zneat_final). exact Hmk. Qed.

Section Live.
Context (reduced final : list dense).
Hypothesis M : made (zero_ops o) o factors ev special reduced final g0.
Notation Live := (live (zero_ops o) good dpt o final ev special).
Notation sepf := (graph_sep o (map dvars final) (all_evidence ev special)).
Lemma zneat_live : neat o (all_evidence ev special) final.
Proof.
  apply (zneat_final reduced); [exact (mk_reduced _ _ _ _ _ _ _ _ M)|exact (mk_final _ _ _ _ _ _ _ _ M)].
Qed.
(** The order of the variables in every cluster and every message. *)
Record ordered (g : cgraph dense nat) : Prop := {
  od_cl : forall i c j S, nth_error (g_cl g) i = Some c -> sepf i j = Some S -> listed S (dvars (cl_fac c));
  od_next : forall k p S, nth_error (g_paths g) k = Some p -> sepf (p_snd p) (p_rcv p) = Some S -> dvars (m_fac (p_next p)) = S;
  od_prev : forall k p S m, nth_error (g_paths g) k = Some p -> sepf (p_snd p) (p_rcv p) = Some S -> p_prev p = Some m -> dvars (m_fac m) = S }.
Lemma zgood_final f : In f final -> good f.
Proof. exact (proj1 (made_pt (zero_ops o) card good dpt L o factors ev special reduced final g0 M G) f). Qed.
Lemma live_make g i j ci cj : Live g -> (forall j S, sepf i j = Some S -> listed S (dvars (cl_fac ci))) ->
  (forall k p S m, nth_error (g_paths g) k = Some p -> sepf (p_snd p) (p_rcv p) = Some S -> p_prev p = Some m -> dvars (m_fac m) = S) ->
  nth_error (g_cl g) i = Some ci -> nth_error (g_cl g) j = Some cj ->
  make_message (dense_ops o) ci (cl_id cj) = make_message (zero_ops o) ci (cl_id cj) /\
  forall m S, make_message (zero_ops o) ci (cl_id cj) = Ok m -> sepf i j = Some S -> dvars (m_fac m) = S.
Proof.
  intros LV OC OP Hi Hj. pose proof (lv_inv _ _ _ _ _ _ _ _ LV) as IV. pose proof (iv_struct _ _ _ _ _ _ _ _ IV) as ST.
  destruct (iv_cl _ _ _ _ _ _ _ _ IV i ci Hi) as (f & Hf & Sp & (Gc & Vc) & _). cbn in Vc.
  assert (Gf : good f) by (apply zgood_final; eapply nth_error_In; eauto).
  destruct (spec_of_cluster (zero_ops o) card good dpt L special i f Gf) as (S1 & S2 & S3 & _). rewrite <- Sp in S1, S2, S3. cbn in S2.
  destruct (zmake card nm o ci (cl_id cj) Gc) as [Z1 Z2]; auto.
  - intros S HS. rewrite (st_sep _ _ ST i j ci cj Hi Hj) in HS.
    split; [|split; [exact (OC j S HS)|split]].
    + intros ->. unfold graph_sep in HS. destruct (Nat.ltb i j); [|destruct (Nat.ltb j i); [|discriminate]];
        (destruct (sep_vars o _ _ _); discriminate).
    + intros s Hs C. destruct (sepf_In (zero_ops o) o final ev special Ho i j S s HS Hs) as (A1 & _ & A3). apply S2 in C. tauto.
    + intros prev Hp.
      destruct (st_edge _ _ ST i j S HS) as (_ & _ & _ & _ & HS' & _).
      destruct (st_edge _ _ ST j i S HS') as (_ & _ & _ & _ & _ & k & q & Hq & Q1 & Q2).
      rewrite <- Q1 in Hj. rewrite <- Q2 in Hi. rewrite (iv_recv _ _ _ _ _ _ _ _ IV k q cj ci Hq Hj Hi) in Hp.
      destruct (p_prev q) as [m|] eqn:Em; [|discriminate]. cbn in Hp. injection Hp as <-.
      apply (OP k q S m Hq); [now rewrite Q1, Q2|exact Em].
  - intros v Hv. apply S2 in Hv. apply Vc. tauto.
  - split; [exact Z1|]. intros m S Hm HS. pose proof (Z2 m Hm) as E. rewrite (st_sep _ _ ST i j ci cj Hi Hj) in E.
    assert (E' : Some (dvars (m_fac m)) = Some S) by (transitivity (sepf i j); [symmetry; exact E|exact HS]). now injection E'.
Qed.
Lemma made_ordered : ordered g0.
Proof.
  destruct (history_live (zero_ops o) card good dpt L o factors ev special g0 Ho G reduced final g0 M (hi_init _ _)) as [_ LV].
  assert (OC : forall i c j S, nth_error (g_cl g0) i = Some c -> sepf i j = Some S -> listed S (dvars (cl_fac c))).
  { intros i c j S Hc HS. pose proof (made_facs _ _ _ _ _ _ _ _ M) as Fc.
    assert (Hf : nth_error final i = Some (cl_fac c)) by now rewrite <- Fc, nth_error_map, Hc.
    exact (proj1 (zneat_live i j S (cl_fac c) HS Hf)). }
  assert (OP : forall k p S m, nth_error (g_paths g0) k = Some p -> sepf (p_snd p) (p_rcv p) = Some S -> p_prev p = Some m -> dvars (m_fac m) = S).
  { intros k p S m Hp _ Hm. pose proof (proj1 (mk_path _ _ _ _ _ _ _ _ M k p Hp)). congruence. }
  split; [exact OC| |exact OP]. intros k p S Hp HS. pose proof (mk_struct _ _ _ _ _ _ _ _ M) as ST.
  destruct (st_edge _ _ ST _ _ _ HS) as (H1 & H2 & _).
  destruct (nth_error (g_cl g0) (p_snd p)) as [ci|] eqn:Ei; [|apply nth_error_None in Ei; lia].
  destruct (nth_error (g_cl g0) (p_rcv p)) as [cj|] eqn:Ej; [|apply nth_error_None in Ej; lia].
  pose proof (mk_fresh _ _ _ _ _ _ _ _ M k p ci cj Hp Ei Ej) as Fr.
  destruct (live_make g0 _ _ ci cj LV (fun j S => OC _ ci j S Ei) OP Ei Ej) as [_ Z]. exact (Z _ S Fr HS).
Qed.
Lemma live_pass_same g k p g' : Live g -> ordered g -> nth_error (g_paths g) k = Some p -> p_prev p = None -> pass_path (zero_ops o) g k = Ok g' ->
  pass_path (dense_ops o) g k = Ok g' /\ ordered g'.
Proof.
  intros LV OD Hp Hn H. assert (LV' : Live g') by exact (live_pass (zero_ops o) card good dpt L o final ev special Ho zgood_final g k g' LV H).
  pose proof (lv_inv _ _ _ _ _ _ _ _ LV) as IV. pose proof (iv_struct _ _ _ _ _ _ _ _ IV) as ST.
  pose proof (zneat_live) as NT.
  destruct (next_ok (zero_ops o) card good dpt L o final ev special Ho zgood_final g k p IV (sa_fresh _ _ _ (lv_static _ _ _ _ _ _ _ _ LV)) Hp)
    as (S & ci & cj & q & kq & HS & Ei & Ej & Hq & Q1 & Q2 & MO).
  destruct (pass_path_passed (zero_ops o) g k g' (struct_out _ _ (sa_struct _ _ _ (lv_static _ _ _ _ _ _ _ _ LV))) H) as (p' & cr & cr' & P).
  assert (p' = p) by (pose proof (pa_path _ _ _ _ _ _ _ P); congruence). subst p'.
  assert (cr = cj) by (pose proof (pa_cr _ _ _ _ _ _ _ P); congruence). subst cr.
  assert (Vn : dvars (m_fac (p_next p)) = S) by exact (od_next _ OD k p S Hp HS).
  assert (HS' : sepf (p_rcv p) (p_snd p) = Some S) by (now rewrite (sep_sym o)).
  assert (RC : dvars (cl_fac cr') = moved S (dvars (cl_fac cj))).
  { pose proof (pa_recv _ _ _ _ _ _ _ P) as RV. unfold receive_message in RV. rewrite (mo_snd _ _ _ _ _ _ _ _ _ _ MO), (iv_recv _ _ _ _ _ _ _ _ IV k p ci cj Hp Ei Ej), Hn in RV.
    cbn [option_map zero_ops f_mul] in RV. apply bind_ok in RV. destruct RV as (u & _ & RV). apply bind_ok in RV. destruct RV as (f1 & H1 & RV). cbn [bind] in RV.
    injection RV as <-. cbn [cl_fac]. rewrite <- Vn. apply multiply_moved; [|exact H1]. rewrite Vn. exact (od_cl _ OD _ cj _ S Ej HS'). }
  assert (OC : forall i c j T, nth_error (g_cl g') i = Some c -> sepf i j = Some T -> listed T (dvars (cl_fac c))).
  { intros i c j T Hc HT. rewrite (pa_cl _ _ _ _ _ _ _ P i) in Hc. destruct (Nat.eq_dec i (p_rcv p)) as [->|Ni].
    - injection Hc as <-. rewrite RC. apply listed_moved; [exact (od_cl _ OD _ cj _ T Ej HT)|].
      destruct (iv_cl _ _ _ _ _ _ _ _ IV _ cj Ej) as (f & Hf & _). exact (proj2 (NT _ _ S f HS' Hf) _ T HT).
    - exact (od_cl _ OD _ c _ T Hc HT). }
  assert (OP : forall k' p' T m, nth_error (g_paths g') k' = Some p' -> sepf (p_snd p') (p_rcv p') = Some T -> p_prev p' = Some m -> dvars (m_fac m) = T).
  { intros k' p' T m Hp' HT Hm. destruct (pa_paths _ _ _ _ _ _ _ P k' p' Hp') as (p0 & H0 & E1 & E2 & E3 & _).
    rewrite E1, E2 in HT. rewrite E3 in Hm. destruct (Nat.eq_dec k' k) as [->|Nk].
    - injection Hm as <-. assert (p0 = p) by congruence. subst p0. exact (od_next _ OD k p T Hp HT).
    - exact (od_prev _ OD k' p0 T m H0 HT Hm). }
  split; [|split; [exact OC| |exact OP]].
  2: { intros k' p' T Hp' HT. destruct (pa_paths _ _ _ _ _ _ _ P k' p' Hp') as (p0 & H0 & E1 & E2 & E3 & E4 & E5).
       rewrite E1, E2 in HT. destruct (in_dec Nat.eq_dec k' (cl_out cj)) as [I|I].
       - destruct (E4 I) as ((cs & cq & C1 & C2 & C3) & _).
         exact (proj2 (live_make g' _ _ cs cq LV' (fun j U => OC _ cs j U C1) OP C1 C2) _ T C3 HT).
       - rewrite (proj1 (E5 I)). exact (od_next _ OD k' p0 T H0 HT). }
  unfold pass_path in *. rewrite (py_nth_some _ _ _ Hp) in *. cbn [bind] in *. rewrite (py_nth_some _ _ _ Ej) in *. cbn [bind] in *.
  assert (RV : receive_message (dense_ops o) cj (p_next p) = receive_message (zero_ops o) cj (p_next p)).
  { unfold receive_message. rewrite (mo_snd _ _ _ _ _ _ _ _ _ _ MO), (iv_recv _ _ _ _ _ _ _ _ IV k p ci cj Hp Ei Ej), Hn. reflexivity. }
  rewrite RV. destruct (receive_message (zero_ops o) cj (p_next p)) as [cj'|er]; [|discriminate]. cbn [bind] in *.
  destruct (list_set (g_cl g) (p_rcv p) cj') as [cls|er]; [|discriminate]. cbn [bind] in *.
  destruct (list_set (g_paths g) k _) as [ps1|er]; [|discriminate]. cbn [bind] in *.
  rewrite (proj1 (foldM_same (recompute_at (dense_ops o) cls) (recompute_at (zero_ops o) cls) (fun _ => True) (cl_out cj')
     ltac:(intros x b _ _; split; [|auto]; unfold recompute_at, recompute; destruct (py_nth b x) as [pp|er]; [|reflexivity]; cbn [bind];
       destruct (py_nth cls (p_snd pp)) as [cs|er] eqn:Es; [|reflexivity]; cbn [bind];
       destruct (py_nth cls (p_rcv pp)) as [cq|er] eqn:Er; [|reflexivity]; cbn [bind];
       apply py_nth_inv in Es, Er;
       assert (g_cl g' = cls) as EC by (apply bind_ok in H; destruct H as (? & _ & H); injection H as <-; reflexivity);
       rewrite <- EC in Es, Er; rewrite (proj1 (live_make g' _ _ cs cq LV' (fun j U => OC _ cs j U Es) OP Es Er)); reflexivity) ps1 I)).
  exact H.
Qed.
Lemma live_passes_same ks : forall g g', Live g -> ordered g -> NoDup ks -> (forall k p, In k ks -> nth_error (g_paths g) k = Some p -> p_prev p = None) ->
  foldM (pass_path (zero_ops o)) ks g = Ok g' -> foldM (pass_path (dense_ops o)) ks g = Ok g'.
Proof.
  induction ks as [|k ks IH]; intros g g' LV OD Nd Hn H; cbn [foldM] in *; [exact H|].
  apply bind_ok in H. destruct H as (g1 & H1 & H). inversion Nd as [|? ? N1 N2]; subst.
  destruct (pass_path_passed (zero_ops o) g k g1 (struct_out _ _ (sa_struct _ _ _ (lv_static _ _ _ _ _ _ _ _ LV))) H1) as (p & cr & cr' & P).
  destruct (live_pass_same g k p g1 LV OD (pa_path _ _ _ _ _ _ _ P) (Hn k p (or_introl eq_refl) (pa_path _ _ _ _ _ _ _ P)) H1) as [D1 OD1].
  rewrite D1. cbn [bind]. apply IH; auto.
  - exact (live_pass (zero_ops o) card good dpt L o final ev special Ho zgood_final g k g1 LV H1).
  - intros q p' Hq Hp'. destruct (pa_paths _ _ _ _ _ _ _ P q p' Hp') as (p0 & H0 & _ & _ & E & _). rewrite E.
    destruct (Nat.eq_dec q k) as [->|_]; [contradiction|]. apply (Hn q p0); [right; exact Hq|exact H0].
Qed.
Lemma sweeps_nodup (g : cgraph dense nat) ks : struct_ok (graph_sep o (map dvars final) (all_evidence ev special)) g -> two_sweeps g ks -> NoDup ks.
Proof.
  intros ST (r & ord & HT & HP & HF).
  assert (Er : forall i j, linked g i j -> i < length (g_cl g) /\ j < length (g_cl g) /\ i <> j).
  { intros i j (k & p & Hp & <- & <-). destruct (st_path _ _ ST k p Hp) as (s & Hs). destruct (st_edge _ _ ST _ _ _ Hs) as (Hi & Hj & Hd & _). auto. }
  assert (Hr : r < length (g_cl g)).
  { assert (I : In r (verts r ord)) by (apply in_or_app; right; now left). apply (Permutation_in _ HP), in_seq in I. lia. }
  destruct (order_nodup (linked g) (length (g_cl g)) r Er Hr ord HT) as (N1 & N2 & N3).
  assert (Ne : NoDup (ord ++ rev (map swap ord))).
  { apply NoDup_app_intro.
    - exact N1.
    - apply NoDup_rev. apply FinFun.Injective_map_NoDup; [|exact N1]. intros [a b] [c d] E. unfold swap in E. cbn in E. congruence.
    - intros [a b] H1 H2. apply in_rev in H2. apply in_map_iff in H2. destruct H2 as ([c d] & E & H2). unfold swap in E. cbn in E.
      injection E as -> ->. exact (N2 _ _ H1 H2). }
  revert Ne. generalize (ord ++ rev (map swap ord)) HF. clear - ST. intros es HF. induction HF as [|k e ks es He HF IH]; intros Ne; [constructor|].
  inversion Ne as [|? ? X1 X2]; subst. constructor; [|auto]. intros C. apply X1. clear - ST HF He C.
  induction HF as [|k' e' ks es He' HF IH]; [destruct C|]. destruct C as [->|C]; [|right; auto]. left.
  destruct He as (p & P1 & <-), He' as (p' & P2 & <-). congruence.
Qed.
End Live.

Lemma zfits_dpt e f : fits card factors e -> In f factors -> dpt f e = dpot f e.
Proof.
  intros H Hf. apply dpt_in; [apply (zg_wf card nm f (G f Hf))|]. apply (zg_range card nm); [now apply G|].
  intros v Hv. exact (H f v Hf Hv).
Qed.
Lemma zfits_sum rem e : fits card factors e ->
  sum_over card rem (prod_at dpt factors) e = sum_over card rem (fun e' => Rprod (map (fun f => dpot f e') factors)) e.
Proof.
  intros H. apply sum_over_ext_range. intros e' E1 E2. unfold prod_at. f_equal. apply map_ext_in. intros f Hf. apply zfits_dpt; [|exact Hf].
  intros f' w Hf' Hw. destruct (in_dec string_dec w rem) as [Hi|Hi]; [now apply E1|]. rewrite E2 by exact Hi. eapply H; eauto.
Qed.
Lemma zfits_positive e : agrees_opt ev e -> agrees special e -> fits card factors e -> (forall f, In f factors -> dpot f e <> 0%R) ->
  has_positive dpt factors ev special e.
Proof.
  intros H1 H2 H3 H4. split; [exact H1|]. split; [exact H2|]. intros f Hf. rewrite zfits_dpt by auto. now apply H4.
Qed.

Lemma zero_sweeps ks e0 : tree_shaped g0 -> two_sweeps g0 ks ->
  agrees_opt ev e0 -> agrees special e0 -> fits card factors e0 -> (forall f, In f factors -> dpot f e0 <> 0%R) ->
  exists g', foldM (pass_path (dense_ops o)) ks g0 = Ok g' /\
    forall f v, In f factors -> In v (dvars f) -> ~ In v (observed ev) -> ~ In v (dkeys special) ->
    exists res, get_marginal (dense_ops o) g' [v] = Ok res /\ dvars res = [v] /\
    forall rem e, agrees_opt ev e -> agrees special e -> fits card factors e -> NoDup rem ->
      (forall w, In w rem <-> (exists f, In f factors /\ In w (dvars f)) /\ ~ In w (observed ev) /\ ~ In w (dkeys special) /\ w <> v) ->
      dpot res e = sum_over card rem (fun e' => Rprod (map (fun f => dpot f e') factors)) e.
Proof.
  intros TR TS E1 E2 E3 E4. pose proof (zfits_positive e0 E1 E2 E3 E4) as HP.
  destruct (mk_graph_made (zero_ops o) o factors ev special g0 Ho zbuilt) as (reduced & final & M).
  destruct (history_live (zero_ops o) card good dpt L o factors ev special g0 Ho G reduced final g0 M (hi_init _ _)) as [Gfin LV].
  pose proof (sa_struct _ _ _ (lv_static _ _ _ _ _ _ _ _ LV)) as ST.
  assert (Hk : forall k, In k ks -> k < length (g_paths g0)).
  { intros k Hk. destruct TS as (r & ord & _ & _ & HF). clear - Hk HF. induction HF as [|k' e ks es He _ IH]; [destruct Hk|].
    destruct Hk as [->|Hk]; [|auto]. destruct He as (p & Hp & _). apply nth_error_Some. congruence. }
  pose proof (final_pos (zero_ops o) card good dpt L o factors ev special reduced final g0 e0 M G E1 (proj2 (proj2 HP))) as Pf.
  destruct (passes_ok (zero_ops o) card good dpt L o final ev special Ho Gfin e0 E2 Pf ks g0 LV Hk) as (g' & Hg').
  exists g'. split.
  { apply (live_passes_same reduced final M ks g0 g' LV (made_ordered reduced final M)); [exact (sweeps_nodup final g0 ks ST TS)| |exact Hg'].
    intros k p _ Hp. apply (mk_path _ _ _ _ _ _ _ _ M k p Hp). }
  assert (Hh : history (zero_ops o) g0 g') by (eapply (history_passes (zero_ops o)); [apply hi_init|exact Hg']).
  destruct (history_live (zero_ops o) card good dpt L o factors ev special g0 Ho G reduced final g' M Hh) as [_ LV'].
  pose proof (lv_inv _ _ _ _ _ _ _ _ LV') as IV.
  destruct (made_pt (zero_ops o) card good dpt L o factors ev special reduced final g0 M G) as (_ & _ & S3).
  intros f v Hf Hvf Hob Hv.
  assert (HC : exists c, In c (g_cl g') /\ In v (dvars (cl_fac c))).
  { destruct (proj2 (S3 v)) as (f' & Hf' & Hv'); [split; [eauto|exact Hob]|].
    apply In_nth_error in Hf'. destruct Hf' as (i & Hi). destruct (nth_error (g_cl g') i) as [c|] eqn:Ec.
    - destruct (iv_cl _ _ _ _ _ _ _ _ IV i c Ec) as (f2 & X2 & _ & (_ & Hs) & _). exists c. split; [eapply nth_error_In; eauto|].
      apply Hs. assert (f2 = f') by congruence. subst f2. exact Hv'.
    - apply nth_error_None in Ec. rewrite (iv_len _ _ _ _ _ _ _ _ IV) in Ec. assert (i < length final) by (apply nth_error_Some; congruence). lia. }
  destruct HC as (c & Hc & Hvc).
  destruct (marginal_some (zero_ops o) card good dpt L o factors ev special g0 Ho G zbuilt g' [v] e0 Hh HP (one_nodup v) (one_special v _ Hv)) as (res & Hres).
  { exists c. split; [exact Hc|]. intros w [<-|[]]. exact Hvc. }
  assert (SP : g_spec g' = special) by (destruct (history_static (zero_ops o) _ _ _ _ _ _ _ _ M Hh) as (_ & Hsp & _); exact Hsp).
  (* the code's marginal is the aligned one *)
  assert (AS : get_marginal (dense_ops o) g' [v] = Ok res /\ good res /\ dvars res = [v]).
  { pose proof Hres as Hm. unfold get_marginal in Hm |- *. cbn [dense_ops zero_ops f_vars f_reduce f_marg] in Hm |- *.
    destruct (find _ (g_cl g')) as [d|] eqn:Fc; [|discriminate]. apply find_some in Fc. destruct Fc as [Hin Hsub].
    apply subsetb_incl in Hsub. assert (Hvd : In v (dvars (cl_fac d))) by (apply Hsub; left; reflexivity).
    apply In_nth_error in Hin. destruct Hin as (i & Hi). destruct (iv_cl _ _ _ _ _ _ _ _ IV i d Hi) as (f2 & _ & _ & (Gc & _) & _).
    pose proof (ws_vars _ (zg_wf card nm _ Gc)) as Hn.
    destruct (subset_evidence (g_spec g') (dvars (cl_fac d))) as [evs vals] eqn:E.
    destruct (subset_evidence_spec _ _ evs vals Hn E) as (X1 & X2 & X3). rewrite SP in X2.
    apply bind_ok in Hm. destruct Hm as (fr & Hfr & Hm). rewrite Hfr. cbn [bind].
    assert (R : good fr /\ In v (dvars fr)).
    { destruct (Nat.ltb 0 (length evs)); [|injection Hfr as <-; auto].
      assert (Hi' : incl evs (dvars (cl_fac d))) by (intros w Hw; apply X2 in Hw; tauto).
      destruct (zreduce_law card nm _ _ _ fr Gc X1 Hi' X3 Hfr) as (G1 & V1 & _). split; [exact G1|]. apply V1. split; [exact Hvd|].
      intros C. apply X2 in C. tauto. }
    destruct R as [Gf Vf]. assert (Hi1 : incl [v] (dvars fr)) by (intros w [<-|[]]; exact Vf).
    destruct (zmarg_law card nm o fr [v] Gf (one_nodup v) Hi1) as (r & M1 & M2 & _ & M3 & _).
    rewrite (filter_one v (dvars fr) (ws_vars _ (zg_wf card nm _ Gf)) Vf) in M1, M3, Hm. assert (r = res) by congruence. subst r. auto. }
  destruct AS as (A1 & A2 & A3). exists res. split; [exact A1|]. split; [exact A3|].
  destruct (sweeps_exact (zero_ops o) card good dpt L o factors ev special g0 Ho G zbuilt g0 ks g' [v] res (hi_init _ _) TR TS Hg'
    (one_nodup v) (one_special v _ Hv) Hres) as [_ X].
  intros rem e F1 F2 F3 Nr Hr.
  assert (DR : dpt res e = dpot res e).
  { apply dpt_in; [apply (zg_wf card nm _ A2)|]. apply (zg_range card nm); [exact A2|]. intros w Hw. rewrite A3 in Hw. destruct Hw as [<-|[]]. exact (F3 f v Hf Hvf). }
  rewrite <- DR, <- (zfits_sum rem e F3). apply X; auto.
  intros w. rewrite Hr. cbn. intuition congruence.
Qed.
Lemma zero_sweeps_exist r : tree_shaped g0 -> r < length (g_cl g0) ->
  exists ks, two_sweeps g0 ks /\ length ks = 2 * (length (g_cl g0) - 1).
Proof.
  intros TR Hr. destruct (mk_graph_made (zero_ops o) o factors ev special g0 Ho zbuilt) as (reduced & final & M).
  destruct (history_live (zero_ops o) card good dpt L o factors ev special g0 Ho G reduced final g0 M (hi_init _ _)) as [Gfin LV].
  destruct (sweeps_exist (zero_ops o) good dpt o final ev special g0 r LV TR Hr) as (ks & K1 & K2 & _). eauto.
Qed.
End Run.

Lemma znarrow_thin card nm o factors ev special reduced final : oracle_ok o -> (forall f, In f factors -> zgood card nm f) ->
  narrow factors (all_evidence ev special) -> evidence_reduce (dense_ops o) factors ev = Ok reduced ->
  absorb_subsets (dense_ops o) reduced = Ok final -> thin o (all_evidence ev special) final.
Proof.
  intros Ho G Nw R A i j S HS.
  pose proof (evidence_reduce_pt (zero_ops o) card (zgood card nm) dpt (zero_lawful card nm o) ev factors reduced G R) as HF.
  destruct (absorb_heads (dense_ops o) reduced (fun a b r => d_multiply_vars a b r) final A) as (hs & Hn & Hh).
  pose proof (graph_sep_NoDup o _ _ i j S Ho HS) as NS.
  assert (K : forall v w, In v S -> In w S -> v = w).
  { intros v w Hv Hw.
    pose proof (proj1 (graph_sep_In o _ _ i j S v Ho HS) Hv) as (V1 & V2 & V3 & V4 & V5 & V6 & _).
    pose proof (proj1 (graph_sep_In o _ _ i j S w Ho HS) Hw) as (W1 & _ & _ & _ & W5 & W6 & _).
    rewrite map_length in V3, V4.
    assert (X : forall k, k < length final -> exists h f0, nth_error hs k = Some h /\ nth_error factors h = Some f0 /\
       forall x, In x (sc (map dvars final) k) -> In x (dvars f0)).
    { intros k Hk. destruct (nth_error final k) as [f|] eqn:Ef; [|apply nth_error_None in Ef; lia].
      assert (exists h, nth_error hs k = Some h) as (h & Eh).
      { destruct (nth_error hs k) eqn:Eh; [eauto|]. apply nth_error_None in Eh. apply Forall2_length in Hh. lia. }
      assert (P : exists f0, nth_error reduced h = Some f0 /\ forall x, In x (dvars f) <-> In x (dvars f0)).
      { clear - Hh Ef Eh. revert k Ef Eh. induction Hh as [|a b l l' H1 _ IH]; intros k Ef Eh; [destruct k; discriminate|].
        destruct k as [|k]; cbn in Ef, Eh; [injection Ef as <-; injection Eh as <-; exact H1|eauto]. }
      destruct P as (r & Er & Hr).
      assert (Q : exists f0, nth_error factors h = Some f0 /\ forall x, In x (dvars r) -> In x (dvars f0)).
      { clear - HF Er. revert h Er. induction HF as [|a b l l' H1 _ IH]; intros h Er; [destruct h; discriminate|].
        destruct h as [|h]; cbn in Er; [|exact (IH h Er)]. injection Er as <-. exists a. split; [reflexivity|].
        destruct H1 as (_ & H1 & _). intros x Hx. apply H1 in Hx. apply Hx. }
      destruct Q as (f0 & E0 & H0). exists h, f0. split; [exact Eh|]. split; [exact E0|]. intros x Hx. apply H0, Hr.
      unfold sc in Hx. rewrite (nth_error_nth (map dvars final) k [] (x := dvars f)) in Hx; [exact Hx|]. now rewrite nth_error_map, Ef. }
    destruct (X i V3) as (hi & fi & I1 & I2 & I3), (X j V4) as (hj & fj & J1 & J2 & J3).
    apply (Nw hi hj fi fj v w); auto. intros ->. apply V2.
    eapply (proj1 (NoDup_nth_error hs) Hn); [|congruence]. apply nth_error_Some. congruence. }
  assert (S <> []).
  { intros ->. unfold graph_sep in HS. destruct (Nat.ltb i j); [|destruct (Nat.ltb j i); [|discriminate]];
      (destruct (sep_vars o _ _ _); discriminate). }
  destruct S as [|s [|s' S]]; [congruence|reflexivity|]. exfalso. inversion NS as [|? ? N1 _]; subst. apply N1.
  rewrite (K s s'); [left; reflexivity|left; reflexivity|right; left; reflexivity].
Qed.
Lemma zfinal_nodup card nm o factors ev reduced final : (forall f, In f factors -> zgood card nm f) -> evidence_reduce (dense_ops o) factors ev = Ok reduced ->
  absorb_subsets (dense_ops o) reduced = Ok final -> forall f, In f final -> NoDup (dvars f).
Proof.
  intros G R A.
  assert (Gr : forall f, In f reduced -> zgood card nm f).
  { pose proof (evidence_reduce_pt (zero_ops o) card (zgood card nm) dpt (zero_lawful card nm o) ev factors reduced G R) as HF.
    clear - HF. intros f Hf. induction HF as [|a b l l' H _ IH]; [destruct Hf|]. destruct Hf as [<-|Hf]; [apply H|auto]. }
  intros f Hf. apply (ws_vars f). apply (zg_wf card nm).
  exact (proj1 (absorb_pt (zero_ops o) card (zgood card nm) dpt (zero_lawful card nm o) reduced final Gr A) f Hf).
Qed.
(** Edges of one variable are in order. *)
Lemma zone_lined card nm o factors ev special g : oracle_ok o -> (forall f, In f factors -> zgood card nm f) ->
  mk_graph (dense_ops o) o factors ev special = Ok g -> (forall i j S, edge_with g i j S -> length S = 1) -> lined g.
Proof.
  intros Ho G Hm H1 i j S c HS Hc. destruct (mk_graph_made (dense_ops o) o factors ev special g Ho Hm) as (reduced & final & M).
  pose proof (H1 i j S HS) as L1. destruct S as [|s [|s' S]]; cbn in L1; try discriminate. split.
  - apply (made_edge (dense_ops o) o factors ev special reduced final g M) in HS. pose proof (made_facs _ _ _ _ _ _ _ _ M) as Fc.
    assert (Hf : nth_error final i = Some (cl_fac c)) by now rewrite <- Fc, nth_error_map, Hc.
    apply listed_one.
    + apply (zfinal_nodup card nm o factors ev reduced final G (mk_reduced _ _ _ _ _ _ _ _ M) (mk_final _ _ _ _ _ _ _ _ M)). eapply nth_error_In; eauto.
    + destruct (sepf_In (dense_ops o) o final ev special Ho i j [s] s HS (or_introl eq_refl)) as (A1 & _). now apply A1.
  - intros k T HT. pose proof (H1 i k T HT) as L2. destruct T as [|t [|t' T]]; cbn in L2; try discriminate. apply keeps_one.
Qed.
Lemma zero_graph_lined card nm o factors ev special e0 : oracle_ok o -> (forall f, In f factors -> zgood card nm f) ->
  (forall reduced final, evidence_reduce (dense_ops o) factors ev = Ok reduced -> absorb_subsets (dense_ops o) reduced = Ok final ->
     neat o (all_evidence ev special) final) -> agrees_opt ev e0 -> agrees special e0 -> fits card factors e0 ->
  (forall f, In f factors -> dpot f e0 <> 0%R) ->
  exists g, mk_graph (dense_ops o) o factors ev special = Ok g /\ lined g.
Proof.
  intros Ho G Nw E1 E2 E3 E4.
  pose proof (zmk_sim card nm o Ho factors ev special G Nw) as M1.
  assert (HP : has_positive dpt factors ev special e0).
  { split; [exact E1|]. split; [exact E2|]. intros f Hf. rewrite dpt_in; [now apply E4|apply (zg_wf card nm f (G f Hf))|].
    apply (zg_range card nm); [now apply G|]. intros v Hv. exact (E3 f v Hf Hv). }
  destruct (mk_graph_some (zero_ops o) card (zgood card nm) dpt (zero_lawful card nm o) o factors ev special e0 Ho G HP) as (g & Hg).
  rewrite <- M1 in Hg. exists g. split; [exact Hg|]. intros i j S c HS Hc.
  destruct (mk_graph_made (dense_ops o) o factors ev special g Ho Hg) as (reduced & final & M).
  apply (made_edge (dense_ops o) o factors ev special reduced final g M) in HS. pose proof (made_facs _ _ _ _ _ _ _ _ M) as Fc.
  assert (Hf : nth_error final i = Some (cl_fac c)) by now rewrite <- Fc, nth_error_map, Hc.
  destruct (Nw reduced final (mk_reduced _ _ _ _ _ _ _ _ M) (mk_final _ _ _ _ _ _ _ _ M) i j S (cl_fac c) HS Hf) as (N1 & N2).
  split; [exact N1|]. intros k T HT. apply (N2 k T). apply (made_edge (dense_ops o) o factors ev special reduced final g M) in HT. exact HT.
Qed.
(** Such a graph is built from every list of tables where two factors share at most one unobserved
    variable and some assignment agreeing with the evidence has positive weight. *)
Lemma zero_graph_some card nm o factors ev special e0 : oracle_ok o -> (forall f, In f factors -> zgood card nm f) ->
  narrow factors (all_evidence ev special) -> agrees_opt ev e0 -> agrees special e0 -> fits card factors e0 ->
  (forall f, In f factors -> dpot f e0 <> 0%R) ->
  exists g, mk_graph (dense_ops o) o factors ev special = Ok g /\ forall i j S, edge_with g i j S -> length S = 1.
Proof.
  intros Ho G Nw E1 E2 E3 E4.
  assert (M1 : mk_graph (dense_ops o) o factors ev special = mk_graph (zero_ops o) o factors ev special).
  { apply (zmk_sim card nm o Ho factors ev special G). intros reduced final R A. apply thin_neat; [exact Ho| |exact (zfinal_nodup card nm o factors ev reduced final G R A)].
    exact (znarrow_thin card nm o factors ev special reduced final Ho G Nw R A). }
  assert (HP : has_positive dpt factors ev special e0).
  { split; [exact E1|]. split; [exact E2|]. intros f Hf. rewrite dpt_in; [now apply E4|apply (zg_wf card nm f (G f Hf))|].
    apply (zg_range card nm); [now apply G|]. intros v Hv. exact (E3 f v Hf Hv). }
  destruct (mk_graph_some (zero_ops o) card (zgood card nm) dpt (zero_lawful card nm o) o factors ev special e0 Ho G HP) as (g & Hg).
  rewrite <- M1 in Hg. exists g. split; [exact Hg|]. intros i j S HS.
  destruct (mk_graph_made (dense_ops o) o factors ev special g Ho Hg) as (reduced & final & M).
  apply (made_edge (dense_ops o) o factors ev special reduced final g M) in HS.
  exact (znarrow_thin card nm o factors ev special reduced final Ho G Nw (mk_reduced _ _ _ _ _ _ _ _ M) (mk_final _ _ _ _ _ _ _ _ M) i j S HS).
Qed.

(** ** The graph on which a message cannot be sent twice *)
Lemma zr_good f : In f zr -> zgood dx_card dx_nm f.
Proof. intros H. split; [now apply zr_ok|]. intros v _. apply dx_two. Qed.
Lemma zr_swept o : oracle_ok o -> exists g ks g' res, mk_graph (dense_ops o) o zr None [] = Ok g /\
  lined g /\ tree_shaped g /\ two_sweeps g ks /\ length ks = 2 /\
  foldM (pass_path (dense_ops o)) ks g = Ok g' /\ get_marginal (dense_ops o) g' ["b"] = Ok res /\
  dpot res (fun _ => 0) = 4%R /\ dpot res zr_env = 0%R.
Proof.
  intros Ho. destruct (zr_raises o Ho) as (g & g1 & Hg & TR & _).
  assert (Nw : narrow zr (all_evidence (@None (dict string nat)) [])).
  { intros i j fi fj v w Hij Hi Hj V1 V2 W1 W2 _ _.
    destruct i as [|[|i]]; cbn in Hi; try (destruct i; discriminate); injection Hi as <-;
    destruct j as [|[|j]]; cbn in Hj; try (destruct j; discriminate); injection Hj as <-; try congruence;
    cbn in V1, V2, W1, W2; intuition congruence. }
  assert (F : fits dx_card zr (fun _ => 0)) by (intros f w _ _; pose proof (dx_two w); lia).
  assert (P : forall f, In f zr -> dpot f (fun _ => 0) <> 0%R).
  { intros f [<-|[<-|[]]]; unfold dpot, dval; cbn; rewrite exp_0; lra. }
  assert (A : agrees_opt (@None (dict string nat)) (fun _ => 0)) by exact I.
  assert (B : agrees (@nil (string * nat)) (fun _ => 0)) by (intros v x H; discriminate).
  destruct (zero_graph_some dx_card dx_nm o zr None [] (fun _ => 0) Ho zr_good Nw A B F P) as (g2 & Hg2 & One).
  assert (g2 = g) by congruence. subst g2. pose proof (zone_lined dx_card dx_nm o zr None [] g Ho zr_good Hg One) as Lin.
  assert (L2 : length (g_cl g) = 2).
  { unfold zr in Hg. rewrite (ln_graph o dx_card zr_ab zr_bc Ho) in Hg. apply bind_ok in Hg. destruct Hg as (p1 & _ & Hg). apply bind_ok in Hg. destruct Hg as (p2 & _ & Hg).
    injection Hg as <-. reflexivity. }
  destruct (zero_sweeps_exist dx_card dx_nm o Ho zr None [] g zr_good Hg Lin 0 TR ltac:(lia)) as (ks & K1 & K2). rewrite L2 in K2.
  destruct (zero_sweeps dx_card dx_nm o Ho zr None [] g zr_good Hg Lin ks (fun _ => 0) TR K1 A B F P) as (g' & Hg' & Hm).
  destruct (Hm (tb ["a"; "b"] (map dx_card ["a"; "b"]) zr_ab) "b" (or_introl eq_refl)) as (res & R1 & R2 & R3); [right; left; reflexivity|intros []|intros []|].
  exists g, ks, g', res. repeat (split; [assumption|]).
  assert (Hr : forall w, In w ["a"; "c"] <-> (exists f, In f zr /\ In w (dvars f)) /\ ~ In w (observed (@None (dict string nat))) /\ ~ In w (dkeys (@nil (string * nat))) /\ w <> "b").
  { intros w. split.
    - intros [<-|[<-|[]]]; (split; [|split; [intros []|split; [intros []|discriminate]]]).
      + eexists. split; [left; reflexivity|]. left; reflexivity.
      + eexists. split; [right; left; reflexivity|]. right; left; reflexivity.
    - intros ((f & [<-|[<-|[]]] & Hw) & _ & _ & N); cbn in Hw; intuition (subst; congruence || (left; reflexivity) || (right; left; reflexivity)). }
  assert (Nr : NoDup ["a"; "c"]) by nodups.
  split.
  - rewrite (R3 ["a"; "c"] (fun _ => 0) A B F Nr Hr). cbn. unfold dpot, dval. cbn. rewrite !exp_0. lra.
  - rewrite (R3 ["a"; "c"] zr_env A); [| |intros f w _ _; unfold zr_env, dx_card; destruct (string_dec w "b"); lia|exact Nr|exact Hr].
    + cbn. unfold dpot, dval. cbn. lra.
    + intros v x H; discriminate.
Qed.
