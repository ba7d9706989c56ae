(** Cluster graphs over dense tables, continued: what holds of every run. *)
From Verif Require Export DenseGraph2.
Local Open Scope string_scope.
Local Open Scope nat_scope.

Definition fits (card : string -> nat) (factors : list dense) (e : env) : Prop :=
  forall f w, In f factors -> In w (dvars f) -> e w < card w.

(** Every sepset is listed in the order of the clusters at its ends, and keeps being so when messages
    over other edges of these clusters move their variables to the end. *)
Definition lined (g : cgraph dense nat) : Prop :=
  forall i j S c, edge_with g i j S -> nth_error (g_cl g) i = Some c ->
    listed S (dvars (cl_fac c)) /\ forall k T, edge_with g i k T -> keeps S T.

Section Run.
Variable card : string -> nat.
Variable nm : string -> list aname.
Notation good := (dgood card nm).
Variable o : oracle.
Hypothesis Ho : oracle_ok o.
Context (factors : list dense) (ev : option (dict string nat)) (special : dict string nat) (g0 : cgraph dense nat).
Hypothesis G : forall f, In f factors -> good f.
Hypothesis Hmk : mk_graph (dense_ops o) o factors ev special = Ok g0.
Hypothesis Hlin : lined g0.
Notation L := (aligned_lawful card nm o).

Lemma built : mk_graph (aligned_ops o) o factors ev special = Ok g0 /\ ginv card nm g0.
Proof.
  destruct (mk_sim card nm o Ho factors ev special G) as [E1 E2].
  - intros reduced final R A i j S f HS Hf.
    destruct (mk_graph_made (dense_ops o) o factors ev special g0 Ho Hmk) as (reduced' & final' & M).
    assert (reduced' = reduced) by (pose proof (mk_reduced _ _ _ _ _ _ _ _ M); congruence). subst reduced'.
    assert (final' = final) by (pose proof (mk_final _ _ _ _ _ _ _ _ M); congruence). subst final'.
    pose proof (made_facs _ _ _ _ _ _ _ _ M) as Fc.
    assert (exists c, nth_error (g_cl g0) i = Some c /\ cl_fac c = f) as (c & Hc & Ec).
    { rewrite <- Fc, nth_error_map in Hf. destruct (nth_error (g_cl g0) i) as [c|]; [|discriminate]. cbn in Hf. injection Hf as <-. eauto. }
    destruct (Hlin i j S c) as (L1 & L2); [apply (made_edge (dense_ops o) o factors ev special reduced final g0 M); exact HS|exact Hc|].
    split; [now rewrite <- Ec|]. intros k T HT. apply (L2 k T). apply (made_edge (dense_ops o) o factors ev special reduced final g0 M). exact HT.
  - rewrite <- E1. split; [exact Hmk|]. apply E2. rewrite <- E1. exact Hmk.
Qed.
Let Ha := proj1 built.
Let I0 := proj2 built.

Lemma fits_dpt e f : fits card factors e -> In f factors -> dpt f e = dpot f e.
Proof.
  intros H Hf. apply dpt_in; [apply (dg_wf _ _ _ (G f Hf))|]. apply (dg_range card nm); [now apply G|].
  intros v Hv. exact (H f v Hf Hv).
Qed.
Lemma fits_prod e : fits card factors e -> prod_at dpt factors e = Rprod (map (fun f => dpot f e) factors).
Proof. intros H. unfold prod_at. f_equal. apply map_ext_in. intros f Hf. now apply fits_dpt. Qed.
Lemma fits_positive e : agrees_opt ev e -> agrees special e -> fits card factors e -> has_positive dpt factors ev special e.
Proof.
  intros H1 H2 H3. split; [exact H1|]. split; [exact H2|]. intros f Hf. apply (dpt_iff card nm); [now apply G|].
  apply (dg_range card nm); [now apply G|]. intros v Hv. exact (H3 f v Hf Hv).
Qed.
Lemma fits_sum rem e : fits card factors e ->
  sum_over card rem (prod_at dpt factors) e = sum_over card rem (fun e' => Rprod (map (fun f => dpot f e') factors)) e.
Proof.
  intros H. apply sum_over_ext_range. intros e' E1 E2. apply fits_prod. intros f w Hf Hw.
  destruct (in_dec string_dec w rem) as [Hi|Hi]; [now apply E1|]. rewrite E2 by exact Hi. eapply H; eauto.
Qed.

Lemma run_inv g : history (dense_ops o) g0 g -> history (aligned_ops o) g0 g /\ ginv card nm g.
Proof. intros H. exact (history_sim card nm o g0 g I0 H). Qed.
Lemma run_spec g : history (dense_ops o) g0 g -> g_spec g = special.
Proof.
  intros H. destruct (mk_graph_made (dense_ops o) o factors ev special g0 Ho Hmk) as (reduced & final & M).
  destruct (history_static (dense_ops o) _ _ _ _ _ _ _ _ M H) as (_ & Hsp & _). exact Hsp.
Qed.
Lemma run_scope g c v : history (dense_ops o) g0 g -> In c (g_cl g) -> In v (dvars (cl_fac c)) -> exists f, In f factors /\ In v (dvars f).
Proof.
  intros H Hc Hv. destruct (run_inv g H) as [Hh _]. destruct (mk_graph_made (aligned_ops o) o factors ev special g0 Ho Ha) as (reduced & final & M).
  destruct (history_live (aligned_ops o) card good dpt L o factors ev special g0 Ho G reduced final g M Hh) as [Gfin LV].
  apply In_nth_error in Hc. destruct Hc as (i & Hi).
  destruct (iv_cl _ _ _ _ _ _ _ _ (lv_inv _ _ _ _ _ _ _ _ LV) i c Hi) as (f & Hf & _ & (_ & Hs) & _).
  apply Hs in Hv. destruct (made_pt (aligned_ops o) card good dpt L o factors ev special reduced final g0 M G) as (_ & _ & S3).
  destruct (proj1 (S3 v)) as [R _]; [|exact R]. exists f. split; [eapply nth_error_In; eauto|exact Hv].
Qed.
Lemma asked g v res : history (dense_ops o) g0 g -> ~ In v (dkeys special) -> get_marginal (dense_ops o) g [v] = Ok res ->
  good res /\ dvars res = [v] /\ (exists f, In f factors /\ In v (dvars f)).
Proof.
  intros H Hv Hm. destruct (run_inv g H) as [Hh I]. pose proof Hm as Hm0.
  assert (Hk : ~ In v (dkeys (g_spec g))) by now rewrite (run_spec g H).
  unfold get_marginal in Hm. cbn [dense_ops f_vars f_reduce f_marg] in Hm.
  destruct (find _ (g_cl g)) as [c|] eqn:Fc; [|discriminate]. apply find_some in Fc. destruct Fc as [Hin Hsub].
  apply subsetb_incl in Hsub. assert (Hvc : In v (dvars (cl_fac c))) by (apply Hsub; left; reflexivity).
  pose proof (run_scope g c v H Hin Hvc) as Hfac.
  apply In_nth_error in Hin. destruct Hin as (i & Hi). pose proof (ci_good _ _ _ (gi_cl _ _ _ I i c Hi)) as Gc.
  pose proof (ws_vars _ (dg_wf _ _ _ Gc)) as Hn.
  destruct (subset_evidence (g_spec g) (dvars (cl_fac c))) as [evs vals] eqn:E.
  destruct (subset_evidence_spec _ _ evs vals Hn E) as (E1 & E2 & E3).
  apply bind_ok in Hm. destruct Hm as (f & Hf & Hm).
  assert (R : good f /\ In v (dvars f)).
  { destruct (Nat.ltb 0 (length evs)); [|injection Hf as <-; auto].
    assert (Hi' : incl evs (dvars (cl_fac c))) by (intros w Hw; apply E2 in Hw; tauto).
    destruct (reduce_law card nm _ _ _ f Gc E1 Hi' E3 Hf) as (G1 & V1 & _). split; [exact G1|]. apply V1. split; [exact Hvc|].
    intros C. apply E2 in C. tauto. }
  destruct R as [Gf Vf]. assert (Hi1 : incl [v] (dvars f)) by (intros w [<-|[]]; exact Vf).
  assert (N1 : NoDup [v]) by (constructor; [intros []|constructor]).
  destruct (marg_law card nm o f [v] Gf N1 Hi1) as (r & M1 & M2 & _ & M3 & _).
  rewrite (filter_one v (dvars f) (ws_vars _ (dg_wf _ _ _ Gf)) Vf) in M1, M3. assert (r = res) by congruence. subst r. auto.
Qed.
Lemma ask_sim g v : history (dense_ops o) g0 g -> ~ In v (dkeys special) -> get_marginal (dense_ops o) g [v] = get_marginal (aligned_ops o) g [v].
Proof.
  intros H Hv. destruct (run_inv g H) as [Hh I]. apply (marginal_sim card nm o g v I). now rewrite (run_spec g H).
Qed.
Lemma fits_res res v e : good res -> dvars res = [v] -> (exists f, In f factors /\ In v (dvars f)) -> fits card factors e -> dpt res e = dpot res e.
Proof.
  intros Gr Vr (f & Hf & Hv) He. apply dpt_in; [apply (dg_wf _ _ _ Gr)|]. apply (dg_range card nm); [exact Gr|].
  intros w Hw. rewrite Vr in Hw. destruct Hw as [<-|[]]. exact (He f v Hf Hv).
Qed.

(** ** The theorems *)
Lemma dense_messages g k p : history (dense_ops o) g0 g -> nth_error (g_paths g) k = Some p ->
  exists ci cj S, nth_error (g_cl g) (p_snd p) = Some ci /\ nth_error (g_cl g) (p_rcv p) = Some cj /\
    dget (cl_seps ci) (cl_id cj) = Some S /\ dvars (m_fac (p_next p)) = S /\ good (m_fac (p_next p)).
Proof.
  intros H Hp. destruct (run_inv g H) as [_ I]. destruct (gi_path _ _ _ I k p Hp) as (ci & cj & s & A1 & A2 & A3 & A4 & A5 & A6 & A7).
  exists ci, cj, s. auto.
Qed.
(** The waiting message times the last message in the other direction is the sender's marginal. *)
Lemma dense_message_value g k p : history (dense_ops o) g0 g -> nth_error (g_paths g) k = Some p ->
  exists c q kq, nth_error (g_cl g) (p_snd p) = Some c /\ nth_error (g_paths g) kq = Some q /\ p_snd q = p_rcv p /\ p_rcv q = p_snd p /\
    edge_with g0 (p_snd p) (p_rcv p) (dvars (m_fac (p_next p))) /\
    forall rem e, NoDup rem -> (forall v, In v rem <-> In v (dvars (cl_fac c)) /\ ~ In v (dvars (m_fac (p_next p))) /\ ~ In v (dkeys special)) ->
      agrees special e -> fits card factors e ->
      (dpot (m_fac (p_next p)) e * match p_prev q with Some m => dpot (m_fac m) e | None => 1 end)%R = sum_over card rem (dpot (cl_fac c)) e.
Proof.
  intros H Hp. destruct (run_inv g H) as [Hh I]. destruct (mk_graph_made (aligned_ops o) o factors ev special g0 Ho Ha) as (reduced & final & M).
  destruct (history_live (aligned_ops o) card good dpt L o factors ev special g0 Ho G reduced final g M Hh) as [Gfin LV].
  pose proof (lv_inv _ _ _ _ _ _ _ _ LV) as IV.
  destruct (next_ok (aligned_ops o) card good dpt L o final ev special Ho Gfin g k p IV (sa_fresh _ _ _ (lv_static _ _ _ _ _ _ _ _ LV)) Hp)
    as (S & ci & cj & q & kq & HS & Ei & Ej & Hq & Q1 & Q2 & MO).
  destruct (dense_messages g k p H Hp) as (ci' & cj' & s & E1 & E2 & E3 & Vm & Gm).
  assert (ci' = ci) by congruence. assert (cj' = cj) by congruence. subst ci' cj'.
  rewrite (st_sep _ _ (iv_struct _ _ _ _ _ _ _ _ IV) _ _ ci cj Ei Ej) in E3. assert (ES : S = s) by congruence. rewrite <- ES in Vm. clear ES E3.
  exists ci, q, kq. do 4 (split; [assumption|]). rewrite Vm.
  split; [eapply made_edge; [exact M|exact HS]|]. intros rem e Nr Hr Hs Hf.
  assert (Gc : good (cl_fac ci)) by exact (ci_good _ _ _ (gi_cl _ _ _ I _ ci Ei)).
  assert (Sc : forall v, In v (dvars (cl_fac ci)) -> e v < card v).
  { intros v Hv. destruct (run_scope g ci v H (nth_error_In _ _ Ei) Hv) as (f & F1 & F2). exact (Hf f v F1 F2). }
  assert (Is : forall s, In s S -> In s (dvars (cl_fac ci))).
  { intros t Hin. destruct (sepf_In (aligned_ops o) o final ev special Ho _ _ S t HS Hin) as (Sf & _ & Ns).
    destruct (iv_cl _ _ _ _ _ _ _ _ IV _ ci Ei) as (f & F1 & _ & (_ & F2) & _). apply F2. exact (Sf f F1). }
  assert (D1 : dpt (m_fac (p_next p)) e = dpot (m_fac (p_next p)) e).
  { apply dpt_in; [apply (dg_wf _ _ _ Gm)|]. apply (dg_range card nm); [exact Gm|]. rewrite Vm. intros v Hv. apply Sc. now apply Is. }
  assert (D2 : match p_prev q with Some m => dpot (m_fac m) e | None => 1%R end = pm dpt q e).
  { unfold pm. destruct (p_prev q) as [m|] eqn:Em; [|reflexivity]. destruct (iv_prev _ _ _ _ _ _ _ _ IV kq q m Hq Em) as (S' & HS' & Gs & Vs).
    rewrite Q1, Q2 in HS'. destruct (st_edge _ _ (iv_struct _ _ _ _ _ _ _ _ IV) _ _ _ HS) as (_ & _ & _ & _ & HS2 & _).
    assert (S' = S) by congruence. subst S'. symmetry. apply dpt_in; [apply (dg_wf _ _ _ Gs)|]. apply (dg_range card nm); [exact Gs|].
    intros v Hv. apply Vs in Hv. apply Sc. now apply Is. }
  rewrite D2, <- D1, (mo_mul _ _ _ _ _ _ _ _ _ _ MO e). unfold belief.
  rewrite (sum_over_perm card _ rem).
  - apply sum_over_ext_range. intros e' K1 K2.
    assert (Ae : agrees special e').
    { intros v x Hx. rewrite (K2 v). - now apply Hs. - rewrite Hr. intros (_ & _ & C). apply C. eapply dget_Some_key; eauto. }
    transitivity (dpt (cl_fac ci) e').
    + apply (lw_ext _ _ _ _ L); [exact Gc|]. intros v _. now apply over_id.
    + apply dpt_in; [apply (dg_wf _ _ _ Gc)|]. apply (dg_range card nm); [exact Gc|]. intros v Hv.
      destruct (in_dec string_dec v rem) as [J|J]; [now apply K1|]. rewrite (K2 v J). now apply Sc.
  - apply NoDup_Permutation; [|exact Nr|].
    + apply NoDup_filter. apply (ws_vars _ (dg_wf _ _ _ Gc)).
    + intros v. unfold summed. rewrite filter_In, andb_true_iff, !negb_true_iff, !mem_nIn, Hr. cbn. intuition congruence.
  - apply NoDup_filter. apply (ws_vars _ (dg_wf _ _ _ Gc)).
  - intros e1 e2 E. apply (lw_ext _ _ _ _ L); [exact Gc|]. intros v _. unfold over. destruct (dget special v); auto.
Qed.
Lemma one_nodup (v : string) : NoDup [v].
Proof. constructor; [intros []|constructor]. Qed.
Lemma one_special (v : string) (l : list string) : ~ In v l -> forall w, In w [v] -> ~ In w l.
Proof. intros H w [<-|[]]. exact H. Qed.

Lemma dense_sweeps_exact g ks g' v res : history (dense_ops o) g0 g -> tree_shaped g0 -> two_sweeps g ks ->
  foldM (pass_path (dense_ops o)) ks g = Ok g' -> ~ In v (dkeys special) -> get_marginal (dense_ops o) g' [v] = Ok res ->
  dvars res = [v] /\
  forall rem e, agrees_opt ev e -> agrees special e -> fits card factors e -> NoDup rem ->
    (forall w, In w rem <-> (exists f, In f factors /\ In w (dvars f)) /\ ~ In w (observed ev) /\ ~ In w (dkeys special) /\ w <> v) ->
    dpot res e = sum_over card rem (fun e' => Rprod (map (fun f => dpot f e') factors)) e.
Proof.
  intros H TR TS P Hv Hm. destruct (run_inv g H) as [Hh I].
  assert (H' : history (dense_ops o) g0 g') by (eapply (history_passes (dense_ops o)); eauto).
  destruct (asked g' v res H' Hv Hm) as (A1 & A2 & A3). split; [exact A2|].
  rewrite (ask_sim g' v H' Hv) in Hm. rewrite (passes_sim card nm o ks g I) in P.
  destruct (sweeps_exact (aligned_ops o) card good dpt L o factors ev special g0 Ho G Ha g ks g' [v] res Hh TR TS P
    (one_nodup v) (one_special v _ Hv) Hm) as [_ X].
  intros rem e E1 E2 E3 Nr Hr. rewrite <- (fits_res res v e A1 A2 A3 E3), <- (fits_sum rem e E3). apply X; auto.
  intros w. rewrite Hr. cbn. intuition congruence.
Qed.
Lemma dense_sweeps_run g r e0 : history (dense_ops o) g0 g -> tree_shaped g0 -> agrees_opt ev e0 -> agrees special e0 -> fits card factors e0 ->
  r < length (g_cl g0) ->
  exists ks g', two_sweeps g ks /\ length ks = 2 * (length (g_cl g0) - 1) /\ foldM (pass_path (dense_ops o)) ks g = Ok g'.
Proof.
  intros H TR E1 E2 E3 Hr. destruct (run_inv g H) as [Hh I].
  destruct (sweeps_run (aligned_ops o) card good dpt L o factors ev special g0 Ho G Ha g r e0 Hh TR (fits_positive e0 E1 E2 E3) Hr) as (ks & g' & K1 & K2 & K3).
  exists ks, g'. rewrite (passes_sim card nm o ks g I). auto.
Qed.
Lemma run_holder g v f : history (dense_ops o) g0 g -> In f factors -> In v (dvars f) -> ~ In v (observed ev) ->
  exists c, In c (g_cl g) /\ In v (dvars (cl_fac c)).
Proof.
  intros H Hf Hv Hob. destruct (run_inv g H) as [Hh _]. destruct (mk_graph_made (aligned_ops o) o factors ev special g0 Ho Ha) as (reduced & final & M).
  destruct (history_live (aligned_ops o) card good dpt L o factors ev special g0 Ho G reduced final g M Hh) as [Gfin LV].
  pose proof (lv_inv _ _ _ _ _ _ _ _ LV) as IV.
  destruct (made_pt (aligned_ops o) card good dpt L o factors ev special reduced final g0 M G) as (_ & _ & S3).
  destruct (proj2 (S3 v)) as (f' & Hf' & Hv'); [split; [eauto|exact Hob]|].
  apply In_nth_error in Hf'. destruct Hf' as (i & Hi).
  destruct (nth_error (g_cl g) i) as [c|] eqn:Ec.
  - destruct (iv_cl _ _ _ _ _ _ _ _ IV i c Ec) as (f2 & E2 & _ & (_ & Hs) & _). exists c. split; [eapply nth_error_In; eauto|].
    apply Hs. congruence.
  - apply nth_error_None in Ec. rewrite (iv_len _ _ _ _ _ _ _ _ IV) in Ec. assert (i < length final) by (apply nth_error_Some; congruence). lia.
Qed.
Lemma dense_marginal_some g v f e0 : history (dense_ops o) g0 g -> agrees_opt ev e0 -> agrees special e0 -> fits card factors e0 ->
  In f factors -> In v (dvars f) -> ~ In v (observed ev) -> ~ In v (dkeys special) -> exists res, get_marginal (dense_ops o) g [v] = Ok res.
Proof.
  intros H E1 E2 E3 Hf Hvf Hob Hv. destruct (run_holder g v f H Hf Hvf Hob) as (c & Hc & Hvc).
  destruct (run_inv g H) as [Hh I]. rewrite (ask_sim g v H Hv).
  apply (marginal_some (aligned_ops o) card good dpt L o factors ev special g0 Ho G Ha g [v] e0 Hh (fits_positive e0 E1 E2 E3) (one_nodup v) (one_special v _ Hv)).
  exists c. split; [exact Hc|]. intros w [<-|[]]. exact Hvc.
Qed.
Lemma dense_never_fails g e0 : history (dense_ops o) g0 g -> agrees_opt ev e0 -> agrees special e0 -> fits card factors e0 ->
  (forall k, k < length (g_paths g) -> exists g', pass_path (dense_ops o) g k = Ok g') /\
  (forall tol max_iter, NoDup (dkeys special) -> (forall c, g_cl g = [c] -> incl (dkeys special) (dvars (cl_fac c))) ->
     exists g', process_graph (dense_ops o) tol max_iter g = Ok g').
Proof.
  intros H E1 E2 E3. destruct (run_inv g H) as [Hh I].
  destruct (never_fails (aligned_ops o) card good dpt L o factors ev special g0 Ho G Ha e0 g (fits_positive e0 E1 E2 E3) Hh) as (N1 & N2 & _).
  split.
  - intros k Hk. rewrite (proj1 (pass_sim card nm o g k I)). now apply N1.
  - intros tol n Hn Hs. rewrite (process_same card nm o tol n g I). now apply N2.
Qed.
Lemma dense_bounded e0 : agrees_opt ev e0 -> agrees special e0 -> fits card factors e0 -> tree_shaped g0 ->
  exists N, forall g tol max_iter g', history (dense_ops o) g0 g -> (0 <= tol)%R ->
    process_graph (dense_ops o) tol max_iter g = Ok g' -> length (g_dists g') <= N.
Proof.
  intros E1 E2 E3 TR.
  destruct (messages_bounded (aligned_ops o) card good dpt L o factors ev special g0 Ho G Ha e0 (fits_positive e0 E1 E2 E3) TR) as (N & HN).
  exists N. intros g tol n g' H Ht Hp. destruct (run_inv g H) as [Hh I]. rewrite (process_same card nm o tol n g I) in Hp. eauto.
Qed.
Lemma dense_converges e0 : agrees_opt ev e0 -> agrees special e0 -> fits card factors e0 -> tree_shaped g0 -> length (g_cl g0) <> 1 ->
  exists N, forall g tol max_iter g', history (dense_ops o) g0 g -> (0 <= tol)%R -> N < max_iter * length (g_paths g0) ->
    process_graph (dense_ops o) tol max_iter g = Ok g' ->
    length (g_dists g') <= N /\ forall k, k < length (g_paths g') -> vleb (gain_of (g_paths g') k) (Fin tol) = true.
Proof.
  intros E1 E2 E3 TR L1.
  destruct (greedy_converges (aligned_ops o) card good dpt L o factors ev special g0 Ho G Ha e0 (fits_positive e0 E1 E2 E3) TR L1) as (N & HN).
  exists N. intros g tol n g' H Ht Hlt Hp. destruct (run_inv g H) as [Hh I]. rewrite (process_same card nm o tol n g I) in Hp. eauto.
Qed.
Lemma run_length g : history (dense_ops o) g0 g -> length (g_cl g) = length (g_cl g0).
Proof.
  intros H. destruct (run_inv g H) as [Hh _].
  exact (proj1 (history_linked (aligned_ops o) card good dpt L o factors ev special g0 Ho G Ha g Hh)).
Qed.
Lemma dense_greedy_exact e0 : agrees_opt ev e0 -> agrees special e0 -> fits card factors e0 -> tree_shaped g0 -> length (g_cl g0) <> 1 ->
  exists N, forall g max_iter g' v res, history (dense_ops o) g0 g -> N < max_iter * length (g_paths g0) ->
    process_graph (dense_ops o) 0 max_iter g = Ok g' -> ~ In v (dkeys special) -> get_marginal (dense_ops o) g' [v] = Ok res ->
    dvars res = [v] /\
    exists k, (0 < k)%R /\ forall rem e, agrees_opt ev e -> agrees special e -> fits card factors e -> NoDup rem ->
      (forall w, In w rem <-> (exists f, In f factors /\ In w (dvars f)) /\ ~ In w (observed ev) /\ ~ In w (dkeys special) /\ w <> v) ->
      (k * dpot res e = sum_over card rem (fun e' => Rprod (map (fun f => dpot f e') factors)) e)%R.
Proof.
  intros E1 E2 E3 TR L1.
  destruct (greedy_exact (aligned_ops o) card good dpt L o factors ev special g0 Ho G Ha e0 (fits_positive e0 E1 E2 E3) TR L1) as (N & HN).
  exists N. intros g n g' v res H Hlt Hp Hv Hm. destruct (run_inv g H) as [Hh I].
  assert (H' : history (dense_ops o) g0 g') by (eapply hi_process; [exact H|left; rewrite (run_length g H); exact L1|exact Hp]).
  destruct (asked g' v res H' Hv Hm) as (A1 & A2 & A3). split; [exact A2|].
  rewrite (ask_sim g' v H' Hv) in Hm. rewrite (process_same card nm o 0 n g I) in Hp.
  destruct (HN g n g' [v] res Hh Hlt Hp (one_nodup v) (one_special v _ Hv) Hm) as [_ (k & K1 & K2)].
  exists k. split; [exact K1|]. intros rem e F1 F2 F3 Nr Hr.
  rewrite <- (fits_res res v e A1 A2 A3 F3), <- (fits_sum rem e F3). apply K2; auto.
  intros w. rewrite Hr. cbn. intuition congruence.
Qed.
Lemma dense_early_exact e0 g tol max_iter g' v res : agrees_opt ev e0 -> agrees special e0 -> fits card factors e0 ->
  history (dense_ops o) g0 g -> length (g_cl g) <> 1 -> tree_shaped g0 -> (tol <= 0)%R ->
  process_graph (dense_ops o) tol max_iter g = Ok g' -> length (g_dists g') < max_iter * length (g_order g) ->
  ~ In v (dkeys special) -> get_marginal (dense_ops o) g' [v] = Ok res ->
  dvars res = [v] /\
  exists k, (0 < k)%R /\ forall rem e, agrees_opt ev e -> agrees special e -> fits card factors e -> NoDup rem ->
    (forall w, In w rem <-> (exists f, In f factors /\ In w (dvars f)) /\ ~ In w (observed ev) /\ ~ In w (dkeys special) /\ w <> v) ->
    (k * dpot res e = sum_over card rem (fun e' => Rprod (map (fun f => dpot f e') factors)) e)%R.
Proof.
  intros E1 E2 E3 H L1 TR Ht Hp Hlt Hv Hm. destruct (run_inv g H) as [Hh I].
  assert (H' : history (dense_ops o) g0 g') by (eapply hi_process; [exact H|left; exact L1|exact Hp]).
  destruct (asked g' v res H' Hv Hm) as (A1 & A2 & A3). split; [exact A2|].
  rewrite (ask_sim g' v H' Hv) in Hm. rewrite (process_same card nm o tol max_iter g I) in Hp.
  destruct (converged_marginal (aligned_ops o) card good dpt L o factors ev special g0 Ho G Ha e0 g tol max_iter g' [v] res
    (fits_positive e0 E1 E2 E3) Hh L1 TR Ht Hp Hlt (one_nodup v) (one_special v _ Hv) Hm) as [_ (k & K1 & K2)].
  exists k. split; [exact K1|]. intros rem e F1 F2 F3 Nr Hr.
  rewrite <- (fits_res res v e A1 A2 A3 F3), <- (fits_sum rem e F3). apply K2; auto.
  intros w. rewrite Hr. cbn. intuition congruence.
Qed.

Lemma fold_products l : forall a r, good a -> (forall f, In f l -> good f) -> foldM (fun acc f => d_multiply acc f) l a = Ok r ->
  good r /\ forall v, In v (dvars r) <-> In v (dvars a) \/ exists f, In f l /\ In v (dvars f).
Proof.
  induction l as [|x l IH]; intros a r Ga Gl H; cbn [foldM] in H.
  - injection H as <-. split; [exact Ga|]. intros v. split; [auto|]. intros [C|(f & [] & _)]. exact C.
  - apply bind_ok in H. destruct H as (m & Hm & H).
    destruct (mul_law card nm a x Ga (Gl x (or_introl eq_refl))) as (m' & M1 & M2 & M3 & _). assert (m' = m) by congruence. subst m'.
    destruct (IH m r M2 (fun f Hf => Gl f (or_intror Hf)) H) as (R1 & R2). split; [exact R1|].
    intros v. rewrite R2, M3. split.
    + intros [[C|C]|(f & Hf & Hv)]; [auto|right; exists x; split; [left; reflexivity|exact C]|right; exists f; split; [right; exact Hf|exact Hv]].
    + intros [C|(f & [<-|Hf] & Hv)]; eauto.
Qed.
Lemma fold_clusters cs : forall (a : dense), foldM (fun acc (c : cluster dense nat) => d_multiply acc (cl_fac c)) cs a =
  foldM (fun acc f => d_multiply acc f) (map cl_fac cs) a.
Proof. induction cs as [|c cs IH]; intros a; cbn; [reflexivity|]. destruct (d_multiply a (cl_fac c)); cbn; auto. Qed.
Lemma last_sent (g : cgraph dense nat) ms : last_messages g = Ok ms ->
  forall f, In f ms -> exists k p m, nth_error (g_paths g) k = Some p /\ p_prev p = Some m /\ f = m_fac m.
Proof.
  unfold last_messages. generalize (g_order g). intros l. revert ms. induction l as [|k l IH]; intros ms H f Hf; cbn [mapM] in H.
  - injection H as <-. destruct Hf.
  - apply bind_ok in H. destruct H as (x & Hx & H). apply bind_ok in H. destruct H as (xs & Hxs & H). injection H as <-.
    destruct Hf as [<-|Hf]; [|exact (IH xs Hxs f Hf)].
    apply bind_ok in Hx. destruct Hx as (p & Hp & Hx). apply py_nth_inv in Hp. destruct (p_prev p) as [m|] eqn:E; [|discriminate].
    injection Hx as <-. eauto 10.
Qed.
Lemma joint_sim g n : history (dense_ops o) g0 g -> (forall f v, In f factors -> In v (dvars f) -> card v = n) ->
  get_joint (dense_ops o) g = get_joint (aligned_ops o) g /\ forall r, get_joint (aligned_ops o) g = Ok r -> good r.
Proof.
  intros H Hn. destruct (run_inv g H) as [Hh I]. destruct (mk_graph_made (aligned_ops o) o factors ev special g0 Ho Ha) as (reduced & final & M).
  destruct (history_live (aligned_ops o) card good dpt L o factors ev special g0 Ho G reduced final g M Hh) as [Gfin LV].
  pose proof (lv_inv _ _ _ _ _ _ _ _ LV) as IV. unfold get_joint. cbn [dense_ops aligned_ops f_mul f_cancel].
  destruct (g_cl g) as [|c cs] eqn:Ec; [split; [reflexivity|discriminate]|]. rewrite fold_clusters.
  assert (Gc : forall f, In f (map cl_fac (c :: cs)) -> good f).
  { intros f Hf. apply in_map_iff in Hf. destruct Hf as (d & <- & Hd). rewrite <- Ec in Hd. apply In_nth_error in Hd. destruct Hd as (i & Hi).
    exact (ci_good _ _ _ (gi_cl _ _ _ I i d Hi)). }
  destruct (foldM _ (map cl_fac cs) (cl_fac c)) as [prod|er] eqn:P; [|split; [reflexivity|discriminate]]. cbn [bind].
  destruct (fold_products _ _ _ (Gc _ (or_introl eq_refl)) (fun f Hf => Gc f (or_intror Hf)) P) as (Gp & Vp).
  assert (Vp' : forall v, In v (dvars prod) <-> exists d, In d (g_cl g) /\ In v (dvars (cl_fac d))).
  { intros v. rewrite Vp, Ec. split.
    - intros [C|(f & Hf & Hv)]; [exists c; split; [left; reflexivity|exact C]|].
      apply in_map_iff in Hf. destruct Hf as (d & <- & Hd). exists d. split; [right; exact Hd|exact Hv].
    - intros (d & [<-|Hd] & Hv); [auto|]. right. exists (cl_fac d). split; [now apply in_map|exact Hv]. }
  destruct (last_messages g) as [ms|er] eqn:Lm; [|split; [reflexivity|discriminate]]. cbn [bind].
  assert (Gm : forall f, In f ms -> good f /\ incl (dvars f) (dvars prod)).
  { intros f Hf. destruct (last_sent g ms Lm f Hf) as (k & p & m & Hp & Hm & ->).
    destruct (iv_prev _ _ _ _ _ _ _ _ IV k p m Hp Hm) as (S & HS & Gs & Vs). split; [exact Gs|].
    intros v Hv. apply Vs in Hv. apply Vp'.
    destruct (st_edge _ _ (iv_struct _ _ _ _ _ _ _ _ IV) _ _ _ HS) as (H1 & _).
    destruct (nth_error (g_cl g) (p_snd p)) as [d|] eqn:Ed; [|apply nth_error_None in Ed; lia].
    exists d. split; [eapply nth_error_In; eauto|].
    destruct (iv_cl _ _ _ _ _ _ _ _ IV _ d Ed) as (f & Ef & _ & (_ & Hs) & _). apply Hs.
    exact (proj1 (sepf_In (aligned_ops o) o final ev special Ho _ _ S v HS Hv) f Ef). }
  destruct ms as [|m ms].
  { split; [reflexivity|]. intros r Hr. apply bind_ok in Hr. destruct Hr as (u & _ & Hr). injection Hr as <-. exact Gp. }
  destruct (foldM _ ms m) as [mp|er] eqn:Q; [|split; [reflexivity|discriminate]]. cbn [bind].
  destruct (fold_products _ _ _ (proj1 (Gm m (or_introl eq_refl))) (fun f Hf => proj1 (Gm f (or_intror Hf))) Q) as (Gq & Vq).
  assert (Hi : incl (dvars mp) (dvars prod)).
  { intros v Hv. apply Vq in Hv. destruct Hv as [Hv|(f & Hf & Hv)]; [apply (proj2 (Gm m (or_introl eq_refl)) v Hv)|exact (proj2 (Gm f (or_intror Hf)) v Hv)]. }
  split.
  - apply (cancel_divides_square card nm prod mp n Gp Gq); [|exact Hi]. intros v Hv. apply Vp' in Hv. destruct Hv as (d & Hd & Hv).
    destruct (run_scope g d v H Hd Hv) as (f & Hf & Hvf). exact (Hn f v Hf Hvf).
  - intros r Hr. destruct (div_law card nm prod mp Gp Gq Hi) as (r' & D1 & D2 & _). assert (r' = r) by congruence. subst. exact D2.
Qed.
Lemma dense_joint g n : history (dense_ops o) g0 g -> (forall f v, In f factors -> In v (dvars f) -> card v = n) -> factors <> [] ->
  (forall k p, nth_error (g_paths g) k = Some p -> p_prev p <> None) ->
  exists r, get_joint (dense_ops o) g = Ok r /\
    (forall v, In v (dvars r) <-> (exists f, In f factors /\ In v (dvars f)) /\ ~ In v (observed ev)) /\
    (forall e, agrees_opt ev e -> agrees special e -> fits card factors e -> dpot r e = Rprod (map (fun f => dpot f e) factors)).
Proof.
  intros H Hn Hne Hs. destruct (run_inv g H) as [Hh I]. destruct (joint_sim g n H Hn) as [E1 E2].
  destruct (joint_returned (aligned_ops o) card good dpt L o factors ev special g0 Ho G Ha g Hh Hne Hs) as (r & R1 & R2 & R3).
  exists r. rewrite E1. split; [exact R1|]. split; [exact R2|]. intros e F1 F2 F3.
  rewrite <- (fits_prod e F3), <- (R3 e F1 F2). symmetry. pose proof (E2 r R1) as Gr. apply dpt_in; [apply (dg_wf _ _ _ Gr)|].
  apply (dg_range card nm); [exact Gr|]. intros v Hv. apply R2 in Hv. destruct Hv as ((f & Hf & Hv) & _). exact (F3 f v Hf Hv).
Qed.
Lemma run_cluster g i c : history (dense_ops o) g0 g -> nth_error (g_cl g) i = Some c ->
  exists c0, nth_error (g_cl g0) i = Some c0 /\ good (cl_fac c) /\ forall v, In v (dvars (cl_fac c)) <-> In v (dvars (cl_fac c0)).
Proof.
  intros H Hi. destruct (run_inv g H) as [Hh I]. destruct (mk_graph_made (aligned_ops o) o factors ev special g0 Ho Ha) as (reduced & final & M).
  destruct (history_live (aligned_ops o) card good dpt L o factors ev special g0 Ho G reduced final g M Hh) as [Gfin LV].
  destruct (history_live (aligned_ops o) card good dpt L o factors ev special g0 Ho G reduced final g0 M (hi_init _ _)) as [_ LV0].
  destruct (iv_cl _ _ _ _ _ _ _ _ (lv_inv _ _ _ _ _ _ _ _ LV) i c Hi) as (f & Hf & _ & (_ & Hs) & _).
  destruct (nth_error (g_cl g0) i) as [c0|] eqn:E0.
  - exists c0. split; [reflexivity|]. split; [exact (ci_good _ _ _ (gi_cl _ _ _ I i c Hi))|].
    destruct (iv_cl _ _ _ _ _ _ _ _ (lv_inv _ _ _ _ _ _ _ _ LV0) i c0 E0) as (f' & Hf' & _ & (_ & Hs') & _).
    assert (f' = f) by congruence. subst f'. intros v. now rewrite Hs, Hs'.
  - exfalso. apply nth_error_None in E0. rewrite <- (run_length g H) in E0.
    assert (i < length (g_cl g)) by (apply nth_error_Some; congruence). lia.
Qed.
Lemma run_sent g k p m : history (dense_ops o) g0 g -> nth_error (g_paths g) k = Some p -> p_prev p = Some m ->
  exists S, edge_with g0 (p_snd p) (p_rcv p) S /\ good (m_fac m) /\ forall v, In v (dvars (m_fac m)) <-> In v S.
Proof.
  intros H Hp Hm. destruct (run_inv g H) as [Hh I]. destruct (mk_graph_made (aligned_ops o) o factors ev special g0 Ho Ha) as (reduced & final & M).
  destruct (history_live (aligned_ops o) card good dpt L o factors ev special g0 Ho G reduced final g M Hh) as [Gfin LV].
  destruct (iv_prev _ _ _ _ _ _ _ _ (lv_inv _ _ _ _ _ _ _ _ LV) k p m Hp Hm) as (S & HS & Gs & Vs).
  assert (EW : edge_with g0 (p_snd p) (p_rcv p) S) by (eapply made_edge; [exact M|exact HS]).
  exists S. auto.
Qed.
End Run.

(** ** Construction succeeds when any two factors share at most one unobserved variable *)
Lemma d_multiply_vars a b r : d_multiply a b = Ok r -> forall v, In v (dvars r) <-> In v (dvars a) \/ In v (dvars b).
Proof.
  unfold d_multiply. intros H. apply bind_ok in H. destruct H as (u1 & _ & H). apply bind_ok in H. destruct H as (tv & Ht & H).
  apply bind_ok in H. destruct H as (u2 & _ & H). apply bind_ok in H. destruct H as (ns & _ & H).
  unfold mk_dense in H. repeat (apply bind_ok in H; destruct H as (? & _ & H)). injection H as <-. cbn [dvars].
  unfold tensor_operation in Ht. destruct (eqb (dvars a) (dvars b)) eqn:E.
  - apply bind_ok in Ht. destruct Ht as (t & _ & Ht). injection Ht as <-. cbn [snd].
    apply eqb_true in E. rewrite E. tauto.
  - cbn zeta in Ht. repeat (apply bind_ok in Ht; destruct Ht as (? & _ & Ht)). injection Ht as <-. cbn [snd].
    intros v. rewrite !in_app_iff, !filter_In, !negb_true_iff. destruct (mem v (set_inter (dvars a) (dvars b))) eqn:M.
    + apply mem_In, In_set_inter in M. tauto.
    + pose proof (proj1 (mem_nIn _ _) M) as M'. rewrite In_set_inter in M'.
      destruct (in_dec string_dec v (dvars a)), (in_dec string_dec v (dvars b)); intuition congruence.
Qed.
Definition narrow (factors : list dense) (obs : list string) : Prop :=
  forall i j fi fj v w, i <> j -> nth_error factors i = Some fi -> nth_error factors j = Some fj ->
    In v (dvars fi) -> In v (dvars fj) -> In w (dvars fi) -> In w (dvars fj) -> ~ In v obs -> ~ In w obs -> v = w.
Lemma observed_all ev (special : dict string nat) v : ~ In v (all_evidence ev special) -> ~ In v (observed ev).
Proof. intros H C. apply H. unfold all_evidence. apply in_or_app. right. destruct ev; exact C. Qed.
Lemma narrow_thin card nm o factors ev special reduced final : oracle_ok o -> (forall f, In f factors -> dgood card nm f) ->
  narrow factors (all_evidence ev special) -> evidence_reduce (dense_ops o) factors ev = Ok reduced ->
  absorb_subsets (dense_ops o) reduced = Ok final -> thin o (all_evidence ev special) final.
Proof.
  intros Ho G Nw R A i j S HS.
  pose proof (evidence_reduce_pt (aligned_ops o) card (dgood card nm) dpt (aligned_lawful card nm o) ev factors reduced G R) as HF.
  destruct (absorb_heads (dense_ops o) reduced (fun a b r => d_multiply_vars a b r) final A) as (hs & Hn & Hh).
  pose proof (graph_sep_NoDup o _ _ i j S Ho HS) as NS.
  assert (K : forall v w, In v S -> In w S -> v = w).
  { intros v w Hv Hw.
    pose proof (proj1 (graph_sep_In o _ _ i j S v Ho HS) Hv) as (V1 & V2 & V3 & V4 & V5 & V6 & _).
    pose proof (proj1 (graph_sep_In o _ _ i j S w Ho HS) Hw) as (W1 & _ & _ & _ & W5 & W6 & _).
    rewrite map_length in V3, V4.
    assert (X : forall k, k < length final -> exists h f0, nth_error hs k = Some h /\ nth_error factors h = Some f0 /\
       forall x, In x (sc (map dvars final) k) -> In x (dvars f0)).
    { intros k Hk. destruct (nth_error final k) as [f|] eqn:Ef; [|apply nth_error_None in Ef; lia].
      assert (exists h, nth_error hs k = Some h) as (h & Eh).
      { destruct (nth_error hs k) eqn:Eh; [eauto|]. apply nth_error_None in Eh. apply Forall2_length in Hh. lia. }
      assert (P : exists f0, nth_error reduced h = Some f0 /\ forall x, In x (dvars f) <-> In x (dvars f0)).
      { clear - Hh Ef Eh. revert k Ef Eh. induction Hh as [|a b l l' H1 _ IH]; intros k Ef Eh; [destruct k; discriminate|].
        destruct k as [|k]; cbn in Ef, Eh; [injection Ef as <-; injection Eh as <-; exact H1|eauto]. }
      destruct P as (r & Er & Hr).
      assert (Q : exists f0, nth_error factors h = Some f0 /\ forall x, In x (dvars r) -> In x (dvars f0)).
      { clear - HF Er. revert h Er. induction HF as [|a b l l' H1 _ IH]; intros h Er; [destruct h; discriminate|].
        destruct h as [|h]; cbn in Er; [|exact (IH h Er)]. injection Er as <-. exists a. split; [reflexivity|].
        destruct H1 as (_ & H1 & _). intros x Hx. apply H1 in Hx. apply Hx. }
      destruct Q as (f0 & E0 & H0). exists h, f0. split; [exact Eh|]. split; [exact E0|]. intros x Hx. apply H0, Hr.
      unfold sc in Hx. rewrite (nth_error_nth (map dvars final) k [] (x := dvars f)) in Hx; [exact Hx|]. now rewrite nth_error_map, Ef. }
    destruct (X i V3) as (hi & fi & I1 & I2 & I3), (X j V4) as (hj & fj & J1 & J2 & J3).
    apply (Nw hi hj fi fj v w); auto. intros ->. apply V2.
    eapply (proj1 (NoDup_nth_error hs) Hn); [|congruence]. apply nth_error_Some. congruence. }
  assert (S <> []).
  { intros ->. unfold graph_sep in HS. destruct (Nat.ltb i j); [|destruct (Nat.ltb j i); [|discriminate]];
      (destruct (sep_vars o _ _ _); discriminate). }
  destruct S as [|s [|s' S]]; [congruence|reflexivity|]. exfalso. inversion NS as [|? ? N1 _]; subst. apply N1.
  rewrite (K s s'); [left; reflexivity|left; reflexivity|right; left; reflexivity].
Qed.
Lemma final_nodup card nm o factors ev reduced final : (forall f, In f factors -> dgood card nm f) -> evidence_reduce (dense_ops o) factors ev = Ok reduced ->
  absorb_subsets (dense_ops o) reduced = Ok final -> forall f, In f final -> NoDup (dvars f).
Proof.
  intros G R A.
  assert (Gr : forall f, In f reduced -> dgood card nm f).
  { pose proof (evidence_reduce_pt (aligned_ops o) card (dgood card nm) dpt (aligned_lawful card nm o) ev factors reduced G R) as HF.
    clear - HF. intros f Hf. induction HF as [|a b l l' H _ IH]; [destruct Hf|]. destruct Hf as [<-|Hf]; [apply H|auto]. }
  intros f Hf. apply (ws_vars f). apply (dg_wf card nm).
  exact (proj1 (absorb_pt (aligned_ops o) card (dgood card nm) dpt (aligned_lawful card nm o) reduced final Gr A) f Hf).
Qed.
(** Edges of one variable are in order. *)
Lemma one_lined card nm o factors ev special g : oracle_ok o -> (forall f, In f factors -> dgood card nm f) ->
  mk_graph (dense_ops o) o factors ev special = Ok g -> (forall i j S, edge_with g i j S -> length S = 1) -> lined g.
Proof.
  intros Ho G Hm H1 i j S c HS Hc. destruct (mk_graph_made (dense_ops o) o factors ev special g Ho Hm) as (reduced & final & M).
  pose proof (H1 i j S HS) as L1. destruct S as [|s [|s' S]]; cbn in L1; try discriminate. split.
  - apply (made_edge (dense_ops o) o factors ev special reduced final g M) in HS. pose proof (made_facs _ _ _ _ _ _ _ _ M) as Fc.
    assert (Hf : nth_error final i = Some (cl_fac c)) by now rewrite <- Fc, nth_error_map, Hc.
    apply listed_one.
    + apply (final_nodup card nm o factors ev reduced final G (mk_reduced _ _ _ _ _ _ _ _ M) (mk_final _ _ _ _ _ _ _ _ M)). eapply nth_error_In; eauto.
    + destruct (sepf_In (dense_ops o) o final ev special Ho i j [s] s HS (or_introl eq_refl)) as (A1 & _). now apply A1.
  - intros k T HT. pose proof (H1 i k T HT) as L2. destruct T as [|t [|t' T]]; cbn in L2; try discriminate. apply keeps_one.
Qed.
Lemma dense_graph_some card nm o factors ev special e0 : oracle_ok o -> (forall f, In f factors -> dgood card nm f) ->
  narrow factors (all_evidence ev special) -> agrees_opt ev e0 -> agrees special e0 -> fits card factors e0 ->
  exists g, mk_graph (dense_ops o) o factors ev special = Ok g /\ forall i j S, edge_with g i j S -> length S = 1.
Proof.
  intros Ho G Nw E1 E2 E3.
  destruct (mk_sim card nm o Ho factors ev special G) as [M1 _].
  { intros reduced final R A. apply thin_neat; [exact Ho|exact (narrow_thin card nm o factors ev special reduced final Ho G Nw R A)|].
    exact (final_nodup card nm o factors ev reduced final G R A). }
  destruct (mk_graph_some (aligned_ops o) card (dgood card nm) dpt (aligned_lawful card nm o) o factors ev special e0 Ho G
    (fits_positive card nm factors ev special G e0 E1 E2 E3)) as (g & Hg).
  rewrite <- M1 in Hg. exists g. split; [exact Hg|]. intros i j S HS.
  destruct (mk_graph_made (dense_ops o) o factors ev special g Ho Hg) as (reduced & final & M).
  apply (made_edge (dense_ops o) o factors ev special reduced final g M) in HS.
  exact (narrow_thin card nm o factors ev special reduced final Ho G Nw (mk_reduced _ _ _ _ _ _ _ _ M) (mk_final _ _ _ _ _ _ _ _ M) i j S HS).
Qed.
(** With an order of the sepsets that fits, edges may have any number of variables. *)
Lemma dense_graph_lined card nm o factors ev special e0 : oracle_ok o -> (forall f, In f factors -> dgood card nm f) ->
  (forall reduced final, evidence_reduce (dense_ops o) factors ev = Ok reduced -> absorb_subsets (dense_ops o) reduced = Ok final ->
     neat o (all_evidence ev special) final) -> agrees_opt ev e0 -> agrees special e0 -> fits card factors e0 ->
  exists g, mk_graph (dense_ops o) o factors ev special = Ok g /\ lined g.
Proof.
  intros Ho G Nw E1 E2 E3.
  destruct (mk_sim card nm o Ho factors ev special G Nw) as [M1 _].
  destruct (mk_graph_some (aligned_ops o) card (dgood card nm) dpt (aligned_lawful card nm o) o factors ev special e0 Ho G
    (fits_positive card nm factors ev special G e0 E1 E2 E3)) as (g & Hg).
  rewrite <- M1 in Hg. exists g. split; [exact Hg|]. intros i j S c HS Hc.
  destruct (mk_graph_made (dense_ops o) o factors ev special g Ho Hg) as (reduced & final & M).
  apply (made_edge (dense_ops o) o factors ev special reduced final g M) in HS. pose proof (made_facs _ _ _ _ _ _ _ _ M) as Fc.
  assert (Hf : nth_error final i = Some (cl_fac c)) by now rewrite <- Fc, nth_error_map, Hc.
  destruct (Nw reduced final (mk_reduced _ _ _ _ _ _ _ _ M) (mk_final _ _ _ _ _ _ _ _ M) i j S (cl_fac c) HS Hf) as (N1 & N2).
  split; [exact N1|]. intros k T HT. apply (N2 k T). apply (made_edge (dense_ops o) o factors ev special reduced final g M) in HT. exact HT.
Qed.
