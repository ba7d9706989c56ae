(** Cluster graphs over dense tables: queries about several variables, listed in the order of the
    cluster that answers. *)
From Verif Require Export DenseGraph3.
Local Open Scope string_scope.
Local Open Scope nat_scope.
Local Open Scope list_scope.

(** Every cluster that has all of [vs] lists them in this order. *)
Definition answers_in_order (g : cgraph dense nat) (vs : list string) : Prop :=
  forall c, In c (g_cl g) -> incl vs (dvars (cl_fac c)) -> listed vs (dvars (cl_fac c)).
(** The same of a new graph, for good: messages move the variables of an edge to the end. *)
Definition stays_in_order (g : cgraph dense nat) (vs : list string) : Prop :=
  forall i c, nth_error (g_cl g) i = Some c -> incl vs (dvars (cl_fac c)) ->
    listed vs (dvars (cl_fac c)) /\ forall j T, edge_with g i j T -> keeps T vs.

Section Query.
Variable card : string -> nat.
Variable nm : string -> list aname.
Notation good := (dgood card nm).
Variable o : oracle.
Hypothesis Ho : oracle_ok o.
Context (factors : list dense) (ev : option (dict string nat)) (special : dict string nat) (g0 : cgraph dense nat).
Hypothesis G : forall f, In f factors -> good f.
Hypothesis Hmk : mk_graph (dense_ops o) o factors ev special = Ok g0.
Hypothesis Hlin : lined g0.
Notation L := (aligned_lawful card nm o).
Let Ha := proj1 (built card nm o Ho factors ev special g0 G Hmk Hlin).
Let runs := run_inv card nm o Ho factors ev special g0 G Hmk Hlin.

Lemma query_sim g vs : ginv card nm g -> answers_in_order g vs -> (forall v, In v vs -> ~ In v (dkeys (g_spec g))) ->
  get_marginal (dense_ops o) g vs = get_marginal (aligned_ops o) g vs /\
  forall res, get_marginal (dense_ops o) g vs = Ok res ->
    good res /\ dvars res = vs /\ exists c, In c (g_cl g) /\ incl vs (dvars (cl_fac c)).
Proof.
  intros I Or Hv. unfold get_marginal. cbn [dense_ops aligned_ops f_vars f_reduce f_marg].
  destruct (find _ (g_cl g)) as [c|] eqn:F; [|split; [reflexivity|discriminate]]. apply find_some in F. destruct F as [Hin Hsub].
  apply subsetb_incl in Hsub. pose proof (Or c Hin Hsub) as Li. pose proof Hin as Hin'.
  apply In_nth_error in Hin. destruct Hin as (i & Hi). pose proof (ci_good _ _ _ (gi_cl _ _ _ I i c Hi)) as Gc.
  pose proof (ws_vars _ (dg_wf _ _ _ Gc)) as Hn.
  destruct (subset_evidence (g_spec g) (dvars (cl_fac c))) as [evs vals] eqn:E.
  destruct (subset_evidence_spec _ _ evs vals Hn E) as (E1 & E2 & E3).
  assert (Main : forall f, good f -> listed vs (dvars f) -> d_marginalize o f vs true = d_marginalize o f (filter (fun v => mem v vs) (dvars f)) true /\
    forall res, d_marginalize o f vs true = Ok res -> good res /\ dvars res = vs).
  { intros f Gf Lf. pose proof Lf as Lf'. unfold listed in Lf'. rewrite Lf'. split; [reflexivity|]. intros res Hr.
    destruct (marg_law card nm o f vs Gf (listed_NoDup vs _ (ws_vars _ (dg_wf _ _ _ Gf)) Lf) ltac:(intros w Hw; now apply (listed_In vs))) as (r & M1 & M2 & _ & M3 & _).
    rewrite Lf' in M1, M3. assert (r = res) by congruence. subst r. auto. }
  destruct (Nat.ltb 0 (length evs)).
  - destruct (d_reduce (cl_fac c) evs (map Z.of_nat vals)) as [f|er] eqn:R; [|split; [reflexivity|discriminate]]. cbn [bind].
    assert (Hi' : incl evs (dvars (cl_fac c))) by (intros w Hw; apply E2 in Hw; tauto).
    destruct (reduce_law card nm _ _ _ f Gc E1 Hi' E3 R) as (G1 & V1 & _).
    assert (Lf : listed vs (dvars f)).
    { rewrite (reduce_vars card nm _ _ _ f Gc E1 Hi' E3 R). apply listed_filter; [exact Li|]. intros v Hw. apply negb_true_iff, mem_nIn. intros C. apply E2 in C. now apply (Hv v). }
    destruct (Main f G1 Lf) as (M1 & M2). split; [exact M1|]. intros res Hr. destruct (M2 res Hr). split; [assumption|]. split; [assumption|]. eauto.
  - cbn [bind]. destruct (Main (cl_fac c) Gc Li) as (M1 & M2). split; [exact M1|]. intros res Hr. destruct (M2 res Hr). split; [assumption|]. split; [assumption|]. eauto.
Qed.
Lemma query g vs : history (dense_ops o) g0 g -> answers_in_order g vs -> (forall v, In v vs -> ~ In v (dkeys special)) ->
  get_marginal (dense_ops o) g vs = get_marginal (aligned_ops o) g vs /\
  forall res, get_marginal (dense_ops o) g vs = Ok res -> NoDup vs /\ dvars res = vs /\ forall e, fits card factors e -> dpt res e = dpot res e.
Proof.
  intros H Or Hv. destruct (runs g H) as [Hh I]. destruct (query_sim g vs I Or) as (Q1 & Q2).
  { intros v Hw. rewrite (run_spec o Ho factors ev special g0 Hmk g H). now apply Hv. }
  split; [exact Q1|]. intros res Hr. destruct (Q2 res Hr) as (Gr & Vr & c & Hc & Hi). pose proof (ws_vars _ (dg_wf _ _ _ Gr)) as Hn. rewrite Vr in Hn.
  split; [exact Hn|]. split; [exact Vr|]. intros e He. apply dpt_in; [apply (dg_wf _ _ _ Gr)|]. apply (dg_range card nm); [exact Gr|].
  intros w Hw. rewrite Vr in Hw. destruct (run_scope card nm o Ho factors ev special g0 G Hmk Hlin g c w H Hc (Hi w Hw)) as (f & F1 & F2). exact (He f w F1 F2).
Qed.

Lemma query_some g vs e0 : history (dense_ops o) g0 g -> agrees_opt ev e0 -> agrees special e0 -> fits card factors e0 ->
  answers_in_order g vs -> (forall v, In v vs -> ~ In v (dkeys special)) ->
  (exists c, In c (g_cl g) /\ incl vs (dvars (cl_fac c))) -> exists res, get_marginal (dense_ops o) g vs = Ok res.
Proof.
  intros H E1 E2 E3 Or Hv (c & Hc & Hi). destruct (runs g H) as [Hh I]. rewrite (proj1 (query g vs H Or Hv)).
  apply (marginal_some (aligned_ops o) card good dpt L o factors ev special g0 Ho G Ha g vs e0 Hh (fits_positive card nm factors ev special G e0 E1 E2 E3)); [|exact Hv|eauto].
  apply (listed_NoDup vs (dvars (cl_fac c))); [|now apply Or]. apply In_nth_error in Hc. destruct Hc as (i & Hc). exact (ws_vars _ (dg_wf _ _ _ (ci_good _ _ _ (gi_cl _ _ _ I i c Hc)))).
Qed.
Lemma query_sweeps g ks g' vs res : history (dense_ops o) g0 g -> tree_shaped g0 -> two_sweeps g ks ->
  foldM (pass_path (dense_ops o)) ks g = Ok g' -> answers_in_order g' vs -> (forall v, In v vs -> ~ In v (dkeys special)) -> get_marginal (dense_ops o) g' vs = Ok res ->
  dvars res = vs /\
  forall rem e, agrees_opt ev e -> agrees special e -> fits card factors e -> NoDup rem ->
    (forall w, In w rem <-> (exists f, In f factors /\ In w (dvars f)) /\ ~ In w (observed ev) /\ ~ In w (dkeys special) /\ ~ In w vs) ->
    dpot res e = sum_over card rem (fun e' => Rprod (map (fun f => dpot f e') factors)) e.
Proof.
  intros H TR TS P Or Hv Hm. destruct (runs g H) as [Hh I].
  assert (H' : history (dense_ops o) g0 g') by (eapply (history_passes (dense_ops o)); eauto).
  destruct (query g' vs H' Or Hv) as (Q1 & Q2). destruct (Q2 res Hm) as (A1 & A2 & A3). split; [exact A2|].
  rewrite Q1 in Hm. rewrite (passes_sim card nm o ks g I) in P.
  destruct (sweeps_exact (aligned_ops o) card good dpt L o factors ev special g0 Ho G Ha g ks g' vs res Hh TR TS P A1 Hv Hm) as [_ X].
  intros rem e E1 E2 E3 Nr Hr. rewrite <- (A3 e E3), <- (fits_sum card nm factors G rem e E3). now apply X.
Qed.
Lemma query_greedy e0 : agrees_opt ev e0 -> agrees special e0 -> fits card factors e0 -> tree_shaped g0 -> length (g_cl g0) <> 1 ->
  exists N, forall g max_iter g' vs res, history (dense_ops o) g0 g -> N < max_iter * length (g_paths g0) ->
    process_graph (dense_ops o) 0 max_iter g = Ok g' -> answers_in_order g' vs -> (forall v, In v vs -> ~ In v (dkeys special)) -> get_marginal (dense_ops o) g' vs = Ok res ->
    dvars res = vs /\
    exists k, (0 < k)%R /\ forall rem e, agrees_opt ev e -> agrees special e -> fits card factors e -> NoDup rem ->
      (forall w, In w rem <-> (exists f, In f factors /\ In w (dvars f)) /\ ~ In w (observed ev) /\ ~ In w (dkeys special) /\ ~ In w vs) ->
      (k * dpot res e = sum_over card rem (fun e' => Rprod (map (fun f => dpot f e') factors)) e)%R.
Proof.
  intros E1 E2 E3 TR L1.
  destruct (greedy_exact (aligned_ops o) card good dpt L o factors ev special g0 Ho G Ha e0 (fits_positive card nm factors ev special G e0 E1 E2 E3) TR L1) as (N & HN).
  exists N. intros g n g' vs res H Hlt Hp Or Hv Hm. destruct (runs g H) as [Hh I].
  assert (H' : history (dense_ops o) g0 g') by (eapply hi_process; [exact H|left; rewrite (run_length card nm o Ho factors ev special g0 G Hmk Hlin g H); exact L1|exact Hp]).
  destruct (query g' vs H' Or Hv) as (Q1 & Q2). destruct (Q2 res Hm) as (A1 & A2 & A3). split; [exact A2|].
  rewrite Q1 in Hm. rewrite (process_same card nm o 0 n g I) in Hp.
  destruct (HN g n g' vs res Hh Hlt Hp A1 Hv Hm) as [_ (k & K1 & K2)].
  exists k. split; [exact K1|]. intros rem e F1 F2 F3 Nr Hr. rewrite <- (A3 e F3), <- (fits_sum card nm factors G rem e F3). now apply K2.
Qed.
Lemma query_early e0 g tol max_iter g' vs res : agrees_opt ev e0 -> agrees special e0 -> fits card factors e0 ->
  history (dense_ops o) g0 g -> length (g_cl g) <> 1 -> tree_shaped g0 -> (tol <= 0)%R ->
  process_graph (dense_ops o) tol max_iter g = Ok g' -> length (g_dists g') < max_iter * length (g_order g) ->
  answers_in_order g' vs -> (forall v, In v vs -> ~ In v (dkeys special)) -> get_marginal (dense_ops o) g' vs = Ok res ->
  dvars res = vs /\
  exists k, (0 < k)%R /\ forall rem e, agrees_opt ev e -> agrees special e -> fits card factors e -> NoDup rem ->
    (forall w, In w rem <-> (exists f, In f factors /\ In w (dvars f)) /\ ~ In w (observed ev) /\ ~ In w (dkeys special) /\ ~ In w vs) ->
    (k * dpot res e = sum_over card rem (fun e' => Rprod (map (fun f => dpot f e') factors)) e)%R.
Proof.
  intros E1 E2 E3 H L1 TR Ht Hp Hlt Or Hv Hm. destruct (runs g H) as [Hh I].
  assert (H' : history (dense_ops o) g0 g') by (eapply hi_process; [exact H|left; exact L1|exact Hp]).
  destruct (query g' vs H' Or Hv) as (Q1 & Q2). destruct (Q2 res Hm) as (A1 & A2 & A3). split; [exact A2|].
  rewrite Q1 in Hm. rewrite (process_same card nm o tol max_iter g I) in Hp.
  destruct (converged_marginal (aligned_ops o) card good dpt L o factors ev special g0 Ho G Ha e0 g tol max_iter g' vs res
    (fits_positive card nm factors ev special G e0 E1 E2 E3) Hh L1 TR Ht Hp Hlt A1 Hv Hm) as [_ (k & K1 & K2)].
  exists k. split; [exact K1|]. intros rem e F1 F2 F3 Nr Hr. rewrite <- (A3 e F3), <- (fits_sum card nm factors G rem e F3). now apply K2.
Qed.

(** ** Orders that stay *)
Definition steady (vs : list string) (g : cgraph dense nat) : Prop :=
  forall i c, nth_error (g_cl g) i = Some c -> incl vs (dvars (cl_fac c)) ->
    listed vs (dvars (cl_fac c)) /\ forall j cj T, nth_error (g_cl g) j = Some cj -> dget (cl_seps c) (cl_id cj) = Some T -> keeps T vs.
Lemma receive_vars c m c' : cinv card nm c -> dget (cl_seps c) (m_snd m) = Some (dvars (m_fac m)) -> good (m_fac m) ->
  receive_message (dense_ops o) c m = Ok c' -> dvars (cl_fac c') = moved (dvars (m_fac m)) (dvars (cl_fac c)) /\ cl_seps c' = cl_seps c /\ cl_id c' = cl_id c.
Proof.
  intros I Hm Gm H. pose proof (receive_sim card nm o c m I Hm Gm) as (RS & _). rewrite RS in H. clear RS. destruct I as [Gc S KK R K]. unfold receive_message in H.
  apply bind_ok in H. destruct H as ([] & _ & H). cbn [aligned_ops f_mul f_cancel] in H.
  destruct (S _ _ Hm) as (_ & Hs & Hk). apply bind_ok in H. destruct H as (f1 & H1 & H).
  destruct (mul_law card nm (cl_fac c) (m_fac m) Gc Gm) as (f1' & H1' & G1 & _). assert (f1' = f1) by congruence. subst f1'.
  pose proof (multiply_moved _ _ f1 Hs H1) as Hx. pose proof (ws_vars _ (dg_wf _ _ _ Gc)) as N0.
  destruct (dget (cl_recv c) (m_snd m)) as [prev|] eqn:E2.
  - destruct (R _ prev E2) as (Hs' & Gp). assert (Vp : dvars prev = dvars (m_fac m)) by congruence.
    apply bind_ok in H. destruct H as (f2 & H2 & H). injection H as <-. cbn. split; [|split; reflexivity].
    rewrite (divide_moved f1 prev f2); [|rewrite Vp, Hx; now apply moved_self|exact H2]. rewrite Vp, Hx. apply moved_moved.
  - cbn [bind] in H. injection H as <-. cbn. split; [exact Hx|split; reflexivity].
Qed.
Lemma pass_steady vs g k g' : ginv card nm g -> steady vs g -> pass_path (dense_ops o) g k = Ok g' -> steady vs g'.
Proof.
  intros [C P] St H. unfold pass_path in H. apply bind_ok in H. destruct H as (p & E & H). apply py_nth_inv in E.
  destruct (P k p E) as (ci & cj & s & Hi & Hj & S1 & S2 & M1 & M2 & M3).
  apply bind_ok in H. destruct H as (cj0 & Ej & H). rewrite (py_nth_some _ _ _ Hj) in Ej. injection Ej as <-.
  apply bind_ok in H. destruct H as (cj' & Er & H). apply bind_ok in H. destruct H as (cls & Ls & H).
  apply bind_ok in H. destruct H as (ps1 & _ & H). apply bind_ok in H. destruct H as (ps2 & _ & H). injection H as <-.
  destruct (list_set_inv _ _ _ _ Ls) as (_ & _ & Ln).
  destruct (receive_vars cj (p_next p) cj' (C _ _ Hj)) as (V & Sp & Id); [rewrite M1, M3; exact S2|exact M2|exact Er|].
  assert (Ls' : listed (dvars (m_fac (p_next p))) (dvars (cl_fac cj))) by (rewrite M3; apply (ci_seps _ _ _ (C _ _ Hj) _ _ S2)).
  assert (T : forall i c, nth_error cls i = Some c -> exists c0, nth_error (g_cl g) i = Some c0 /\ cl_id c = cl_id c0).
  { intros i c Hc. rewrite Ln in Hc. destruct (Nat.eq_dec i (p_rcv p)) as [->|N]; [|eauto]. injection Hc as <-. eauto. }
  intros i c Hc Hv. cbn [g_cl] in *. rewrite Ln in Hc. destruct (Nat.eq_dec i (p_rcv p)) as [->|N].
  - injection Hc as <-. destruct (St _ cj Hj) as (A & B).
    { intros v Hw. apply Hv in Hw. rewrite V in Hw. now apply (moved_In _ _ v Ls'). }
    rewrite V, Sp. split; [apply listed_moved; [exact A|]; rewrite M3; exact (B _ _ _ Hi S2)|].
    intros j d U Hd HU. destruct (T j d Hd) as (d0 & Hd0 & Ed). rewrite Ed in HU. exact (B j d0 U Hd0 HU).
  - destruct (St i c Hc Hv) as (A & B). split; [exact A|]. intros j d U Hd HU. destruct (T j d Hd) as (d0 & Hd0 & Ed). rewrite Ed in HU. exact (B j d0 U Hd0 HU).
Qed.
Lemma steady_same vs g g' : g_cl g' = g_cl g -> steady vs g -> steady vs g'.
Proof. intros E H. unfold steady. now rewrite E. Qed.
Lemma loop_steady vs tol n : forall g g', ginv card nm g -> steady vs g -> process_loop (dense_ops o) tol n g = Ok g' -> steady vs g'.
Proof.
  induction n as [|n IH]; intros g g' I St H; cbn [process_loop] in H; [now injection H as <-|].
  apply bind_ok in H. destruct H as (r & Hr & H).
  assert (Ir : ginv card nm (fst r)) by (destruct (step_sim card nm o g I) as [E1 E2]; rewrite E1 in Hr; now apply E2).
  assert (Sr : steady vs (fst r)).
  { unfold process_step in Hr. apply bind_ok in Hr. destruct Hr as (k & _ & Hr). apply bind_ok in Hr. destruct Hr as (g1 & H1 & Hr).
    apply bind_ok in Hr. destruct Hr as (k' & _ & Hr). apply bind_ok in Hr. destruct Hr as (p' & _ & Hr). injection Hr as <-. cbn [fst].
    apply (steady_same vs g1); [reflexivity|]. exact (pass_steady vs g k g1 I St H1). }
  destruct (vleb (snd r) (Fin tol)); [now injection H as <-|]. exact (IH _ _ Ir Sr H).
Qed.
Lemma history_steady vs g : steady vs g0 -> history (dense_ops o) g0 g -> steady vs g.
Proof.
  intros S0. induction 1 as [|g k g' H IH Hp|g tol n g' H IH Hs Hp]; [exact S0| |].
  - exact (pass_steady vs g k g' (proj2 (runs g H)) IH Hp).
  - pose proof (proj2 (runs g H)) as I. unfold process_graph in Hp. cbn zeta in Hp. change (g_cl (reset_dists g)) with (g_cl g) in Hp. change (g_spec (reset_dists g)) with (g_spec g) in Hp.
    assert (Ir : ginv card nm (reset_dists g)) by (apply (ginv_same card nm g); [exact I|reflexivity|reflexivity]).
    assert (Is : ginv card nm (sort_paths (reset_dists g))) by (apply (ginv_same card nm g); [exact I|reflexivity|reflexivity]).
    destruct (g_cl g) as [|c [|c' l]] eqn:E.
    + eapply loop_steady; [exact Is| |exact Hp]. now apply (steady_same vs g).
    + destruct Hs as [Hs|Hs]; [cbn in Hs; congruence|]. rewrite Hs in Hp. cbn in Hp. injection Hp as <-. now apply (steady_same vs g).
    + eapply loop_steady; [exact Is| |exact Hp]. now apply (steady_same vs g).
Qed.
Lemma new_steady vs : stays_in_order g0 vs -> steady vs g0.
Proof.
  intros H i c Hc Hv. destruct (H i c Hc Hv) as (A & B). split; [exact A|]. intros j cj T Hj HT.
  destruct (mk_graph_made (dense_ops o) o factors ev special g0 Ho Hmk) as (reduced & final & M). pose proof (mk_struct _ _ _ _ _ _ _ _ M) as ST.
  apply (B j T). apply (edge_with_sep _ g0 i j T ST). rewrite <- HT. symmetry. exact (st_sep _ _ ST i j c cj Hc Hj).
Qed.
Lemma steady_order vs g : steady vs g -> answers_in_order g vs.
Proof. intros S c Hc Hv. apply In_nth_error in Hc. destruct Hc as (i & Hi). now apply (S i). Qed.
Lemma stays_ok vs g : stays_in_order g0 vs -> history (dense_ops o) g0 g -> answers_in_order g vs.
Proof. intros H Hh. apply steady_order, history_steady; [now apply new_steady|exact Hh]. Qed.
Lemma one_in_order v g : history (dense_ops o) g0 g -> answers_in_order g [v].
Proof.
  intros H c Hc Hv. destruct (runs g H) as [_ I]. apply In_nth_error in Hc. destruct Hc as (i & Hi).
  apply listed_one; [exact (ws_vars _ (dg_wf _ _ _ (ci_good _ _ _ (gi_cl _ _ _ I i c Hi))))|]. apply Hv. now left.
Qed.

(** ** Two variables, asked for in the other order *)
Lemma flipped f x y r : wf_dense r -> x <> y -> d_marginalize o f [x; y] true = Ok r -> d_card_of r x <> d_card_of r y -> d_marginalize o f [y; x] true = Err AssertionError.
Proof.
  intros Wr N H Nc. unfold d_marginalize, d_marginal_vars in *.
  assert (Ef : filter (fun v => negb (mem v [y; x])) (dvars f) = filter (fun v => negb (mem v [x; y])) (dvars f)).
  { apply filter_ext. intros v. f_equal. apply eq_true_iff_eq. rewrite !mem_In. cbn. tauto. }
  rewrite Ef. apply bind_ok in H. destruct H as (idx & E1 & H). rewrite E1. cbn [bind]. apply bind_ok in H. destruct H as (t & E2 & H). rewrite E2. cbn [bind].
  unfold names_of in *. cbn [mapM] in *. apply bind_ok in H. destruct H as (ns & E3 & H). apply bind_ok in E3. destruct E3 as (nx & Ex & E3). apply bind_ok in E3. destruct E3 as (l & E3 & El).
  apply bind_ok in E3. destruct E3 as (ny & Ey & E3). cbn [bind] in E3. injection E3 as <-. injection El as <-. rewrite Ex, Ey. cbn [bind].
  unfold mk_dense in *. assert (N2 : nodupb [y; x] = true) by (apply nodupb_iff; constructor; [intros [C|[]]; congruence|constructor; [intros []|constructor]]).
  rewrite N2. cbn [negb raise_if bind]. apply bind_ok in H. destruct H as (u1 & _ & H). cbn [bind] in H. apply bind_ok in H. destruct H as (u2 & Hd & H).
  apply bind_ok in H. destruct H as (d & En & H). injection H as <-. change (length [y; x]) with (length [x; y]). rewrite Hd. cbn [bind].
  unfold ndim in Hd. destruct (tshape (squeeze t)) as [|a [|b [|c sh]]] eqn:Es; try discriminate Hd. cbn [mk_names] in *. unfold names_given in *. cbn in En |- *.
  destruct (py_assert (a =? length (dedup nx))) as [[]|e] eqn:A1; [|discriminate]. cbn in En. destruct (py_assert (b =? length (dedup ny))) as [[]|e] eqn:A2; [|discriminate].
  unfold py_assert in A1, A2. destruct (a =? length (dedup nx)) eqn:B1; [|discriminate]. destruct (b =? length (dedup ny)) eqn:B2; [|discriminate]. apply Nat.eqb_eq in B1, B2.
  assert (a <> b).
  { intros ->. apply Nc. unfold d_card_of. cbn [dvars dtens]. rewrite Es. cbn [combine dget]. repeat destruct (eq_dec _ _); congruence. }
  unfold py_assert. destruct (a =? length (dedup ny)) eqn:B3; [apply Nat.eqb_eq in B3; congruence|]. reflexivity.
Qed.
Lemma query_flipped g x y e0 : history (dense_ops o) g0 g -> agrees_opt ev e0 -> agrees special e0 -> fits card factors e0 ->
  answers_in_order g [x; y] -> ~ In x (dkeys special) -> ~ In y (dkeys special) -> card x <> card y ->
  (exists c, In c (g_cl g) /\ In x (dvars (cl_fac c)) /\ In y (dvars (cl_fac c))) -> get_marginal (dense_ops o) g [y; x] = Err AssertionError.
Proof.
  intros H E1 E2 E3 Or Hx Hy N (c & Hc & Cx & Cy).
  assert (Hs : forall v, In v [x; y] -> ~ In v (dkeys special)) by (intros v [<-|[<-|[]]]; assumption).
  destruct (query_some g [x; y] e0 H E1 E2 E3 Or Hs) as (res & Hr); [exists c; split; [exact Hc|]; intros v [<-|[<-|[]]]; assumption|].
  destruct (runs g H) as [Hh I]. destruct (query_sim g [x; y] I Or) as (_ & Q); [intros v Hv; rewrite (run_spec o Ho factors ev special g0 Hmk g H); now apply Hs|].
  destruct (Q res Hr) as (Gr & Vr & _). unfold get_marginal in *. cbn [dense_ops f_vars f_reduce f_marg] in *.
  assert (Ef : find (fun c => subsetb [y; x] (dvars (cl_fac c))) (g_cl g) = find (fun c => subsetb [x; y] (dvars (cl_fac c))) (g_cl g)).
  { clear. induction (g_cl g) as [|d l IH]; [reflexivity|]. cbn [find]. rewrite IH.
    assert (subsetb [y; x] (dvars (cl_fac d)) = subsetb [x; y] (dvars (cl_fac d))) as ->; [|reflexivity].
    apply eq_true_iff_eq. rewrite !subsetb_incl. unfold incl. cbn. firstorder. }
  rewrite Ef. destruct (find _ (g_cl g)) as [d|]; [|discriminate]. destruct (subset_evidence (g_spec g) (dvars (cl_fac d))) as [evs vals].
  apply bind_ok in Hr. destruct Hr as (f & Hf & Hr). rewrite Hf. cbn [bind]. apply (flipped f x y res (dg_wf _ _ _ Gr)); [congruence|exact Hr|].
  rewrite !(dg_card_of card nm res _ Gr) by (rewrite Vr; cbn; auto). exact N.
Qed.
End Query.
