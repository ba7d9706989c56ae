(** Agreement of neighbouring clusters over dense tables and over Gaussians. *)
From Verif Require Export GraphLocal DenseGraph3.
From Verif Require Export GaussGraph.
From Verif Require LinGauss.
Local Open Scope string_scope.
Local Open Scope nat_scope.

(** ** Dense tables *)
Section Run.
Variable card : string -> nat.
Variable nm : string -> list aname.
Notation good := (dgood card nm).
Variable o : oracle.
Hypothesis Ho : oracle_ok o.
Context (factors : list dense) (ev : option (dict string nat)) (special : dict string nat) (g0 : cgraph dense nat).
Hypothesis G : forall f, In f factors -> good f.
Hypothesis Hmk : mk_graph (dense_ops o) o factors ev special = Ok g0.
Hypothesis Hlin : lined g0.
Notation L := (aligned_lawful card nm o).
Let Ha := proj1 (built card nm o Ho factors ev special g0 G Hmk Hlin).
Let inv_of := run_inv card nm o Ho factors ev special g0 G Hmk Hlin.

Lemma cluster_dpot g c rem keep e : history (dense_ops o) g0 g -> In c (g_cl g) -> NoDup rem ->
  (forall v, In v rem <-> In v (dvars (cl_fac c)) /\ ~ In v keep /\ ~ In v (dkeys special)) -> fits card factors e ->
  sum_over card rem (dpot (cl_fac c)) e = sum_over card rem (dpt (cl_fac c)) e.
Proof.
  intros H Hc Hn Hr He. destruct (inv_of g H) as [_ I]. pose proof Hc as Hc'. apply In_nth_error in Hc. destruct Hc as (i & Hi).
  pose proof (ci_good _ _ _ (gi_cl _ _ _ I i c Hi)) as Gc.
  apply sum_over_ext_range. intros e' K1 K2. symmetry. apply dpt_in; [apply (dg_wf _ _ _ Gc)|]. apply (dg_range card nm); [exact Gc|].
  intros v Hv. destruct (in_dec string_dec v rem) as [J|J]; [now apply K1|]. rewrite (K2 v J).
  destruct (run_scope card nm o Ho factors ev special g0 G Hmk Hlin g c v H Hc' Hv) as (f & F1 & F2). exact (He f v F1 F2).
Qed.
Lemma dense_stopped e0 g tol max_iter g' : agrees_opt ev e0 -> agrees special e0 -> fits card factors e0 ->
  history (dense_ops o) g0 g -> length (g_cl g) <> 1 -> (tol <= 0)%R ->
  process_graph (dense_ops o) tol max_iter g = Ok g' -> length (g_dists g') < max_iter * length (g_order g) ->
  history (dense_ops o) g0 g' /\ history (aligned_ops o) g0 g' /\ exists c, settled (aligned_ops o) card dpt g' c.
Proof.
  intros E1 E2 E3 H L1 Ht Hp Hlt. destruct (inv_of g H) as [Hh I].
  assert (H' : history (dense_ops o) g0 g') by (eapply hi_process; [exact H|left; exact L1|exact Hp]). split; [exact H'|].
  rewrite (process_same card nm o tol max_iter g I) in Hp.
  exact (stopped_settled (aligned_ops o) card good dpt L o factors ev special g0 Ho G Ha e0 g tol max_iter g'
    (fits_positive card nm factors ev special G e0 E1 E2 E3) Hh L1 Ht Hp Hlt).
Qed.
Lemma dense_holders e0 g tol max_iter g' v ci cj : agrees_opt ev e0 -> agrees special e0 -> fits card factors e0 ->
  history (dense_ops o) g0 g -> length (g_cl g) <> 1 -> (tol <= 0)%R ->
  process_graph (dense_ops o) tol max_iter g = Ok g' -> length (g_dists g') < max_iter * length (g_order g) ->
  In ci (g_cl g') -> In cj (g_cl g') -> In v (dvars (cl_fac ci)) -> In v (dvars (cl_fac cj)) -> ~ In v (dkeys special) ->
  exists k, (0 < k)%R /\ forall ri rj e, NoDup ri -> NoDup rj ->
    (forall w, In w ri <-> In w (dvars (cl_fac ci)) /\ w <> v /\ ~ In w (dkeys special)) ->
    (forall w, In w rj <-> In w (dvars (cl_fac cj)) /\ w <> v /\ ~ In w (dkeys special)) -> agrees special e -> fits card factors e ->
    (k * sum_over card ri (dpot (cl_fac ci)) e = sum_over card rj (dpot (cl_fac cj)) e)%R.
Proof.
  intros E1 E2 E3 H L1 Ht Hp Hlt Hi Hj Vi Vj Hs.
  destruct (dense_stopped e0 g tol max_iter g' E1 E2 E3 H L1 Ht Hp Hlt) as (H' & Hh' & c & ST).
  pose proof Hi as Hi'. pose proof Hj as Hj'. apply In_nth_error in Hi, Hj. destruct Hi as (i & Hi). destruct Hj as (j & Hj).
  destruct (holders_agree (aligned_ops o) card good dpt L o factors ev special g0 Ho G Ha g' c v i j ci cj Hh' ST Hi Hj Vi Vj Hs) as (k & K1 & _ & K3).
  exists k. split; [exact K1|]. intros ri rj e Ni Nj Ri Rj He Hf.
  assert (Ri' : forall w, In w ri <-> In w (dvars (cl_fac ci)) /\ ~ In w [v] /\ ~ In w (dkeys special)).
  { intros w. rewrite Ri. cbn. intuition congruence. }
  assert (Rj' : forall w, In w rj <-> In w (dvars (cl_fac cj)) /\ ~ In w [v] /\ ~ In w (dkeys special)).
  { intros w. rewrite Rj. cbn. intuition congruence. }
  rewrite (cluster_dpot g' ci ri [v] e H' Hi' Ni Ri' Hf), (cluster_dpot g' cj rj [v] e H' Hj' Nj Rj' Hf).
  apply K3; [split; assumption|split; assumption|exact He].
Qed.
Lemma dense_any e0 g tol max_iter g' v res ci : agrees_opt ev e0 -> agrees special e0 -> fits card factors e0 ->
  history (dense_ops o) g0 g -> length (g_cl g) <> 1 -> (tol <= 0)%R ->
  process_graph (dense_ops o) tol max_iter g = Ok g' -> length (g_dists g') < max_iter * length (g_order g) ->
  In ci (g_cl g') -> In v (dvars (cl_fac ci)) -> ~ In v (dkeys special) -> get_marginal (dense_ops o) g' [v] = Ok res ->
  exists k, (0 < k)%R /\ forall ri e, NoDup ri ->
    (forall w, In w ri <-> In w (dvars (cl_fac ci)) /\ w <> v /\ ~ In w (dkeys special)) -> agrees special e -> fits card factors e ->
    (k * dpot res e = sum_over card ri (dpot (cl_fac ci)) e)%R.
Proof.
  intros E1 E2 E3 H L1 Ht Hp Hlt Hi Vi Hs Hm.
  destruct (dense_stopped e0 g tol max_iter g' E1 E2 E3 H L1 Ht Hp Hlt) as (H' & Hh' & c & ST).
  destruct (asked card nm o Ho factors ev special g0 G Hmk Hlin g' v res H' Hs Hm) as (A1 & A2 & A3).
  rewrite (ask_sim card nm o Ho factors ev special g0 G Hmk Hlin g' v H' Hs) in Hm.
  destruct (any_cluster (aligned_ops o) card good dpt L o factors ev special g0 Ho G Ha g' c v res ci Hh' ST Hi Vi Hs Hm) as (k & K1 & _ & K3).
  exists k. split; [exact K1|]. intros ri e Ni Ri He Hf.
  assert (Ri' : forall w, In w ri <-> In w (dvars (cl_fac ci)) /\ ~ In w [v] /\ ~ In w (dkeys special)).
  { intros w. rewrite Ri. cbn. intuition congruence. }
  rewrite (cluster_dpot g' ci ri [v] e H' Hi Ni Ri' Hf), <- (fits_res card nm factors res v e A1 A2 A3 Hf).
  apply K3; [split; assumption|exact He].
Qed.
End Run.

(** ** Positive factor classes *)
Section Pos.
Context {F : Type} (ops : fops F R) (good sound ready : F -> Prop) (pt : F -> renv -> R).
Hypothesis L : plaws ops good sound ready pt.
Context (o : oracle) (factors : list F) (ev : option (dict string R)) (special : dict string R) (g0 : cgraph F R).
Hypothesis Ho : oracle_ok o.
Hypothesis Gfac : forall f, In f factors -> good f.
Hypothesis Hmk : mk_graph ops o factors ev special = Ok g0.
Hypothesis Hs : forall c r, In c (g_cl g0) -> f_reduce ops (cl_fac c) (dkeys (cl_spec c)) (dvals (cl_spec c)) = Ok r -> sound r.

Lemma pedge_agrees g i j S ci cj : history ops g0 g -> psettled pt g -> edge_with g0 i j S ->
  nth_error (g_cl g) i = Some ci -> nth_error (g_cl g) j = Some cj -> exists h : renv -> R,
  (forall e, (0 < h e)%R) /\
  (forall ri e, NoDup ri -> (forall v, In v ri <-> In v (f_vars ops (cl_fac ci)) /\ ~ In v S /\ ~ In v (dkeys special)) ->
     agrees special e -> iint ri (pt (cl_fac ci)) e (h e)) /\
  (forall rj e, NoDup rj -> (forall v, In v rj <-> In v (f_vars ops (cl_fac cj)) /\ ~ In v S /\ ~ In v (dkeys special)) ->
     agrees special e -> iint rj (pt (cl_fac cj)) e (h e)).
Proof.
  intros Hh ST HE Hi Hj.
  destruct (pmade ops good sound ready pt L o factors ev special g0 Ho Gfac Hmk Hs) as (reduced & final & M & Gfin & Hsound & HL).
  destruct (HL g Hh) as (LV & _).
  assert (One : forall i j ci, edge_with g0 i j S -> nth_error (g_cl g) i = Some ci -> forall ri e, NoDup ri ->
     (forall v, In v ri <-> In v (f_vars ops (cl_fac ci)) /\ ~ In v S /\ ~ In v (dkeys special)) -> agrees special e ->
     iint ri (pt (cl_fac ci)) e (psg pt g i j e)).
  { clear i j ci cj HE Hi Hj. intros i j ci HE Hi ri e Hn Hr He.
    apply (made_edge ops o factors ev special reduced final g0 M) in HE.
    pose proof (pv_inv _ _ _ _ _ _ _ _ _ _ LV) as IV. pose proof (pi_struct _ _ _ _ _ _ _ _ _ _ IV) as Str.
    destruct (st_edge _ _ Str i j S HE) as (_ & _ & _ & _ & _ & k & p & Hp & Ei & Ej). subst i j.
    pose proof (sa_fresh _ _ _ (pv_static _ _ _ _ _ _ _ _ _ _ LV)) as Fr.
    destruct (pnext ops good sound ready pt L o final ev special Ho Gfin Hsound g k p IV Fr Hp)
      as (S' & ci' & cj & fi & q & kq & HS & Hi' & Hj & Hfi & Hq & Q1 & Q2 & [_ _ (Gm & Vm) (b & [B1 B2 B3] & Hb)]).
    assert (S' = S) by congruence. subst S'. assert (ci' = ci) by congruence. subst ci'.
    destruct (pcluster_at ops good sound ready pt o final ev special g LV _ ci Hi) as (fi' & Hfi' & _ & Hv & _).
    assert (fi' = fi) by congruence. subst fi'.
    destruct (Hb ri Hn) as [_ T2].
    { intros v. rewrite Hr, B2, Hv. tauto. }
    unfold psg. rewrite (pmu_path ops good sound ready pt o final ev special g LV k p e Hp).
    assert (Hmq : pmu pt g (p_rcv p) (p_snd p) e = pmsg pt q e).
    { rewrite <- Q1, <- Q2. apply (pmu_path ops good sound ready pt o final ev special g LV kq q e Hq). }
    rewrite Hmq, <- (ST k p e Hp). eapply LinGauss.iint_ext_on; [|apply T2]. intros e' He'. rewrite B3.
    assert (Gc : good (cl_fac ci)) by (destruct (pi_cl _ _ _ _ _ _ _ _ _ _ IV _ ci Hi) as (f & _ & _ & (G1 & _) & _); exact G1).
    apply (pl_ext _ _ _ _ _ L); [exact Gc|]. intros v _. apply over_id.
    intros w x Hx. rewrite He'; [now apply He|]. rewrite Hr. intros (_ & _ & C). apply C. eapply dget_Some_key; eauto. }
  exists (psg pt g i j). split; [intros e; exact (psg_pos ops good sound ready pt L o final ev special g LV i j e)|]. split.
  - exact (One i j ci HE Hi).
  - intros rj e Hn Hr He. replace (psg pt g i j e) with (psg pt g j i e) by (unfold psg; ring).
    destruct (made_sepset ops o factors ev special reduced final g0 Ho M i j S HE) as (_ & _ & _ & HE' & _).
    exact (One j i cj HE' Hj rj e Hn Hr He).
Qed.
End Pos.

(** ** Gaussians *)
Lemma gedge_agrees : forall o factors ev special g0, oracle_ok o ->
  (forall f, In f factors -> semi_gauss f) -> mk_graph (gauss_ops o) o factors ev special = Ok g0 ->
  (forall c r, In c (g_cl g0) -> g_reduce (cl_fac c) (dkeys (cl_spec c)) (dvals (cl_spec c)) = Ok r -> ga_vac r = false) ->
  forall g i j S ci cj, history (gauss_ops o) g0 g ->
  (forall k p e, nth_error (g_paths g) k = Some p ->
     gval (m_fac (p_next p)) e = match p_prev p with Some m => gval (m_fac m) e | None => 1%R end) ->
  edge_with g0 i j S -> nth_error (g_cl g) i = Some ci -> nth_error (g_cl g) j = Some cj -> exists h : renv -> R,
  (forall e, (0 < h e)%R) /\
  (forall ri e, NoDup ri -> (forall v, In v ri <-> In v (ga_vars (cl_fac ci)) /\ ~ In v S /\ ~ In v (dkeys special)) ->
     agrees special e -> iint ri (gval (cl_fac ci)) e (h e)) /\
  (forall rj e, NoDup rj -> (forall v, In v rj <-> In v (ga_vars (cl_fac cj)) /\ ~ In v S /\ ~ In v (dkeys special)) ->
     agrees special e -> iint rj (gval (cl_fac cj)) e (h e)).
Proof.
  intros o factors ev special g0 Ho Hf Hmk Hs g i j S ci cj Hh HS.
  exact (pedge_agrees (gauss_ops o) (ggood false) gsound gready gval (gauss_plaws false o Ho) o factors ev special g0 Ho
    (fun f H => semi_good f (Hf f H)) Hmk (gsent_sound o factors ev special g0 Ho Hf Hmk Hs) g i j S ci cj Hh HS).
Qed.
Lemma dedge_agrees : forall o factors ev special g0, oracle_ok o ->
  (forall f, In f factors -> def_gauss f) -> mk_graph (gauss_ops o) o factors ev special = Ok g0 ->
  forall g i j S ci cj, history (gauss_ops o) g0 g ->
  (forall k p e, nth_error (g_paths g) k = Some p ->
     gval (m_fac (p_next p)) e = match p_prev p with Some m => gval (m_fac m) e | None => 1%R end) ->
  edge_with g0 i j S -> nth_error (g_cl g) i = Some ci -> nth_error (g_cl g) j = Some cj -> exists h : renv -> R,
  (forall e, (0 < h e)%R) /\
  (forall ri e, NoDup ri -> (forall v, In v ri <-> In v (ga_vars (cl_fac ci)) /\ ~ In v S /\ ~ In v (dkeys special)) ->
     agrees special e -> iint ri (gval (cl_fac ci)) e (h e)) /\
  (forall rj e, NoDup rj -> (forall v, In v rj <-> In v (ga_vars (cl_fac cj)) /\ ~ In v S /\ ~ In v (dkeys special)) ->
     agrees special e -> iint rj (gval (cl_fac cj)) e (h e)).
Proof.
  intros o factors ev special g0 Ho Hf Hmk. apply (gedge_agrees o factors ev special g0 Ho (fun f H => def_semi f (Hf f H)) Hmk).
  exact (proj1 (gclusters_plain o factors ev special Ho Hf g0 Hmk)).
Qed.
