(** The cluster graph properties in the form in which they are stated in PropGraph and
    PropMessage. *)
From Verif Require Export GraphCalib.

(** ** Construction, any factor class *)
Section Any.
Context {F V : Type} (ops : fops F V).

Lemma graph_ids o factors ev special g : oracle_ok o -> mk_graph ops o factors ev special = Ok g ->
  NoDup (map cl_id (g_cl g)).
Proof.
  intros Ho H. destruct (mk_graph_made ops o factors ev special g Ho H) as (reduced & final & M).
  apply (st_ids _ _ (mk_struct _ _ _ _ _ _ _ _ M)).
Qed.

(** If the operations of the factor class raise no error, neither does the construction. *)
Lemma graph_total o factors ev special : oracle_ok o -> (forall e, ~ op_error ops e) ->
  exists g, mk_graph ops o factors ev special = Ok g.
Proof.
  intros Ho H. destruct (mk_graph ops o factors ev special) as [g|e] eqn:E; [eauto|].
  exfalso. apply (H e). eapply mk_graph_err; eauto.
Qed.

Lemma running_intersection o factors ev special g v : oracle_ok o -> mk_graph ops o factors ev special = Ok g ->
  ~ In v (all_evidence ev special) ->
  (forall i j, edge_var g v i j -> in_scope ops g v i /\ in_scope ops g v j) /\
  (forall i j, in_scope ops g v i -> in_scope ops g v j -> clos_refl_trans nat (edge_var g v) i j) /\
  (forall l, ~ cycle (edge_var g v) l).
Proof.
  intros Ho H Hv. destruct (mk_graph_made ops o factors ev special g Ho H) as (reduced & final & M). split; [|split].
  - intros i j E. apply (edge_var_star ops o factors ev special reduced final g Ho M) in E. tauto.
  - intros i j. now apply (var_connected ops o factors ev special reduced final g Ho M).
  - intros l. apply (var_acyclic ops o factors ev special reduced final g Ho M).
Qed.

Lemma sepsets_sane o factors ev special g i j s : oracle_ok o -> mk_graph ops o factors ev special = Ok g ->
  edge_with g i j s ->
  i <> j /\ s <> [] /\ NoDup s /\ edge_with g j i s /\
  (forall v, In v s -> in_scope ops g v i /\ in_scope ops g v j /\ ~ In v (all_evidence ev special)).
Proof.
  intros Ho H E. destruct (mk_graph_made ops o factors ev special g Ho H) as (reduced & final & M).
  exact (made_sepset ops o factors ev special reduced final g Ho M i j s E).
Qed.

(** ** States reached after construction *)
(** Any passes along any paths and any calls of process_graph.  The processing of a single
    cluster with special evidence is treated separately (it replaces the cluster factor). *)
Inductive history (g0 : cgraph F V) : cgraph F V -> Prop :=
  | hi_init : history g0 g0
  | hi_pass g k g' : history g0 g -> pass_path ops g k = Ok g' -> history g0 g'
  | hi_process g tol max_iter g' : history g0 g -> (length (g_cl g) <> 1 \/ g_spec g = []) ->
      process_graph ops tol max_iter g = Ok g' -> history g0 g'.

Lemma process_cases tol max_iter g g' : process_graph ops tol max_iter g = Ok g' ->
  (length (g_cl g) <> 1 \/ g_spec g = []) ->
  g' = reset_dists g \/
  (exists steps, run ops (sort_paths (reset_dists g)) steps g' /\ length steps <= max_iter * length (g_order g)).
Proof.
  intros H Hs. pose proof H as H0. apply process_graph_run in H0. destruct H0 as [[c Ec]|(steps & R & Hl & _)]; [|eauto].
  left. destruct Hs as [Hs|Hs]; [rewrite Ec in Hs; cbn in Hs; congruence|].
  unfold process_graph in H. cbn zeta in H. change (g_cl (reset_dists g)) with (g_cl g) in H.
  change (g_spec (reset_dists g)) with (g_spec g) in H. rewrite Ec, Hs in H. now inversion H.
Qed.
Lemma run_spec g steps g' : run ops g steps g' -> g_spec g' = g_spec g /\ g_passed g' = g_passed g + length steps.
Proof.
  induction 1 as [|g k g1 gain steps g' K R [IH1 IH2]]; [split; [reflexivity|cbn; lia]|].
  rewrite IH1, IH2, (sk_spec _ _ _ _ _ K), (sk_count _ _ _ _ _ K). cbn. split; [reflexivity|lia].
Qed.
Lemma run_static sepf g steps g' : static_ok ops sepf g -> run ops g steps g' ->
  static_ok ops sepf g' /\ length (g_paths g') = length (g_paths g).
Proof.
  intros SA R. induction R as [g|g k g1 gain steps g' K R IH]; [auto|].
  pose proof (step_static ops sepf g k g1 gain SA K) as SA1. destruct (IH SA1) as [I1 I2]. split; [exact I1|].
  rewrite I2. apply (step_plen ops g k g1 gain K). eauto.
Qed.

Lemma history_static o factors ev special reduced final g0 g : made ops o factors ev special reduced final g0 ->
  history g0 g ->
  static_ok ops (graph_sep o (map (f_vars ops) final) (all_evidence ev special)) g /\
  g_spec g = special /\ length (g_paths g) = length (g_paths g0) /\
  (g_paths g0 = [] -> g_passed g = 0).
Proof.
  intros M H. set (sepf := graph_sep _ _ _). induction H as [|g k g' H IH Hp|g tol n g' H IH Hc Hp].
  - split; [exact (made_static ops o factors ev special reduced final g0 M)|].
    split; [apply (mk_spec _ _ _ _ _ _ _ _ M)|]. split; [reflexivity|]. intros _. apply (mk_passed _ _ _ _ _ _ _ _ M).
  - destruct IH as (I1 & I2 & I3 & I4). destruct (pass_path_order ops g k g' Hp) as (O1 & O2 & O3 & O4).
    destruct (pass_path_passed ops g k g' (struct_out sepf g (sa_struct _ _ _ I1)) Hp) as (p & cr & cr' & P).
    pose proof (pa_plen _ _ _ _ _ _ _ P) as PL.
    split; [exact (pass_static ops sepf g k g' I1 Hp)|]. split; [congruence|]. split; [congruence|].
    intros E. rewrite O2. auto.
  - destruct IH as (I1 & I2 & I3 & I4). destruct (process_cases tol n g g' Hp Hc) as [->|(steps & R & Hl)].
    + destruct I1 as [[H1 H2 H3 H4 H5 H6 H7] Fr G]. split; [|cbn; auto].
      split; [split|..]; cbn; auto.
    + assert (S1 : static_ok ops sepf (sort_paths (reset_dists g))).
      { apply static_sort. destruct I1 as [[H1 H2 H3 H4 H5 H6 H7] Fr G]. split; [split|..]; cbn; auto. }
      destruct (run_static sepf _ steps g' S1 R) as [R1 R2]. destruct (run_spec _ steps g' R) as [R3 R4].
      cbn in R2, R3, R4. split; [exact R1|]. split; [congruence|]. split; [congruence|].
      intros E. rewrite R4, (I4 E). destruct steps as [|s steps]; [reflexivity|]. exfalso.
      assert (Hz : length (g_order g) = 0).
      { rewrite (Permutation_length (st_order _ _ (sa_struct _ _ _ I1))), seq_length, I3, E. reflexivity. }
      rewrite Hz, Nat.mul_0_r in Hl. cbn in Hl. lia.
Qed.

(** C30 *)
Lemma never_stale o factors ev special g0 g : oracle_ok o -> mk_graph ops o factors ev special = Ok g0 ->
  history g0 g ->
  forall k p ci cj, nth_error (g_paths g) k = Some p -> nth_error (g_cl g) (p_snd p) = Some ci ->
    nth_error (g_cl g) (p_rcv p) = Some cj -> make_message ops ci (cl_id cj) = Ok (p_next p).
Proof.
  intros Ho H Hh k p ci cj. destruct (mk_graph_made ops o factors ev special g0 Ho H) as (reduced & final & M).
  apply (sa_fresh _ _ _ (proj1 (history_static _ _ _ _ _ _ _ _ M Hh))).
Qed.
(** Every path has a sender and a receiver. *)
Lemma paths_end o factors ev special g0 g : oracle_ok o -> mk_graph ops o factors ev special = Ok g0 ->
  history g0 g ->
  forall k p, nth_error (g_paths g) k = Some p -> exists ci cj,
    nth_error (g_cl g) (p_snd p) = Some ci /\ nth_error (g_cl g) (p_rcv p) = Some cj.
Proof.
  intros Ho H Hh k p Hk. destruct (mk_graph_made ops o factors ev special g0 Ho H) as (reduced & final & M).
  pose proof (sa_struct _ _ _ (proj1 (history_static _ _ _ _ _ _ _ _ M Hh))) as ST.
  destruct (st_path _ _ ST k p Hk) as (s & Hs). destruct (st_edge _ _ ST _ _ _ Hs) as (H1 & H2 & _).
  destruct (nth_error (g_cl g) (p_snd p)) as [ci|] eqn:E1; [|apply nth_error_None in E1; lia].
  destruct (nth_error (g_cl g) (p_rcv p)) as [cj|] eqn:E2; [|apply nth_error_None in E2; lia]. eauto.
Qed.

(** C33 *)
Lemma bounded_passes tol max_iter g g' : process_graph ops tol max_iter g = Ok g' -> length (g_cl g) <> 1 ->
  exists ks h, length ks <= max_iter * length (g_order g) /\
    foldM (pass_path ops) ks g = Ok h /\ g_cl g' = g_cl h /\ g_paths g' = g_paths h /\
    g_passed g' = g_passed g + length ks /\ length (g_dists g') = length ks.
Proof.
  intros H Hn. apply process_graph_run in H. destruct H as [[c Ec]|(steps & R & Hl & _ & Hd & Hp)].
  { rewrite Ec in Hn. cbn in Hn. congruence. }
  destruct (run_trace ops _ steps g' R g eq_refl eq_refl) as (h & T & E1 & E2).
  exists (map snd steps), h. rewrite map_length. apply trace_foldM in T. repeat (split; [assumption|]). assumption.
Qed.
Lemma single_passes tol max_iter g g' c : process_graph ops tol max_iter g = Ok g' -> g_cl g = [c] ->
  g_passed g' = g_passed g /\ g_dists g' = [] /\ g_paths g' = g_paths g.
Proof.
  intros H Ec. unfold process_graph in H. cbn zeta in H. change (g_cl (reset_dists g)) with (g_cl g) in H.
  rewrite Ec in H. destruct (g_spec (reset_dists g)); [inversion H; auto|].
  apply bind_ok in H. destruct H as (f & _ & H). inversion H; auto.
Qed.

(** C34: the steps of process_graph, with the state before each of them. *)
Lemma greedy_run o factors ev special g0 g tol max_iter g' : oracle_ok o -> mk_graph ops o factors ev special = Ok g0 ->
  history g0 g -> process_graph ops tol max_iter g = Ok g' -> length (g_cl g) <> 1 ->
  exists steps, run ops (sort_paths (reset_dists g)) steps g' /\ length (g_dists g') = length steps /\
    (forall s k, In (s, k) steps -> comparable s -> max_gain s k) /\
    (length steps < max_iter * length (g_order g) -> comparable g' ->
       forall k, k < length (g_paths g') -> vleb (gain_of (g_paths g') k) (Fin tol) = true).
Proof.
  intros Ho H Hh Hp Hn. destruct (mk_graph_made ops o factors ev special g0 Ho H) as (reduced & final & M).
  destruct (history_static _ _ _ _ _ _ _ _ M Hh) as (S0 & _). set (sepf := graph_sep _ _ _) in *.
  apply process_graph_run in Hp. destruct Hp as [[c Ec]|(steps & R & Hl & Hst & Hd & Hpa)].
  { rewrite Ec in Hn. cbn in Hn. congruence. }
  assert (S1 : static_ok ops sepf (sort_paths (reset_dists g))).
  { apply static_sort. destruct S0 as [[H1 H2 H3 H4 H5 H6 H7] Fr G]. split; [split|..]; cbn; auto. }
  assert (HM : head_max (sort_paths (reset_dists g))).
  { intros k rest E Hc. apply (sorted_head (reset_dists g) k rest).
    - exact (st_order _ _ (sa_struct _ _ _ S0)).
    - exact Hc.
    - exact E. }
  destruct (run_greedy ops sepf _ steps g' S1 HM R) as (G1 & G2 & G3).
  exists steps. split; [exact R|]. split; [exact Hd|]. split; [exact G1|]. intros Hlt Hc k Hk.
  destruct (Hst Hlt) as (gain & k0 & rest & Ho' & -> & Hle). pose proof (G3 k0 rest Ho' Hc k Hk) as Hmax.
  assert (Hk0 : gain_of (g_paths g') k0 <> NaN).
  { apply Hc. assert (I : In k0 (seq 0 (length (g_paths g')))).
    { apply (Permutation_in _ (st_order _ _ (sa_struct _ _ _ G2))). rewrite Ho'. left; reflexivity. }
    apply in_seq in I. lia. }
  specialize (Hc k Hk). revert Hle Hmax Hk0 Hc. generalize (gain_of (g_paths g') k0) (gain_of (g_paths g') k). clear.
  intros a b. unfold vleb. destruct a as [|x| |], b as [|y| |]; cbn; auto; try congruence.
  unfold Rlt_b, Req_b. intros. destruct (Rlt_dec x y); [discriminate|]. destruct (Rlt_dec y tol); [reflexivity|].
  cbn. destruct (Req_EM_T y tol); [reflexivity|]. exfalso.
  destruct (Rlt_dec x tol); cbn in *; [lra|]. destruct (Req_EM_T x tol); [lra|discriminate].
Qed.
End Any.

(** ** Lawful factor classes *)
Section Lawful.
Context {F : Type} (ops : fops F nat) (card : string -> nat) (good : F -> Prop) (pt : F -> env -> R).
Hypothesis L : lawful ops card good pt.
Context (o : oracle) (factors : list F) (ev : option (dict string nat)) (special : dict string nat) (g0 : cgraph F nat).
Hypothesis Ho : oracle_ok o.
Hypothesis Gfac : forall f, In f factors -> good f.
Hypothesis Hmk : mk_graph ops o factors ev special = Ok g0.

Lemma history_live reduced final g : made ops o factors ev special reduced final g0 -> history ops g0 g ->
  (forall f, In f final -> good f) /\ live ops good pt o final ev special g.
Proof.
  intros M H. pose proof (proj1 (made_pt ops card good pt L o factors ev special reduced final g0 M Gfac)) as Gfin.
  split; [exact Gfin|]. induction H as [|g k g' H IH Hp|g tol n g' H IH Hc Hp].
  - exact (live_init ops good pt o final ev special Gfin factors reduced g0 M).
  - exact (live_pass ops card good pt L o final ev special Ho Gfin g k g' IH Hp).
  - destruct (process_cases ops tol n g g' Hp Hc) as [->|(steps & R & Hl)].
    + apply (live_congr ops good pt o final ev special g); auto.
    + apply (live_run ops card good pt L o final ev special Ho Gfin (sort_paths (reset_dists g)) steps g'); [|exact R].
      now apply live_sort.
Qed.

(** The edges never change. *)
Lemma history_linked g : history ops g0 g -> length (g_cl g) = length (g_cl g0) /\ forall i j, linked g i j <-> linked g0 i j.
Proof.
  intros Hh. destruct (mk_graph_made ops o factors ev special g0 Ho Hmk) as (reduced & final & M).
  destruct (history_live reduced final g M Hh) as [_ LV]. destruct (history_live reduced final g0 M (hi_init _ _)) as [_ LV0].
  pose proof (lv_inv _ _ _ _ _ _ _ _ LV) as IV. pose proof (lv_inv _ _ _ _ _ _ _ _ LV0) as IV0. split.
  - now rewrite (iv_len _ _ _ _ _ _ _ _ IV), (iv_len _ _ _ _ _ _ _ _ IV0).
  - assert (G : forall g1 g2, inv ops good pt o final ev special g1 -> inv ops good pt o final ev special g2 ->
       forall i j, linked g1 i j -> linked g2 i j).
    { intros g1 g2 I1 I2 i j (k & p & Hp & <- & <-). destruct (st_path _ _ (iv_struct _ _ _ _ _ _ _ _ I1) k p Hp) as (s & Hs).
      destruct (st_edge _ _ (iv_struct _ _ _ _ _ _ _ _ I2) _ _ _ Hs) as (_ & _ & _ & _ & _ & k' & p' & H). exists k', p'. exact H. }
    intros i j. split; apply G; assumption.
Qed.
Lemma tree_kept g : history ops g0 g -> tree_shaped g0 -> tree_shaped g.
Proof.
  intros Hh [TC TA]. destruct (history_linked g Hh) as [Hl Hk]. split.
  - intros i j Hi Hj. rewrite Hl in Hi, Hj. specialize (TC i j Hi Hj). clear Hi Hj.
    induction TC as [x y H|x|x y z _ IH1 _ IH2]; [apply rt_step; now apply Hk|apply rt_refl|eapply rt_trans; eauto].
  - intros l (C1 & C2 & C3 & C4). apply (TA l). split; [exact C1|]. split; [exact C2|]. split.
    + intros a x y H1 H2. apply Hk. eauto.
    + intros x y H1 H2. apply Hk. eauto.
Qed.

(** C29 *)
Lemma evidence_restricts : (forall e, agrees_opt ev e -> prod_at pt (map cl_fac (g_cl g0)) e = prod_at pt factors e) /\
  (forall v, (exists c, In c (g_cl g0) /\ In v (f_vars ops (cl_fac c))) <->
             (exists f, In f factors /\ In v (f_vars ops f)) /\ ~ In v (observed ev)).
Proof.
  destruct (mk_graph_made ops o factors ev special g0 Ho Hmk) as (reduced & final & M).
  destruct (made_pt ops card good pt L o factors ev special reduced final g0 M Gfac) as (_ & H2 & H3).
  pose proof (made_facs _ _ _ _ _ _ _ _ M) as E. split.
  - intros e He. rewrite E. now apply H2.
  - intros v. rewrite <- H3, <- E. split.
    + intros (c & Hc & Hv). exists (cl_fac c). split; [now apply in_map|exact Hv].
    + intros (f & Hf & Hv). apply in_map_iff in Hf. destruct Hf as (c & <- & Hc). eauto.
Qed.

(** C31 *)
Lemma potentials_kept g : history ops g0 g ->
  (forall i c0 c, nth_error (g_cl g0) i = Some c0 -> nth_error (g_cl g) i = Some c ->
     forall e, pt (cl_fac c) e =
       (pt (cl_fac c0) e *
        Rprod (map (fun p => match p_prev p with
                             | Some m => if Nat.eqb (p_rcv p) i then pt (m_fac m) e else 1
                             | None => 1 end) (g_paths g)))%R) /\
  (forall e, agrees special e ->
     let sent := Rprod (map (fun p => match p_prev p with Some m => pt (m_fac m) e | None => 1%R end) (g_paths g)) in
     (if Req_EM_T sent 0 then 0 else prod_at pt (map cl_fac (g_cl g)) e / sent)%R =
     prod_at pt (map cl_fac (g_cl g0)) e).
Proof.
  intros Hh. destruct (mk_graph_made ops o factors ev special g0 Ho Hmk) as (reduced & final & M).
  destruct (history_live reduced final g M Hh) as [Gfin LV]. pose proof (lv_inv _ _ _ _ _ _ _ _ LV) as IV.
  pose proof (made_facs _ _ _ _ _ _ _ _ M) as E. split.
  - intros i c0 c H0 Hc e. destruct (iv_cl _ _ _ _ _ _ _ _ IV i c Hc) as (f & Hf & _ & _ & P).
    assert (Ef : f = cl_fac c0).
    { assert (X : nth_error (map cl_fac (g_cl g0)) i = Some (cl_fac c0)) by now rewrite nth_error_map, H0.
      rewrite E, Hf in X. now inversion X. }
    rewrite P, Ef. f_equal. apply Rprod_ext. intros p _. unfold into, pm.
    destruct (Nat.eq_dec (p_rcv p) i) as [->|N]; [rewrite Nat.eqb_refl; reflexivity|].
    rewrite (proj2 (Nat.eqb_neq _ _) N). destruct (p_prev p); reflexivity.
  - intros e He. rewrite E. exact (joint_quotient ops good pt o final ev special g e IV He).
Qed.

(** C32 *)
Lemma joint_returned g : history ops g0 g -> factors <> [] -> all_sent g ->
  exists r, get_joint ops g = Ok r /\
    (forall v, In v (f_vars ops r) <-> (exists f, In f factors /\ In v (f_vars ops f)) /\ ~ In v (observed ev)) /\
    (forall e, agrees_opt ev e -> agrees special e -> pt r e = prod_at pt factors e).
Proof.
  intros Hh Hne Ha. destruct (mk_graph_made ops o factors ev special g0 Ho Hmk) as (reduced & final & M).
  destruct (history_live reduced final g M Hh) as [Gfin LV]. pose proof (lv_inv _ _ _ _ _ _ _ _ LV) as IV.
  destruct (made_pt ops card good pt L o factors ev special reduced final g0 M Gfac) as (_ & H2 & H3).
  assert (Hc : g_cl g <> []).
  { intros C. pose proof (iv_len _ _ _ _ _ _ _ _ IV) as El. rewrite C in El. cbn in El.
    assert (Hr : reduced = []).
    { pose proof (mk_final _ _ _ _ _ _ _ _ M) as Ef. destruct (absorb_groups ops reduced final Ef) as (groups & HP & HF).
      assert (final = []) by (destruct final; [reflexivity|discriminate]). subst final.
      inversion HF; subst groups. cbn in HP. apply Permutation_nil in HP. destruct reduced; [reflexivity|discriminate]. }
    pose proof (evidence_reduce_pt ops card good pt L ev factors reduced Gfac (mk_reduced _ _ _ _ _ _ _ _ M)) as HF.
    rewrite Hr in HF. inversion HF. congruence. }
  destruct (history_static ops _ _ _ _ _ _ _ _ M Hh) as (_ & _ & Hl & Hz).
  destruct (joint_ok ops card good pt L o final ev special Ho g IV Hc Ha) as (r & R1 & _ & R2 & R3).
  { intros C. apply Hz. rewrite C in Hl. destruct (g_paths g0); [reflexivity|discriminate]. }
  exists r. split; [exact R1|]. split; [intros v; now rewrite R2, H3|].
  intros e He Hs. rewrite (R3 e Hs). now apply H2.
Qed.
Lemma joint_missing g : history ops g0 g -> some_unsent g -> get_joint ops g = Err AttributeError.
Proof.
  intros Hh Hu. destruct (mk_graph_made ops o factors ev special g0 Ho Hmk) as (reduced & final & M).
  destruct (history_live reduced final g M Hh) as [Gfin LV].
  exact (joint_fails ops card good pt L o final ev special g (lv_inv _ _ _ _ _ _ _ _ LV) Hu).
Qed.

(** C36: no path has a changed message to send. *)
Definition nothing_to_send (g : cgraph F nat) : Prop :=
  forall k p e, nth_error (g_paths g) k = Some p -> in_card card (f_vars ops (m_fac (p_next p))) e ->
    pt (m_fac (p_next p)) e = match p_prev p with Some m => pt (m_fac m) e | None => 1%R end.
Lemma nothing_settled g : nothing_to_send g -> settled ops card pt g (fun _ _ => 1%R).
Proof.
  intros H k p Hp. split; [lra|]. intros kq q e _ _ _ He. rewrite (H k p e Hp He). unfold pm. destruct (p_prev p); ring.
Qed.
Lemma settled_marginal g c vrs res : history ops g0 g -> tree_shaped g0 -> settled ops card pt g c ->
  NoDup vrs -> (forall v, In v vrs -> ~ In v (dkeys special)) -> get_marginal ops g vrs = Ok res ->
  (forall v, In v (f_vars ops res) <-> In v vrs) /\
  exists k, (0 < k)%R /\ ((forall i j, c i j = 1%R) -> k = 1%R) /\
    forall rem e, agrees_opt ev e -> agrees special e -> NoDup rem ->
      (forall v, In v rem <-> (exists f, In f factors /\ In v (f_vars ops f)) /\
          ~ In v (observed ev) /\ ~ In v (dkeys special) /\ ~ In v vrs) ->
      (k * pt res e = sum_over card rem (prod_at pt factors) e)%R.
Proof.
  intros Hh TR ST Hn Hd H. apply (tree_kept g Hh) in TR. destruct (mk_graph_made ops o factors ev special g0 Ho Hmk) as (reduced & final & M).
  destruct (history_live reduced final g M Hh) as [Gfin LV].
  destruct (history_static ops _ _ _ _ _ _ _ _ M Hh) as (_ & Hsp & _).
  destruct (marginal_of_model ops card good pt L o factors reduced final ev special g0 Ho Gfac M g c LV TR ST vrs res Hsp Hn Hd H)
    as (V & k & K1 & K2 & K3).
  split; [exact V|]. exists k. split; [exact K1|]. split; [|exact K3]. intros Hc. apply K2. intros; apply Hc.
Qed.
Lemma exact_marginal g c vrs res : history ops g0 g -> tree_shaped g0 -> settled ops card pt g c -> (forall i j, c i j = 1%R) ->
  NoDup vrs -> (forall v, In v vrs -> ~ In v (dkeys special)) -> get_marginal ops g vrs = Ok res ->
  (forall v, In v (f_vars ops res) <-> In v vrs) /\
  forall rem e, agrees_opt ev e -> agrees special e -> NoDup rem ->
    (forall v, In v rem <-> (exists f, In f factors /\ In v (f_vars ops f)) /\
        ~ In v (observed ev) /\ ~ In v (dkeys special) /\ ~ In v vrs) ->
    pt res e = sum_over card rem (prod_at pt factors) e.
Proof.
  intros Hh TR ST Hc Hn Hd H.
  destruct (settled_marginal g c vrs res Hh TR ST Hn Hd H) as (V & k & K1 & K2 & K3).
  split; [exact V|]. intros rem e H1 H2 H3 H4. rewrite <- (K3 rem e H1 H2 H3 H4), K2; [ring|exact Hc].
Qed.

(** The query finds an answer. *)
Lemma marginal_some g vrs e0 : history ops g0 g -> has_positive pt factors ev special e0 ->
  NoDup vrs -> (forall v, In v vrs -> ~ In v (dkeys special)) ->
  (exists c, In c (g_cl g) /\ incl vrs (f_vars ops (cl_fac c))) -> exists res, get_marginal ops g vrs = Ok res.
Proof.
  intros Hh (P1 & P2 & P3) Hn Hd (c & Hc & Hi). destruct (mk_graph_made ops o factors ev special g0 Ho Hmk) as (reduced & final & M).
  destruct (history_live reduced final g M Hh) as [Gfin LV]. pose proof (lv_inv _ _ _ _ _ _ _ _ LV) as IV.
  destruct (history_static ops _ _ _ _ _ _ _ _ M Hh) as (_ & Hsp & _).
  pose proof (final_pos ops card good pt L o factors ev special reduced final g0 e0 M Gfac P1 P3) as Pf.
  unfold get_marginal.
  destruct (find (fun c => subsetb vrs (f_vars ops (cl_fac c))) (g_cl g)) as [ci|] eqn:Ef.
  2:{ exfalso. pose proof (find_none _ _ Ef c Hc) as C. cbn in C. rewrite (proj2 (subsetb_incl _ _) Hi) in C. discriminate. }
  apply find_some in Ef. destruct Ef as [Hci Hsub]. apply subsetb_incl in Hsub.
  apply In_nth_error in Hci. destruct Hci as (i & Hci).
  destruct (iv_cl _ _ _ _ _ _ _ _ IV i ci Hci) as (f & Hf & _ & (Gc & Hv) & _).
  pose proof (cluster_pos ops good pt o final ev special e0 P2 Pf g i ci IV Hci) as Pc.
  rewrite Hsp. destruct (subset_evidence special (f_vars ops (cl_fac ci))) as [evs vals] eqn:Es.
  pose proof (lw_nodup _ _ _ _ L _ Gc) as Hcn.
  destruct (subset_evidence_spec special _ evs vals Hcn Es) as (E1 & E2 & E3).
  assert (R : exists f1, (if Nat.ltb 0 (length evs) then f_reduce ops (cl_fac ci) evs vals else Ok (cl_fac ci)) = Ok f1 /\
            good f1 /\ incl vrs (f_vars ops f1)).
  { destruct (Nat.ltb 0 (length evs)).
    - destruct (lw_reduce_ok _ _ _ _ L (cl_fac ci) evs e0 Gc E1) as (f1 & R1); [intros v Hvv; now apply E2|exact Pc|].
      rewrite (subset_evidence_agrees special _ evs vals e0 Hcn Es P2) in R1. exists f1. split; [exact R1|].
      destruct (lw_reduce _ _ _ _ L (cl_fac ci) evs vals f1 Gc E1) as (R2 & R3 & _); auto; [intros v Hvv; now apply E2|].
      split; [exact R2|]. intros v Hvv. apply R3. split; [now apply Hsub|]. rewrite E2. intros [_ C]. exact (Hd v Hvv C).
    - eauto. }
  destruct R as (f1 & -> & Gf1 & Hi1). cbn [bind].
  destruct (lw_marg _ _ _ _ L f1 vrs Gf1 Hn Hi1) as (r & R & _). eauto.
Qed.

(** C56: a model with a positive assignment never makes a pass, a run or the look-up fail. *)
Lemma never_fails e0 g : has_positive pt factors ev special e0 -> history ops g0 g ->
  (forall k, k < length (g_paths g) -> exists g', pass_path ops g k = Ok g') /\
  (forall tol max_iter, NoDup (dkeys special) ->
     (forall c, g_cl g = [c] -> incl (dkeys special) (f_vars ops (cl_fac c))) ->
     exists g', process_graph ops tol max_iter g = Ok g') /\
  comparable g.
Proof.
  intros (P1 & P2 & P3) Hh. destruct (mk_graph_made ops o factors ev special g0 Ho Hmk) as (reduced & final & M).
  destruct (history_live reduced final g M Hh) as [Gfin LV].
  destruct (history_static ops _ _ _ _ _ _ _ _ M Hh) as (_ & Hsp & _).
  pose proof (final_pos ops card good pt L o factors ev special reduced final g0 e0 M Gfac P1 P3) as Pf.
  split; [|split].
  - intros k Hk. exact (pass_ok ops card good pt L o final ev special Ho Gfin e0 P2 Pf g k LV Hk).
  - intros tol n Hn Hc. exact (process_some ops card good pt L o final ev special Ho Gfin e0 P2 Pf tol n g LV Hsp Hn Hc).
  - exact (live_comparable ops card good pt L o final ev special Ho Gfin e0 P2 Pf g LV).
Qed.
(** The same for the states inside a run. *)
Lemma run_comparable e0 g steps g' : has_positive pt factors ev special e0 -> history ops g0 g ->
  run ops (sort_paths (reset_dists g)) steps g' ->
  comparable g' /\ forall s k, In (s, k) steps -> comparable s.
Proof.
  intros (P1 & P2 & P3) Hh R. destruct (mk_graph_made ops o factors ev special g0 Ho Hmk) as (reduced & final & M).
  destruct (history_live reduced final g M Hh) as [Gfin LV].
  pose proof (final_pos ops card good pt L o factors ev special reduced final g0 e0 M Gfac P1 P3) as Pf.
  destruct (live_run ops card good pt L o final ev special Ho Gfin _ steps g' (live_sort _ _ _ _ _ _ _ g LV) R) as [L1 L2].
  split; [exact (live_comparable ops card good pt L o final ev special Ho Gfin e0 P2 Pf g' L1)|].
  intros s k Hs. exact (live_comparable ops card good pt L o final ev special Ho Gfin e0 P2 Pf s (L2 s k Hs)).
Qed.
End Lawful.
