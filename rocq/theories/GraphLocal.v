(** Converged graphs of any shape: neighbouring clusters agree on their sepset, and all clusters
    that hold a variable agree on it. *)
From Verif Require Export GraphTheorems2.

Section Local.
Context {F : Type} (ops : fops F nat) (card : string -> nat) (good : F -> Prop) (pt : F -> env -> R).
Hypothesis L : lawful ops card good pt.
Context (o : oracle) (factors : list F) (ev : option (dict string nat)) (special : dict string nat) (g0 : cgraph F nat).
Hypothesis Ho : oracle_ok o.
Hypothesis Gfac : forall f, In f factors -> good f.
Hypothesis Hmk : mk_graph ops o factors ev special = Ok g0.

(** The variables of cluster [i] that are summed out to get its marginal over [keep]. *)
Definition others (f : F) (keep : list string) (rem : list string) : Prop :=
  NoDup rem /\ forall v, In v rem <-> In v (f_vars ops f) /\ ~ In v keep /\ ~ In v (dkeys special).

Section State.
Context (reduced final : list F) (g : cgraph F nat) (c : nat -> nat -> R).
Hypothesis M : made ops o factors ev special reduced final g0.
Hypothesis LV : live ops good pt o final ev special g.
Hypothesis ST : settled ops card pt g c.
Notation U := (cU ops final special).
Notation psi := (cpsi pt special g).
Notation sep := (csep ops o final ev special).
Let Nd : forall i, NoDup (U i) := cU_NoDup ops card good pt L o factors reduced final ev special g0 Gfac M.
Definition rest (i : nat) (keep : list string) : list string := filter (fun v => negb (mem v keep)) (U i).

Lemma In_rest i keep v : In v (rest i keep) <-> In v (U i) /\ ~ In v keep.
Proof. unfold rest. now rewrite filter_In, negb_true_iff, mem_nIn. Qed.
Lemma psi_ext i : ext (psi i).
Proof. intros e e' H. apply (cpsi_ext ops card good pt L o final ev special g LV i). auto. Qed.
Lemma psi_rest i keep rem : NoDup rem -> (forall v, In v rem <-> In v (U i) /\ ~ In v keep) -> forall e,
  sum_over card rem (psi i) e = sum_over card (rest i keep) (psi i) e.
Proof.
  intros Hn Hr. apply sum_over_perm; [|exact Hn|apply psi_ext].
  apply NoDup_Permutation; [exact Hn|apply NoDup_filter, Nd|]. intros v. now rewrite Hr, In_rest.
Qed.
(** Outside the value ranges the sums are zero. *)
Lemma rest_zero i keep e v : In v keep -> In v (U i) -> ~ e v < card v -> sum_over card (rest i keep) (psi i) e = 0%R.
Proof.
  intros Hk Hu He. rewrite sum_over_assign. rewrite (map_ext_in _ (fun _ => 0%R)).
  - induction (assignments (map card (rest i keep))) as [|x l IH]; [reflexivity|].
    cbn [map]. change (0 + Rsum (map (fun _ => 0%R) l) = 0)%R. rewrite IH. ring.
  - intros k _. destruct (Req_EM_T (psi i (upds e (rest i keep) k)) 0) as [Z|Z]; [exact Z|]. exfalso.
    pose proof (cpsi_range ops card good pt L o final ev special g LV i _ Z v Hu) as H.
    rewrite upds_other in H; [contradiction|]. rewrite In_rest. tauto.
Qed.
Lemma sep_step i j S : edge_with g0 i j S -> exists k, (0 < k)%R /\ ((forall i j, c i j = 1%R) -> k = 1%R) /\
  forall e, (k * sum_over card (rest i S) (psi i) e = sum_over card (rest j S) (psi j) e)%R.
Proof.
  intros HE. apply (made_edge ops o factors ev special reduced final g0 M) in HE.
  assert (Lij : linked g i j).
  { apply (E_sep ops good pt o final ev special g LV). eauto. }
  pose proof (E_sym ops good pt o final ev special g LV i j Lij) as Lji.
  assert (Sij : sep i j = S) by (unfold csep; now rewrite HE).
  assert (Sji : sep j i = S).
  { unfold csep. rewrite graph_sep_sym, HE. reflexivity. }
  assert (Cij : (0 < c i j)%R) by (destruct Lij as (k & p & Hp & <- & <-); apply (ST k p Hp)).
  assert (Cji : (0 < c j i)%R) by (destruct Lji as (k & p & Hp & <- & <-); apply (ST k p Hp)).
  exists (c j i / c i j)%R. split; [now apply Rdiv_lt_0_compat|]. split; [intros H; rewrite !H; field|].
  intros e.
  assert (D : in_card card S e \/ exists v, In v S /\ ~ e v < card v).
  { clear -e. induction S as [|v S IH]; [left; intros v []|].
    destruct (Nat.lt_ge_cases (e v) (card v)) as [H|H].
    - destruct IH as [IH|(w & H1 & H2)]; [left|right; exists w; split; [now right|exact H2]].
      intros w [<-|Hw]; auto.
    - right. exists v. split; [now left|lia]. }
  destruct D as [D|(v & Hv & Hn)].
  - pose proof (calibrated ops card good pt L o factors reduced final ev special g0 Ho Gfac M g c LV ST i j e Lij) as H1.
    pose proof (calibrated ops card good pt L o factors reduced final ev special g0 Ho Gfac M g c LV ST j i e Lji) as H2.
    rewrite Sij in H1. rewrite Sji in H2. specialize (H1 D). specialize (H2 D). unfold rest. rewrite H1, H2, (csg_sym pt g j i). field. lra.
  - pose proof (csep_incl ops good pt o final ev special Ho g LV i j v Lij) as H. rewrite Sij in H. destruct (H Hv) as [Hi Hj].
    rewrite (rest_zero i S e v Hv Hi Hn), (rest_zero j S e v Hv Hj Hn). ring.
Qed.
(** Fewer variables: any part of the sepset. *)
Lemma part_step i j S : edge_with g0 i j S -> exists k, (0 < k)%R /\ ((forall i j, c i j = 1%R) -> k = 1%R) /\
  forall keep, incl keep S -> forall e, (k * sum_over card (rest i keep) (psi i) e = sum_over card (rest j keep) (psi j) e)%R.
Proof.
  intros HE. destruct (sep_step i j S HE) as (k & K1 & K2 & K3). exists k. split; [exact K1|]. split; [exact K2|]. intros keep Hk e.
  destruct (made_sepset ops o factors ev special reduced final g0 Ho M i j S HE) as (_ & _ & NS & _).
  apply (made_edge ops o factors ev special reduced final g0 M) in HE.
  assert (Lij : linked g i j) by (apply (E_sep ops good pt o final ev special g LV); eauto).
  assert (Sij : sep i j = S) by (unfold csep; now rewrite HE).
  pose proof (fun v => csep_incl ops good pt o final ev special Ho g LV i j v Lij) as HS. rewrite Sij in HS.
  set (mid := filter (fun v => negb (mem v keep)) S).
  assert (Hmid : forall v, In v mid <-> In v S /\ ~ In v keep) by (intros v; unfold mid; now rewrite filter_In, negb_true_iff, mem_nIn).
  assert (Split : forall x, (forall v, In v S -> In v (U x)) -> forall e,
    sum_over card (rest x keep) (psi x) e = sum_over card mid (sum_over card (rest x S) (psi x)) e).
  { intros x Hx e1. rewrite <- sum_over_app. symmetry. apply psi_rest.
    - apply NoDup_app_intro; [now apply NoDup_filter|apply NoDup_filter, Nd|]. intros v A B. apply Hmid in A. apply In_rest in B. tauto.
    - intros v. rewrite in_app_iff, Hmid, In_rest. split.
      + intros [[A B]|[A B]]; [split; [now apply Hx|exact B]|]. split; [exact A|]. intros C. apply B. now apply Hk.
      + intros [A B]. destruct (in_dec string_dec v S); tauto. }
  rewrite (Split i), (Split j) by (intros v Hv; now apply HS). rewrite <- sum_over_scal. apply sum_over_ext_g. exact K3.
Qed.
Lemma var_step v i j : edge_var g0 v i j -> exists k, (0 < k)%R /\ ((forall i j, c i j = 1%R) -> k = 1%R) /\
  forall e, (k * sum_over card (rest i [v]) (psi i) e = sum_over card (rest j [v]) (psi j) e)%R.
Proof.
  intros (S & HE & Hv). destruct (part_step i j S HE) as (k & K1 & K2 & K3). exists k. split; [exact K1|]. split; [exact K2|].
  apply K3. intros w [<-|[]]. exact Hv.
Qed.
Lemma var_all v i j : In v (U i) -> In v (U j) -> exists k, (0 < k)%R /\ ((forall i j, c i j = 1%R) -> k = 1%R) /\
  forall e, (k * sum_over card (rest i [v]) (psi i) e = sum_over card (rest j [v]) (psi j) e)%R.
Proof.
  intros Hi Hj. pose proof (cU_unobserved ops card good pt L o factors reduced final ev special g0 Gfac M g i v Hi) as Ho'.
  assert (Sc : forall x, In v (U x) -> in_scope ops g0 v x).
  { intros x Hx. destruct (cU_final ops final special x v Hx) as (f & Hf). apply (In_cU ops final special g x f v Hf) in Hx.
    apply (made_sc ops o factors ev special reduced final g0 M). rewrite (sc_final ops final x f Hf). tauto. }
  pose proof (var_connected ops o factors ev special reduced final g0 Ho M v i j Ho' (Sc i Hi) (Sc j Hj)) as H.
  clear Hi Hj Sc. induction H as [a b H|a|a b d _ (k1 & A1 & A2 & A3) _ (k2 & B1 & B2 & B3)].
  - now apply var_step.
  - exists 1%R. split; [lra|]. split; [reflexivity|]. intros e. ring.
  - exists (k2 * k1)%R. split; [now apply Rmult_lt_0_compat|]. split; [intros Hc; rewrite (A2 Hc), (B2 Hc); ring|].
    intros e. now rewrite Rmult_assoc, A3, B3.
Qed.
(** The answer of get_marginal is the marginal of some cluster. *)
Lemma answer vrs res : g_spec g = special -> NoDup vrs -> (forall v, In v vrs -> ~ In v (dkeys special)) ->
  get_marginal ops g vrs = Ok res ->
  (forall v, In v (f_vars ops res) <-> In v vrs) /\
  exists i, (forall v, In v vrs -> In v (U i)) /\ forall e, pt res e = sum_over card (rest i vrs) (psi i) e.
Proof.
  intros Hsp Hnv Hdis H. unfold get_marginal in H.
  destruct (find (fun c => subsetb vrs (f_vars ops (cl_fac c))) (g_cl g)) as [ci|] eqn:Ef; [|discriminate].
  apply find_some in Ef. destruct Ef as [Hci Hsub]. apply subsetb_incl in Hsub.
  apply In_nth_error in Hci. destruct Hci as (i & Hi).
  destruct (cluster_at ops good pt o final ev special g LV i ci Hi) as (f & Hf & Gc & Hfv & _).
  rewrite Hsp in H. destruct (subset_evidence special (f_vars ops (cl_fac ci))) as [evs vals] eqn:Es.
  pose proof (lw_nodup _ _ _ _ L _ Gc) as Hcn.
  destruct (subset_evidence_spec special _ evs vals Hcn Es) as (E1 & E2 & E3).
  pose proof (fun v => In_cU ops final special g i f v Hf) as HU.
  apply bind_ok in H. destruct H as (f1 & H1 & H).
  assert (HF1 : good f1 /\ (forall v, In v (f_vars ops f1) <-> In v (U i)) /\ forall e, pt f1 e = psi i e).
  { assert (R : good f1 /\ (forall v, In v (f_vars ops f1) <-> In v (f_vars ops (cl_fac ci)) /\ ~ In v evs) /\
       (forall e, map e evs = vals -> pt f1 e = pt (cl_fac ci) e)).
    { destruct (Nat.ltb 0 (length evs)) eqn:El.
      - apply (lw_reduce _ _ _ _ L _ evs vals f1 Gc E1); [intros v Hv; now apply E2|exact E3|exact H1].
      - inversion H1; subst f1. split; [exact Gc|]. split; [|reflexivity].
        assert (evs = []) by (destruct evs; [reflexivity|discriminate]). subst evs. cbn. tauto. }
    destruct R as (R1 & R2 & R3). split; [exact R1|].
    assert (R4 : forall v, In v (f_vars ops f1) <-> In v (U i)).
    { intros v. rewrite R2, E2, HU, <- Hfv. destruct (in_dec string_dec v (dkeys special)); tauto. }
    split; [exact R4|]. intros e. unfold cpsi. rewrite Hi.
    rewrite <- (R3 (over special e)) by (apply (subset_evidence_agrees special _ evs vals _ Hcn Es), over_agrees).
    apply (lw_ext _ _ _ _ L); [exact R1|]. intros v Hv. apply R4 in Hv. rewrite over_other; [reflexivity|]. now apply HU. }
  destruct HF1 as (G1 & V1 & P1).
  assert (HinU : forall v, In v vrs -> In v (U i)).
  { intros v Hv. apply HU. split; [now apply Hfv, Hsub|now apply Hdis]. }
  assert (Hin1 : incl vrs (f_vars ops f1)) by (intros v Hv; apply V1; auto).
  destruct (lw_marg _ _ _ _ L f1 vrs G1 Hnv Hin1) as (r' & M1 & M2 & M3 & M4). rewrite M1 in H. inversion H; subst r'.
  split; [exact M3|]. exists i. split; [exact HinU|]. intros e.
  rewrite (M4 (rest i vrs) e); [|apply NoDup_filter, Nd|intros v; rewrite In_rest, V1; tauto].
  apply sum_over_ext_g. exact P1.
Qed.
(** The sums in terms of the cluster factors. *)
Lemma cluster_sum i ci keep rem e : nth_error (g_cl g) i = Some ci -> others (cl_fac ci) keep rem -> agrees special e ->
  sum_over card rem (pt (cl_fac ci)) e = sum_over card (rest i keep) (psi i) e.
Proof.
  intros Hi [Hn Hr] He. destruct (cluster_at ops good pt o final ev special g LV i ci Hi) as (f & Hf & Gc & Hfv & _).
  rewrite <- (psi_rest i keep rem Hn).
  - rewrite !sum_over_assign. f_equal. apply map_ext_in. intros ks _. unfold cpsi. rewrite Hi.
    apply (lw_ext _ _ _ _ L); [exact Gc|]. intros v _. symmetry. apply over_id.
    intros w x Hx. rewrite upds_other; [now apply He|]. intros C. apply Hr in C. destruct C as (_ & _ & C). apply C.
    eapply dget_Some_key; eauto.
  - intros v. rewrite Hr, (In_cU ops final special g i f v Hf), Hfv. tauto.
Qed.
End State.

(** ** The statements *)
Lemma edge_agrees g c i j S ci cj : history ops g0 g -> settled ops card pt g c -> edge_with g0 i j S ->
  nth_error (g_cl g) i = Some ci -> nth_error (g_cl g) j = Some cj ->
  exists k, (0 < k)%R /\ ((forall i j, c i j = 1%R) -> k = 1%R) /\
    forall keep ri rj e, incl keep S -> others (cl_fac ci) keep ri -> others (cl_fac cj) keep rj -> agrees special e ->
      (k * sum_over card ri (pt (cl_fac ci)) e = sum_over card rj (pt (cl_fac cj)) e)%R.
Proof.
  intros Hh ST HE Hi Hj. destruct (mk_graph_made ops o factors ev special g0 Ho Hmk) as (reduced & final & M).
  destruct (history_live ops card good pt L o factors ev special g0 Ho Gfac reduced final g M Hh) as [_ LV].
  destruct (part_step reduced final g c M LV ST i j S HE) as (k & K1 & K2 & K3). exists k. split; [exact K1|]. split; [exact K2|].
  intros keep ri rj e Hk Hri Hrj He.
  rewrite (cluster_sum reduced final g M LV i ci keep ri e Hi Hri He), (cluster_sum reduced final g M LV j cj keep rj e Hj Hrj He). now apply K3.
Qed.
Lemma holders_agree g c v i j ci cj : history ops g0 g -> settled ops card pt g c ->
  nth_error (g_cl g) i = Some ci -> nth_error (g_cl g) j = Some cj ->
  In v (f_vars ops (cl_fac ci)) -> In v (f_vars ops (cl_fac cj)) -> ~ In v (dkeys special) ->
  exists k, (0 < k)%R /\ ((forall i j, c i j = 1%R) -> k = 1%R) /\
    forall ri rj e, others (cl_fac ci) [v] ri -> others (cl_fac cj) [v] rj -> agrees special e ->
      (k * sum_over card ri (pt (cl_fac ci)) e = sum_over card rj (pt (cl_fac cj)) e)%R.
Proof.
  intros Hh ST Hi Hj Vi Vj Hs. destruct (mk_graph_made ops o factors ev special g0 Ho Hmk) as (reduced & final & M).
  destruct (history_live ops card good pt L o factors ev special g0 Ho Gfac reduced final g M Hh) as [_ LV].
  destruct (cluster_at ops good pt o final ev special g LV i ci Hi) as (fi & Hfi & _ & Wi & _).
  destruct (cluster_at ops good pt o final ev special g LV j cj Hj) as (fj & Hfj & _ & Wj & _).
  destruct (var_all reduced final g c M LV ST v i j) as (k & K1 & K2 & K3).
  { apply (In_cU ops final special g i fi v Hfi). split; [now apply Wi|exact Hs]. }
  { apply (In_cU ops final special g j fj v Hfj). split; [now apply Wj|exact Hs]. }
  exists k. split; [exact K1|]. split; [exact K2|]. intros ri rj e Hri Hrj He.
  rewrite (cluster_sum reduced final g M LV i ci [v] ri e Hi Hri He), (cluster_sum reduced final g M LV j cj [v] rj e Hj Hrj He). apply K3.
Qed.
(** The answer about one variable is the marginal of every cluster that holds it. *)
Lemma any_cluster g c v res ci : history ops g0 g -> settled ops card pt g c -> In ci (g_cl g) ->
  In v (f_vars ops (cl_fac ci)) -> ~ In v (dkeys special) -> get_marginal ops g [v] = Ok res ->
  exists k, (0 < k)%R /\ ((forall i j, c i j = 1%R) -> k = 1%R) /\
    forall ri e, others (cl_fac ci) [v] ri -> agrees special e -> (k * pt res e = sum_over card ri (pt (cl_fac ci)) e)%R.
Proof.
  intros Hh ST Hin Vi Hs Hg. destruct (mk_graph_made ops o factors ev special g0 Ho Hmk) as (reduced & final & M).
  destruct (history_live ops card good pt L o factors ev special g0 Ho Gfac reduced final g M Hh) as [_ LV].
  destruct (history_static ops _ _ _ _ _ _ _ _ M Hh) as (_ & Hsp & _).
  apply In_nth_error in Hin. destruct Hin as (i & Hi).
  destruct (cluster_at ops good pt o final ev special g LV i ci Hi) as (fi & Hfi & _ & Wi & _).
  destruct (answer reduced final g M LV [v] res Hsp) as (_ & j & Hj & Ha); [|intros w [<-|[]]; exact Hs|exact Hg|].
  { constructor; [intros []|constructor]. }
  destruct (var_all reduced final g c M LV ST v j i) as (k & K1 & K2 & K3).
  { apply Hj. left; reflexivity. }
  { apply (In_cU ops final special g i fi v Hfi). split; [now apply Wi|exact Hs]. }
  exists k. split; [exact K1|]. split; [exact K2|]. intros ri e Hri He.
  rewrite (cluster_sum reduced final g M LV i ci [v] ri e Hi Hri He), Ha. apply K3.
Qed.
(** A run that stopped early with tolerance zero. *)
Lemma stopped_settled e0 g tol max_iter g' : has_positive pt factors ev special e0 -> history ops g0 g ->
  length (g_cl g) <> 1 -> (tol <= 0)%R -> process_graph ops tol max_iter g = Ok g' ->
  length (g_dists g') < max_iter * length (g_order g) -> history ops g0 g' /\ exists c, settled ops card pt g' c.
Proof.
  intros Hp Hh H1 Ht Hpr Hlt.
  destruct (greedy_run ops o factors ev special g0 g tol max_iter g' Ho Hmk Hh Hpr H1) as (steps & R & Hlen & _ & Hstop).
  destruct (run_comparable ops card good pt L o factors ev special g0 Ho Gfac Hmk e0 g steps g' Hp Hh R) as [Hc _].
  assert (Hh' : history ops g0 g') by (eapply hi_process; eauto). split; [exact Hh'|].
  apply (converged_settled ops card good pt L o factors ev special g0 Ho Gfac Hmk e0 g' tol Hp Hh' Ht).
  rewrite Hlen in Hlt. exact (Hstop Hlt Hc).
Qed.
End Local.
