(** Two sweeps over a tree, towards a root and back, settle every edge (C58). *)
From Verif Require Export GraphSched.

Section Sweep.
Context {F : Type} (ops : fops F nat) (card : string -> nat) (good : F -> Prop) (pt : F -> env -> R).
Hypothesis L : lawful ops card good pt.
Context (o : oracle) (final : list F) (ev : option (dict string nat)) (special : dict string nat).
Hypothesis Ho : oracle_ok o.
Hypothesis Gfin : forall f, In f final -> good f.
Notation Live := (live ops good pt o final ev special).
Notation Inv := (inv ops good pt o final ev special).
Let sepf := graph_sep o (map (f_vars ops) final) (all_evidence ev special).

(** The edge is settled from its sending side. *)
Definition done (g : cgraph F nat) (k : nat) : Prop :=
  forall p, nth_error (g_paths g) k = Some p ->
  forall kq q e, nth_error (g_paths g) kq = Some q -> p_snd q = p_rcv p -> p_rcv q = p_snd p ->
    (pt (m_fac (p_next p)) e * pm pt q e = pm pt p e * pm pt q e)%R.

Section Pass.
Context (g g' : cgraph F nat) (k : nat) (p : path F).
Hypothesis LV : Live g.
Hypothesis Hp : nth_error (g_paths g) k = Some p.
Hypothesis Hpass : pass_path ops g k = Ok g'.
Let IV : Inv g := lv_inv _ _ _ _ _ _ _ _ LV.
Let SA : static_ok ops sepf g := lv_static _ _ _ _ _ _ _ _ LV.
Let ST : struct_ok sepf g := sa_struct _ _ _ SA.

Lemma passed_view : exists cr cr', passed ops g k g' p cr cr' /\ (forall q, In q (cl_out cr) <-> exists p', nth_error (g_paths g) q = Some p' /\ p_snd p' = p_rcv p).
Proof.
  destruct (pass_path_passed ops g k g' (struct_out sepf g ST) Hpass) as (p2 & cr & cr' & P).
  pose proof (pa_path _ _ _ _ _ _ _ P) as H. rewrite Hp in H. inversion H; subst p2. exists cr, cr'. split; [exact P|].
  apply (st_out _ _ ST _ cr (pa_cr _ _ _ _ _ _ _ P)).
Qed.
Lemma ends_differ k1 p1 : nth_error (g_paths g) k1 = Some p1 -> p_snd p1 <> p_rcv p1.
Proof. intros H. destruct (st_path _ _ ST k1 p1 H) as (s & Hs). apply (st_edge _ _ ST _ _ _ Hs). Qed.

(** Paths that do not start at the receiver. *)
Lemma pass_other k1 p1 p1' : nth_error (g_paths g) k1 = Some p1 -> nth_error (g_paths g') k1 = Some p1' ->
  p_snd p1 <> p_rcv p -> p_snd p1' = p_snd p1 /\ p_rcv p1' = p_rcv p1 /\ p_next p1' = p_next p1 /\
    p_prev p1' = if Nat.eq_dec k1 k then Some (p_next p) else p_prev p1.
Proof.
  intros H H' Hs. destruct passed_view as (cr & cr' & P & Ho').
  destruct (pa_paths _ _ _ _ _ _ _ P k1 p1' H') as (p0 & H0 & E1 & E2 & E3 & _ & E5). rewrite H in H0. inversion H0; subst p0.
  repeat (split; [assumption|]). split; [|exact E3]. apply E5. rewrite Ho'. intros (p2 & Hp2 & C). rewrite H in Hp2. inversion Hp2; subst. contradiction.
Qed.
Lemma pass_same k1 p1' : nth_error (g_paths g') k1 = Some p1' -> exists p1, nth_error (g_paths g) k1 = Some p1 /\
  p_snd p1' = p_snd p1 /\ p_rcv p1' = p_rcv p1 /\ p_prev p1' = if Nat.eq_dec k1 k then Some (p_next p) else p_prev p1.
Proof.
  intros H'. destruct passed_view as (cr & cr' & P & _).
  destruct (pa_paths _ _ _ _ _ _ _ P k1 p1' H') as (p0 & H0 & E1 & E2 & E3 & _). eauto 6.
Qed.

Lemma done_self : done g' k.
Proof.
  intros p' Hp' kq q e Hq _ _. destruct (pass_other k p p' Hp Hp' (ends_differ k p Hp)) as (_ & _ & E3 & E4).
  unfold pm at 2. rewrite E4, E3. destruct (Nat.eq_dec k k); [reflexivity|congruence].
Qed.
Lemma done_other k1 p1 : nth_error (g_paths g) k1 = Some p1 -> p_snd p1 <> p_rcv p -> done g k1 -> done g' k1.
Proof.
  intros H1 Hs D. destruct (Nat.eq_dec k1 k) as [->|N]; [exact done_self|].
  intros p1' H1' kq q' e Hq Q1 Q2. destruct (pass_other k1 p1 p1' H1 H1' Hs) as (E1 & E2 & E3 & E4).
  destruct (pass_same kq q' Hq) as (q & Hq0 & F1 & F2 & F3). destruct (Nat.eq_dec k1 k); [contradiction|].
  assert (Nq : kq <> k). { intros ->. rewrite Hp in Hq0. inversion Hq0; subst q. apply Hs. congruence. }
  destruct (Nat.eq_dec kq k); [contradiction|].
  assert (Eq : pm pt q' e = pm pt q e) by (unfold pm; now rewrite F3).
  assert (Ep : pm pt p1' e = pm pt p1 e) by (unfold pm; now rewrite E4).
  rewrite Eq, Ep, E3. apply (D p1 H1 kq q e Hq0); congruence.
Qed.

(** The opposite path. *)
Lemma reverse_facts k1 p1 p1' : nth_error (g_paths g) k1 = Some p1 -> p_snd p1 = p_rcv p -> p_rcv p1 = p_snd p ->
  nth_error (g_paths g') k1 = Some p1' ->
  p_prev p1' = p_prev p1 /\ (forall q', nth_error (g_paths g') k = Some q' -> p_prev q' = Some (p_next p)) /\
  forall e, exists B B', (pt (m_fac (p_next p1)) e * pm pt p e = B /\ (pt (m_fac (p_next p1)) e = 0 <-> B = 0) /\
    pt (m_fac (p_next p1')) e * pt (m_fac (p_next p)) e = B' /\ (pt (m_fac (p_next p1')) e = 0 <-> B' = 0) /\
    B' * pm pt p e = B * pt (m_fac (p_next p)) e /\ (pm pt p e = 0 -> pt (m_fac (p_next p)) e = 0))%R.
Proof.
  intros H1 S1 R1 H1'.
  pose proof (live_pass ops card good pt L o final ev special Ho Gfin g k g' LV Hpass) as LV'.
  pose proof (lv_inv _ _ _ _ _ _ _ _ LV') as IV'. pose proof (lv_static _ _ _ _ _ _ _ _ LV') as SA'.
  destruct (pass_same k1 p1' H1') as (p1x & H1x & E1 & E2 & E3). rewrite H1 in H1x. inversion H1x; subst p1x. clear H1x.
  pose proof (ends_differ k p Hp) as Hd.
  assert (N1 : k1 <> k). { intros ->. rewrite Hp in H1. inversion H1; subst p1. congruence. }
  destruct (Nat.eq_dec k1 k); [contradiction|].
  destruct (nth_error (g_paths g') k) as [q'|] eqn:Hq.
  2:{ exfalso. apply nth_error_None in Hq. destruct passed_view as (cr & cr' & P & _). rewrite (pa_plen _ _ _ _ _ _ _ P) in Hq.
      apply nth_error_None in Hq. congruence. }
  destruct (pass_same k q' Hq) as (q & Hq0 & F1 & F2 & F3).
  rewrite Hp in Hq0. inversion Hq0; subst q. clear Hq0. destruct (Nat.eq_dec k k) as [_|]; [|congruence].
  split; [exact E3|]. split; [intros qq Hqq; inversion Hqq; subst qq; exact F3|]. intros e.
  (* messages before *)
  destruct (next_ok ops card good pt L o final ev special Ho Gfin g k p IV (sa_fresh _ _ _ SA) Hp)
    as (s & ci & cj & q1 & k1' & HS & Hi & Hj & Hq1 & G1 & G2 & MO).
  assert (k1' = k1). { apply (st_pair _ _ ST k1' k1 q1 p1 Hq1 H1); congruence. } subst k1'.
  rewrite H1 in Hq1. inversion Hq1; subst q1. clear Hq1 G1 G2.
  destruct (next_ok ops card good pt L o final ev special Ho Gfin g k1 p1 IV (sa_fresh _ _ _ SA) H1)
    as (s1 & cj1 & ci1 & q1 & kq & HS1 & Hj1 & Hi1 & Hq1 & G1 & G2 & MO1).
  assert (kq = k). { apply (st_pair _ _ ST kq k q1 p Hq1 Hp); congruence. } subst kq.
  rewrite Hp in Hq1. inversion Hq1; subst q1. clear Hq1 G1 G2.
  rewrite S1, Hj in Hj1. inversion Hj1; subst cj1. rewrite R1, Hi in Hi1. inversion Hi1; subst ci1. clear Hj1 Hi1.
  rewrite S1, R1, graph_sep_sym, HS in HS1. inversion HS1; subst s1. clear HS1.
  (* and after *)
  destruct (next_ok ops card good pt L o final ev special Ho Gfin g' k1 p1' IV' (sa_fresh _ _ _ SA') H1')
    as (s1 & cj1 & ci1 & q1 & kq & HS1 & Hj1 & Hi1 & Hq1 & G1 & G2 & MO1').
  assert (kq = k). { apply (st_pair _ _ (sa_struct _ _ _ SA') kq k q1 q' Hq1 Hq); congruence. } subst kq.
  rewrite Hq in Hq1. inversion Hq1; subst q1. clear Hq1 G1 G2.
  rewrite E1, E2, S1, R1, graph_sep_sym, HS in HS1. inversion HS1; subst s1. clear HS1.
  destruct (receive_ok ops card good pt L o final ev special Ho Gfin g k p IV (sa_fresh _ _ _ SA) Hp)
    as (cj2 & cj' & Hj2 & Hr & Gj' & Vj' & Pj'). rewrite Hj in Hj2. inversion Hj2; subst cj2. clear Hj2.
  destruct passed_view as (cr & cr' & P & _).
  pose proof (pa_cr _ _ _ _ _ _ _ P) as Hcr. rewrite Hj in Hcr. inversion Hcr; subst cr. clear Hcr.
  pose proof (pa_recv _ _ _ _ _ _ _ P) as Hr2. rewrite Hr in Hr2. inversion Hr2; subst cr'. clear Hr2.
  rewrite E1, S1, (pa_cl _ _ _ _ _ _ _ P) in Hj1. destruct (Nat.eq_dec (p_rcv p) (p_rcv p)) as [_|]; [|congruence].
  inversion Hj1; subst cj1. clear Hj1.
  destruct (iv_cl _ _ _ _ _ _ _ _ IV _ cj Hj) as (fj & Hfj & _ & (Gj & Vj) & Pj).
  destruct (iv_cl _ _ _ _ _ _ _ _ IV _ ci Hi) as (fi & Hfi & _ & (Gi & Vi) & Pi).
  assert (Sfree : forall v, In v s -> ~ In v (dkeys special)) by (intros v Hv; apply (sepf_In ops o final ev special Ho _ _ s v HS Hv)).
  assert (Xm : forall m, fac_ok ops good s (m_fac m) -> forall ea eb, (forall v, In v s -> ea v = eb v) -> pt (m_fac m) ea = pt (m_fac m) eb).
  { intros m (Gm & Vm) ea eb He. apply (lw_ext _ _ _ _ L); [exact Gm|]. intros v Hv. apply He. now apply Vm. }
  pose proof (Xm _ (mo_fac _ _ _ _ _ _ _ _ _ _ MO)) as Xn.
  assert (Xp : forall ea eb, (forall v, In v s -> ea v = eb v) -> pm pt p ea = pm pt p eb).
  { intros ea eb He. unfold pm. destruct (p_prev p) as [m0|] eqn:Em; [|reflexivity].
    apply (Xm m0); [|exact He]. exact (prev_fac ops good pt o final ev special g k p m0 s IV Hp Em HS). }
  assert (Xo : forall ea v, In v s -> ea v = over special ea v) by (intros ea v Hv; rewrite over_other; auto).
  (* the receiver's table is scaled by new/old *)
  assert (Pw : forall ea, (pt (cl_fac cj') ea * pm pt p ea = pt (cl_fac cj) ea * pt (m_fac (p_next p)) ea)%R).
  { intros ea. rewrite Pj'. pose proof (Pj ea) as Pe. unfold pm. destruct (p_prev p) as [m0|] eqn:Em; [|ring].
    destruct (Req_EM_T (pt (m_fac m0) ea) 0) as [Z|Z]; [|now field].
    rewrite Pe, (Rprod_zero _ (into pt (p_rcv p) p ea)); [ring| |].
    - apply in_map_iff. exists p. split; [reflexivity|]. eapply nth_error_In; eauto.
    - unfold into, pm. rewrite Em. destruct (Nat.eq_dec (p_rcv p) (p_rcv p)); [exact Z|congruence]. }
  assert (Bw : (belief ops card pt special cj' s e * pm pt p e = belief ops card pt special cj s e * pt (m_fac (p_next p)) e)%R).
  { unfold belief. rewrite (sum_over_perm card (summed ops special cj' s) (summed ops special cj s)).
    - rewrite (Rmult_comm (sum_over _ _ _ _)), <- (sum_over_const_factor card _ s (pm pt p)); [|exact Xp|intros v Hv; now apply In_summed in Hv].
      rewrite (Rmult_comm (sum_over _ _ _ _)), <- (sum_over_const_factor card _ s (pt (m_fac (p_next p)))); [|exact Xn|intros v Hv; now apply In_summed in Hv].
      apply sum_over_ext_g. intros ea. specialize (Pw (over special ea)).
      rewrite <- (Xp ea (over special ea) (Xo ea)), <- (Xn ea (over special ea) (Xo ea)) in Pw. lra.
    - apply NoDup_Permutation; [apply NoDup_filter, (lw_nodup _ _ _ _ L), Gj'|apply NoDup_filter, (lw_nodup _ _ _ _ L), Gj|].
      intros v. rewrite !In_summed, Vj'. reflexivity.
    - apply NoDup_filter, (lw_nodup _ _ _ _ L), Gj'.
    - intros ea eb He. apply (lw_ext _ _ _ _ L); [exact Gj'|]. intros v _. unfold over. now rewrite He. }
  assert (Eq : pm pt q' e = pt (m_fac (p_next p)) e) by (unfold pm; now rewrite F3).
  exists (belief ops card pt special cj s e), (belief ops card pt special cj' s e).
  split; [exact (mo_mul _ _ _ _ _ _ _ _ _ _ MO1 e)|]. split; [exact (mo_zero _ _ _ _ _ _ _ _ _ _ MO1 e)|].
  split; [rewrite <- Eq; exact (mo_mul _ _ _ _ _ _ _ _ _ _ MO1' e)|]. split; [exact (mo_zero _ _ _ _ _ _ _ _ _ _ MO1' e)|].
  split; [exact Bw|]. intros Z.
  apply (mo_zero _ _ _ _ _ _ _ _ _ _ MO). apply (belief_zero ops card good pt L o final ev special g (p_snd p) ci s fi IV Hi Hfi).
  revert Z. unfold pm. destruct (p_prev p) as [m0|] eqn:Em; [|lra]. intros Z.
  exact (iv_supp _ _ _ _ _ _ _ _ IV k p m0 ci s Hp Em Hi HS e Z).
Qed.
Lemma done_reverse k1 p1 : nth_error (g_paths g) k1 = Some p1 -> p_snd p1 = p_rcv p -> p_rcv p1 = p_snd p ->
  done g k1 -> done g' k1.
Proof.
  intros H1 S1 R1 D p1' H1' kq q' e Hq Q1 Q2.
  destruct (reverse_facts k1 p1 p1' H1 S1 R1 H1') as (E3 & F3 & Hb). destruct (Hb e) as (B & B' & B0 & _ & B1 & _ & Bw & Bz).
  destruct (pass_same k1 p1' H1') as (p1x & H1x & E1 & E2 & _). rewrite H1 in H1x. inversion H1x; subst p1x. clear H1x.
  destruct (pass_same kq q' Hq) as (q & Hq0 & F1 & F2 & _).
  assert (kq = k). { apply (st_pair _ _ ST kq k q p Hq0 Hp); congruence. } subst kq.
  pose proof (D p1 H1 k p e Hp (eq_sym R1) (eq_sym S1)) as De.
  assert (Eq : pm pt q' e = pt (m_fac (p_next p)) e) by (unfold pm; now rewrite (F3 q' Hq)).
  assert (Ep : pm pt p1' e = pm pt p1 e) by (unfold pm; now rewrite E3).
  rewrite Ep, Eq, B1. destruct (Req_EM_T (pm pt p e) 0) as [Z|Z].
  - rewrite <- B1, (Bz Z). ring.
  - apply (Rmult_eq_reg_r (pm pt p e)); [|exact Z]. rewrite Bw, <- B0, De. ring.
Qed.
End Pass.

Lemma live_ends g k g' : Live g -> pass_path ops g k = Ok g' -> forall k1 e, ends g' k1 e <-> ends g k1 e.
Proof.
  intros LV. apply (ends_kept ops Live sepf); [|exact LV]. intros g1 LV1. exact (sa_struct _ _ _ (lv_static _ _ _ _ _ _ _ _ LV1)).
Qed.
Lemma sweeps_settle g ks g' : Live g -> two_sweeps g ks -> foldM (pass_path ops) ks g = Ok g' ->
  settled ops card pt g' (fun _ _ => 1%R).
Proof.
  intros LV TS H k p Hp. split; [lra|]. intros kq q e Hq Q1 Q2 _. rewrite Rmult_1_l.
  assert (Hd : done g' k).
  { apply (sweeps_done ops Live done sepf) with (g := g) (ks := ks) (p := p); auto.
    - intros g1 LV1. exact (sa_struct _ _ _ (lv_static _ _ _ _ _ _ _ _ LV1)).
    - apply graph_sep_sym.
    - intros. eapply live_pass; eauto.
    - intros g1 g2 k1 p1 LV1 H1 H2. exact (done_self g1 g2 k1 p1 LV1 H1 H2).
    - intros g1 g2 k1 p1 k2 p2 LV1 H1 H2. exact (done_other g1 g2 k1 p1 LV1 H1 H2 k2 p2).
    - intros g1 g2 k1 p1 k2 p2 LV1 H1 H2. exact (done_reverse g1 g2 k1 p1 LV1 H1 H2 k2 p2). }
  exact (Hd p Hp kq q e Hq Q1 Q2).
Qed.
(** Such a schedule exists for every tree and every root, and has 2(n-1) passes. *)
Lemma sweeps_exist g r : Live g -> tree_shaped g -> r < length (g_cl g) ->
  exists ks, two_sweeps g ks /\ length ks = 2 * (length (g_cl g) - 1) /\ forall k, In k ks -> k < length (g_paths g).
Proof.
  intros LV. apply (schedule_exists Live sepf) with (g := g); auto.
  - intros g1 LV1. exact (sa_struct _ _ _ (lv_static _ _ _ _ _ _ _ _ LV1)).
  - apply graph_sep_sym.
Qed.
End Sweep.

Section SweepTheorem.
Context {F : Type} (ops : fops F nat) (card : string -> nat) (good : F -> Prop) (pt : F -> env -> R).
Hypothesis L : lawful ops card good pt.
Context (o : oracle) (factors : list F) (ev : option (dict string nat)) (special : dict string nat) (g0 : cgraph F nat).
Hypothesis Ho : oracle_ok o.
Hypothesis Gfac : forall f, In f factors -> good f.
Hypothesis Hmk : mk_graph ops o factors ev special = Ok g0.

Lemma history_passes ks : forall g g', history ops g0 g -> foldM (pass_path ops) ks g = Ok g' -> history ops g0 g'.
Proof.
  induction ks as [|k ks IH]; intros g g' Hh H; cbn [foldM] in H; [inversion H; subst; exact Hh|].
  apply bind_ok in H. destruct H as (g1 & H1 & H). eapply IH; [|exact H]. eapply hi_pass; eauto.
Qed.
Lemma sweeps_exact g ks g' vrs res : history ops g0 g -> tree_shaped g0 -> two_sweeps g ks ->
  foldM (pass_path ops) ks g = Ok g' ->
  NoDup vrs -> (forall v, In v vrs -> ~ In v (dkeys special)) -> get_marginal ops g' vrs = Ok res ->
  (forall v, In v (f_vars ops res) <-> In v vrs) /\
  forall rem e, agrees_opt ev e -> agrees special e -> NoDup rem ->
    (forall v, In v rem <-> (exists f, In f factors /\ In v (f_vars ops f)) /\
        ~ In v (observed ev) /\ ~ In v (dkeys special) /\ ~ In v vrs) ->
    pt res e = sum_over card rem (prod_at pt factors) e.
Proof.
  intros Hh TR TS H Hn Hd Hm. pose proof (history_passes ks g g' Hh H) as Hh'.
  destruct (mk_graph_made ops o factors ev special g0 Ho Hmk) as (reduced & final & M).
  destruct (history_live ops card good pt L o factors ev special g0 Ho Gfac reduced final g M Hh) as [Gfin LV].
  pose proof (sweeps_settle ops card good pt L o final ev special Ho Gfin g ks g' LV TS H) as ST.
  exact (exact_marginal ops card good pt L o factors ev special g0 Ho Gfac Hmk g' _ vrs res Hh' TR ST (fun _ _ => eq_refl) Hn Hd Hm).
Qed.
Lemma sweeps_run g r e0 : history ops g0 g -> tree_shaped g0 -> has_positive pt factors ev special e0 -> r < length (g_cl g0) ->
  exists ks g', two_sweeps g ks /\ length ks = 2 * (length (g_cl g0) - 1) /\ foldM (pass_path ops) ks g = Ok g'.
Proof.
  intros Hh TR (P1 & P2 & P3) Hr. pose proof (tree_kept ops card good pt L o factors ev special g0 Ho Gfac Hmk g Hh TR) as TR'.
  destruct (history_linked ops card good pt L o factors ev special g0 Ho Gfac Hmk g Hh) as [Hl _].
  destruct (mk_graph_made ops o factors ev special g0 Ho Hmk) as (reduced & final & M).
  destruct (history_live ops card good pt L o factors ev special g0 Ho Gfac reduced final g M Hh) as [Gfin LV].
  rewrite <- Hl in Hr.
  destruct (sweeps_exist ops good pt o final ev special g r LV TR' Hr) as (ks & K1 & K2 & K3).
  pose proof (final_pos ops card good pt L o factors ev special reduced final g0 e0 M Gfac P1 P3) as Pf.
  destruct (passes_ok ops card good pt L o final ev special Ho Gfin e0 P2 Pf ks g LV K3) as (g' & Hg').
  exists ks, g'. rewrite <- Hl. auto.
Qed.
End SweepTheorem.
