(** The cluster graph properties for factor classes with strictly positive potentials on real
    variables, starting from the constructor. *)
From Verif Require Export PosSweep.
#[global] Set Bullet Behavior "Strict Subproofs".
Local Open Scope nat_scope.

Section PosTop.
Context {F : Type} (ops : fops F R) (good sound ready : F -> Prop) (pt : F -> renv -> R).
Hypothesis L : plaws ops good sound ready pt.
Let PL := pl_prod _ _ _ _ _ L.
Context (o : oracle) (factors : list F) (ev : option (dict string R)) (special : dict string R) (g0 : cgraph F R).
Hypothesis Ho : oracle_ok o.
Hypothesis Gfac : forall f, In f factors -> good f.
Hypothesis Hmk : mk_graph ops o factors ev special = Ok g0.
Hypothesis Hs : forall c r, In c (g_cl g0) -> f_reduce ops (cl_fac c) (dkeys (cl_spec c)) (dvals (cl_spec c)) = Ok r -> sound r.
Notation Live := (plive ops good sound ready pt o).
Notation Inv := (pinv ops good sound ready pt o).

Lemma pmade : exists reduced final, made ops o factors ev special reduced final g0 /\ (forall f, In f final -> good f) /\
  (forall i f r, nth_error final i = Some f ->
     f_reduce ops f (dkeys (spec_at ops special i f)) (dvals (spec_at ops special i f)) = Ok r -> sound r) /\
  forall g, history ops g0 g -> Live final ev special g /\ g_spec g = special /\ length (g_paths g) = length (g_paths g0) /\
    (g_paths g0 = [] -> g_passed g = 0).
Proof.
  destruct (mk_graph_made ops o factors ev special g0 Ho Hmk) as (reduced & final & M). exists reduced, final.
  pose proof (proj1 (made_pt_g ops good pt PL o factors ev special reduced final g0 M Gfac)) as Gfin.
  assert (Hsound : forall i f r, nth_error final i = Some f ->
     f_reduce ops f (dkeys (spec_at ops special i f)) (dvals (spec_at ops special i f)) = Ok r -> sound r).
  { intros i f r Hf Hr. pose proof (made_facs ops _ _ _ _ _ _ _ M) as E. rewrite <- E, nth_error_map in Hf.
    destruct (nth_error (g_cl g0) i) as [c|] eqn:Hc; [|discriminate]. injection Hf as <-.
    destruct (made_cluster ops _ _ _ _ _ _ _ i c M Hc) as (f & Hf & Ef & _ & Es). apply (Hs c); [eapply nth_error_In; eauto|].
    rewrite Es. unfold spec_at in Hr. rewrite <- Ef. exact Hr. }
  split; [exact M|]. split; [exact Gfin|]. split; [exact Hsound|]. intros g Hh.
  split; [exact (phistory_live ops good sound ready pt L o final ev special Ho Gfin Hsound factors reduced g0 g M Hh)|].
  exact (proj2 (history_static ops _ _ _ _ _ _ _ _ M Hh)).
Qed.

Lemma pevidence_restricts : (forall e, agrees_opt ev e -> prod_at pt (map cl_fac (g_cl g0)) e = prod_at pt factors e) /\
  (forall v, (exists c, In c (g_cl g0) /\ In v (f_vars ops (cl_fac c))) <->
             (exists f, In f factors /\ In v (f_vars ops f)) /\ ~ In v (observed ev)).
Proof.
  destruct (mk_graph_made ops o factors ev special g0 Ho Hmk) as (reduced & final & M).
  destruct (made_pt_g ops good pt PL o factors ev special reduced final g0 M Gfac) as (_ & H2 & H3).
  pose proof (made_facs _ _ _ _ _ _ _ _ M) as E. split.
  - intros e He. rewrite E. now apply H2.
  - intros v. rewrite <- H3, <- E. split.
    + intros (c & Hc & Hv). exists (cl_fac c). split; [now apply in_map|exact Hv].
    + intros (f & Hf & Hv). apply in_map_iff in Hf. destruct Hf as (c & <- & Hc). eauto.
Qed.

Lemma ppotentials_kept g : history ops g0 g ->
  (forall i c0 c, nth_error (g_cl g0) i = Some c0 -> nth_error (g_cl g) i = Some c ->
     (forall v, In v (f_vars ops (cl_fac c)) <-> In v (f_vars ops (cl_fac c0))) /\
     forall e, pt (cl_fac c) e =
       (pt (cl_fac c0) e *
        Rprod (map (fun p => match p_prev p with
                             | Some m => if Nat.eqb (p_rcv p) i then pt (m_fac m) e else 1
                             | None => 1 end) (g_paths g)))%R) /\
  (forall e,
     let sent := Rprod (map (fun p => match p_prev p with Some m => pt (m_fac m) e | None => 1%R end) (g_paths g)) in
     (0 < sent /\ prod_at pt (map cl_fac (g_cl g)) e / sent = prod_at pt (map cl_fac (g_cl g0)) e)%R).
Proof.
  intros Hh. destruct pmade as (reduced & final & M & Gfin & Hsound & HL). destruct (HL g Hh) as (LV & _).
  pose proof (pv_inv _ _ _ _ _ _ _ _ _ _ LV) as IV. pose proof (made_facs _ _ _ _ _ _ _ _ M) as E. split.
  - intros i c0 c H0 Hc. destruct (pi_cl _ _ _ _ _ _ _ _ _ _ IV i c Hc) as (f & Hf & _ & (_ & Hv) & P).
    assert (Ef : f = cl_fac c0).
    { assert (X : nth_error (map cl_fac (g_cl g0)) i = Some (cl_fac c0)) by now rewrite nth_error_map, H0.
      rewrite E, Hf in X. now inversion X. }
    split; [intros v; now rewrite Hv, Ef|]. intros e. rewrite P, Ef. f_equal. apply Rprod_ext. intros p _. unfold tox, pmsg.
    destruct (Nat.eq_dec (p_rcv p) i) as [->|N]; [rewrite Nat.eqb_refl; reflexivity|].
    rewrite (proj2 (Nat.eqb_neq _ _) N). destruct (p_prev p); reflexivity.
  - intros e. cbn zeta. assert (P : (0 < Rprod (map (fun p => match p_prev p with Some m => pt (m_fac m) e | None => 1%R end) (g_paths g)))%R).
    { apply Rprod_pos. intros x Hx. apply in_map_iff in Hx. destruct Hx as (p & <- & Hp). apply In_nth_error in Hp. destruct Hp as (k & Hp).
      exact (pmsg_pos ops good sound ready pt L o final ev special g k p e IV Hp). }
    split; [exact P|]. rewrite E, (pjoint ops good sound ready pt o final ev special g e IV). unfold pmsg. field. lra.
Qed.

Lemma pjoint_returned g : history ops g0 g -> factors <> [] -> all_sent g ->
  exists r, get_joint ops g = Ok r /\ good r /\
    (forall v, In v (f_vars ops r) <-> (exists f, In f factors /\ In v (f_vars ops f)) /\ ~ In v (observed ev)) /\
    (forall e, agrees_opt ev e -> pt r e = prod_at pt factors e).
Proof.
  intros Hh Hne Ha. destruct pmade as (reduced & final & M & Gfin & Hsound & HL). destruct (HL g Hh) as (LV & _ & Hl & Hz).
  pose proof (pv_inv _ _ _ _ _ _ _ _ _ _ LV) as IV.
  destruct (made_pt_g ops good pt PL o factors ev special reduced final g0 M Gfac) as (_ & H2 & H3).
  assert (Hc : g_cl g <> []).
  { intros C. pose proof (pi_len _ _ _ _ _ _ _ _ _ _ IV) as El. rewrite C in El. cbn in El.
    assert (Hr : reduced = []).
    { pose proof (mk_final _ _ _ _ _ _ _ _ M) as Ef. destruct (absorb_groups ops reduced final Ef) as (groups & HP & HF).
      assert (final = []) by (destruct final; [reflexivity|discriminate]). subst final.
      inversion HF; subst groups. cbn in HP. apply Permutation_nil in HP. destruct reduced; [reflexivity|discriminate]. }
    pose proof (evidence_reduce_pt_g ops good pt PL ev factors reduced Gfac (mk_reduced _ _ _ _ _ _ _ _ M)) as HF.
    rewrite Hr in HF. inversion HF. congruence. }
  destruct (pjoint_ok ops good sound ready pt L o final ev special Ho Gfin Hsound g IV Hc Ha) as (r & R1 & R0 & R2 & R3).
  { intros C. apply Hz. rewrite C in Hl. destruct (g_paths g0); [reflexivity|discriminate]. }
  exists r. split; [exact R1|]. split; [exact R0|]. split; [intros v; now rewrite R2, H3|].
  intros e He. rewrite (R3 e). now apply H2.
Qed.
Lemma pjoint_missing g : history ops g0 g -> some_unsent g -> get_joint ops g = Err AttributeError.
Proof.
  intros Hh Hu. destruct pmade as (reduced & final & M & Gfin & Hsound & HL). destruct (HL g Hh) as (LV & _).
  exact (pjoint_fails ops good sound ready pt L o final ev special g (pv_inv _ _ _ _ _ _ _ _ _ _ LV) Hu).
Qed.

(** Sending messages along [ks] one after the other is a history. *)
Lemma passes_history ks : forall g g', history ops g0 g -> foldM (pass_path ops) ks g = Ok g' -> history ops g0 g'.
Proof.
  induction ks as [|k ks IH]; intros g g' H E; cbn [foldM] in E; [injection E as <-; exact H|].
  apply bind_ok in E. destruct E as (g1 & E1 & E2). apply (IH g1 g'); [|exact E2]. exact (hi_pass ops g0 g k g1 H E1).
Qed.

Section Marg.
Hypothesis Hr : forall c, In c (g_cl g0) -> ready (cl_fac c).
Lemma psettled_marginal g vrs res : history ops g0 g -> tree_shaped g0 -> psettled pt g ->
  vrs <> [] -> NoDup vrs -> (forall v, In v vrs -> ~ In v (dkeys special)) -> get_marginal ops g vrs = Ok res ->
  (forall v, In v (f_vars ops res) <-> In v vrs) /\
  forall rem e, agrees_opt ev e -> agrees special e -> NoDup rem ->
    (forall v, In v rem <-> (exists f, In f factors /\ In v (f_vars ops f)) /\
        ~ In v (observed ev) /\ ~ In v (dkeys special) /\ ~ In v vrs) ->
    iint rem (prod_at pt factors) e (pt res e).
Proof.
  intros Hh TR ST Hvn Hn Hd H. destruct pmade as (reduced & final & M & Gfin & Hsound & HL). destruct (HL g Hh) as (LV & Hsp & _).
  destruct (HL g0 (hi_init _ _)) as (LV0 & _). pose proof (pv_inv _ _ _ _ _ _ _ _ _ _ LV) as IV. pose proof (pv_inv _ _ _ _ _ _ _ _ _ _ LV0) as IV0.
  assert (Hready : forall f, In f final -> ready f).
  { intros f Hf. rewrite <- (made_facs _ _ _ _ _ _ _ _ M) in Hf. apply in_map_iff in Hf. destruct Hf as (c & <- & Hc). now apply Hr. }
  apply (ptree_kept ops good sound ready pt o final ev special g g0 IV IV0) in TR.
  exact (pmarginal_of_model ops good sound ready pt L o factors reduced final ev special g0 Ho Gfac M Hsound Hready g LV TR ST vrs res Hsp Hvn Hn Hd H).
Qed.
Lemma psweeps_marginal g ks g' vrs res : history ops g0 g -> tree_shaped g0 -> two_sweeps g ks -> foldM (pass_path ops) ks g = Ok g' ->
  vrs <> [] -> NoDup vrs -> (forall v, In v vrs -> ~ In v (dkeys special)) -> get_marginal ops g' vrs = Ok res ->
  (forall v, In v (f_vars ops res) <-> In v vrs) /\
  forall rem e, agrees_opt ev e -> agrees special e -> NoDup rem ->
    (forall v, In v rem <-> (exists f, In f factors /\ In v (f_vars ops f)) /\
        ~ In v (observed ev) /\ ~ In v (dkeys special) /\ ~ In v vrs) ->
    iint rem (prod_at pt factors) e (pt res e).
Proof.
  intros Hh TR TS E. apply psettled_marginal; [exact (passes_history ks g g' Hh E)|exact TR|].
  destruct pmade as (reduced & final & M & Gfin & Hsound & HL). destruct (HL g Hh) as (LV & _).
  exact (psweeps_settle ops good sound ready pt L o final ev special Ho Gfin Hsound g ks g' LV TS E).
Qed.
End Marg.
Lemma psweeps_there g r : history ops g0 g -> tree_shaped g0 -> r < length (g_cl g0) ->
  exists ks, two_sweeps g ks /\ length ks = 2 * (length (g_cl g0) - 1) /\ forall k, In k ks -> k < length (g_paths g).
Proof.
  intros Hh TR Hlt. destruct pmade as (reduced & final & M & Gfin & Hsound & HL). destruct (HL g Hh) as (LV & _). destruct (HL g0 (hi_init _ _)) as (LV0 & _).
  pose proof (pv_inv _ _ _ _ _ _ _ _ _ _ LV) as IV. pose proof (pv_inv _ _ _ _ _ _ _ _ _ _ LV0) as IV0.
  assert (El : length (g_cl g) = length (g_cl g0)) by now rewrite (pi_len _ _ _ _ _ _ _ _ _ _ IV), (pi_len _ _ _ _ _ _ _ _ _ _ IV0).
  rewrite <- El in *. apply (psweeps_exist ops good sound ready pt o final ev special g r LV); [|exact Hlt].
  exact (ptree_kept ops good sound ready pt o final ev special g g0 IV IV0 TR).
Qed.
End PosTop.
