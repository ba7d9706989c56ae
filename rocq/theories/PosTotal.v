(** Message passing with positive potentials never fails when every factor can be marginalised. *)
From Verif Require Export PosTheorems.
#[global] Set Bullet Behavior "Strict Subproofs".
Local Open Scope nat_scope.

Record tlaws {F} (ops : fops F R) (good sound ready : F -> Prop) : Prop := {
  tl_sound : forall f, good f -> sound f;
  tl_ready : forall f, good f -> ready f;
  tl_marg : forall f vs, good f -> vs <> [] -> NoDup vs -> incl vs (f_vars ops f) -> exists r, f_marg ops f vs = Ok r;
  tl_kl : forall a b, good a -> good b -> (forall v, In v (f_vars ops a) <-> In v (f_vars ops b)) ->
    exists d, f_kl ops a b = Ok d /\ d <> NaN;
  tl_dist : forall a, good a -> exists d, f_dist ops a = Ok d /\ d <> NaN }.

Section PTot.
Context {F : Type} (ops : fops F R) (good sound ready : F -> Prop) (pt : F -> renv -> R).
Hypothesis L : plaws ops good sound ready pt.
Hypothesis T : tlaws ops good sound ready.
Let PL := pl_prod _ _ _ _ _ L.

Section PState.
Context (o : oracle) (final : list F) (ev : option (dict string R)) (special : dict string R).
Hypothesis Ho : oracle_ok o.
Hypothesis Gfin : forall f, In f final -> good f.
Let sepf := graph_sep o (map (f_vars ops) final) (all_evidence ev special).
Notation Inv := (pinv ops good sound ready pt o final ev special).
Notation Live := (plive ops good sound ready pt o final ev special).

Lemma tsound : forall i f r, nth_error final i = Some f ->
  f_reduce ops f (dkeys (spec_at ops special i f)) (dvals (spec_at ops special i f)) = Ok r -> sound r.
Proof.
  intros i f r Hf H. apply (tl_sound _ _ _ _ T). pose proof (Gfin f (nth_error_In _ _ Hf)) as G.
  exact (proj1 (reduced_at ops good sound ready pt L o final ev special Gfin i f f r Hf G (fun v => iff_refl _) H)).
Qed.
Lemma pmake_ok g k p : Inv g -> nth_error (g_paths g) k = Some p ->
  exists ci cj m d, nth_error (g_cl g) (p_snd p) = Some ci /\ nth_error (g_cl g) (p_rcv p) = Some cj /\
    make_message ops ci (cl_id cj) = Ok m /\ info_gain ops (p_prev p) m = Ok d /\ d <> NaN.
Proof.
  intros IV Hp. destruct (pends ops good sound ready pt o final ev special g k p IV Hp) as (S & ci & cj & fi & fj & q & kq & HS & Hne & HSn & Hi & Hj & Hfi & Hfj & Hq & Q1 & Q2).
  destruct (pi_cl _ _ _ _ _ _ _ _ _ _ IV _ ci Hi) as (fi2 & Hfi2 & Hsp & (Gc & Vc) & _). rewrite Hfi in Hfi2. inversion Hfi2; subst fi2.
  destruct S as [|v0 S0] eqn:ES; [congruence|]. rewrite <- ES in *. assert (Hv0 : In v0 S) by (rewrite ES; left; reflexivity).
  assert (HSin : forall v, In v S -> In v (f_vars ops fi) /\ ~ In v (dkeys special)).
  { intros v Hv. exact (S_in ops o final ev special Ho _ _ S fi HS Hfi v Hv). }
  destruct (HSin v0 Hv0) as (Hv1 & Hv2).
  destruct (reduced_some ops good sound ready pt L o final ev special Gfin _ fi (cl_fac ci) v0 Hfi Gc Vc Hv1 Hv2) as (f1 & H1).
  destruct (reduced_at ops good sound ready pt L o final ev special Gfin _ fi (cl_fac ci) f1 Hfi Gc Vc H1) as (G1 & V1 & _).
  destruct (tl_marg _ _ _ _ T f1 S G1 HSn (psep_NoDup ops o final ev special Ho _ _ S HS)) as (f2 & H2).
  { intros v Hv. apply V1. now apply HSin. }
  rewrite <- Hsp in H1.
  destruct (message_after ops good sound ready pt L o final ev special Ho Gfin tsound g _ _ ci cj S fi q kq IV Hi Hj HS Hfi Hq Q1 Q2 f1 f2 H1 H2) as (m & Hm & [_ _ (Gm & Vm) _]).
  exists ci, cj, m. unfold info_gain. destruct (p_prev p) as [m0|] eqn:E.
  - destruct (pi_prev _ _ _ _ _ _ _ _ _ _ IV k p m0 Hp E) as (S' & HS' & G0 & V0). rewrite HS in HS'. injection HS' as <-.
    destruct (tl_kl _ _ _ _ T (m_fac m0) (m_fac m) G0 Gm) as (d & D1 & D2); [intros v; now rewrite V0, Vm|]. exists d. auto.
  - destruct (tl_dist _ _ _ _ T (m_fac m) Gm) as (d & D1 & D2). exists d. auto.
Qed.
Lemma precompute_some g k p p' : Inv g -> nth_error (g_paths g) k = Some p ->
  p_snd p' = p_snd p -> p_rcv p' = p_rcv p -> p_prev p' = p_prev p -> exists p2, recompute ops (g_cl g) p' = Ok p2.
Proof.
  intros IV Hp E1 E2 E3. destruct (pmake_ok g k p IV Hp) as (ci & cj & m & d & Hi & Hj & Hm & Hd & _).
  unfold recompute. rewrite E1, E2, E3, (py_nth_some _ _ _ Hi), (py_nth_some _ _ _ Hj). cbn [bind]. rewrite Hm. cbn [bind].
  rewrite Hd. cbn [bind]. eauto.
Qed.
Lemma precompute_fold g : Inv g -> forall ks ps, (forall k, In k ks -> k < length (g_paths g)) ->
  length ps = length (g_paths g) ->
  (forall q p, nth_error (g_paths g) q = Some p -> exists p', nth_error ps q = Some p' /\
      p_snd p' = p_snd p /\ p_rcv p' = p_rcv p /\ p_prev p' = p_prev p) ->
  exists ps', foldM (recompute_at ops (g_cl g)) ks ps = Ok ps'.
Proof.
  intros IV. induction ks as [|k ks IH]; intros ps Hk Hl Hps; cbn [foldM]; [eauto|].
  assert (Hkl : k < length (g_paths g)) by (apply Hk; left; reflexivity).
  destruct (nth_error (g_paths g) k) as [p|] eqn:Ep; [|apply nth_error_None in Ep; lia].
  destruct (Hps k p Ep) as (p' & Hp' & E1 & E2 & E3).
  destruct (precompute_some g k p p' IV Ep E1 E2 E3) as (p2 & Hp2).
  unfold recompute_at at 1. rewrite (py_nth_some _ _ _ Hp'). cbn [bind]. rewrite Hp2. cbn [bind].
  destruct (list_set_spec ps k p2) as (ps1 & L1 & L2 & L3); [lia|]. rewrite L1. cbn [bind].
  apply IH; [intros j Hj; apply Hk; right; exact Hj|lia|].
  intros q pq Hq. rewrite L3. destruct (Nat.eq_dec q k) as [->|N].
  - rewrite Ep in Hq. inversion Hq; subst pq. exists p2. split; [reflexivity|].
    destruct (recompute_ends ops _ _ _ Hp2) as (R1 & R2 & R3 & _). repeat split; congruence.
  - apply Hps; exact Hq.
Qed.
Lemma ppass_ok g k : Live g -> k < length (g_paths g) -> exists g', pass_path ops g k = Ok g'.
Proof.
  intros [IV SA] Hk. pose proof (sa_fresh _ _ _ SA) as Fr.
  destruct (nth_error (g_paths g) k) as [p|] eqn:Ep; [|apply nth_error_None in Ep; lia].
  destruct (preceive ops good sound ready pt L o final ev special Ho Gfin tsound g k p IV Fr Ep) as (cj & cj' & Hj & Hrc & _).
  unfold pass_path. rewrite (py_nth_some _ _ _ Ep). cbn [bind]. rewrite (py_nth_some _ _ _ Hj). cbn [bind].
  rewrite Hrc. cbn [bind].
  destruct (list_set_spec (g_cl g) (p_rcv p) cj') as (cls & C1 & C2 & C3); [apply nth_error_Some; congruence|].
  rewrite C1. cbn [bind].
  set (p1 := {| p_snd := p_snd p; p_rcv := p_rcv p; p_prev := Some (p_next p); p_next := p_next p; p_gain := Fin 0 |}).
  destruct (list_set_spec (g_paths g) k p1 Hk) as (ps1 & P1 & P2 & P3). rewrite P1. cbn [bind].
  set (g1 := {| g_cl := cls; g_paths := ps1; g_order := g_order g; g_spec := g_spec g; g_passed := g_passed g; g_dists := g_dists g |}).
  assert (SE : sent ops g k g1 p cj cj').
  { split; auto. intros q p' Hp'. cbn [g1 g_paths] in Hp'. rewrite P3 in Hp'. destruct (Nat.eq_dec q k) as [->|N].
    - inversion Hp'; subst p'. exists p. repeat split; auto.
    - exists p'. auto. }
  pose proof (pinv_sent ops good sound ready pt L o final ev special Ho Gfin tsound g k g1 p cj cj' IV Fr SE) as IV1.
  destruct (precompute_fold g1 IV1 (cl_out cj') ps1) as (ps2 & Hps2).
  - intros q Hq. destruct (receive_fields ops _ _ _ Hrc) as (_ & _ & E3 & _). rewrite E3 in Hq.
    apply (st_out _ _ (pi_struct _ _ _ _ _ _ _ _ _ _ IV) _ cj Hj) in Hq. destruct Hq as (pq & Hpq & _).
    cbn [g1 g_paths]. rewrite P2. apply nth_error_Some. congruence.
  - reflexivity.
  - intros q pq Hq. exists pq. auto.
  - cbn [g1 g_cl] in Hps2. rewrite Hps2. cbn [bind]. eauto.
Qed.
Lemma ppasses_ok ks : forall g, Live g -> (forall k, In k ks -> k < length (g_paths g)) ->
  exists g', foldM (pass_path ops) ks g = Ok g'.
Proof.
  induction ks as [|k ks IH]; intros g LV Hk; cbn [foldM]; [eauto|].
  destruct (ppass_ok g k LV (Hk k (or_introl eq_refl))) as (g1 & H1). rewrite H1. cbn [bind]. apply IH.
  - exact (plive_pass ops good sound ready pt L o final ev special Ho Gfin tsound g k g1 LV H1).
  - intros q Hq. destruct (pass_path_passed ops g k g1 (struct_out _ _ (sa_struct _ _ _ (pv_static _ _ _ _ _ _ _ _ _ _ LV))) H1) as (p & cr & cr' & P).
    rewrite (pa_plen _ _ _ _ _ _ _ P). apply Hk. right; exact Hq.
Qed.
Lemma plive_comparable g : Live g -> comparable g.
Proof.
  intros [IV SA] q Hq. unfold gain_of. destruct (nth_error (g_paths g) q) as [p|] eqn:E; [|apply nth_error_None in E; lia].
  destruct (sa_gains _ _ _ SA q p E) as [H|[-> _]]; [|discriminate].
  destruct (pmake_ok g q p IV E) as (ci & cj & m & d & Hi & Hj & Hm & Hd & Hdn).
  pose proof (sa_fresh _ _ _ SA q p ci cj E Hi Hj) as Hf. rewrite Hf in Hm. inversion Hm; subst m. congruence.
Qed.
Lemma pstep_some g : Live g -> g_paths g <> [] -> exists r, process_step ops g = Ok r.
Proof.
  intros LV Hne. pose proof (st_order _ _ (pi_struct _ _ _ _ _ _ _ _ _ _ (pv_inv _ _ _ _ _ _ _ _ _ _ LV))) as HP.
  unfold process_step. destruct (g_order g) as [|k rest] eqn:E.
  { apply Permutation_nil in HP. destruct (g_paths g); [congruence|discriminate]. }
  assert (Hk : k < length (g_paths g)).
  { assert (H : In k (seq 0 (length (g_paths g)))) by (apply (Permutation_in _ HP); left; reflexivity). apply in_seq in H. lia. }
  rewrite (py_nth_some (k :: rest) 0 k eq_refl). cbn [bind].
  destruct (ppass_ok g k LV Hk) as (g1 & H1). rewrite H1. cbn [bind].
  destruct (pass_path_order ops g k g1 H1) as (O1 & O2).
  destruct (pass_path_passed ops g k g1 (struct_out _ _ (sa_struct _ _ _ (pv_static _ _ _ _ _ _ _ _ _ _ LV))) H1) as (p & cr & cr' & P).
  pose proof (pa_plen _ _ _ _ _ _ _ P) as Hpl.
  cbn [sort_paths g_order g_paths].
  assert (Ho2 : forall q, In q (sort_desc vltb (gain_of (g_paths g1)) (g_order g1)) -> q < length (g_paths g1)).
  { intros q Hq. apply (Permutation_in _ (Permutation_sym (sort_desc_perm _ _ _))) in Hq. rewrite O1, E in Hq.
    apply (Permutation_in _ HP) in Hq. apply in_seq in Hq. lia. }
  destruct (sort_desc vltb (gain_of (g_paths g1)) (g_order g1)) as [|k' rest'] eqn:E'.
  { pose proof (sort_desc_perm vltb (gain_of (g_paths g1)) (g_order g1)) as HP'. rewrite E', O1, E in HP'.
    apply Permutation_sym, Permutation_nil in HP'. discriminate. }
  rewrite (py_nth_some (k' :: rest') 0 k' eq_refl). cbn [bind].
  destruct (py_nth_ok (g_paths g1) k') as (p' & Hp' & _); [apply Ho2; left; reflexivity|]. rewrite Hp'. cbn [bind]. eauto.
Qed.
Lemma ploop_some tol n : forall g, Live g -> g_paths g <> [] -> exists g', process_loop ops tol n g = Ok g'.
Proof.
  induction n as [|n IH]; intros g LV Hne; cbn [process_loop]; [eauto|].
  destruct (pstep_some g LV Hne) as ([g1 gain] & H1). rewrite H1. cbn [bind fst snd].
  destruct (vleb gain (Fin tol)); [eauto|]. destruct (process_step_ok ops g g1 gain H1) as (k & K).
  apply IH; [exact (plive_step ops good sound ready pt L o final ev special Ho Gfin tsound g k g1 gain LV K)|]. intros C. apply Hne. apply length_zero_iff_nil.
  rewrite <- (step_plen ops g k g1 gain K); [now rewrite C|]. exists sepf. apply (pv_static _ _ _ _ _ _ _ _ _ _ LV).
Qed.
(** process_graph succeeds; the single-cluster branch observes the special evidence directly. *)
Lemma pprocess_some tol max_iter g : Live g -> g_spec g = special -> NoDup (dkeys special) ->
  (forall c, g_cl g = [c] -> incl (dkeys special) (f_vars ops (cl_fac c)) /\ exists v, In v (f_vars ops (cl_fac c)) /\ ~ In v (dkeys special)) ->
  exists g', process_graph ops tol max_iter g = Ok g'.
Proof.
  intros LV Hsp Hnd Hone. unfold process_graph. cbn zeta.
  assert (Hloop : exists g', process_loop ops tol (max_iter * length (g_order (reset_dists g))) (sort_paths (reset_dists g)) = Ok g').
  { destruct (g_paths g) as [|p ps] eqn:E.
    - assert (H : g_order g = []).
      { pose proof (st_order _ _ (pi_struct _ _ _ _ _ _ _ _ _ _ (pv_inv _ _ _ _ _ _ _ _ _ _ LV))) as HP. rewrite E in HP. cbn in HP.
        now apply Permutation_sym, Permutation_nil in HP. }
      change (g_order (reset_dists g)) with (g_order g). rewrite H. cbn [length]. rewrite Nat.mul_0_r. cbn [process_loop]. eauto.
    - apply ploop_some; [exact (plive_sort ops good sound ready pt o final ev special g LV)|]. cbn. rewrite E. discriminate. }
  change (g_cl (reset_dists g)) with (g_cl g). destruct (g_cl g) as [|c [|c2 cs]] eqn:E; [exact Hloop| |exact Hloop].
  change (g_spec (reset_dists g)) with (g_spec g). rewrite Hsp. destruct special as [|kv sp] eqn:Es; [eauto|].
  assert (Hc : nth_error (g_cl g) 0 = Some c) by now rewrite E.
  pose proof (pv_inv _ _ _ _ _ _ _ _ _ _ LV) as IV.
  destruct (pi_cl _ _ _ _ _ _ _ _ _ _ IV 0 c Hc) as (f & _ & _ & (Gc & _) & _). destruct (Hone c eq_refl) as (Hin & v & Hv & Nv).
  destruct (pl_reduce_ok _ _ _ _ _ L (cl_fac c) (dkeys (kv :: sp)) (dvals (kv :: sp)) v Gc Hnd Hin) as (r & Hr); auto.
  - unfold dvals, dkeys. now rewrite !map_length.
  - rewrite Hr. cbn [bind]. eauto.
Qed.

(** ** Construction *)
Lemma pnew_path_ok i f c cj a b S : nth_error final i = Some f -> cl_fac c = f ->
  cl_spec c = cl_spec (new_cluster ops special (i, f)) -> cl_recv c = [] ->
  dget (cl_seps c) (cl_id cj) = Some S -> NoDup S -> S <> [] ->
  (forall v, In v S -> In v (f_vars ops f) /\ ~ In v (dkeys special)) ->
  exists p, new_path ops c cj a b = Ok p.
Proof.
  intros Hf Hfac Hsp Hr HS Hn Hne Hin. assert (G : good f) by (apply Gfin; eapply nth_error_In; eauto).
  destruct S as [|v0 S0] eqn:ES; [congruence|]. rewrite <- ES in *. assert (Hv0 : In v0 S) by (rewrite ES; left; reflexivity). destruct (Hin v0 Hv0) as (Hv1 & Hv2).
  destruct (reduced_some ops good sound ready pt L o final ev special Gfin i f f v0 Hf G (fun v => iff_refl _) Hv1 Hv2) as (f1 & H1).
  destruct (reduced_at ops good sound ready pt L o final ev special Gfin i f f f1 Hf G (fun v => iff_refl _) H1) as (G1 & V1 & _).
  assert (Hin1 : incl S (f_vars ops f1)) by (intros v Hv; apply V1; now apply Hin).
  destruct (tl_marg _ _ _ _ T f1 S G1 Hne Hn Hin1) as (f2 & M1).
  unfold new_path, make_message, dget_r. rewrite HS. cbn [bind]. unfold spec_at in H1. rewrite Hsp, Hfac, H1. cbn [bind]. rewrite M1. cbn [bind]. rewrite Hr. cbn [dget bind info_gain m_fac].
  destruct (pl_marg _ _ _ _ _ L f1 S f2 G1 (tl_ready _ _ _ _ T f1 G1) Hne Hn Hin1 M1) as (G2 & _).
  destruct (tl_dist _ _ _ _ T f2 G2) as (d & D & _). rewrite D. cbn [bind]. eauto.
Qed.
Lemma plink_some cls0 D g i j : cls0 = map (new_cluster ops special) (enum final) -> i < j -> j < length cls0 ->
  let d := rip_sepsets o (map (f_vars ops) final) (all_evidence ev special) in
  build_ok ops d cls0 special D g -> exists g', link_pair ops d g (i, j) = Ok g'.
Proof.
  intros Hcls Hij Hj d B. pose proof (core_length ops _ _ _ _ _ B) as Hlen. unfold link_pair.
  destruct (dget d (i, j)) as [S|] eqn:ES; [|eauto].
  assert (HS : sepf i j = Some S).
  { unfold sepf, graph_sep. rewrite (proj2 (Nat.ltb_lt i j) Hij). unfold d in ES. now rewrite rip_lookup in ES. }
  assert (Hne : S <> []) by (intros ->; revert HS; apply graph_sep_none_empty).
  assert (Hl : Nat.ltb 0 (length S) = true) by (destruct S; [congruence|reflexivity]).
  rewrite Hl. cbn [py_assert bind].
  destruct (py_nth_ok (g_cl g) i) as (ci & Ei & Hi); [lia|]. destruct (py_nth_ok (g_cl g) j) as (cj & Ej & Hjn); [lia|].
  rewrite Ei, Ej. cbn [bind]. unfold add_neighbour. rewrite Hl. cbn [py_assert bind].
  assert (Hc : forall k c, nth_error (g_cl g) k = Some c -> exists f, nth_error final k = Some f /\ cl_fac c = f /\
     cl_spec c = cl_spec (new_cluster ops special (k, f)) /\ cl_recv c = []).
  { intros k c Hk. pose proof (f_equal (fun l => nth_error l k) (bo_core _ _ _ _ _ _ B)) as E. cbn beta in E. rewrite Hcls in E.
    rewrite !nth_error_map, nth_error_enum, Hk in E. destruct (nth_error final k) as [f|]; cbn [option_map] in E; [|discriminate].
    exists f. split; [reflexivity|]. unfold core in E. rewrite new_cluster_fac in E. inversion E.
    repeat split; auto. apply (bo_recv _ _ _ _ _ _ B k c Hk). }
  destruct (Hc i ci Hi) as (fi & I1 & I2 & I3 & I4). destruct (Hc j cj Hjn) as (fj & J1 & J2 & J3 & J4).
  assert (HIn : forall v, In v S -> (In v (f_vars ops fi) /\ ~ In v (dkeys special)) /\ (In v (f_vars ops fj) /\ ~ In v (dkeys special))).
  { intros v Hv. destruct (PosGraph.psep_In ops o final ev special Ho i j S v HS Hv) as (K1 & K2 & K3). auto. }
  match goal with |- context [new_path ops ?a ?b i j] => destruct (pnew_path_ok i fi a b i j S) as (p1 & P1) end; cbn; auto.
  { now rewrite dget_dset_eq. }
  { eapply graph_sep_NoDup; eauto. }
  { intros v Hv. apply HIn; exact Hv. }
  rewrite P1. cbn [bind].
  match goal with |- context [new_path ops ?a ?b j i] => destruct (pnew_path_ok j fj a b j i S) as (p2 & P2) end; cbn; auto.
  { now rewrite dget_dset_eq. }
  { eapply graph_sep_NoDup; eauto. }
  { intros v Hv. apply HIn; exact Hv. }
  rewrite P2. cbn [bind].
  match goal with |- context [list_set (g_cl g) i ?x] => destruct (list_set_spec (g_cl g) i x) as (l1 & L1 & L2 & _); [lia|] end.
  rewrite L1. cbn [bind].
  match goal with |- context [list_set l1 j ?x] => destruct (list_set_spec l1 j x) as (l2 & L3 & _); [lia|] end.
  rewrite L3. cbn [bind]. eauto.
Qed.
Lemma pbuild_some : exists g, build_graph ops o (map (new_cluster ops special) (enum final)) special (all_evidence ev special) = Ok g.
Proof.
  unfold build_graph. rewrite (proj2 (nodupb_iff _) (ids_unique ops special final)).
  cbn [negb raise_if bind]. rewrite new_cluster_scopes. rewrite map_length, enum_length.
  set (cls0 := map (new_cluster ops special) (enum final)). set (d := rip_sepsets _ _ _).
  assert (G : forall l D g, (forall i j, In (i, j) l -> i < j /\ j < length cls0) -> NoDup (D ++ l) ->
    build_ok ops d cls0 special D g -> exists g', foldM (link_pair ops d) l g = Ok g').
  { induction l as [|[i j] l IH]; intros D g Hl Hn B; cbn [foldM]; [eauto|].
    destruct (Hl i j (or_introl eq_refl)) as [Hij Hj].
    destruct (plink_some cls0 D g i j eq_refl Hij Hj B) as (g1 & H1). fold d in H1. rewrite H1. cbn [bind].
    apply (IH (D ++ [(i, j)]) g1); [intros; apply Hl; right; assumption| |].
    - rewrite <- app_assoc. exact Hn.
    - eapply link_pair_ok; eauto. intros C. apply NoDup_app_elim in Hn. destruct Hn as (_ & _ & Hd).
      apply (Hd (i, j)); [exact C|left; reflexivity]. }
  apply (G (pairs (length final)) []).
  - intros i j Hij. apply pairs_lt in Hij. unfold cls0. rewrite map_length, enum_length. lia.
  - apply pairs_NoDup.
  - apply build_start; [apply ids_unique|]. intros c Hc. eapply new_cluster_empty; eauto.
Qed.
End PState.

(** Every factor keeps an unobserved variable. *)
Definition some_free (ev : option (dict string R)) (fs : list F) : Prop :=
  forall f, In f fs -> exists v, In v (f_vars ops f) /\ ~ In v (observed ev).
Lemma preduce_some factors ev : (forall f, In f factors -> good f) -> some_free ev factors ->
  exists reduced, evidence_reduce ops factors ev = Ok reduced.
Proof.
  intros Hg Hf0. unfold evidence_reduce. apply mapM_exists. intros f Hf. destruct ev as [d|]; [|eauto].
  destruct (subset_evidence d (f_vars ops f)) as [vrs values] eqn:E. destruct (Nat.ltb 0 (length vrs)); [|eauto].
  pose proof (pr_nodup _ _ _ PL f (Hg f Hf)) as Hn.
  destruct (subset_evidence_spec d _ vrs values Hn E) as (E1 & E2 & E3). destruct (Hf0 f Hf) as (v & Hv & Nv).
  apply (pl_reduce_ok _ _ _ _ _ L f vrs values v); auto.
  - intros u Hu. now apply E2.
  - intros C. apply E2 in C. now apply Nv.
Qed.
Lemma pmk_graph_some o factors ev special : oracle_ok o -> (forall f, In f factors -> good f) -> some_free ev factors ->
  exists g, mk_graph ops o factors ev special = Ok g.
Proof.
  intros Ho Hg Hfr. unfold mk_graph. destruct (preduce_some factors ev Hg Hfr) as (reduced & Hr). rewrite Hr. cbn [bind].
  pose proof (evidence_reduce_pt_g ops good pt PL ev factors reduced Hg Hr) as HF.
  assert (Gr : forall f, In f reduced -> good f).
  { clear - HF. induction HF as [|f r fs rs (H1 & _) _ IH]; intros x Hx; [destruct Hx|]. destruct Hx as [<-|Hx]; auto. }
  destruct (absorb_succeeds_g ops good pt PL reduced Gr) as (final & Hf). rewrite Hf. cbn [bind].
  destruct (absorb_pt_g ops good pt PL reduced final Gr Hf) as (A1 & _). now apply pbuild_some.
Qed.

Section PAfter.
Context (o : oracle) (factors : list F) (ev : option (dict string R)) (special : dict string R) (g0 : cgraph F R).
Hypothesis Ho : oracle_ok o.
Hypothesis Gfac : forall f, In f factors -> good f.
Hypothesis Hmk : mk_graph ops o factors ev special = Ok g0.

(** The conditions of PosTheorems hold. *)
Lemma tclusters : (forall c r, In c (g_cl g0) -> f_reduce ops (cl_fac c) (dkeys (cl_spec c)) (dvals (cl_spec c)) = Ok r -> sound r) /\
  (forall c, In c (g_cl g0) -> ready (cl_fac c)).
Proof.
  destruct (mk_graph_made ops o factors ev special g0 Ho Hmk) as (reduced & final & M).
  pose proof (proj1 (made_pt_g ops good pt PL o factors ev special reduced final g0 M Gfac)) as Gfin. split.
  - intros c r Hc H. apply In_nth_error in Hc. destruct Hc as (i & Hc). destruct (made_cluster ops _ _ _ _ _ _ _ i c M Hc) as (f & Hf & Ef & _ & Es).
    apply (tsound o final ev special Gfin i f r Hf). unfold spec_at. rewrite <- Es, <- Ef. exact H.
  - intros c Hc. apply (tl_ready _ _ _ _ T), Gfin. rewrite <- (made_facs _ _ _ _ _ _ _ _ M). now apply in_map.
Qed.
Lemma pnever_fails g : history ops g0 g ->
  (forall ks, (forall k, In k ks -> k < length (g_paths g)) -> exists g', foldM (pass_path ops) ks g = Ok g') /\
  (forall tol max_iter, NoDup (dkeys special) ->
     (forall c, g_cl g = [c] -> incl (dkeys special) (f_vars ops (cl_fac c)) /\ exists v, In v (f_vars ops (cl_fac c)) /\ ~ In v (dkeys special)) ->
     exists g', process_graph ops tol max_iter g = Ok g') /\
  comparable g.
Proof.
  intros Hh. destruct (pmade ops good sound ready pt L o factors ev special g0 Ho Gfac Hmk (proj1 tclusters)) as (reduced & final & M & Gfin & Hsound & HL).
  destruct (HL g Hh) as (LV & Hsp & _). split; [|split].
  - intros ks Hk. exact (ppasses_ok o final ev special Ho Gfin ks g LV Hk).
  - intros tol n Hn Hc. exact (pprocess_some o final ev special Ho Gfin tol n g LV Hsp Hn Hc).
  - exact (plive_comparable o final ev special Ho Gfin g LV).
Qed.
Lemma pmarginal_some g vrs : history ops g0 g -> vrs <> [] -> NoDup vrs -> (forall v, In v vrs -> ~ In v (dkeys special)) ->
  (exists c, In c (g_cl g) /\ incl vrs (f_vars ops (cl_fac c))) -> exists res, get_marginal ops g vrs = Ok res.
Proof.
  intros Hh Hne Hn Hd (c & Hc & Hi). destruct (pmade ops good sound ready pt L o factors ev special g0 Ho Gfac Hmk (proj1 tclusters)) as (reduced & final & M & Gfin & Hsound & HL).
  destruct (HL g Hh) as (LV & Hsp & _). pose proof (pv_inv _ _ _ _ _ _ _ _ _ _ LV) as IV. unfold get_marginal.
  destruct (find (fun c => subsetb vrs (f_vars ops (cl_fac c))) (g_cl g)) as [ci|] eqn:Ef.
  2:{ exfalso. pose proof (find_none _ _ Ef c Hc) as C. cbn in C. rewrite (proj2 (subsetb_incl _ _) Hi) in C. discriminate. }
  apply find_some in Ef. destruct Ef as [Hci Hsub]. apply subsetb_incl in Hsub.
  assert (Gc : good (cl_fac ci)) by (apply (pclusters_good ops good sound ready pt o final ev special g); [exact IV|now apply in_map]).
  rewrite Hsp. destruct (subset_evidence special (f_vars ops (cl_fac ci))) as [evs vals] eqn:Es.
  pose proof (pr_nodup _ _ _ PL _ Gc) as Hcn.
  destruct (subset_evidence_spec special _ evs vals Hcn Es) as (E1 & E2 & E3).
  assert (R : exists f1, (if Nat.ltb 0 (length evs) then f_reduce ops (cl_fac ci) evs vals else Ok (cl_fac ci)) = Ok f1 /\
            good f1 /\ incl vrs (f_vars ops f1)).
  { destruct (Nat.ltb 0 (length evs)); [|eauto]. destruct vrs as [|v vrs0] eqn:Ev; [congruence|]. rewrite <- Ev in *.
    assert (Hv : In v vrs) by (rewrite Ev; left; reflexivity).
    destruct (pl_reduce_ok _ _ _ _ _ L (cl_fac ci) evs vals v Gc E1) as (f1 & R1); auto; [intros u Hu; now apply E2|intros C; apply E2 in C; now apply (Hd v)|].
    exists f1. split; [exact R1|]. destruct (pr_reduce _ _ _ PL (cl_fac ci) evs vals f1 Gc E1) as (R2 & R3 & _); auto; [intros u Hu; now apply E2|].
    split; [exact R2|]. intros u Hu. apply R3. split; [now apply Hsub|]. rewrite E2. intros [_ C]. exact (Hd u Hu C). }
  destruct R as (f1 & -> & Gf1 & Hi1). cbn [bind]. exact (tl_marg _ _ _ _ T f1 vrs Gf1 Hne Hn Hi1).
Qed.
(** Two sweeps can be run and answer every question about variables of one cluster. *)
Lemma psweeps_answer g r : history ops g0 g -> tree_shaped g0 -> r < length (g_cl g0) ->
  exists ks g', two_sweeps g ks /\ length ks = 2 * (length (g_cl g0) - 1) /\ foldM (pass_path ops) ks g = Ok g' /\
    forall vrs, vrs <> [] -> NoDup vrs -> (forall v, In v vrs -> ~ In v (dkeys special)) ->
      (exists c, In c (g_cl g0) /\ incl vrs (f_vars ops (cl_fac c))) ->
      exists res, get_marginal ops g' vrs = Ok res /\ (forall v, In v (f_vars ops res) <-> In v vrs) /\
        forall rem e, agrees_opt ev e -> agrees special e -> NoDup rem ->
          (forall v, In v rem <-> (exists f, In f factors /\ In v (f_vars ops f)) /\
              ~ In v (observed ev) /\ ~ In v (dkeys special) /\ ~ In v vrs) ->
          iint rem (prod_at pt factors) e (pt res e).
Proof.
  intros Hh TR Hr. destruct tclusters as (Hs & Hrd).
  destruct (psweeps_there ops good sound ready pt L o factors ev special g0 Ho Gfac Hmk Hs g r Hh TR Hr) as (ks & TS & Hl & Hk).
  destruct (proj1 (pnever_fails g Hh) ks Hk) as (g' & E). exists ks, g'. split; [exact TS|]. split; [exact Hl|]. split; [exact E|].
  intros vrs Hne Hn Hd (c & Hc & Hi). pose proof (passes_history ops g0 ks g g' Hh E) as Hh'.
  destruct (pmarginal_some g' vrs Hh' Hne Hn Hd) as (res & Hres).
  { destruct (pmade ops good sound ready pt L o factors ev special g0 Ho Gfac Hmk Hs) as (reduced & final & M & Gfin & Hsound & HL).
    pose proof (pv_inv _ _ _ _ _ _ _ _ _ _ (proj1 (HL g' Hh'))) as IV'. apply In_nth_error in Hc. destruct Hc as (i & Hc).
    destruct (made_cluster ops _ _ _ _ _ _ _ i c M Hc) as (f & Hf & Ef & _).
    destruct (nth_error (g_cl g') i) as [c'|] eqn:Hc'.
    2:{ apply nth_error_None in Hc'. rewrite (pi_len _ _ _ _ _ _ _ _ _ _ IV') in Hc'. assert (i < length final) by (apply nth_error_Some; congruence). lia. }
    exists c'. split; [eapply nth_error_In; eauto|]. destruct (pi_cl _ _ _ _ _ _ _ _ _ _ IV' i c' Hc') as (f' & Hf' & _ & (_ & Hv) & _).
    rewrite Hf in Hf'. injection Hf' as <-. intros v Hvv. apply Hv. rewrite <- Ef. now apply Hi. }
  exists res. split; [exact Hres|].
  exact (psweeps_marginal ops good sound ready pt L o factors ev special g0 Ho Gfac Hmk Hs Hrd g ks g' vrs res Hh TR TS E Hne Hn Hd Hres).
Qed.
End PAfter.
End PTot.
