(** Construction and processing never fail on a model with a positive assignment (C56), and the
    results of get_posterior_joint and get_marginal (C31, C32, C37). *)
From Verif Require Export GraphInv2 GraphTree.

Lemma sum_over_zero_at card vs (g : env -> R) (e : env) : NoDup vs -> (forall e e', (forall v, e v = e' v) -> g e = g e') ->
  (forall e, 0 <= g e)%R -> (forall v, In v vs -> e v < card v) -> sum_over card vs g e = 0%R -> g e = 0%R.
Proof.
  intros Hn Hext Hnn Hr H. rewrite sum_over_assign in H.
  pose proof (Rsum_zero_all (fun k => g (upds e vs k)) _ (fun k _ => Hnn _) H (map e vs)) as K. cbn beta in K. rewrite <- K.
  - apply Hext. intros v. destruct (in_dec string_dec v vs) as [I|I].
    + symmetry. apply (map_env_inj vs); [|exact I]. apply map_upds; [exact Hn|apply map_length].
    + symmetry. now apply upds_other.
  - apply In_assign_range. apply Forall2_map_self. exact Hr.
Qed.

Lemma In_Forall2_r {A B} (P : A -> B -> Prop) l m y : Forall2 P l m -> In y m -> exists x, In x l /\ P x y.
Proof.
  induction 1 as [|x y' l m Hxy _ IH]; intros Hy; [destruct Hy|]. destruct Hy as [<-|Hy]; [exists x; split; [left; reflexivity|exact Hxy]|].
  destruct (IH Hy) as (x' & H1 & H2). exists x'. split; [right; exact H1|exact H2].
Qed.

Definition all_sent {F V} (g : cgraph F V) : Prop := forall k p, nth_error (g_paths g) k = Some p -> p_prev p <> None.
Definition some_unsent {F V} (g : cgraph F V) : Prop := exists k p, nth_error (g_paths g) k = Some p /\ p_prev p = None.
Lemma foldM_map_fac {F V W} (ops : fops F W) (cs : list (cluster F V)) : forall a,
  foldM (fun acc c => f_mul ops acc (cl_fac c)) cs a = foldM (fun acc f => f_mul ops acc f) (map cl_fac cs) a.
Proof. induction cs as [|c cs IH]; intros a; cbn [foldM map]; [reflexivity|]. destruct (f_mul ops a (cl_fac c)); cbn [bind]; auto. Qed.

Section Run.
Context {F : Type} (ops : fops F nat) (card : string -> nat) (good : F -> Prop) (pt : F -> env -> R).
Hypothesis L : lawful ops card good pt.

(** ** Construction *)
Section Make.
Context (o : oracle) (final : list F) (ev : option (dict string nat)) (special : dict string nat).
Hypothesis Ho : oracle_ok o.
Hypothesis Gfin : forall f, In f final -> good f.
Variable e0 : env.
Hypothesis He0 : agrees special e0.
Hypothesis Hpos : forall f, In f final -> pt f e0 <> 0%R.
Let sepf := graph_sep o (map (f_vars ops) final) (all_evidence ev special).

Lemma new_path_ok i f c cj a b S : nth_error final i = Some f -> cl_fac c = f ->
  cl_spec c = cl_spec (new_cluster ops special (i, f)) -> cl_recv c = [] ->
  dget (cl_seps c) (cl_id cj) = Some S -> NoDup S -> S <> [] ->
  (forall v, In v S -> In v (f_vars ops f) /\ ~ In v (dkeys special)) ->
  exists p, new_path ops c cj a b = Ok p.
Proof.
  intros Hf Hfac Hsp Hr HS Hn Hne Hin. assert (G : good f) by (apply Gfin; eapply nth_error_In; eauto).
  assert (Hp : pt f e0 <> 0%R) by (apply Hpos; eapply nth_error_In; eauto).
  destruct (cluster_reduce ops card good pt L final special Gfin e0 He0 i f c Hf Hsp) as (f1 & H1).
  { rewrite Hfac. split; [exact G|tauto]. }
  { now rewrite Hfac. }
  unfold new_path, make_message, dget_r. rewrite HS. cbn [bind]. rewrite H1. cbn [bind].
  destruct (spec_of_cluster ops card good pt L special i f G) as (N1 & N2 & N3 & N4). rewrite Hsp, Hfac in H1.
  destruct (lw_reduce _ _ _ _ L f _ _ f1 G N1 (fun v Hv => proj1 (proj1 (N2 v) Hv)) N3 H1) as (R1 & R2 & R3).
  assert (Hin1 : incl S (f_vars ops f1)).
  { intros v Hv. apply R2. destruct (Hin v Hv) as [H2 H3]. split; [exact H2|]. intros C. apply N2 in C. tauto. }
  destruct (lw_marg _ _ _ _ L f1 S R1 Hn Hin1) as (f2 & M1 & M2 & M3 & M4). rewrite M1. cbn [bind]. rewrite Hr. cbn [dget].
  assert (P1 : pt f1 e0 <> 0%R) by (rewrite R3; auto).
  assert (P2 : pt f2 e0 <> 0%R).
  { set (rem := filter (fun v => negb (mem v S)) (f_vars ops f1)).
    rewrite (M4 rem e0).
    - intros C. apply P1.
      assert (Hs : forall v, In v rem -> e0 v < card v).
      { intros v Hv. apply (lw_range _ _ _ _ L f1 e0 R1 P1). unfold rem in Hv. apply filter_In in Hv. tauto. }
      apply (sum_over_zero_at card rem (pt f1) e0); auto.
      + apply NoDup_filter. apply (lw_nodup _ _ _ _ L f1 R1).
      + intros e e' He. apply (lw_ext _ _ _ _ L f1 e e' R1). auto.
      + intros e. apply (lw_nonneg _ _ _ _ L f1 e R1).
    - apply NoDup_filter. apply (lw_nodup _ _ _ _ L f1 R1).
    - intros v. unfold rem. rewrite filter_In. rewrite negb_true_iff, mem_nIn. tauto. }
  cbn [bind info_gain m_fac].
  destruct (lw_dist _ _ _ _ L f2 M2) as (d & D & _).
  - destruct S as [|v S']; [congruence|]. intros C. pose proof (proj2 (M3 v) (or_introl eq_refl)) as H. rewrite C in H. destruct H.
  - eauto.
  - rewrite D. cbn [bind]. eauto.
Qed.

Lemma link_some cls0 D g i j : cls0 = map (new_cluster ops special) (enum final) -> i < j -> j < length cls0 ->
  let d := rip_sepsets o (map (f_vars ops) final) (all_evidence ev special) in
  build_ok ops d cls0 special D g -> exists g', link_pair ops d g (i, j) = Ok g'.
Proof.
  intros Hcls Hij Hj d B. pose proof (core_length ops _ _ _ _ _ B) as Hlen. unfold link_pair.
  destruct (dget d (i, j)) as [S|] eqn:ES; [|eauto].
  assert (HS : sepf i j = Some S).
  { unfold sepf, graph_sep. rewrite (proj2 (Nat.ltb_lt i j) Hij). unfold d in ES. now rewrite rip_lookup in ES. }
  assert (Hne : S <> []) by (intros ->; revert HS; apply graph_sep_none_empty).
  assert (Hl : Nat.ltb 0 (length S) = true) by (destruct S; [congruence|reflexivity]).
  rewrite Hl. cbn [py_assert bind].
  destruct (py_nth_ok (g_cl g) i) as (ci & Ei & Hi); [lia|]. destruct (py_nth_ok (g_cl g) j) as (cj & Ej & Hjn); [lia|].
  rewrite Ei, Ej. cbn [bind]. unfold add_neighbour. rewrite Hl. cbn [py_assert bind].
  assert (Hc : forall k c, nth_error (g_cl g) k = Some c -> exists f, nth_error final k = Some f /\ cl_fac c = f /\
     cl_spec c = cl_spec (new_cluster ops special (k, f)) /\ cl_recv c = []).
  { intros k c Hk. pose proof (f_equal (fun l => nth_error l k) (bo_core _ _ _ _ _ _ B)) as E. cbn beta in E. rewrite Hcls in E.
    rewrite !nth_error_map, nth_error_enum, Hk in E. destruct (nth_error final k) as [f|]; cbn [option_map] in E; [|discriminate].
    exists f. split; [reflexivity|]. unfold core in E. rewrite new_cluster_fac in E. inversion E.
    repeat split; auto. apply (bo_recv _ _ _ _ _ _ B k c Hk). }
  destruct (Hc i ci Hi) as (fi & I1 & I2 & I3 & I4). destruct (Hc j cj Hjn) as (fj & J1 & J2 & J3 & J4).
  assert (HIn : forall v, In v S -> (In v (f_vars ops fi) /\ ~ In v (dkeys special)) /\ (In v (f_vars ops fj) /\ ~ In v (dkeys special))).
  { intros v Hv. destruct (sepf_In ops o final ev special Ho i j S v HS Hv) as (K1 & K2 & K3). auto. }
  match goal with |- context [new_path ops ?a ?b i j] => destruct (new_path_ok i fi a b i j S) as (p1 & P1) end; cbn; auto.
  { now rewrite dget_dset_eq. }
  { eapply graph_sep_NoDup; eauto. }
  { intros v Hv. apply HIn; exact Hv. }
  rewrite P1. cbn [bind].
  match goal with |- context [new_path ops ?a ?b j i] => destruct (new_path_ok j fj a b j i S) as (p2 & P2) end; cbn; auto.
  { now rewrite dget_dset_eq. }
  { eapply graph_sep_NoDup; eauto. }
  { intros v Hv. apply HIn; exact Hv. }
  rewrite P2. cbn [bind].
  match goal with |- context [list_set (g_cl g) i ?x] => destruct (list_set_spec (g_cl g) i x) as (l1 & L1 & L2 & _); [lia|] end.
  rewrite L1. cbn [bind].
  match goal with |- context [list_set l1 j ?x] => destruct (list_set_spec l1 j x) as (l2 & L3 & _); [lia|] end.
  rewrite L3. cbn [bind]. eauto.
Qed.
Lemma build_some : exists g, build_graph ops o (map (new_cluster ops special) (enum final)) special (all_evidence ev special) = Ok g.
Proof.
  unfold build_graph. rewrite (proj2 (nodupb_iff _) (ids_unique ops special final)).
  cbn [negb raise_if bind]. rewrite new_cluster_scopes. rewrite map_length, enum_length.
  set (cls0 := map (new_cluster ops special) (enum final)). set (d := rip_sepsets _ _ _).
  assert (G : forall l D g, (forall i j, In (i, j) l -> i < j /\ j < length cls0) -> NoDup (D ++ l) ->
    build_ok ops d cls0 special D g -> exists g', foldM (link_pair ops d) l g = Ok g').
  { induction l as [|[i j] l IH]; intros D g Hl Hn B; cbn [foldM]; [eauto|].
    destruct (Hl i j (or_introl eq_refl)) as [Hij Hj].
    destruct (link_some cls0 D g i j eq_refl Hij Hj B) as (g1 & H1). fold d in H1. rewrite H1. cbn [bind].
    apply (IH (D ++ [(i, j)]) g1); [intros; apply Hl; right; assumption| |].
    - rewrite <- app_assoc. exact Hn.
    - eapply link_pair_ok; eauto. intros C. apply NoDup_app_elim in Hn. destruct Hn as (_ & _ & Hd).
      apply (Hd (i, j)); [exact C|left; reflexivity]. }
  apply (G (pairs (length final)) []).
  - intros i j Hij. apply pairs_lt in Hij. unfold cls0. rewrite map_length, enum_length. lia.
  - apply pairs_NoDup.
  - apply build_start; [apply ids_unique|]. intros c Hc. eapply new_cluster_empty; eauto.
Qed.
End Make.

(** A model with a positive assignment consistent with all evidence. *)
Definition has_positive (factors : list F) (ev : option (dict string nat)) (special : dict string nat) (e0 : env) : Prop :=
  agrees_opt ev e0 /\ agrees special e0 /\ forall f, In f factors -> pt f e0 <> 0%R.

Lemma reduce_some factors ev e0 : (forall f, In f factors -> good f) -> agrees_opt ev e0 ->
  (forall f, In f factors -> pt f e0 <> 0%R) -> exists reduced, evidence_reduce ops factors ev = Ok reduced.
Proof.
  intros Hg Ha Hp. unfold evidence_reduce. apply mapM_exists. intros f Hf. destruct ev as [d|]; [|eauto].
  destruct (subset_evidence d (f_vars ops f)) as [vrs values] eqn:E. destruct (Nat.ltb 0 (length vrs)); [|eauto].
  pose proof (lw_nodup _ _ _ _ L f (Hg f Hf)) as Hn.
  destruct (subset_evidence_spec d _ vrs values Hn E) as (E1 & E2 & E3).
  rewrite <- (subset_evidence_agrees d _ vrs values e0 Hn E Ha). apply (lw_reduce_ok _ _ _ _ L); auto.
  intros v Hv. now apply E2.
Qed.
Lemma final_pos o factors ev special reduced final g e0 : made ops o factors ev special reduced final g ->
  (forall f, In f factors -> good f) -> agrees_opt ev e0 -> (forall f, In f factors -> pt f e0 <> 0%R) ->
  forall f, In f final -> pt f e0 <> 0%R.
Proof.
  intros M Hg Ha Hp f Hf C. destruct (made_pt ops card good pt L o factors ev special reduced final g M Hg) as (_ & H & _).
  specialize (H e0 Ha). unfold prod_at in H. rewrite (Rprod_zero _ (pt f e0)) in H; [|apply in_map_iff; eauto|exact C].
  symmetry in H. revert H. apply Rprod_nonzero. intros x Hx. apply in_map_iff in Hx. destruct Hx as (h & <- & Hh). auto.
Qed.
Lemma mk_graph_some o factors ev special e0 : oracle_ok o -> (forall f, In f factors -> good f) ->
  has_positive factors ev special e0 -> exists g, mk_graph ops o factors ev special = Ok g.
Proof.
  intros Ho Hg (Ha & Hs & Hp). unfold mk_graph.
  destruct (reduce_some factors ev e0 Hg Ha Hp) as (reduced & Hr). rewrite Hr. cbn [bind].
  pose proof (evidence_reduce_pt ops card good pt L ev factors reduced Hg Hr) as HF.
  assert (Gr : forall f, In f reduced -> good f).
  { clear - HF. induction HF as [|f r fs rs (H1 & _) _ IH]; intros x Hx; [destruct Hx|]. destruct Hx as [<-|Hx]; auto. }
  destruct (absorb_succeeds ops card good pt L reduced Gr) as (final & Hf). rewrite Hf. cbn [bind].
  destruct (absorb_pt ops card good pt L reduced final Gr Hf) as (A1 & A2 & A3).
  apply (build_some o final ev special Ho A1 e0 Hs).
  intros f Hff C. assert (Z : prod_at pt final e0 = 0%R).
  { apply (Rprod_zero _ (pt f e0)); [apply in_map_iff; eauto|exact C]. }
  rewrite A2, (Forall2_prod ops good pt ev factors reduced HF e0 Ha) in Z. revert Z. apply Rprod_nonzero.
  intros x Hx. apply in_map_iff in Hx. destruct Hx as (h & <- & Hh). auto.
Qed.

(** ** Processing *)
Section Process.
Context (o : oracle) (final : list F) (ev : option (dict string nat)) (special : dict string nat).
Hypothesis Ho : oracle_ok o.
Hypothesis Gfin : forall f, In f final -> good f.
Notation Live := (live ops good pt o final ev special).
Notation Inv := (inv ops good pt o final ev special).
Let sepf := graph_sep o (map (f_vars ops) final) (all_evidence ev special).

Lemma inv_congr g h : g_cl g = g_cl h -> g_paths g = g_paths h -> Permutation (g_order h) (g_order g) -> Inv g -> Inv h.
Proof.
  intros E1 E2 HP [[S1 S2 S3 S4 S5 S6 S7] H2 H3 H4 H5 H6 H7].
  split; [split|..]; rewrite <- ?E1, <- ?E2; auto. etransitivity; eauto.
Qed.
Lemma live_congr g h : g_cl g = g_cl h -> g_paths g = g_paths h -> Permutation (g_order h) (g_order g) -> Live g -> Live h.
Proof.
  intros E1 E2 HP [IV SA]. split; [eapply inv_congr; eauto|eapply static_congr; eauto].
Qed.
Lemma live_step g k g' gain : Live g -> step_ok ops g k g' gain -> Live g'.
Proof.
  intros LV K. destruct (sk_pass _ _ _ _ _ K) as (g1 & Hp & E1 & E2).
  apply (live_congr g1 g'); auto.
  - rewrite (sk_order _ _ _ _ _ K). rewrite (proj1 (pass_path_order ops g k g1 Hp)). symmetry. apply sort_desc_perm.
  - exact (live_pass ops card good pt L o final ev special Ho Gfin g k g1 LV Hp).
Qed.
Lemma live_run g steps g' : Live g -> run ops g steps g' -> Live g' /\ (forall s k, In (s, k) steps -> Live s).
Proof.
  intros LV R. induction R as [g|g k g1 gain steps g' K R IH]; [split; [exact LV|intros s k []]|].
  destruct (IH (live_step g k g1 gain LV K)) as [I1 I2]. split; [exact I1|].
  intros s q [E|Hs]; [inversion E; subst; exact LV|eapply I2; eauto].
Qed.
Lemma live_sort g : Live g -> Live (sort_paths (reset_dists g)).
Proof. intros LV. apply (live_congr g); auto. cbn. symmetry. apply sort_desc_perm. Qed.

Section Pos.
Variable e0 : env.
Hypothesis He0 : agrees special e0.
Hypothesis Hpos : forall f, In f final -> pt f e0 <> 0%R.

Lemma step_some g : Live g -> g_paths g <> [] -> exists r, process_step ops g = Ok r.
Proof.
  intros LV Hne. pose proof (st_order _ _ (iv_struct _ _ _ _ _ _ _ _ (lv_inv _ _ _ _ _ _ _ _ LV))) as HP.
  unfold process_step. destruct (g_order g) as [|k rest] eqn:E.
  { apply Permutation_nil in HP. destruct (g_paths g); [congruence|discriminate]. }
  assert (Hk : k < length (g_paths g)).
  { assert (H : In k (seq 0 (length (g_paths g)))) by (apply (Permutation_in _ HP); left; reflexivity). apply in_seq in H. lia. }
  rewrite (py_nth_some (k :: rest) 0 k eq_refl). cbn [bind].
  destruct (pass_ok ops card good pt L o final ev special Ho Gfin e0 He0 Hpos g k LV Hk) as (g1 & H1). rewrite H1. cbn [bind].
  destruct (pass_path_order ops g k g1 H1) as (O1 & O2).
  destruct (pass_path_passed ops g k g1 (struct_out _ _ (sa_struct _ _ _ (lv_static _ _ _ _ _ _ _ _ LV))) H1) as (p & cr & cr' & P).
  pose proof (pa_plen _ _ _ _ _ _ _ P) as Hpl.
  cbn [sort_paths g_order g_paths].
  assert (Ho2 : forall q, In q (sort_desc vltb (gain_of (g_paths g1)) (g_order g1)) -> q < length (g_paths g1)).
  { intros q Hq. apply (Permutation_in _ (Permutation_sym (sort_desc_perm _ _ _))) in Hq. rewrite O1, E in Hq.
    apply (Permutation_in _ HP) in Hq. apply in_seq in Hq. lia. }
  destruct (sort_desc vltb (gain_of (g_paths g1)) (g_order g1)) as [|k' rest'] eqn:E'.
  { pose proof (sort_desc_perm vltb (gain_of (g_paths g1)) (g_order g1)) as HP'. rewrite E', O1, E in HP'.
    apply Permutation_sym, Permutation_nil in HP'. discriminate. }
  rewrite (py_nth_some (k' :: rest') 0 k' eq_refl). cbn [bind].
  destruct (py_nth_ok (g_paths g1) k') as (p' & Hp' & _); [apply Ho2; left; reflexivity|]. rewrite Hp'. cbn [bind]. eauto.
Qed.
Lemma loop_some tol n : forall g, Live g -> g_paths g <> [] -> exists g', process_loop ops tol n g = Ok g'.
Proof.
  induction n as [|n IH]; intros g LV Hne; cbn [process_loop]; [eauto|].
  destruct (step_some g LV Hne) as ([g1 gain] & H1). rewrite H1. cbn [bind fst snd].
  destruct (vleb gain (Fin tol)); [eauto|]. destruct (process_step_ok ops g g1 gain H1) as (k & K).
  apply IH; [eapply live_step; eauto|]. intros C. apply Hne. apply length_zero_iff_nil.
  rewrite <- (step_plen ops g k g1 gain K); [now rewrite C|]. exists sepf. apply (lv_static _ _ _ _ _ _ _ _ LV).
Qed.
(** process_graph succeeds; the single-cluster branch observes the special evidence directly. *)
Lemma process_some tol max_iter g : Live g -> g_spec g = special -> NoDup (dkeys special) ->
  (forall c, g_cl g = [c] -> incl (dkeys special) (f_vars ops (cl_fac c))) ->
  exists g', process_graph ops tol max_iter g = Ok g'.
Proof.
  intros LV Hsp Hnd Hone. unfold process_graph. cbn zeta.
  assert (Hloop : exists g', process_loop ops tol (max_iter * length (g_order (reset_dists g))) (sort_paths (reset_dists g)) = Ok g').
  { destruct (g_paths g) as [|p ps] eqn:E.
    - assert (H : g_order g = []).
      { pose proof (st_order _ _ (iv_struct _ _ _ _ _ _ _ _ (lv_inv _ _ _ _ _ _ _ _ LV))) as HP. rewrite E in HP. cbn in HP.
        now apply Permutation_sym, Permutation_nil in HP. }
      change (g_order (reset_dists g)) with (g_order g). rewrite H. cbn [length]. rewrite Nat.mul_0_r. cbn [process_loop]. eauto.
    - apply loop_some; [now apply live_sort|]. cbn. rewrite E. discriminate. }
  change (g_cl (reset_dists g)) with (g_cl g). destruct (g_cl g) as [|c [|c2 cs]] eqn:E; [exact Hloop| |exact Hloop].
  change (g_spec (reset_dists g)) with (g_spec g). rewrite Hsp. destruct special as [|kv sp] eqn:Es; [eauto|].
  assert (Hc : nth_error (g_cl g) 0 = Some c) by now rewrite E.
  pose proof (lv_inv _ _ _ _ _ _ _ _ LV) as IV.
  destruct (iv_cl _ _ _ _ _ _ _ _ IV 0 c Hc) as (f & _ & _ & (Gc & _) & _).
  assert (Hv : dvals (kv :: sp) = map e0 (dkeys (kv :: sp))).
  { unfold dvals, dkeys. rewrite map_map. apply map_ext_in. intros [k x] Hkx. cbn. symmetry. apply He0. now apply In_dget. }
  rewrite Hv. destruct (lw_reduce_ok _ _ _ _ L (cl_fac c) (dkeys (kv :: sp)) e0 Gc Hnd (Hone c eq_refl)) as (r & Hr).
  - exact (cluster_pos ops good pt o final ev (kv :: sp) e0 He0 Hpos g 0 c IV Hc).
  - rewrite Hr. cbn [bind]. eauto.
Qed.
End Pos.

(** ** get_posterior_joint *)
Lemma mul_all (fs : list F) : (forall f, In f fs -> good f) -> forall a, good a ->
  exists r, foldM (fun acc f => f_mul ops acc f) fs a = Ok r /\ good r /\
    (forall v, In v (f_vars ops r) <-> In v (f_vars ops a) \/ exists f, In f fs /\ In v (f_vars ops f)) /\
    (forall e, pt r e = (pt a e * prod_at pt fs e)%R).
Proof.
  induction fs as [|f fs IH]; intros Hg a Ha; cbn [foldM].
  - exists a. split; [reflexivity|]. split; [exact Ha|]. split.
    + intros v. split; [tauto|]. intros [C|(f & [] & _)]; exact C.
    + intros e. unfold prod_at. cbn. ring.
  - destruct (lw_mul _ _ _ _ L a f Ha (Hg f (or_introl eq_refl))) as (r1 & M1 & M2 & M3 & M4). rewrite M1. cbn [bind].
    destruct (IH (fun x Hx => Hg x (or_intror Hx)) r1 M2) as (r & R1 & R2 & R3 & R4). exists r.
    split; [exact R1|]. split; [exact R2|]. split.
    + intros v. rewrite R3, M3. split.
      * intros [[C|C]|(h & Hh & Hv)]; [left; exact C|right; exists f; split; [left; reflexivity|exact C]|].
        right. exists h. split; [right; exact Hh|exact Hv].
      * intros [C|(h & [<-|Hh] & Hv)]; [tauto|tauto|right; eauto].
    + intros e. rewrite R4, M4. unfold prod_at. cbn [map Rprod fold_right].
      fold (Rprod (map (fun f => pt f e) fs)). ring.
Qed.

Lemma joint_ok g : Inv g -> g_cl g <> [] -> all_sent g -> (g_paths g = [] -> g_passed g = 0) ->
  exists r, get_joint ops g = Ok r /\ good r /\
    (forall v, In v (f_vars ops r) <-> exists f, In f final /\ In v (f_vars ops f)) /\
    (forall e, agrees special e -> pt r e = prod_at pt final e).
Proof.
  intros IV Hne Has Hpass. pose proof (iv_struct _ _ _ _ _ _ _ _ IV) as ST.
  assert (Gcl : forall f, In f (map cl_fac (g_cl g)) -> good f).
  { intros f Hf. apply in_map_iff in Hf. destruct Hf as (c & <- & Hc). apply In_nth_error in Hc. destruct Hc as (i & Hc).
    destruct (iv_cl _ _ _ _ _ _ _ _ IV i c Hc) as (f & _ & _ & (Gc & _) & _). exact Gc. }
  assert (Hsc : forall v, (exists f, In f (map cl_fac (g_cl g)) /\ In v (f_vars ops f)) <-> exists f, In f final /\ In v (f_vars ops f)).
  { intros v. split.
    - intros (f & Hf & Hv). apply in_map_iff in Hf. destruct Hf as (c & <- & Hc). apply In_nth_error in Hc. destruct Hc as (i & Hc).
      destruct (iv_cl _ _ _ _ _ _ _ _ IV i c Hc) as (f & H1 & _ & (_ & H2) & _). exists f. split; [eapply nth_error_In; eauto|now apply H2].
    - intros (f & Hf & Hv). apply In_nth_error in Hf. destruct Hf as (i & Hf).
      assert (Hi : i < length (g_cl g)). { rewrite (iv_len _ _ _ _ _ _ _ _ IV). apply nth_error_Some. congruence. }
      destruct (nth_error (g_cl g) i) as [c|] eqn:Hc; [|apply nth_error_None in Hc; lia].
      destruct (iv_cl _ _ _ _ _ _ _ _ IV i c Hc) as (f' & H1 & _ & (_ & H2) & _). rewrite Hf in H1. inversion H1; subst f'.
      exists (cl_fac c). split; [apply in_map; eapply nth_error_In; eauto|now apply H2]. }
  unfold get_joint. destruct (g_cl g) as [|c cs] eqn:Ecl; [congruence|]. rewrite foldM_map_fac.
  destruct (mul_all (map cl_fac cs)) with (a := cl_fac c) as (r & R1 & R2 & R3 & R4).
  { intros f Hf. apply Gcl. right; exact Hf. }
  { apply Gcl. left; reflexivity. }
  rewrite R1. cbn [bind].
  assert (Rv : forall v, In v (f_vars ops r) <-> exists f, In f final /\ In v (f_vars ops f)).
  { intros v. rewrite <- Hsc, R3. cbn [map]. split.
    - intros [H|(f & Hf & Hv)]; [exists (cl_fac c); split; [left; reflexivity|exact H]|exists f; split; [right; exact Hf|exact Hv]].
    - intros (f & [<-|Hf] & Hv); [tauto|right; eauto]. }
  assert (Rp : forall e, pt r e = prod_at pt (map cl_fac (g_cl g)) e).
  { intros e. rewrite R4, Ecl. unfold prod_at. cbn [map Rprod fold_right]. reflexivity. }
  (* the messages *)
  assert (Hms : exists ms, last_messages g = Ok ms /\ Forall2 (fun k m => exists p mm, nth_error (g_paths g) k = Some p /\ p_prev p = Some mm /\ m = m_fac mm) (g_order g) ms).
  { unfold last_messages. pose proof (st_order _ _ ST) as HP.
    assert (G : forall l, (forall k, In k l -> k < length (g_paths g)) -> exists ms,
      mapM (fun k => let* p := py_nth (g_paths g) k in match p_prev p with Some m => Ok (m_fac m) | None => Err AttributeError end) l = Ok ms /\
      Forall2 (fun k m => exists p mm, nth_error (g_paths g) k = Some p /\ p_prev p = Some mm /\ m = m_fac mm) l ms).
    { induction l as [|k l IH]; intros Hl; cbn [mapM]; [exists []; auto|].
      destruct (py_nth_ok (g_paths g) k) as (p & Hp & Hpn); [apply Hl; left; reflexivity|]. rewrite Hp. cbn [bind].
      destruct (p_prev p) as [mm|] eqn:E; [|exfalso; exact (Has k p Hpn E)]. cbn [bind].
      destruct IH as (ms & M1 & M2); [intros; apply Hl; right; assumption|]. rewrite M1. cbn [bind].
      eexists. split; [reflexivity|]. constructor; eauto. }
    apply G. intros k Hk. apply (Permutation_in _ HP) in Hk. apply in_seq in Hk. lia. }
  destruct Hms as (ms & Hms & HF). rewrite Hms. cbn [bind].
  assert (Mg : forall m, In m ms -> good m /\ incl (f_vars ops m) (f_vars ops r)).
  { intros m Hm. destruct (In_Forall2_r _ _ _ m HF Hm) as (k & _ & p & mm & Hp & Hpm & ->).
    destruct (iv_prev _ _ _ _ _ _ _ _ IV k p mm Hp Hpm) as (S & HS & G & Hv). split; [exact G|].
    intros v Hvv. apply Hv in Hvv. destruct (sepf_In ops o final ev special Ho _ _ S v HS Hvv) as (K1 & _).
    destruct (path_ends ops good pt o final ev special g k p IV Hp) as (S' & ci & cj & fi & fj & q & kq & _ & _ & _ & _ & _ & Hfi & _).
    apply Rv. exists fi. split; [eapply nth_error_In; eauto|auto]. }
  assert (Mp : forall e, prod_at pt ms e = Rprod (map (fun p => pm pt p e) (g_paths g))).
  { intros e. unfold prod_at. transitivity (Rprod (map (fun k => match nth_error (g_paths g) k with Some p => pm pt p e | None => 1%R end) (g_order g))).
    - clear - HF. induction HF as [|k m l ms (p & mm & Hp & Hpm & ->) _ IH]; cbn [map Rprod fold_right]; [reflexivity|].
      unfold Rprod in IH. rewrite IH, Hp. unfold pm. now rewrite Hpm.
    - rewrite (Rprod_perm _ _ (Permutation_map _ (st_order _ _ ST))). f_equal. apply nth_error_ext. intros j. rewrite !nth_error_map.
      destruct (le_lt_dec (length (g_paths g)) j) as [Hj|Hj].
      + rewrite (proj2 (nth_error_None _ j) Hj). rewrite (proj2 (nth_error_None (seq 0 (length (g_paths g))) j)); [reflexivity|].
        now rewrite seq_length.
      + rewrite (nth_error_nth' (seq 0 (length (g_paths g))) 0) by now rewrite seq_length. rewrite seq_nth by exact Hj. cbn.
        destruct (nth_error (g_paths g) j) eqn:E; [reflexivity|]. apply nth_error_None in E. lia. }
  destruct ms as [|m ms'].
  - inversion HF as [E|]. assert (Hp0 : g_paths g = []).
    { pose proof (st_order _ _ ST) as HP. rewrite <- E in HP. apply Permutation_nil in HP. destruct (g_paths g); [reflexivity|discriminate]. }
    rewrite (Hpass Hp0). cbn [Nat.eqb py_assert bind]. exists r. split; [reflexivity|]. split; [exact R2|]. split; [exact Rv|].
    intros e _. rewrite Rp, (joint_product ops good pt o final ev special g e IV), Hp0. cbn. ring.
  - destruct (mul_all ms') with (a := m) as (mp & P1 & P2 & P3 & P4).
    { intros x Hx. apply (Mg x). right; exact Hx. }
    { apply (Mg m). left; reflexivity. }
    rewrite P1. cbn [bind].
    assert (Pe : forall e, pt mp e = Rprod (map (fun p => pm pt p e) (g_paths g))).
    { intros e. rewrite P4, <- Mp. reflexivity. }
    destruct (lw_cancel _ _ _ _ L r mp R2 P2) as (q & Q1 & Q2 & Q3 & Q4).
    + intros v Hv. apply P3 in Hv. destruct Hv as [Hv|(x & Hx & Hv)]; [apply (Mg m); [left; reflexivity|exact Hv]|].
      apply (Mg x); [right; exact Hx|exact Hv].
    + intros e He. rewrite Rp, (joint_product ops good pt o final ev special g e IV), <- Pe, He. ring.
    + exists q. split; [exact Q1|]. split; [exact Q2|]. split; [intros v; rewrite Q3; apply Rv|].
      intros e Ha. rewrite Q4. rewrite <- (joint_quotient ops good pt o final ev special g e IV Ha). cbn zeta.
      rewrite <- Pe, <- Rp. reflexivity.
Qed.
Lemma joint_fails g : Inv g -> some_unsent g -> get_joint ops g = Err AttributeError.
Proof.
  intros IV (k & p & Hp & Hn). pose proof (iv_struct _ _ _ _ _ _ _ _ IV) as ST.
  destruct (path_ends ops good pt o final ev special g k p IV Hp) as (S' & ci & cj & fi & fj & q & kq & _ & _ & _ & Hi & _).
  unfold get_joint. destruct (g_cl g) as [|c cs] eqn:Ecl; [destruct (p_snd p); discriminate|].
  rewrite foldM_map_fac. rewrite <- Ecl in Hi.
  assert (Gcl : forall f, In f (map cl_fac (g_cl g)) -> good f).
  { intros f Hf. apply in_map_iff in Hf. destruct Hf as (c' & <- & Hc). apply In_nth_error in Hc. destruct Hc as (i & Hc).
    destruct (iv_cl _ _ _ _ _ _ _ _ IV i c' Hc) as (f & _ & _ & (Gc & _) & _). exact Gc. }
  rewrite Ecl in Gcl. destruct (mul_all (map cl_fac cs)) with (a := cl_fac c) as (r & R1 & _).
  { intros f Hf. apply Gcl. right; exact Hf. }
  { apply Gcl. left; reflexivity. }
  rewrite R1. cbn [bind]. assert (E : last_messages g = Err AttributeError); [|now rewrite E].
  unfold last_messages. pose proof (st_order _ _ ST) as HP.
  assert (Hk : In k (g_order g)).
  { apply (Permutation_in _ (Permutation_sym HP)). apply in_seq. split; [lia|]. apply nth_error_Some. congruence. }
  assert (Hl : forall j, In j (g_order g) -> j < length (g_paths g)).
  { intros j Hj. apply (Permutation_in _ HP) in Hj. apply in_seq in Hj. lia. }
  revert Hk Hl. clear - Hp Hn. induction (g_order g) as [|j l IH]; intros Hk Hl; [destruct Hk|]. cbn [mapM].
  destruct (py_nth_ok (g_paths g) j) as (pj & Hpj & Hpn); [apply Hl; left; reflexivity|]. rewrite Hpj. cbn [bind].
  destruct (p_prev pj) as [mm|] eqn:E; [|reflexivity]. cbn [bind].
  destruct Hk as [->|Hk]; [congruence|]. rewrite IH; auto. intros; apply Hl; right; assumption.
Qed.
End Process.
End Run.
