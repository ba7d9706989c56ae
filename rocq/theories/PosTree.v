(** A calibrated tree of positive potentials gives the integrals of their product. *)
From Verif Require Export PosGraph JunctionTree.
From Verif Require LinGauss.
#[global] Set Bullet Behavior "Strict Subproofs".
Local Open Scope nat_scope.

Section PosJunction.
Context {F : Type} (ops : fops F R) (good sound ready : F -> Prop) (pt : F -> renv -> R).
Hypothesis L : plaws ops good sound ready pt.
Context (E : nat -> nat -> Prop) (r : nat) (U : nat -> list string) (psi : nat -> renv -> R)
        (sep : nat -> nat -> list string) (sg : nat -> nat -> renv -> R).
Hypothesis Unodup : forall i, NoDup (U i).
Hypothesis psi_ext : forall i e e', (forall v, In v (U i) -> e v = e' v) -> psi i e = psi i e'.
Hypothesis psi_pos : forall i e, (0 < psi i e)%R.
Hypothesis sep_incl : forall i j v, E i j -> In v (sep i j) -> In v (U i) /\ In v (U j).
Hypothesis sg_ext : forall i j e e', E i j -> (forall v, In v (sep i j) -> e v = e' v) -> sg i j e = sg i j e'.
Hypothesis sg_pos : forall i j e, (0 < sg i j e)%R.
Hypothesis Esym : forall i j, E i j -> E j i.
Hypothesis calib : forall i j, E i j ->
  summ (psi i) (private U sep i j) /\ forall e, iint (private U sep i j) (psi i) e (sg i j e).

Let tord := tree_order E r.
Let vts := verts r.
Fixpoint PQ (o : list (nat * nat)) (e : renv) : R :=
  match o with
  | [] => psi r e
  | (l, p) :: o' => (PQ o' e * / sg l p e * psi l e)%R
  end.
Lemma PQ_pos o e : (0 < PQ o e)%R.
Proof.
  induction o as [|[l p] o IH]; cbn [PQ]; [apply psi_pos|]. apply Rmult_lt_0_compat; [|apply psi_pos].
  apply Rmult_lt_0_compat; [exact IH|]. apply Rinv_0_lt_compat, sg_pos.
Qed.
Lemma PQ_ext o : tord o -> forall e e', (forall v x, In x (vts o) -> In v (U x) -> e v = e' v) -> PQ o e = PQ o e'.
Proof.
  induction o as [|[l p] o IH]; cbn [PQ]; intros T e e' H.
  - apply psi_ext. intros v Hv. apply (H v r); [left; reflexivity|exact Hv].
  - destruct T as (T1 & T2 & T3 & T4 & T5). rewrite (IH T1 e e'), (sg_ext l p e e' T4), (psi_ext l e e'); [reflexivity| | |].
    + intros v Hv. apply (H v l); [left; reflexivity|exact Hv].
    + intros v Hv. apply (H v l); [left; reflexivity|]. now apply (sep_incl l p v T4).
    + intros v x Hx Hv. apply (H v x); [right; exact Hx|exact Hv].
Qed.
Lemma PQ_product o e :
  PQ o e = (Rprod (map (fun i => psi i e) (vts o)) * / Rprod (map (fun lp => sg (fst lp) (snd lp) e) o))%R.
Proof.
  induction o as [|[l p] o IH]; cbn [PQ map fst snd].
  - unfold vts, verts. cbn [map app Rprod fold_right]. field.
  - unfold vts, verts. cbn [map app fst]. rewrite !Rprod_cons, Rinv_mult, IH. fold (verts r o) (vts o). ring.
Qed.

(** Eliminating the leaves one after the other. *)
Lemma tree_int v0 o : In v0 (U r) -> tord o -> rip E U sep (vts o) -> forall f rem, good f ->
  (forall v, In v (f_vars ops f) <-> exists x, In x (vts o) /\ In v (U x)) -> (forall e, pt f e = PQ o e) -> NoDup rem ->
  (forall v, In v rem <-> (exists x, In x (vts o) /\ In v (U x)) /\ ~ In v (U r)) ->
  summ (pt f) rem /\ forall e, iint rem (pt f) e (psi r e).
Proof.
  intros Hv0. induction o as [|[l p] o IH]; intros T R f rem Gf Vf Pf Hn Hrem.
  - assert (rem = []).
    { destruct rem as [|v rem]; [reflexivity|]. exfalso. destruct (proj1 (Hrem v) (or_introl eq_refl)) as ((x & Hx & Hv) & Hnv).
      destruct Hx as [<-|[]]. contradiction. }
    subst rem. split.
    + intros x Hx (v & Hv). exfalso. apply Hv, Hx. intros [].
    + intros e. cbn. rewrite Pf. reflexivity.
  - pose proof T as (T1 & T2 & T3 & T4 & T5). destruct (rip_leaf E r U sep Esym l p o T R) as [R1 RL]. fold vts in R1, RL.
    set (pv := private U sep l p) in *.
    assert (Hpv : forall v, In v pv <-> In v (U l) /\ ~ In v (sep l p)) by (intros v; apply In_private).
    assert (Npv : NoDup pv) by (apply NoDup_filter, Unodup).
    assert (Hroot : In r (vts o)) by (unfold vts, verts; apply in_or_app; right; left; reflexivity).
    assert (Hout : forall v x, In x (vts o) -> In v (U x) -> ~ In v pv).
    { intros v x Hx Hv C. apply Hpv in C. apply C. exact (RL v x Hx (proj1 C) Hv). }
    destruct (calib l p T4) as [C1 C2]. fold pv in C1, C2.
    assert (Bext : forall e e', (forall v, ~ In v pv -> e v = e' v) -> (PQ o e * / sg l p e = PQ o e' * / sg l p e')%R).
    { intros e e' He. rewrite (PQ_ext o T1 e e'), (sg_ext l p e e' T4); [reflexivity| |].
      - intros v Hv. apply He. intros C. apply Hpv in C. tauto.
      - intros v x Hx Hv. apply He. exact (Hout v x Hx Hv). }
    assert (S1 : summ (pt f) pv).
    { apply (summ_mul (pt f) (psi l) (fun e => PQ o e * / sg l p e)%R pv); [apply psi_pos| |exact Bext| |exact C1].
      - intros e. apply Rmult_lt_0_compat; [apply PQ_pos|apply Rinv_0_lt_compat, sg_pos].
      - intros e. rewrite Pf. cbn [PQ]. ring. }
    assert (Ipv : incl pv (f_vars ops f)).
    { intros v Hv. apply Vf. exists l. split; [left; reflexivity|]. now apply Hpv. }
    assert (Hv0f : In v0 (f_vars ops f)) by (apply Vf; exists r; split; [right; exact Hroot|exact Hv0]).
    destruct (pl_int _ _ _ _ _ L f pv v0 Gf Npv Ipv Hv0f (Hout v0 r Hroot Hv0) S1) as (h & Gh & Vh & Ih).
    assert (Ph : forall e, pt h e = PQ o e).
    { intros e. apply (iint_unique pv (pt f) e _ _ (Ih pv e (Permutation_refl _))).
      apply (iint_ext pv (fun e => (PQ o e * / sg l p e) * psi l e)%R); [intros e'; now rewrite Pf|].
      assert (W : PQ o e = ((PQ o e * / sg l p e) * sg l p e)%R) by (field; apply Rgt_not_eq, sg_pos).
      rewrite W. apply (iint_scal pv (fun e => PQ o e * / sg l p e)%R (psi l) e (sg l p e)); [|apply C2].
      intros y Hy e1 t. apply Bext. intros v Hv. apply setv_other. congruence. }
    set (rem_o := filter (fun v => negb (mem v pv)) rem).
    assert (Hro : forall v, In v rem_o <-> In v rem /\ ~ In v pv).
    { intros v. unfold rem_o. rewrite filter_In, negb_true_iff, mem_nIn. tauto. }
    assert (Vh' : forall v, In v (f_vars ops h) <-> exists x, In x (vts o) /\ In v (U x)).
    { intros v. rewrite Vh, Vf. split.
      - intros ((x & Hx & Hv) & Hnp). destruct Hx as [<-|Hx]; [|eauto]. cbn [fst] in Hv. rewrite Hpv in Hnp.
        destruct (in_dec string_dec v (sep l p)) as [I|I]; [|tauto]. exists p. split; [exact T2|]. now apply (sep_incl l p v T4).
      - intros (x & Hx & Hv). split; [exists x; split; [right; exact Hx|exact Hv]|exact (Hout v x Hx Hv)]. }
    destruct (IH T1 R1 h rem_o Gh Vh' Ph (NoDup_filter _ _ Hn)) as [S2 I2].
    { intros v. rewrite Hro, Hrem, <- Vh', Vh, Vf. tauto. }
    assert (SA : summ (pt f) (rem_o ++ pv)).
    { apply (pl_app _ _ _ _ _ L f h rem_o pv Gf Gh Npv Ipv Vh S1); auto.
      intros v Hv. apply Vh. apply Hro in Hv. destruct Hv as [A B]. split; [|exact B]. apply Vf. now apply Hrem in A. }
    assert (HP : Permutation (rem_o ++ pv) rem).
    { symmetry. apply NoDup_Permutation; [exact Hn| |].
      - apply NoDup_app_intro; [now apply NoDup_filter|exact Npv|]. intros v H1 H2. apply Hro in H1. tauto.
      - intros v. rewrite in_app_iff, Hro. split.
        + intros Hv. destruct (in_dec string_dec v pv); tauto.
        + intros [[H _]|H]; [exact H|]. apply Hrem. split.
          * exists l. split; [left; reflexivity|]. now apply Hpv.
          * intros C. exact (Hout v r Hroot C H). }
    assert (SR : summ (pt f) rem).
    { apply (summ_same (pt f) (rem_o ++ pv)); [|exact SA]. intros v. split; apply Permutation_in; [now symmetry|exact HP]. }
    split; [exact SR|].
    assert (Ir : incl rem (f_vars ops f)) by (intros v Hv; apply Vf; now apply Hrem in Hv).
    assert (N0 : ~ In v0 rem) by (intros C; apply Hrem in C; tauto).
    destruct (pl_int _ _ _ _ _ L f rem v0 Gf Hn Ir Hv0f N0 SR) as (h2 & _ & _ & I3).
    intros e. replace (psi r e) with (pt h2 e); [apply I3, Permutation_refl|].
    apply (iint_unique (rem_o ++ pv) (pt f) e _ _ (I3 _ e HP)).
    apply (iint_app rem_o pv (pt f) (pt h)); [intros e'; apply Ih, Permutation_refl|apply I2].
Qed.
End PosJunction.

Section PosCalib.
Context {F : Type} (ops : fops F R) (good sound ready : F -> Prop) (pt : F -> renv -> R).
Hypothesis L : plaws ops good sound ready pt.
Context (o : oracle) (factors reduced final : list F) (ev : option (dict string R)) (special : dict string R) (g0 : cgraph F R).
Hypothesis Ho : oracle_ok o.
Hypothesis Gfac : forall f, In f factors -> good f.
Hypothesis M : made ops o factors ev special reduced final g0.
Hypothesis Hsound : forall i f r, nth_error final i = Some f ->
  f_reduce ops f (dkeys (spec_at ops special i f)) (dvals (spec_at ops special i f)) = Ok r -> sound r.
Hypothesis Hready : forall f, In f final -> ready f.
Let scopes := map (f_vars ops) final.
Let sepf := graph_sep o scopes (all_evidence ev special).
Notation Inv := (pinv ops good sound ready pt o final ev special).
Notation Live := (plive ops good sound ready pt o final ev special).
Let PL := pl_prod _ _ _ _ _ L.
Let Gfin : forall f, In f final -> good f := proj1 (made_pt_g ops good pt PL o factors ev special reduced final g0 M Gfac).

(** Calibrated: every waiting message is the last one sent. *)
Definition psettled (g : cgraph F R) : Prop :=
  forall k p e, nth_error (g_paths g) k = Some p -> pt (m_fac (p_next p)) e = pmsg pt p e.

Section State.
Context (g : cgraph F R).
Hypothesis LV : Live g.
Hypothesis TR : tree_shaped g.
Hypothesis ST : psettled g.
Let IV : Inv g := pv_inv _ _ _ _ _ _ _ _ _ _ LV.
Let Str : struct_ok sepf g := pi_struct _ _ _ _ _ _ _ _ _ _ IV.

Let n := length final.
Let E (i j : nat) : Prop := linked g i j.
Definition pU (i : nat) : list string :=
  match nth_error final i with Some f => filter (fun v => negb (mem v (dkeys special))) (f_vars ops f) | None => [] end.
Definition ppsi (i : nat) (e : renv) : R :=
  match nth_error (g_cl g) i with Some ci => pt (cl_fac ci) (over special e) | None => 1%R end.
Definition psep (i j : nat) : list string := match sepf i j with Some s => s | None => [] end.
Definition pmu (i j : nat) (e : renv) : R :=
  Rprod (map (fun p => if pair_dec (p_snd p, p_rcv p) (i, j) then pmsg pt p e else 1%R) (g_paths g)).
Definition psg (i j : nat) (e : renv) : R := (pmu i j e * pmu j i e)%R.

Lemma pE_sep i j : E i j <-> exists S, sepf i j = Some S.
Proof.
  split.
  - intros (k & p & H1 & <- & <-). exact (st_path _ _ Str k p H1).
  - intros (S & HS). destruct (st_edge _ _ Str i j S HS) as (_ & _ & _ & _ & _ & k & p & H1 & H2 & H3). exists k, p. auto.
Qed.
Lemma pE_sym i j : E i j -> E j i.
Proof. intros H. apply pE_sep in H. destruct H as (S & HS). apply pE_sep. exists S. unfold sepf in *. now rewrite graph_sep_sym. Qed.
Lemma plen_final : length (g_cl g) = n.
Proof. apply (pi_len _ _ _ _ _ _ _ _ _ _ IV). Qed.
Lemma pE_range i j : E i j -> i < n /\ j < n /\ i <> j.
Proof.
  intros H. apply pE_sep in H. destruct H as (S & HS). destruct (st_edge _ _ Str i j S HS) as (H1 & H2 & H3 & _).
  rewrite plen_final in *. auto.
Qed.
Lemma In_pU i f v : nth_error final i = Some f -> (In v (pU i) <-> In v (f_vars ops f) /\ ~ In v (dkeys special)).
Proof. intros Hf. unfold pU. rewrite Hf, filter_In, negb_true_iff, mem_nIn. tauto. Qed.
Lemma pU_final i v : In v (pU i) -> exists f, nth_error final i = Some f.
Proof. unfold pU. destruct (nth_error final i) as [f|]; [eauto|intros []]. Qed.
Lemma pU_NoDup i : NoDup (pU i).
Proof.
  unfold pU. destruct (nth_error final i) as [f|] eqn:E0; [|constructor]. apply NoDup_filter.
  apply (pr_nodup _ _ _ PL). apply Gfin. eapply nth_error_In; eauto.
Qed.
Lemma pcluster_at i ci : nth_error (g_cl g) i = Some ci -> exists f, nth_error final i = Some f /\ good (cl_fac ci) /\
  (forall v, In v (f_vars ops (cl_fac ci)) <-> In v (f_vars ops f)) /\ cl_spec ci = spec_at ops special i f.
Proof.
  intros H. destruct (pi_cl _ _ _ _ _ _ _ _ _ _ IV i ci H) as (f & H1 & H2 & (H3 & H4) & _). exists f. auto.
Qed.
Lemma ppsi_ext i e e' : (forall v, In v (pU i) -> e v = e' v) -> ppsi i e = ppsi i e'.
Proof.
  intros H. unfold ppsi. destruct (nth_error (g_cl g) i) as [ci|] eqn:Ei; [|reflexivity].
  destruct (pcluster_at i ci Ei) as (f & Hf & Gc & Hv & _). apply (pl_ext _ _ _ _ _ L); [exact Gc|].
  intros v Hvv. destruct (in_dec string_dec v (dkeys special)) as [I|I]; [now apply over_in|].
  rewrite !over_other by exact I. apply H. apply (In_pU i f v Hf). split; [now apply Hv|exact I].
Qed.
Lemma ppsi_pos i e : (0 < ppsi i e)%R.
Proof.
  unfold ppsi. destruct (nth_error (g_cl g) i) as [ci|] eqn:Ei; [|lra].
  destruct (pcluster_at i ci Ei) as (f & Hf & Gc & _). apply (pl_pos _ _ _ _ _ L); exact Gc.
Qed.
Lemma psep_incl i j v : E i j -> In v (psep i j) -> In v (pU i) /\ In v (pU j).
Proof.
  intros H Hv. apply pE_sep in H. destruct H as (S & HS). unfold psep in Hv. rewrite HS in Hv.
  destruct (psep_In ops o final ev special Ho i j S v HS Hv) as (H1 & H2 & H3).
  destruct (st_edge _ _ Str i j S HS) as (L1 & L2 & _). rewrite plen_final in *. unfold n in *.
  destruct (nth_error final i) as [fi|] eqn:Ei; [|apply nth_error_None in Ei; lia].
  destruct (nth_error final j) as [fj|] eqn:Ej; [|apply nth_error_None in Ej; lia].
  split; [apply (In_pU i fi v Ei)|apply (In_pU j fj v Ej)]; auto.
Qed.
Lemma psep_swap i j v : In v (psep i j) <-> In v (psep j i).
Proof. unfold psep, sepf. now rewrite graph_sep_sym. Qed.
Lemma psep_some i j : E i j -> exists v, In v (pU i).
Proof.
  intros H. pose proof H as H0. apply pE_sep in H. destruct H as (S & HS). destruct S as [|v S]; [exfalso; revert HS; apply graph_sep_none_empty|].
  exists v. apply (psep_incl i j v H0). unfold psep. rewrite HS. left; reflexivity.
Qed.
Lemma pmsg_same k p e e' : nth_error (g_paths g) k = Some p -> (forall v, In v (psep (p_snd p) (p_rcv p)) -> e v = e' v) ->
  pmsg pt p e = pmsg pt p e'.
Proof.
  intros Hp H. destruct (st_path _ _ Str k p Hp) as (S & HS).
  apply (pmsg_ext ops good sound ready pt L o final ev special g k p S e e' IV Hp HS).
  intros v Hv. apply H. unfold psep. now rewrite HS.
Qed.
Lemma pmu_ext i j e e' : (forall v, In v (psep i j) -> e v = e' v) -> pmu i j e = pmu i j e'.
Proof.
  intros H. unfold pmu. apply Rprod_ext. intros p Hp. destruct (pair_dec (p_snd p, p_rcv p) (i, j)) as [Eq|]; [|reflexivity].
  apply In_nth_error in Hp. destruct Hp as (k & Hk). inversion Eq; subst. eapply pmsg_same; eauto.
Qed.
Lemma psg_ext i j e e' : E i j -> (forall v, In v (psep i j) -> e v = e' v) -> psg i j e = psg i j e'.
Proof.
  intros HE H. unfold psg. rewrite (pmu_ext i j e e' H), (pmu_ext j i e e'); [reflexivity|].
  intros v Hv. apply H. now apply (psep_swap i j v).
Qed.
Lemma Rprod_pos l : (forall x, In x l -> 0 < x)%R -> (0 < Rprod l)%R.
Proof.
  induction l as [|x l IH]; intros H; [cbn; lra|]. rewrite Rprod_cons. apply Rmult_lt_0_compat; [apply H; now left|].
  apply IH. intros; apply H; now right.
Qed.
Lemma pmu_pos i j e : (0 < pmu i j e)%R.
Proof.
  apply Rprod_pos. intros x Hx. apply in_map_iff in Hx. destruct Hx as (p & <- & Hp). destruct (pair_dec _ _); [|lra].
  apply In_nth_error in Hp. destruct Hp as (k & Hk). exact (pmsg_pos ops good sound ready pt L o final ev special g k p e IV Hk).
Qed.
Lemma psg_pos i j e : (0 < psg i j e)%R.
Proof. apply Rmult_lt_0_compat; apply pmu_pos. Qed.
Lemma pmu_path k p e : nth_error (g_paths g) k = Some p -> pmu (p_snd p) (p_rcv p) e = pmsg pt p e.
Proof.
  intros Hp. unfold pmu.
  set (h := fun q : path F => if pair_dec (p_snd q, p_rcv q) (p_snd p, p_rcv p) then pmsg pt q e else 1%R).
  assert (Hk : nth_error (map h (g_paths g)) k = Some (pmsg pt p e)).
  { rewrite nth_error_map, Hp. cbn [option_map]. unfold h. destruct (pair_dec _ _) as [_|C]; [reflexivity|congruence]. }
  destruct (Rprod_split _ k _ Hk) as (A & A1 & A2). rewrite A1.
  assert (H1 : Rprod (map (fun _ : path F => 1%R) (g_paths g)) = (A * 1)%R).
  { apply A2; [now rewrite !map_length|now rewrite nth_error_map, Hp|].
    intros j Hj. rewrite !nth_error_map. destruct (nth_error (g_paths g) j) as [q|] eqn:Eq; [|reflexivity]. cbn [option_map]. unfold h.
    destruct (pair_dec _ _) as [D|_]; [|reflexivity]. exfalso. apply Hj. inversion D. exact (st_pair _ _ Str j k q p Eq Hp H0 H1). }
  rewrite Rprod_ones in H1 by reflexivity. replace A with 1%R by lra. ring.
Qed.

Lemma pcalibrated i j : E i j ->
  summ (ppsi i) (private pU psep i j) /\ forall e, iint (private pU psep i j) (ppsi i) e (psg i j e).
Proof.
  intros (k & p & Hp & <- & <-). pose proof (sa_fresh _ _ _ (pv_static _ _ _ _ _ _ _ _ _ _ LV)) as Fr.
  destruct (pnext ops good sound ready pt L o final ev special Ho Gfin Hsound g k p IV Fr Hp)
    as (S & ci & cj & fi & q & kq & HS & Hi & Hj & Hfi & Hq & Q1 & Q2 & [_ _ (Gm & Vm) (b & [B1 B2 B3] & Hb)]).
  assert (HSc : psep (p_snd p) (p_rcv p) = S) by (unfold psep, sepf, scopes; now rewrite HS).
  assert (Hps : forall e, pt b e = ppsi (p_snd p) e) by (intros e; unfold ppsi; rewrite Hi; apply B3).
  destruct (Hb (private pU psep (p_snd p) (p_rcv p))) as [T1 T2].
  { apply NoDup_filter, pU_NoDup. }
  { intros v. rewrite In_private, HSc, B2, (In_pU _ fi v Hfi). tauto. }
  split; [apply (summ_fun (pt b)); [intros e; now rewrite Hps|exact T1]|].
  intros e. apply (iint_ext _ (pt b)); [exact Hps|]. unfold psg. rewrite (pmu_path k p e Hp).
  assert (Hmq : pmu (p_rcv p) (p_snd p) e = pmsg pt q e) by (rewrite <- Q1, <- Q2; apply (pmu_path kq q e Hq)).
  rewrite Hmq, <- (ST k p e Hp). apply T2.
Qed.

Lemma psc_final i f : nth_error final i = Some f -> sc scopes i = f_vars ops f.
Proof. intros Hf. unfold sc, scopes. apply nth_error_nth. rewrite nth_error_map, Hf. reflexivity. Qed.
Lemma pU_unobserved i v : In v (pU i) -> ~ In v (all_evidence ev special).
Proof.
  intros Hv. destruct (pU_final i v Hv) as (f & Hf). apply (In_pU i f v Hf) in Hv. destruct Hv as [Hv Hs].
  unfold all_evidence. intros C. apply in_app_or in C. destruct C as [C|C]; [contradiction|].
  pose proof (proj2 (proj2 (made_pt_g ops good pt PL o factors ev special reduced final g0 M Gfac))) as H.
  destruct (proj1 (H v)) as [_ Hn]; [exists f; split; [eapply nth_error_In; eauto|exact Hv]|]. apply Hn. exact C.
Qed.
Lemma prip_all T : (forall x, x < n -> In x T) -> rip E pU psep T.
Proof.
  intros HT v x y Hx Hy Hvx Hvy.
  destruct (pU_final x v Hvx) as (fx & Hfx). destruct (pU_final y v Hvy) as (fy & Hfy).
  assert (Hsx : in_scope ops g0 v x).
  { apply (made_sc ops o factors ev special reduced final g0 M). fold scopes. rewrite (psc_final x fx Hfx). now apply (In_pU x fx v Hfx). }
  assert (Hsy : in_scope ops g0 v y).
  { apply (made_sc ops o factors ev special reduced final g0 M). fold scopes. rewrite (psc_final y fy Hfy). now apply (In_pU y fy v Hfy). }
  pose proof (var_connected ops o factors ev special reduced final g0 Ho M v x y (pU_unobserved x v Hvx) Hsx Hsy) as H.
  clear Hx Hy Hvx Hvy Hfx Hfy Hsx Hsy. induction H as [a b (S & HE & Hv)|a|a b d _ IH1 _ IH2]; [|apply rt_refl|eapply rt_trans; eauto].
  apply rt_step. apply (made_edge ops o factors ev special reduced final g0 M) in HE. fold scopes sepf in HE.
  assert (HEE : E a b) by (apply pE_sep; eauto).
  destruct (pE_range a b HEE) as (H1 & H2 & _). split; [now apply HT|]. split; [now apply HT|]. split; [exact HEE|].
  unfold psep. rewrite HE. exact Hv.
Qed.

(** The product of the edge potentials of the tree is the product of the last messages. *)
Lemma pedges_product r ord e : r < n -> tree_order E r ord -> (forall x y, E x y -> In (x, y) ord \/ In (y, x) ord) ->
  Rprod (map (fun lp => psg (fst lp) (snd lp) e) ord) = Rprod (map (fun p => pmsg pt p e) (g_paths g)).
Proof.
  intros Hr HT Hall. destruct (order_nodup E n r pE_range Hr ord HT) as (N1 & N2 & _).
  unfold psg. rewrite Rprod_mult. unfold pmu.
  rewrite (Rprod_swap (fun (lp : nat * nat) p => if pair_dec (p_snd p, p_rcv p) (fst lp, snd lp) then pmsg pt p e else 1%R) ord (g_paths g)).
  rewrite (Rprod_swap (fun (lp : nat * nat) p => if pair_dec (p_snd p, p_rcv p) (snd lp, fst lp) then pmsg pt p e else 1%R) ord (g_paths g)).
  rewrite <- Rprod_mult. apply Rprod_ext. intros p Hp.
  apply In_nth_error in Hp. destruct Hp as (k & Hk).
  assert (HE : E (p_snd p) (p_rcv p)) by (exists k, p; auto).
  rewrite (Rprod_ext _ (fun lp => if pair_dec lp (p_snd p, p_rcv p) then pmsg pt p e else 1%R)).
  2:{ intros [a b] _. cbn [fst snd]. destruct (pair_dec (p_snd p, p_rcv p) (a, b)), (pair_dec (a, b) (p_snd p, p_rcv p)); congruence. }
  rewrite (Rprod_ext (fun x => if pair_dec (p_snd p, p_rcv p) (snd x, fst x) then pmsg pt p e else 1%R)
                     (fun lp => if pair_dec lp (p_rcv p, p_snd p) then pmsg pt p e else 1%R)).
  2:{ intros [a b] _. cbn [fst snd]. destruct (pair_dec (p_snd p, p_rcv p) (b, a)), (pair_dec (a, b) (p_rcv p, p_snd p)); congruence. }
  rewrite !Rprod_ind by exact N1.
  destruct (in_dec pair_dec (p_snd p, p_rcv p) ord) as [I|I], (in_dec pair_dec (p_rcv p, p_snd p) ord) as [J|J]; try ring.
  - exfalso. exact (N2 _ _ I J).
  - exfalso. destruct (Hall _ _ HE); contradiction.
Qed.

Lemma ptree_total r ord e : r < n -> tree_order E r ord -> Permutation (verts r ord) (seq 0 n) ->
  (forall x y, E x y -> In (x, y) ord \/ In (y, x) ord) -> PQ r ppsi psg ord e = prod_at pt final (over special e).
Proof.
  intros Hr HT HP Hall. rewrite PQ_product, (pedges_product r ord e Hr HT Hall).
  rewrite (Rprod_perm _ _ (Permutation_map _ HP)).
  pose proof (pjoint ops good sound ready pt o final ev special g (over special e) IV) as H.
  rewrite <- (prod_at_seq pt (map cl_fac (g_cl g))), map_length, plen_final in H.
  assert (Hm : Rprod (map (fun p => pmsg pt p (over special e)) (g_paths g)) = Rprod (map (fun p => pmsg pt p e) (g_paths g))).
  { apply Rprod_ext. intros p Hp. apply In_nth_error in Hp. destruct Hp as (k & Hk). apply (pmsg_same k p _ _ Hk).
    intros v Hv. apply over_other. assert (HE : E (p_snd p) (p_rcv p)) by (exists k, p; auto).
    destruct (psep_incl _ _ v HE Hv) as [Hu _]. destruct (pU_final _ v Hu) as (f & Hf). now apply (In_pU _ f v Hf). }
  rewrite Hm in H.
  assert (Hpp : (0 < Rprod (map (fun p => pmsg pt p e) (g_paths g)))%R).
  { apply Rprod_pos. intros x Hx. apply in_map_iff in Hx. destruct Hx as (p & <- & Hp).
    apply In_nth_error in Hp. destruct Hp as (k & Hk). exact (pmsg_pos ops good sound ready pt L o final ev special g k p e IV Hk). }
  replace (Rprod (map (fun i => ppsi i e) (seq 0 n)))
    with (prod_at pt final (over special e) * Rprod (map (fun p => pmsg pt p e) (g_paths g)))%R.
  - field. lra.
  - rewrite <- H. apply Rprod_ext. intros i Hi. apply in_seq in Hi.
    unfold ppsi, pt_at. rewrite nth_error_map. destruct (nth_error (g_cl g) i) eqn:Ei; [reflexivity|].
    apply nth_error_None in Ei. rewrite plen_final in Ei. lia.
Qed.

(** The factor whose integrals are asked for. *)
Lemma pwhole : (forall i, i < n -> exists v, In v (pU i)) -> 0 < n ->
  exists J, good J /\ (forall v, In v (f_vars ops J) <-> exists x, In v (pU x)) /\
    forall e, pt J e = prod_at pt final (over special e).
Proof.
  intros HU Hn0.
  assert (G : forall fs k, (forall i f, nth_error fs i = Some f -> nth_error final (k + i) = Some f) ->
    exists rs, (forall b, In b rs -> good b) /\
      (forall v, (exists b, In b rs /\ In v (f_vars ops b)) <-> exists f, In f fs /\ In v (f_vars ops f) /\ ~ In v (dkeys special)) /\
      (forall e, prod_at pt rs e = prod_at pt fs (over special e)) /\ length rs = length fs).
  { induction fs as [|f fs IH]; intros k Hk.
    - exists []. split; [intros b []|]. split; [|split; reflexivity]. intros v. split; intros (x & [] & _).
    - destruct (IH (S k)) as (rs & R1 & R2 & R3 & R4). { intros i x Hx. rewrite <- (Hk (S i) x Hx). f_equal. lia. }
      pose proof (Hk 0 f eq_refl) as Hf. rewrite Nat.add_0_r in Hf.
      destruct (HU k) as (v0 & Hv0). { unfold n. apply nth_error_Some. congruence. }
      apply (In_pU k f v0 Hf) in Hv0.
      destruct (reduced_some ops good sound ready pt L o final ev special Gfin k f f v0 Hf (final_good good final Gfin k f Hf) (fun v => iff_refl _) (proj1 Hv0) (proj2 Hv0)) as (b & Hb).
      destruct (reduced_at ops good sound ready pt L o final ev special Gfin k f f b Hf (final_good good final Gfin k f Hf) (fun v => iff_refl _) Hb) as (B1 & B2 & B3).
      exists (b :: rs). split; [intros x [<-|Hx]; auto|]. split; [|split].
      + intros v. split.
        * intros (x & [<-|Hx] & Hv); [exists f; apply B2 in Hv; cbn; tauto|].
          destruct (proj1 (R2 v)) as (f' & F1 & F2); [eauto|]. exists f'. cbn. tauto.
        * intros (x & [<-|Hx] & Hv); [exists b; split; [now left|]; now apply B2|].
          destruct (proj2 (R2 v)) as (b' & F1 & F2); [eauto|]. exists b'. cbn. tauto.
      + intros e. unfold prod_at in *. cbn [map]. now rewrite !Rprod_cons, B3, R3.
      + cbn. now rewrite R4. }
  destruct (G final 0 (fun i f H => H)) as (rs & R1 & R2 & R3 & R4).
  destruct rs as [|b rs]; [exfalso; unfold n in Hn0; destruct final; [cbn in Hn0; lia|discriminate]|].
  destruct (mul_fold ops good sound ready pt L rs (fun x Hx => R1 x (or_intror Hx)) b (R1 b (or_introl eq_refl))) as (J & _ & J2 & J3 & J4 & _).
  exists J. split; [exact J2|]. split.
  - intros v. rewrite J3. transitivity (exists b0, In b0 (b :: rs) /\ In v (f_vars ops b0)).
    + split; [intros [C|(x & Hx & Hv)]; [exists b; cbn; auto|exists x; cbn; auto]|].
      intros (x & [<-|Hx] & Hv); [now left|right; eauto].
    + rewrite R2. split.
      * intros (f & Hf & Hv). apply In_nth_error in Hf. destruct Hf as (x & Hx). exists x. now apply (In_pU x f v Hx).
      * intros (x & Hx). destruct (pU_final x v Hx) as (f & Hf). exists f. split; [eapply nth_error_In; eauto|]. now apply (In_pU x f v Hf).
  - intros e. rewrite J4, <- R3. unfold prod_at. cbn [map]. now rewrite Rprod_cons.
Qed.

Lemma all_some r v0 : r < n -> In v0 (pU r) -> forall i, i < n -> exists v, In v (pU i).
Proof.
  intros Hr Hv i Hi. destruct (Nat.eq_dec i r) as [->|N]; [eauto|]. destruct TR as [TC _].
  assert (H : clos_refl_trans nat (linked g) i r) by (apply TC; rewrite plen_final; assumption).
  apply clos_rt_rt1n in H. inversion H as [|a b H1 H2]; subst; [congruence|]. exact (psep_some i a H1).
Qed.

(** The marginal of one cluster. *)
Lemma pcluster_marginal r v0 J rem : r < n -> In v0 (pU r) -> good J -> (forall v, In v (f_vars ops J) <-> exists x, In v (pU x)) ->
  (forall e, pt J e = prod_at pt final (over special e)) -> NoDup rem ->
  (forall v, In v rem <-> (exists x, In v (pU x)) /\ ~ In v (pU r)) ->
  summ (pt J) rem /\ forall e, iint rem (pt J) e (ppsi r e).
Proof.
  intros Hr Hv0 GJ VJ PJ Hn Hrem. destruct TR as [TC TA].
  assert (Econn : forall i j, i < n -> j < n -> clos_refl_trans nat E i j).
  { intros i j Hi Hj. apply TC; rewrite plen_final; assumption. }
  destruct (tree_listing E n r pE_sym pE_range Econn TA Hr) as (ord & T1 & T2 & T3).
  assert (VX : forall v, (exists x, In v (pU x)) <-> exists x, In x (verts r ord) /\ In v (pU x)).
  { intros v. split; [|intros (x & _ & Hx); eauto]. intros (x & Hx). exists x. split; [|exact Hx].
    destruct (pU_final x v Hx) as (f & Hf). apply (Permutation_in _ (Permutation_sym T2)). apply in_seq.
    split; [lia|]. apply nth_error_Some. congruence. }
  apply (tree_int ops good sound ready pt L E r pU ppsi psep psg pU_NoDup ppsi_ext ppsi_pos psep_incl psg_ext psg_pos pE_sym pcalibrated v0 ord Hv0 T1); auto.
  - apply prip_all. intros x Hx. apply (Permutation_in _ (Permutation_sym T2)). apply in_seq. lia.
  - intros v. rewrite VJ. apply VX.
  - intros e. rewrite PJ. symmetry. now apply ptree_total.
  - intros v. rewrite Hrem. now rewrite VX.
Qed.

(** get_marginal *)
Lemma pmarginal_exact vrs res : g_spec g = special -> vrs <> [] -> NoDup vrs -> (forall v, In v vrs -> ~ In v (dkeys special)) ->
  get_marginal ops g vrs = Ok res ->
  good res /\ (forall v, In v (f_vars ops res) <-> In v vrs) /\
    forall rem e, NoDup rem ->
      (forall v, In v rem <-> (exists f, In f final /\ In v (f_vars ops f)) /\ ~ In v (dkeys special) /\ ~ In v vrs) ->
      iint rem (fun e => prod_at pt final (over special e)) e (pt res e).
Proof.
  intros Hsp Hvn Hnv Hdis H. unfold get_marginal in H.
  destruct (find (fun c => subsetb vrs (f_vars ops (cl_fac c))) (g_cl g)) as [ci|] eqn:Ef; [|discriminate].
  apply find_some in Ef. destruct Ef as [Hci Hsub]. apply subsetb_incl in Hsub.
  apply In_nth_error in Hci. destruct Hci as (i & Hi). destruct (pcluster_at i ci Hi) as (f & Hf & Gc & Hfv & Hcs).
  rewrite Hsp in H. destruct (subset_evidence special (f_vars ops (cl_fac ci))) as [evs vals] eqn:Es.
  pose proof (pr_nodup _ _ _ PL _ Gc) as Hcn.
  destruct (subset_evidence_spec special _ evs vals Hcn Es) as (E1 & E2 & E3).
  apply bind_ok in H. destruct H as (f1 & H1 & H).
  destruct vrs as [|v0 vrs0] eqn:Ev; [congruence|]. rewrite <- Ev in *.
  assert (Hv0 : In v0 vrs) by (rewrite Ev; now left).
  assert (Hv0f : In v0 (f_vars ops f)) by now apply Hfv, Hsub.
  assert (Hv0s : ~ In v0 (dkeys special)) by now apply Hdis.
  assert (HF1 : good f1 /\ (forall v, In v (f_vars ops f1) <-> In v (pU i)) /\ forall e, pt f1 e = ppsi i e).
  { assert (R : good f1 /\ (forall v, In v (f_vars ops f1) <-> In v (f_vars ops (cl_fac ci)) /\ ~ In v evs) /\
       (forall e, map e evs = vals -> pt f1 e = pt (cl_fac ci) e)).
    { destruct (Nat.ltb 0 (length evs)) eqn:El.
      - apply (pr_reduce _ _ _ PL _ evs vals f1 Gc E1); [intros v Hv; now apply E2|exact E3|exact H1].
      - inversion H1; subst f1. split; [exact Gc|]. split; [|reflexivity].
        assert (evs = []) by (destruct evs; [reflexivity|discriminate]). subst evs. cbn. tauto. }
    destruct R as (R1 & R2 & R3). split; [exact R1|].
    assert (R4 : forall v, In v (f_vars ops f1) <-> In v (pU i)).
    { intros v. rewrite R2, E2, (In_pU i f v Hf), <- Hfv. destruct (in_dec string_dec v (dkeys special)); tauto. }
    split; [exact R4|]. intros e. unfold ppsi. rewrite Hi.
    rewrite <- (R3 (over special e)) by (apply (subset_evidence_agrees special _ evs vals _ Hcn Es), over_agrees).
    apply (pl_ext _ _ _ _ _ L); [exact R1|]. intros v Hv. apply R4 in Hv. rewrite over_other; [reflexivity|]. now apply (In_pU i f v Hf). }
  destruct HF1 as (G1 & V1 & P1).
  (* the factor can be marginalised *)
  assert (S1 : sound f1).
  { destruct (reduced_some ops good sound ready pt L o final ev special Gfin i f (cl_fac ci) v0 Hf Gc Hfv Hv0f Hv0s) as (f1' & Hf1').
    rewrite <- Hcs in Hf1'.
    destruct (reduced_sound ops good sound ready pt L o final ev special Ho Gfin Hsound g i ci f IV Hi Hf v0 f1' Hv0f Hv0s Hf1') as ([B1 B2 B3] & SO & _).
    apply (pl_sound_same _ _ _ _ _ L f1' f1 B1 G1); [|intros e; rewrite P1, B3; unfold ppsi; now rewrite Hi|exact SO].
    intros v. now rewrite V1, (In_pU i f v Hf), B2. }
  assert (RD : ready f1).
  { destruct (Nat.ltb 0 (length evs)) eqn:El.
    - apply (pl_ready _ _ _ _ _ L (cl_fac ci) evs vals f1 Gc E1); auto. intros v Hv. now apply E2.
    - inversion H1; subst f1. destruct (pi_ready _ _ _ _ _ _ _ _ _ _ IV i ci Hi) as [A|A]; [|auto]. apply Hready. eapply nth_error_In; eauto. }
  assert (Hin1 : incl vrs (f_vars ops f1)).
  { intros v Hv. apply V1. apply (In_pU i f v Hf). split; [now apply Hfv, Hsub|now apply Hdis]. }
  destruct (pl_marg _ _ _ _ _ L f1 vrs res G1 RD) as (M2 & M3 & M4); auto.
  split; [exact M2|]. split; [exact M3|].
  assert (Hin : i < n). { unfold n. apply nth_error_Some. congruence. }
  assert (HU0 : In v0 (pU i)) by (apply (In_pU i f v0 Hf); auto).
  destruct (pwhole (all_some i v0 Hin HU0)) as (J & GJ & VJ & PJ); [lia|].
  set (all := dedup (flat_map pU (seq 0 n))).
  assert (Hall : forall v, In v all <-> exists x, In v (pU x)).
  { intros v. unfold all. rewrite In_dedup, in_flat_map. split; [intros (x & _ & Hx); eauto|].
    intros (x & Hx). exists x. split; [|exact Hx]. destruct (pU_final x v Hx) as (fx & Hfx). apply in_seq. split; [lia|]. apply nth_error_Some. congruence. }
  assert (Halln : NoDup all) by apply NoDup_dedup.
  set (remi := filter (fun v => negb (mem v (pU i))) all).
  assert (Hremi : forall v, In v remi <-> (exists x, In v (pU x)) /\ ~ In v (pU i)).
  { intros v. unfold remi. rewrite filter_In, negb_true_iff, mem_nIn, Hall. tauto. }
  assert (Nremi : NoDup remi) by now apply NoDup_filter.
  destruct (pcluster_marginal i v0 J remi Hin HU0 GJ VJ PJ Nremi Hremi) as [SJ IJ].
  intros rem e Hrn Hrem.
  set (own := filter (fun v => negb (mem v vrs)) (pU i)).
  assert (Hown : forall v, In v own <-> In v (pU i) /\ ~ In v vrs).
  { intros v. unfold own. rewrite filter_In, negb_true_iff, mem_nIn. tauto. }
  destruct (M4 own) as [SO IO]. { apply NoDup_filter, pU_NoDup. } { intros v. rewrite Hown, V1. tauto. }
  (* the integral of the whole over the other clusters' variables, as a factor *)
  assert (Iremi : incl remi (f_vars ops J)) by (intros v Hv; apply VJ; now apply Hremi).
  destruct (pl_int _ _ _ _ _ L J remi v0 GJ Nremi Iremi) as (h & Gh & Vh & Ih); auto.
  { apply VJ; eauto. } { intros C. apply Hremi in C. tauto. }
  assert (Ph : forall e, pt h e = ppsi i e).
  { intros e1. apply (iint_unique remi (pt J) e1 _ _ (Ih remi e1 (Permutation_refl _))). apply IJ. }
  assert (SA : summ (pt J) (own ++ remi)).
  { apply (pl_app _ _ _ _ _ L J h own remi GJ Gh Nremi Iremi Vh SJ).
    - intros e1. apply Ih, Permutation_refl.
    - intros v Hv. apply Vh. apply Hown in Hv. split; [apply VJ; exists i; tauto|]. rewrite Hremi. tauto.
    - apply (summ_fun (pt f1)); [intros e1; now rewrite Ph, P1|exact SO]. }
  assert (HP : Permutation (own ++ remi) rem).
  { symmetry. apply NoDup_Permutation; [exact Hrn| |].
    + apply NoDup_app_intro; [apply NoDup_filter, pU_NoDup|exact Nremi|]. intros v A B. apply Hown in A. apply Hremi in B. tauto.
    + intros v. rewrite in_app_iff, Hown, Hremi, Hrem. split.
      * intros ((h' & Hh & Hv) & Hs & Hnv'). apply In_nth_error in Hh. destruct Hh as (x & Hx).
        assert (In v (pU x)) by (apply (In_pU x h' v Hx); auto).
        destruct (in_dec string_dec v (pU i)); [left; tauto|right; split; [eauto|assumption]].
      * intros [[A B]|[(x & A) B]].
        -- apply (In_pU i f v Hf) in A. split; [exists f; split; [eapply nth_error_In; eauto|tauto]|tauto].
        -- destruct (pU_final x v A) as (h' & Hh). apply (In_pU x h' v Hh) in A. split; [exists h'; split; [eapply nth_error_In; eauto|tauto]|].
           split; [tauto|]. intros C. apply B. apply V1, Hin1, C. }
  assert (SR : summ (pt J) rem).
  { apply (summ_same (pt J) (own ++ remi)); [|exact SA]. intros v. split; apply Permutation_in; [now symmetry|exact HP]. }
  assert (Ir : incl rem (f_vars ops J)).
  { intros v Hv. apply VJ. apply (Permutation_in _ (Permutation_sym HP)), in_app_or in Hv. destruct Hv as [Hv|Hv]; [apply Hown in Hv; exists i; tauto|now apply Hremi]. }
  destruct (pl_int _ _ _ _ _ L J rem v0 GJ Hrn Ir) as (h2 & _ & _ & I3); auto.
  { apply VJ; eauto. } { intros C. apply Hrem in C. tauto. }
  apply (iint_ext rem (pt J)); [exact PJ|].
  replace (pt res e) with (pt h2 e); [apply I3, Permutation_refl|].
  apply (iint_unique (own ++ remi) (pt J) e _ _ (I3 _ e HP)).
  apply (iint_app own remi (pt J) (pt f1)); [|apply IO].
  intros e1. rewrite P1, <- Ph. apply Ih, Permutation_refl.
Qed.

(** In terms of the input factors. *)
Lemma pmarginal_of_model vrs res : g_spec g = special -> vrs <> [] -> NoDup vrs -> (forall v, In v vrs -> ~ In v (dkeys special)) ->
  get_marginal ops g vrs = Ok res ->
  (forall v, In v (f_vars ops res) <-> In v vrs) /\
    forall rem e, agrees_opt ev e -> agrees special e -> NoDup rem ->
      (forall v, In v rem <-> (exists f, In f factors /\ In v (f_vars ops f)) /\
          ~ In v (observed ev) /\ ~ In v (dkeys special) /\ ~ In v vrs) ->
      iint rem (prod_at pt factors) e (pt res e).
Proof.
  intros Hsp Hvn Hnv Hdis H. destruct (pmarginal_exact vrs res Hsp Hvn Hnv Hdis H) as (_ & V & Ks).
  pose proof (proj2 (made_pt_g ops good pt PL o factors ev special reduced final g0 M Gfac)) as [HP HV].
  split; [exact V|]. intros rem e Ha Hs Hn Hrem.
  apply (LinGauss.iint_ext_on rem (fun e => prod_at pt final (over special e))).
  - intros e' He'.
    assert (Hs' : agrees special e').
    { intros v x Hx. rewrite He'; [now apply Hs|]. intros C. apply Hrem in C. destruct C as (_ & _ & C & _). apply C.
      apply dmem_In. unfold dmem. now rewrite Hx. }
    assert (Ha' : agrees_opt ev e').
    { destruct ev as [d|]; [|exact I]. intros v x Hx. rewrite He'; [now apply Ha|]. intros C. apply Hrem in C. destruct C as (_ & C & _). apply C.
      cbn [observed]. apply dmem_In. unfold dmem. now rewrite Hx. }
    rewrite <- (HP _ Ha'). apply (prod_at_ext ops good sound ready pt L); [exact Gfin|]. intros f v _ _. now apply over_id.
  - apply Ks; [exact Hn|]. intros v. rewrite Hrem, HV. tauto.
Qed.
End State.
End PosCalib.
