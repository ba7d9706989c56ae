(** Products of cluster potentials after absorbing and evidence reduction (C25, C29), for any
    lawful factor class. *)
From Verif Require Export GraphLaws.

(** [e] gives the observed variables their observed values. *)
Definition agrees {V} (ev : dict string V) (e : string -> V) : Prop := forall v x, dget ev v = Some x -> e v = x.
Definition agrees_opt {V} (ev : option (dict string V)) (e : string -> V) : Prop :=
  match ev with Some d => agrees d e | None => True end.
Definition observed {V} (ev : option (dict string V)) : list string := match ev with Some d => dkeys d | None => [] end.

Lemma subset_evidence_eq {V} (ev : dict string V) vars : NoDup vars ->
  subset_evidence ev vars =
    (filter (dmem ev) vars, flat_map (fun v => match dget ev v with Some x => [x] | None => [] end) vars).
Proof.
  intros Hn. unfold subset_evidence.
  set (l := flat_map (fun v => match dget ev v with Some x => [(v, x)] | None => [] end) vars).
  assert (K : dkeys l = filter (dmem ev) vars).
  { unfold l, dkeys. clear. induction vars as [|v vars IH]; cbn; [reflexivity|]. rewrite map_app, IH.
    unfold dmem at 2. destruct (dget ev v); reflexivity. }
  rewrite dict_of_NoDup by (rewrite K; now apply NoDup_filter). rewrite K. f_equal.
  unfold l, dvals. clear. induction vars as [|v vars IH]; cbn; [reflexivity|]. rewrite map_app, IH.
  destruct (dget ev v); reflexivity.
Qed.
Lemma subset_evidence_spec {V} (ev : dict string V) vars vrs values : NoDup vars ->
  subset_evidence ev vars = (vrs, values) ->
  NoDup vrs /\ (forall v, In v vrs <-> In v vars /\ In v (dkeys ev)) /\ length values = length vrs.
Proof.
  intros Hn H. rewrite subset_evidence_eq in H by exact Hn. inversion H; subst. split; [now apply NoDup_filter|]. split.
  - intros v. rewrite filter_In, dmem_In. tauto.
  - clear. induction vars as [|v vars IH]; cbn; [reflexivity|]. unfold dmem at 1. destruct (dget ev v); cbn; lia.
Qed.
Lemma subset_evidence_agrees {V} (ev : dict string V) vars vrs values e : NoDup vars ->
  subset_evidence ev vars = (vrs, values) -> agrees ev e -> map e vrs = values.
Proof.
  intros Hn H A. rewrite subset_evidence_eq in H by exact Hn. inversion H; subst. clear Hn H.
  induction vars as [|v vars IH]; cbn; [reflexivity|]. unfold dmem at 1. destruct (dget ev v) as [x|] eqn:E; cbn; [|exact IH].
  now rewrite IH, (A v x E).
Qed.

(** The part of the laws used here, for any type of values. *)
Record prod_laws {F V} (ops : fops F V) (good : F -> Prop) (pt : F -> (string -> V) -> R) : Prop := {
  pr_nodup : forall f, good f -> NoDup (f_vars ops f);
  pr_mul : forall a b, good a -> good b -> exists r, f_mul ops a b = Ok r /\ good r /\
    (forall v, In v (f_vars ops r) <-> In v (f_vars ops a) \/ In v (f_vars ops b)) /\
    (forall e, pt r e = (pt a e * pt b e)%R);
  pr_reduce : forall f vs xs r, good f -> NoDup vs -> incl vs (f_vars ops f) -> length xs = length vs ->
    f_reduce ops f vs xs = Ok r ->
    good r /\ (forall v, In v (f_vars ops r) <-> In v (f_vars ops f) /\ ~ In v vs) /\
    (forall e, map e vs = xs -> pt r e = pt f e) }.

Section ProdG.
Context {F V : Type} (ops : fops F V) (good : F -> Prop) (pt : F -> (string -> V) -> R).
Hypothesis L : prod_laws ops good pt.

Definition prod_at (fs : list F) (e : string -> V) : R := Rprod (map (fun f => pt f e) fs).
Definition pt_at (fs : list F) (e : string -> V) (j : nat) : R := match nth_error fs j with Some f => pt f e | None => 1%R end.

Lemma prod_at_seq fs e : Rprod (map (pt_at fs e) (seq 0 (length fs))) = prod_at fs e.
Proof.
  unfold prod_at. f_equal. apply nth_error_ext. intros j. rewrite !nth_error_map.
  destruct (le_lt_dec (length fs) j) as [Hj|Hj].
  - rewrite (proj2 (nth_error_None fs j) Hj). rewrite (proj2 (nth_error_None (seq 0 (length fs)) j)); [reflexivity|].
    now rewrite seq_length.
  - rewrite (nth_error_nth' (seq 0 (length fs)) 0) by now rewrite seq_length. rewrite seq_nth by exact Hj. cbn.
    unfold pt_at. destruct (nth_error fs j) eqn:E; [reflexivity|]. apply nth_error_None in E. lia.
Qed.

Lemma group_fold factors js : (forall f, In f factors -> good f) -> forall a r, good a ->
  foldM (fun acc j => let* fj := py_nth factors j in f_mul ops acc fj) js a = Ok r ->
  good r /\ (forall e, pt r e = (pt a e * Rprod (map (pt_at factors e) js))%R) /\
  (forall v, In v (f_vars ops r) <-> In v (f_vars ops a) \/ exists j, In j js /\ In v (scope_at ops factors j)).
Proof.
  intros Hg. induction js as [|j js IH]; intros a r Ha H; cbn [foldM] in H.
  - inversion H; subst. split; [exact Ha|]. split; [intros; cbn; ring|]. intros v. split; [tauto|].
    intros [C|(j & [] & _)]; exact C.
  - apply bind_ok in H. destruct H as (a1 & H1 & H). apply bind_ok in H1. destruct H1 as (fj & Hj & H1).
    apply py_nth_inv in Hj. destruct (pr_mul _ _ _ L a fj Ha (Hg fj (nth_error_In _ _ Hj))) as (r1 & M1 & M2 & M3 & M4).
    rewrite M1 in H1. inversion H1; subst a1. destruct (IH r1 r M2 H) as (I1 & I2 & I3). split; [exact I1|]. split.
    + intros e. rewrite I2, M4. cbn [map Rprod fold_right]. fold (Rprod (map (pt_at factors e) js)).
      unfold pt_at at 2. rewrite Hj. ring.
    + intros v. rewrite I3, M3. split.
      * intros [[C|C]|(k & Hk & Hv)]; [left; exact C| |right; exists k; split; [right; exact Hk|exact Hv]].
        right. exists j. split; [left; reflexivity|]. unfold scope_at. now rewrite Hj.
      * intros [C|(k & [<-|Hk] & Hv)]; [tauto| |right; eauto].
        left; right. unfold scope_at in Hv. now rewrite Hj in Hv.
Qed.
Lemma group_pt factors g f : (forall f, In f factors -> good f) -> group_ok ops factors g f ->
  good f /\ (forall e, pt f e = Rprod (map (pt_at factors e) g)) /\
  (forall v, In v (f_vars ops f) <-> exists j, In j g /\ In v (scope_at ops factors j)).
Proof.
  intros Hg H. destruct g as [|i js]; [destruct H|]. destruct H as [Hi H]. unfold group_product in H.
  apply bind_ok in H. destruct H as (fi & Hfi & H). apply py_nth_inv in Hfi.
  destruct (group_fold factors js Hg fi f (Hg fi (nth_error_In _ _ Hfi)) H) as (I1 & I2 & I3).
  split; [exact I1|]. split.
  - intros e. rewrite I2. cbn [map Rprod fold_right]. unfold pt_at at 2. rewrite Hfi. reflexivity.
  - intros v. rewrite I3. unfold scope_at at 2. split.
    + intros [C|(j & Hj & Hv)]; [exists i; rewrite Hfi; split; [left; reflexivity|exact C]|].
      exists j. split; [right; exact Hj|exact Hv].
    + intros (j & [<-|Hj] & Hv); [rewrite Hfi in Hv; tauto|right; eauto].
Qed.

Lemma absorb_pt_g factors final : (forall f, In f factors -> good f) -> absorb_subsets ops factors = Ok final ->
  (forall f, In f final -> good f) /\ (forall e, prod_at final e = prod_at factors e) /\
  (forall v, (exists f, In f final /\ In v (f_vars ops f)) <-> (exists f, In f factors /\ In v (f_vars ops f))).
Proof.
  intros Hg H. destruct (absorb_groups ops factors final H) as (groups & HP & HF).
  assert (HA : (forall f, In f final -> good f) /\ (forall e, prod_at final e = Rprod (map (pt_at factors e) (concat groups))) /\
     (forall v, (exists f, In f final /\ In v (f_vars ops f)) <-> exists j, In j (concat groups) /\ In v (scope_at ops factors j))).
  { clear HP H. induction HF as [|g f gs fs Hgf _ IH].
    - split; [intros f []|]. split; [reflexivity|]. intros v. split; [intros (f & [] & _)|intros (j & [] & _)].
    - destruct IH as (I1 & I2 & I3). destruct (group_pt factors g f Hg Hgf) as (G1 & G2 & G3). split; [|split].
      + intros x [<-|Hx]; auto.
      + intros e. cbn [concat]. rewrite map_app, Rprod_app, <- I2, <- G2. reflexivity.
      + intros v. cbn [concat]. split.
        * intros (x & [<-|Hx] & Hv).
          -- apply G3 in Hv. destruct Hv as (j & Hj & Hv). exists j. split; [apply in_or_app; auto|exact Hv].
          -- destruct (proj1 (I3 v)) as (j & Hj & Hv'); [eauto|]. exists j. split; [apply in_or_app; auto|exact Hv'].
        * intros (j & Hj & Hv). apply in_app_or in Hj. destruct Hj as [Hj|Hj].
          -- exists f. split; [left; reflexivity|]. apply G3. eauto.
          -- destruct (proj2 (I3 v)) as (x & Hx & Hv'); [eauto|]. exists x. split; [right; exact Hx|exact Hv']. }
  destruct HA as (A1 & A2 & A3). split; [exact A1|]. split.
  - intros e. rewrite A2. rewrite <- prod_at_seq. apply Rprod_perm, Permutation_map. exact HP.
  - intros v. rewrite A3. split.
    + intros (j & _ & Hv). unfold scope_at in Hv. destruct (nth_error factors j) as [f|] eqn:E; [|destruct Hv].
      exists f. split; [eapply nth_error_In; eauto|exact Hv].
    + intros (f & Hf & Hv). apply In_nth_error in Hf. destruct Hf as (j & Hj). exists j. split.
      * apply (Permutation_in _ (Permutation_sym HP)). apply in_seq. split; [lia|]. cbn. apply nth_error_Some. congruence.
      * unfold scope_at. now rewrite Hj.
Qed.
Lemma absorb_succeeds_g factors : (forall f, In f factors -> good f) -> exists final, absorb_subsets ops factors = Ok final.
Proof.
  intros Hg. destruct (absorb_subsets ops factors) as [final|e] eqn:E; [eauto|]. exfalso.
  destruct (absorb_err_in ops factors good) with (e := e) as (a & b & Ha & Hb & Hm); auto.
  - intros a b r Ha Hb Hr. destruct (pr_mul _ _ _ L a b Ha Hb) as (r' & M1 & M2 & _). congruence.
  - destruct (pr_mul _ _ _ L a b Ha Hb) as (r' & M1 & _). congruence.
Qed.

Definition reduced_ok (ev : option (dict string V)) (f r : F) : Prop :=
  good r /\ (forall v, In v (f_vars ops r) <-> In v (f_vars ops f) /\ ~ In v (observed ev)) /\
  (forall e, agrees_opt ev e -> pt r e = pt f e).
Lemma evidence_reduce_pt_g ev : forall factors reduced, (forall f, In f factors -> good f) ->
  evidence_reduce ops factors ev = Ok reduced -> Forall2 (reduced_ok ev) factors reduced.
Proof.
  intros factors reduced Hg H. unfold evidence_reduce in H. apply mapM_Ok_inv in H.
  induction H as [|f r fs rs Hfr _ IH]; constructor.
  - assert (G : good f) by (apply Hg; left; reflexivity). destruct ev as [d|].
    + destruct (subset_evidence d (f_vars ops f)) as [vrs values] eqn:E.
      destruct (subset_evidence_spec d _ vrs values (pr_nodup _ _ _ L f G) E) as (E1 & E2 & E3).
      destruct (Nat.ltb 0 (length vrs)) eqn:El.
      * destruct (pr_reduce _ _ _ L f vrs values r G E1) as (R1 & R2 & R3); auto; [intros v Hv; now apply E2|].
        split; [exact R1|]. split.
        -- intros v. rewrite R2, E2. cbn [observed]. destruct (in_dec string_dec v (dkeys d)); tauto.
        -- intros e He. apply R3. exact (subset_evidence_agrees d _ vrs values e (pr_nodup _ _ _ L f G) E He).
      * inversion Hfr; subst r. split; [exact G|]. split; [|reflexivity]. intros v. cbn [observed].
        assert (vrs = []) by (destruct vrs; [reflexivity|discriminate]). subst vrs. specialize (E2 v). cbn in E2. tauto.
    + inversion Hfr; subst r. split; [exact G|]. split; [|reflexivity]. cbn. tauto.
  - apply IH. intros x Hx. apply Hg. right; exact Hx.
Qed.
Lemma Forall2_prod ev fs rs : Forall2 (reduced_ok ev) fs rs -> forall e, agrees_opt ev e -> prod_at rs e = prod_at fs e.
Proof.
  intros H e He. unfold prod_at. induction H as [|f r fs rs (H1 & H2 & H3) _ IH]; cbn [map Rprod fold_right]; [reflexivity|].
  unfold Rprod in IH. now rewrite IH, (H3 e He).
Qed.

(** C25 and C29 together: the clusters of a constructed graph. *)
Lemma made_pt_g o factors ev special reduced final g : made ops o factors ev special reduced final g ->
  (forall f, In f factors -> good f) ->
  (forall f, In f final -> good f) /\
  (forall e, agrees_opt ev e -> prod_at final e = prod_at factors e) /\
  (forall v, (exists f, In f final /\ In v (f_vars ops f)) <->
             (exists f, In f factors /\ In v (f_vars ops f)) /\ ~ In v (observed ev)).
Proof.
  intros M Hg. pose proof (evidence_reduce_pt_g ev factors reduced Hg (mk_reduced _ _ _ _ _ _ _ _ M)) as HF.
  assert (Hr : forall f, In f reduced -> good f).
  { clear - HF. induction HF as [|f r fs rs (H1 & _) _ IH]; intros x Hx; [destruct Hx|]. destruct Hx as [<-|Hx]; auto. }
  destruct (absorb_pt_g reduced final Hr (mk_final _ _ _ _ _ _ _ _ M)) as (A1 & A2 & A3). split; [exact A1|]. split.
  - intros e He. rewrite A2. eapply Forall2_prod; eauto.
  - intros v. rewrite A3. clear - HF. induction HF as [|f r fs rs (H1 & H2 & H3) _ IH].
    + split; [intros (f & [] & _)|intros ((f & [] & _) & _)].
    + split.
      * intros (x & [<-|Hx] & Hv).
        -- apply H2 in Hv. destruct Hv as [Hv Hn]. split; [exists f; split; [left; reflexivity|exact Hv]|exact Hn].
        -- destruct (proj1 IH) as [(y & Hy & Hv') Hn]; [eauto|]. split; [exists y; split; [right; exact Hy|exact Hv']|exact Hn].
      * intros [(x & [<-|Hx] & Hv) Hn].
        -- exists r. split; [left; reflexivity|]. apply H2. auto.
        -- destruct (proj2 IH) as (y & Hy & Hv'); [split; eauto|]. exists y. split; [right; exact Hy|exact Hv'].
Qed.
End ProdG.

Section Prod.
Context {F : Type} (ops : fops F nat) (card : string -> nat) (good : F -> Prop) (pt : F -> env -> R).
Hypothesis L : lawful ops card good pt.
Lemma lawful_prod : prod_laws ops good pt.
Proof. split; [apply (lw_nodup _ _ _ _ L)|apply (lw_mul _ _ _ _ L)|apply (lw_reduce _ _ _ _ L)]. Qed.
Lemma absorb_pt factors final : (forall f, In f factors -> good f) -> absorb_subsets ops factors = Ok final ->
  (forall f, In f final -> good f) /\ (forall e, prod_at pt final e = prod_at pt factors e) /\
  (forall v, (exists f, In f final /\ In v (f_vars ops f)) <-> (exists f, In f factors /\ In v (f_vars ops f))).
Proof. exact (absorb_pt_g ops good pt lawful_prod factors final). Qed.
Lemma absorb_succeeds factors : (forall f, In f factors -> good f) -> exists final, absorb_subsets ops factors = Ok final.
Proof. exact (absorb_succeeds_g ops good pt lawful_prod factors). Qed.
Lemma evidence_reduce_pt ev : forall factors reduced, (forall f, In f factors -> good f) ->
  evidence_reduce ops factors ev = Ok reduced -> Forall2 (reduced_ok ops good pt ev) factors reduced.
Proof. exact (evidence_reduce_pt_g ops good pt lawful_prod ev). Qed.
Lemma made_pt o factors ev special reduced final g : made ops o factors ev special reduced final g ->
  (forall f, In f factors -> good f) ->
  (forall f, In f final -> good f) /\
  (forall e, agrees_opt ev e -> prod_at pt final e = prod_at pt factors e) /\
  (forall v, (exists f, In f final /\ In v (f_vars ops f)) <->
             (exists f, In f factors /\ In v (f_vars ops f)) /\ ~ In v (observed ev)).
Proof. exact (made_pt_g ops good pt lawful_prod o factors ev special reduced final g). Qed.
End Prod.

(** ** Scope of a sparse product (no hypothesis on the tables). *)
Lemma s_multiply_vars o a b r : oracle_ok o -> s_multiply o a b = Ok r ->
  forall v, In v (svars r) <-> In v (svars a) \/ In v (svars b).
Proof.
  intros Ho H v. unfold s_multiply, apply_binop in H.
  repeat match type of H with bind _ _ = Ok _ => apply bind_ok in H; let x := fresh in destruct H as (x & _ & H) end.
  unfold mk_sparse in H. destruct (negb (nodupb _)); [discriminate|]. destruct (negb _); [discriminate|].
  inversion H; subst r; cbn [svars]. clear H.
  set (inter := ssort (so o (set_inter (svars a) (svars b)))).
  assert (Hi : In v inter <-> In v (svars a) /\ In v (svars b)).
  { unfold inter. transitivity (In v (so o (set_inter (svars a) (svars b)))).
    - split; apply Permutation_in; [symmetry|]; apply ssort_perm.
    - rewrite (so_In o _ v Ho (NoDup_set_inter _ _)). apply In_set_inter. }
  rewrite !in_app_iff, (so_In o _ v Ho (NoDup_set_diff (svars a) inter)), (so_In o _ v Ho (NoDup_set_diff (svars b) inter)), !In_set_diff, Hi.
  destruct (in_dec string_dec v (svars a)), (in_dec string_dec v (svars b)); tauto.
Qed.
