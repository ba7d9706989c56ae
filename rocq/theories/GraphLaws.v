(** What the message passing proofs use of a factor class, and the sparse categorical class
    as an instance.  [card] is the common cardinality function of the model. *)
From Verif Require Export SparseProofs3 GraphPass.

Definition in_card (card : string -> nat) (vs : list string) (e : env) : Prop := forall v, In v vs -> e v < card v.

Record lawful {F} (ops : fops F nat) (card : string -> nat) (good : F -> Prop) (pt : F -> env -> R) : Prop := {
  lw_ext : forall f e e', good f -> (forall v, In v (f_vars ops f) -> e v = e' v) -> pt f e = pt f e';
  lw_nonneg : forall f e, good f -> (0 <= pt f e)%R;
  lw_range : forall f e, good f -> pt f e <> 0%R -> in_card card (f_vars ops f) e;
  lw_nodup : forall f, good f -> NoDup (f_vars ops f);
  lw_mul : forall a b, good a -> good b -> exists r, f_mul ops a b = Ok r /\ good r /\
    (forall v, In v (f_vars ops r) <-> In v (f_vars ops a) \/ In v (f_vars ops b)) /\
    (forall e, pt r e = (pt a e * pt b e)%R);
  lw_cancel : forall a b, good a -> good b -> incl (f_vars ops b) (f_vars ops a) ->
    (forall e, pt b e = 0%R -> pt a e = 0%R) ->
    exists r, f_cancel ops a b = Ok r /\ good r /\
      (forall v, In v (f_vars ops r) <-> In v (f_vars ops a)) /\
      (forall e, pt r e = if Req_EM_T (pt b e) 0 then 0 else pt a e / pt b e)%R;
  lw_marg : forall f vs, good f -> NoDup vs -> incl vs (f_vars ops f) ->
    exists r, f_marg ops f vs = Ok r /\ good r /\ (forall v, In v (f_vars ops r) <-> In v vs) /\
      (forall removed e, NoDup removed ->
         (forall v, In v removed <-> In v (f_vars ops f) /\ ~ In v vs) ->
         pt r e = sum_over card removed (pt f) e);
  lw_reduce : forall f vs xs r, good f -> NoDup vs -> incl vs (f_vars ops f) -> length xs = length vs ->
    f_reduce ops f vs xs = Ok r ->
    good r /\ (forall v, In v (f_vars ops r) <-> In v (f_vars ops f) /\ ~ In v vs) /\
    (forall e, map e vs = xs -> pt r e = pt f e);
  lw_reduce_ok : forall f vs (e : env), good f -> NoDup vs -> incl vs (f_vars ops f) -> pt f e <> 0%R ->
    exists r, f_reduce ops f vs (map e vs) = Ok r;
  lw_dist : forall f, good f -> f_vars ops f <> [] -> (exists e, pt f e <> 0%R) ->
    exists d, f_dist ops f = Ok (Fin d) /\ (0 <= d)%R /\
      (d = 0%R -> exists c, (0 < c)%R /\ forall e, in_card card (f_vars ops f) e -> pt f e = c);
  lw_kl : forall p q, good p -> good q -> (forall v, In v (f_vars ops p) <-> In v (f_vars ops q)) ->
    f_vars ops p <> [] -> (exists e, pt p e <> 0%R) -> (exists e, pt q e <> 0%R) ->
    exists d, f_kl ops p q = Ok d /\ (d = PInf \/ exists r, d = Fin r /\ 0 <= r)%R /\
      (d = Fin 0 -> exists c, (0 < c)%R /\ forall e, in_card card (f_vars ops p) e -> pt q e = (c * pt p e)%R) /\
      ((forall e, pt q e = pt p e) -> d = Fin 0) }.

(** ** Sparse categorical factors in a cluster graph (the methods of
    sparse_categorical.py:191-430 as called by cluster_graph.py and _cluster.py). *)
Definition sparse_ops (o : oracle) : fops sparse nat :=
  {| f_vars := svars; f_mul := s_multiply o; f_cancel := s_cancel o;
     f_marg := fun f vs => s_marginalize o f vs true; f_reduce := s_reduce;
     f_dist := s_distance_from_vacuous o; f_kl := fun p q => s_kl_divergence o p q true |}.

Record sgood (card : string -> nat) (f : sparse) : Prop := {
  sg_wf : wf_sparse f;
  sg_zero : zero_default f;
  sg_card : forall v c, has_card f v c -> c = card v }.

Section Sparse.
Variable card : string -> nat.
Lemma sgood_agree a b : sgood card a -> sgood card b -> cards_agree a b.
Proof. intros A B v c c' H H'. rewrite (sg_card _ _ A v c H), (sg_card _ _ B v c' H'). reflexivity. Qed.
Lemma sgood_card_of f v : sgood card f -> In v (svars f) -> card_of f v = card v.
Proof.
  intros G Hv. apply (sg_card _ _ G). apply has_card_iff; [apply (sg_wf _ _ G)|]. auto.
Qed.
Lemma sgood_range f e : sgood card f -> (in_range f e <-> in_card card (svars f) e).
Proof.
  intros G. unfold in_range, in_card. split.
  - intros H v Hv. apply H. apply has_card_iff; [apply (sg_wf _ _ G)|]. split; [exact Hv|]. symmetry. now apply sgood_card_of.
  - intros H v c Hc. rewrite (sg_card _ _ G v c Hc). apply H.
    apply (has_card_iff f v c (sg_wf _ _ G)) in Hc. tauto.
Qed.
Lemma spot_stored f e : zero_default f -> spot f e <> 0%R -> exists v, In (map e (svars f), v) (stbl f).
Proof.
  intros Z H. unfold spot, sval in H. destruct (dget (stbl f) (map e (svars f))) as [v|] eqn:E.
  - exists v. now apply dget_In.
  - rewrite Z in H. cbn in H. congruence.
Qed.
Lemma spot_in_card f e : sgood card f -> spot f e <> 0%R -> in_card card (svars f) e.
Proof.
  intros G H v Hv. destruct (spot_stored f e (sg_zero _ _ G) H) as (x & Hx).
  rewrite <- (sgood_card_of f v G Hv).
  pose proof (key_range f _ x v (sg_wf _ _ G) Hx Hv) as Hr.
  replace (e v) with (env_of (svars f) (map e (svars f)) v); [exact Hr|].
  apply (map_env_inj (svars f)); auto. apply map_env_of; [apply (wf_vars f (sg_wf _ _ G))|apply map_length].
Qed.
Lemma weight_positive f : sgood card f -> (exists e, spot f e <> 0%R) -> (0 < weight_of f)%R.
Proof.
  intros G (e & He). pose proof (weight_pos f (sg_wf _ _ G) (sg_zero _ _ G) e) as E. rewrite <- E.
  assert (Hn : (0 <= sum_over (card_of f) (svars f) (spot f) e)%R) by (apply sum_over_nonneg; intros; apply pot_nonneg).
  destruct (Req_EM_T (sum_over (card_of f) (svars f) (spot f) e) 0) as [Z|Z]; [|lra].
  exfalso. apply He. rewrite sum_over_assign in Z.
  pose proof (Rsum_zero_all (fun k => spot f (upds e (svars f) k)) _ (fun k _ => pot_nonneg _) Z (map e (svars f))) as K.
  cbn beta in K. rewrite <- K.
  - apply spot_ext. intros v Hv. symmetry. apply (map_env_inj (svars f)); auto.
    apply map_upds; [apply (wf_vars f (sg_wf _ _ G))|apply map_length].
  - apply in_range_assign; [apply (sg_wf _ _ G)|]. apply sgood_range; auto. now apply spot_in_card.
Qed.
Lemma in_card_exists f e : sgood card f -> spot f e <> 0%R -> in_range f e.
Proof. intros G H. apply sgood_range; auto. now apply spot_in_card. Qed.

Lemma sparse_lawful o : oracle_ok o -> lawful (sparse_ops o) card (sgood card) spot.
Proof.
  intros Ho. split; cbn [sparse_ops f_vars f_mul f_cancel f_marg f_reduce f_dist f_kl].
  - intros f e e' G H. now apply spot_ext.
  - intros f e _. apply pot_nonneg.
  - intros f e G H. now apply spot_in_card.
  - intros f G. apply (wf_vars f (sg_wf _ _ G)).
  - intros a b A B. destruct (multiply_spec o a b Ho (sg_wf _ _ A) (sg_wf _ _ B) (sg_zero _ _ A) (sg_zero _ _ B)
      (sgood_agree a b A B)) as (r & H1 & H2 & H3 & H4 & H5 & H6).
    exists r. split; [exact H1|]. split; [split; auto|split; assumption]. intros v c Hc. apply H5 in Hc.
    destruct Hc as [Hc|Hc]; [exact (sg_card _ _ A v c Hc)|exact (sg_card _ _ B v c Hc)].
  - intros a b A B Hi Hz. destruct (cancel_spec o a b Ho (sg_wf _ _ A) (sg_wf _ _ B) (sg_zero _ _ A) (sg_zero _ _ B)
      (sgood_agree a b A B) Hi Hz) as (r & H1 & H2 & H3 & H4 & H5 & H6).
    exists r. split; [exact H1|]. split; [split; auto|split; assumption]. intros v c Hc. apply H5 in Hc. exact (sg_card _ _ A v c Hc).
  - intros f vs G Hn Hi. destruct (marg_keep_spec o f vs (sg_wf _ _ G) (sg_zero _ _ G) Hn Hi) as (r & H1 & H2 & H3 & H4 & H5 & H6 & _).
    exists r. split; [exact H1|]. split; [split; auto|].
    + intros v c Hc. apply H5 in Hc. apply (sg_card _ _ G v c), Hc.
    + split; [intros v; now rewrite H4|]. intros rm e Hrm Hin. rewrite (H6 rm e Hrm Hin).
      apply sum_over_ext_card. intros v Hv. apply sgood_card_of; [exact G|]. now apply Hin.
  - intros f vs xs r G Hn Hi Hl H.
    destruct (Classical_Prop.classic (exists e0 v, In (map e0 (svars f), v) (stbl f) /\ map e0 vs = xs)) as [C|C].
    + destruct (reduce_env_spec f vs xs (sg_wf _ _ G) (sg_zero _ _ G) Hn Hi C) as (r' & H1 & H2 & H3 & H4 & H5 & H6).
      rewrite H1 in H. inversion H; subst r'. split; [split; auto|].
      * intros v c Hc. apply H5 in Hc. apply (sg_card _ _ G v c), Hc.
      * split; [|exact H6]. intros v. rewrite H4, filter_In, negb_true_iff. rewrite mem_nIn. tauto.
    + rewrite (reduce_env_missing f vs xs (sg_wf _ _ G) Hn Hi Hl C) in H. discriminate.
  - intros f vs e G Hn Hi H. destruct (spot_stored f e (sg_zero _ _ G) H) as (x & Hx).
    destruct (reduce_env_spec f vs (map e vs) (sg_wf _ _ G) (sg_zero _ _ G) Hn Hi) as (r & H1 & _); [|eauto].
    exists e, x. auto.
  - intros f G Hne Hp. destruct (vacuous_spec o f Ho (sg_wf _ _ G) (sg_zero _ _ G) Hne (weight_positive f G Hp)) as (H1 & H2 & H3).
    eexists. split; [exact H1|]. split; [exact H2|]. intros Hd. destruct Hp as (e0 & He0).
    exists (spot f e0). split.
    + pose proof (pot_nonneg (sval f e0)). unfold spot in *. lra.
    + intros e He. apply (proj1 H3 Hd); [now apply sgood_range|]. now apply in_card_exists.
  - intros p q P Q Hv Hne Hp Hq.
    assert (HP : Permutation (svars p) (svars q)).
    { apply NoDup_Permutation; auto; [apply (wf_vars p (sg_wf _ _ P))|apply (wf_vars q (sg_wf _ _ Q))]. }
    pose proof (weight_positive p P Hp) as Wp. pose proof (weight_positive q Q Hq) as Wq.
    destruct (kl_spec o p q Ho (sg_wf _ _ P) (sg_wf _ _ Q) (sg_zero _ _ P) (sg_zero _ _ Q) HP (sgood_agree p q P Q) Hne Wp Wq)
      as (d & H1 & H2 & H3 & H4).
    exists d. split; [exact H1|]. split; [|split].
    + destruct (Classical_Prop.classic (exists e, in_range p e /\ 0 < spot p e /\ spot q e = 0)%R) as [C|C].
      * left; auto.
      * right. destruct (H3 C) as [-> H]. eauto.
    + intros Hd. pose proof (proj1 H4 Hd) as Hd1. clear Hd; rename Hd1 into Hd. exists (weight_of q / weight_of p)%R. split; [now apply Rdiv_lt_0_compat|].
      intros e He. specialize (Hd e (proj2 (sgood_range p e P) He)).
      assert (E : spot q e = (spot q e / weight_of q * weight_of q)%R) by (field; lra).
      rewrite E, <- Hd. field. lra.
    + intros He. apply H4. intros e _. rewrite He. f_equal. unfold weight_of.
      rewrite (sum_over_ext_card _ card (svars p)) by (intros v Hv'; now apply sgood_card_of).
      rewrite (sum_over_ext_card _ card (svars q)) by (intros v Hv'; now apply sgood_card_of).
      rewrite (sum_over_perm card (svars p) (svars q)); [|exact HP|apply (wf_vars p (sg_wf _ _ P))|].
      * apply sum_over_ext_g. intros e1. now rewrite He.
      * intros e1 e2 H12. apply spot_ext. auto.
Qed.
End Sparse.

(** A family of factors whose cardinalities agree pairwise has a common cardinality function. *)
Lemma common_card (fs : list sparse) : (forall f, In f fs -> wf_sparse f /\ zero_default f) ->
  (forall f g, In f fs -> In g fs -> cards_agree f g) -> exists card, forall f, In f fs -> sgood card f.
Proof.
  intros Hw Hc.
  set (card := fun v => match find (fun f => mem v (svars f)) fs with Some f => card_of f v | None => 0 end).
  exists card. intros f Hf. destruct (Hw f Hf) as [W Z]. split; auto. intros v c H. unfold card.
  pose proof (proj1 (has_card_iff f v c W) H) as [Hv _].
  destruct (find (fun f => mem v (svars f)) fs) as [g|] eqn:E.
  - apply find_some in E. destruct E as [Hg Hm]. apply mem_In in Hm. apply (Hc f g Hf Hg v c); auto.
    apply has_card_iff; [apply (Hw g Hg)|]. auto.
  - exfalso. apply (find_none _ _ E) in Hf. apply mem_nIn in Hf. contradiction.
Qed.
