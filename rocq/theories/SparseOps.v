(** The binary operations of the sparse table: rules "any" and "none". *)
From Verif Require Export SparseBinop.

Lemma apply_binop_unfold o a b f rule na nb :
  oracle_ok o -> wf_struct a -> wf_struct b -> cards_agree a b ->
  veqb (sdef a) (sdef b) = true ->
  get_nested (b_rema o a b) (b_inter o a b) (svars a) (stbl a) = Ok na ->
  get_nested (b_remb o a b) (b_inter o a b) (svars b) (stbl b) = Ok nb ->
  apply_binop o a b f rule =
  (let* nt := any_scope_op o na (map (card_of a) (b_rema o a b), map (card_of a) (b_inter o a b))
                nb (map (card_of b) (b_remb o a b), map (card_of b) (b_inter o a b)) f (sdef a) rule in
   let* cards := vars_to_cards (dict_union (var_cards a) (var_cards b)) (b_vars o a b) in
   mk_sparse (b_vars o a b) cards (flatten_ntd nt) (f (sdef a) (sdef a))).
Proof.
  intros Ho Ha Hb Hc Hd Hna Hnb. unfold apply_binop.
  rewrite (assert_cards_ok a b Ha Hb Hc). cbn [bind].
  fold (b_inter o a b). fold (b_rema o a b) (b_remb o a b). rewrite Hna. cbn [bind]. rewrite Hnb. cbn [bind].
  unfold vneb. rewrite Hd. cbn [negb raise_if bind].
  rewrite (vars_to_cards_ok a _ Ha) by (intros v; rewrite In_b_rema by exact Ho; tauto). cbn [bind].
  rewrite (vars_to_cards_ok a _ Ha) by (intros v; rewrite In_b_inter by exact Ho; tauto). cbn [bind].
  rewrite (vars_to_cards_ok b _ Hb) by (intros v; rewrite In_b_remb by exact Ho; tauto). cbn [bind].
  rewrite (vars_to_cards_ok b _ Hb) by (intros v; rewrite In_b_inter by exact Ho; tauto). cbn [bind].
  reflexivity.
Qed.

(** Range of the parts of a stored key. *)
Lemma src_range f outer inner nt ko s ki v : wf_struct f ->
  nested_of f outer inner nt -> incl outer (svars f) -> incl inner (svars f) ->
  In (ko, s) nt -> In (ki, v) s ->
  Forall2 (fun i c => i < c) ko (map (card_of f) outer) /\
  Forall2 (fun i c => i < c) ki (map (card_of f) inner).
Proof.
  intros Hw Hn Ho Hi Hko Hki. destruct (no_src _ _ _ _ Hn _ _ Hko _ _ Hki) as (k & Hk & Heq).
  unfold split_key in Heq. injection Heq as -> ->.
  split; apply Forall2_map_both; intros x Hx; eapply key_range; eauto.
Qed.
Lemma src_range_outer f outer inner nt ko : wf_struct f ->
  nested_of f outer inner nt -> incl outer (svars f) -> incl inner (svars f) ->
  In ko (dkeys nt) -> Forall2 (fun i c => i < c) ko (map (card_of f) outer).
Proof.
  intros Hw Hn Ho Hi Hko. apply In_dkeys_dget in Hko. destruct Hko as (s & Hs). apply dget_In in Hs.
  destruct s as [|[ki v] s]; [destruct (ntw_sub nt (no_wf _ _ _ _ Hn) _ _ Hs); congruence|].
  apply (src_range f outer inner nt ko _ ki v Hw Hn Ho Hi Hs). left; reflexivity.
Qed.

Lemma inter_cards o a b : oracle_ok o -> wf_struct a -> wf_struct b -> cards_agree a b ->
  map (card_of a) (b_inter o a b) = map (card_of b) (b_inter o a b).
Proof.
  intros Ho Ha Hb Hc. apply map_ext_in. intros v Hv. apply In_b_inter in Hv; [|exact Ho].
  apply (Hc v); (apply has_card_iff; [assumption|split; [tauto|reflexivity]]).
Qed.

Lemma dget_or_incl {K V} {E : EqDec K} (d : dict K V) k : In k (dkeys d) -> exists v, In (k, v) d.
Proof. intros H. apply In_dkeys_dget in H. destruct H as (v & H). apply dget_In in H. eauto. Qed.

Lemma binop_any o a b f :
  oracle_ok o -> wf_struct a -> wf_struct b -> cards_agree a b ->
  veqb (sdef a) (sdef b) = true ->
  exists r, apply_binop o a b f RuleAny = Ok r /\
    binop_result o a b f r (fun e => present a (b_rema o a b) e /\ present b (b_remb o a b) e).
Proof.
  intros Ho Ha Hb Hc Hd.
  assert (Ha_o : incl (b_rema o a b) (svars a)) by (intros v; rewrite In_b_rema by exact Ho; tauto).
  assert (Ha_i : incl (b_inter o a b) (svars a)) by (intros v; rewrite In_b_inter by exact Ho; tauto).
  assert (Hb_o : incl (b_remb o a b) (svars b)) by (intros v; rewrite In_b_remb by exact Ho; tauto).
  assert (Hb_i : incl (b_inter o a b) (svars b)) by (intros v; rewrite In_b_inter by exact Ho; tauto).
  destruct (nested_ok a _ _ Ha (perm_a o a b Ho (wf_vars a Ha))) as (na & Hna & Ha').
  destruct (nested_ok b _ _ Hb (perm_b o a b Ho (wf_vars b Hb))) as (nb & Hnb & Hb').
  rewrite (apply_binop_unfold o a b f RuleAny na nb Ho Ha Hb Hc Hd Hna Hnb).
  unfold any_scope_op.
  set (SA := fun k => dget_or na k []). set (SB := fun k => dget_or nb k []).
  assert (Hsub : forall ka kb, In (ka, kb) (list_prod (dkeys na) (dkeys nb)) ->
     sub_or na ka None = Ok (SA ka) /\ sub_or nb kb None = Ok (SB kb) /\
     In (ka, SA ka) na /\ In (kb, SB kb) nb).
  { intros ka kb H. apply in_prod_iff in H. destruct H as [H1 H2].
    apply In_dkeys_dget in H1. apply In_dkeys_dget in H2.
    destruct H1 as (s1 & H1). destruct H2 as (s2 & H2). unfold sub_or, SA, SB, dget_or.
    rewrite H1, H2. split; [reflexivity|]. split; [reflexivity|].
    split; apply dget_In; assumption. }
  assert (Hcom : forall ka kb, In (ka, kb) (list_prod (dkeys na) (dkeys nb)) ->
     sub_or na ka None = Ok (SA ka) /\ sub_or nb kb None = Ok (SB kb) /\
     Forall2 (fun i c => i < c) ka (map (card_of a) (b_rema o a b)) /\
     Forall2 (fun i c => i < c) kb (map (card_of b) (b_remb o a b)) /\
     (forall ki, In ki (dkeys (SA ka)) \/ In ki (dkeys (SB kb)) ->
        Forall2 (fun i c => i < c) ki (map (card_of b) (b_inter o a b)))).
  { intros ka kb H. destruct (Hsub ka kb H) as (H1 & H2 & H3 & H4).
    split; [exact H1|]. split; [exact H2|]. apply in_prod_iff in H. destruct H as [Hka Hkb].
    split; [apply (src_range_outer a _ _ na ka Ha Ha' Ha_o Ha_i Hka)|].
    split; [apply (src_range_outer b _ _ nb kb Hb Hb' Hb_o Hb_i Hkb)|].
    intros ki [Hki|Hki]; apply dget_or_incl in Hki; destruct Hki as (v & Hki).
    - rewrite <- (inter_cards o a b Ho Ha Hb Hc).
      apply (src_range a _ _ na ka _ ki v Ha Ha' Ha_o Ha_i H3 Hki).
    - apply (src_range b _ _ nb kb _ ki v Hb Hb' Hb_o Hb_i H4 Hki). }
  assert (Hdd : sdef b = sdef a) by (symmetry; now apply veqb_eq).
  destruct (apply_any_spec o na nb None None (list_prod (dkeys na) (dkeys nb)) f (sdef a) SA SB
              (length (b_rema o a b)) (length (b_remb o a b)) Ho) as (nt & Hnt & _).
  { intros ka kb H. destruct (Hcom ka kb H) as (H1 & H2 & H3 & H4 & _).
    apply Forall2_length in H3, H4. rewrite map_length in H3, H4. auto. }
  rewrite Hnt. cbn [bind].
  destruct (binop_core o a b f na nb na nb None None _ SA SB nt Ho Ha Hb Hc Hdd Ha' Hb' Hcom) as (r & Hr & Hres).
  - intros e He. apply in_prod_iff in He. destruct He as [H1 H2].
    apply In_dkeys_dget in H1. apply In_dkeys_dget in H2.
    destruct H1 as (s1 & H1). destruct H2 as (s2 & H2). unfold SA, SB.
    split.
    + unfold dget_or at 2. rewrite H1. apply (nested_or a _ _ na e s1 Ha' H1).
    + unfold dget_or at 2. rewrite H2, <- Hdd. apply (nested_or b _ _ nb e s2 Hb' H2).
  - exact Hnt.
  - exists r. split; [exact Hr|].
    assert (Hcov : forall e, In (map e (b_rema o a b), map e (b_remb o a b)) (list_prod (dkeys na) (dkeys nb))
        <-> present a (b_rema o a b) e /\ present b (b_remb o a b) e).
    { intros e. rewrite in_prod_iff, <- !dmem_In.
      rewrite (no_present _ _ _ _ Ha' e), (no_present _ _ _ _ Hb' e). reflexivity. }
    destruct Hres as [R1 R2 R3 R4 R5 R6 R7]. split; auto.
    + intros k v Hk. destruct (R5 k v Hk) as (H1 & e & H2 & H3 & H4). split; [exact H1|].
      exists e. rewrite <- Hcov. auto.
    + intros e He. apply R6, Hcov, He.
    + intros e He. apply R7. rewrite Hcov. exact He.
Qed.

(** The rule "any" is complete when a default operand forces the default result. *)
Lemma not_present_val f outer inner nt (e : env) : nested_of f outer inner nt ->
  ~ present f outer e -> sval f e = sdef f.
Proof.
  intros Hn Hp. eapply nested_absent; [exact Hn|].
  destruct (dget nt (map e outer)) as [s|] eqn:Hs; [|reflexivity].
  exfalso. apply Hp. apply (no_present _ _ _ _ Hn). apply dmem_In. eapply dget_Some_key; eauto.
Qed.
Lemma not_present_a o a b (e : env) : oracle_ok o -> wf_struct a ->
  ~ present a (b_rema o a b) e -> sval a e = sdef a.
Proof.
  intros Ho Ha. destruct (nested_ok a _ _ Ha (perm_a o a b Ho (wf_vars a Ha))) as (na & _ & Hn).
  eapply not_present_val; eauto.
Qed.
Lemma not_present_b o a b (e : env) : oracle_ok o -> wf_struct b ->
  ~ present b (b_remb o a b) e -> sval b e = sdef b.
Proof.
  intros Ho Hb. destruct (nested_ok b _ _ Hb (perm_b o a b Ho (wf_vars b Hb))) as (nb & _ & Hn).
  eapply not_present_val; eauto.
Qed.
Lemma present_dec f outer inner (e : env) : wf_struct f -> Permutation (svars f) (outer ++ inner) ->
  {present f outer e} + {~ present f outer e}.
Proof.
  intros Hw HP. destruct (get_nested outer inner (svars f) (stbl f)) as [nt|er] eqn:Hnt.
  - destruct (dmem nt (map e outer)) eqn:Hm; [left|right];
      destruct (nested_ok f outer inner Hw HP) as (nt' & Hnt' & Hn); assert (nt' = nt) by congruence; subst.
    + now apply (no_present _ _ _ _ Hn).
    + intros C. apply (no_present _ _ _ _ Hn) in C. congruence.
  - exfalso. destruct (nested_ok f outer inner Hw HP) as (nt' & Hnt' & Hn). congruence.
Qed.

Lemma binop_any_val o a b f r :
  oracle_ok o -> wf_struct a -> wf_struct b -> veqb (sdef a) (sdef b) = true ->
  binop_result o a b f r (fun e => present a (b_rema o a b) e /\ present b (b_remb o a b) e) ->
  forall e,
  (sval a e = sdef a -> f (sdef a) (sval b e) = f (sdef a) (sdef a)) ->
  (sval b e = sdef a -> f (sval a e) (sdef a) = f (sdef a) (sdef a)) ->
  sval r e = f (sval a e) (sval b e).
Proof.
  intros Ho Ha Hb Hd Hr e Hfa Hfb.
  assert (Hdd : sdef b = sdef a) by (symmetry; now apply veqb_eq).
  destruct (present_dec a _ _ e Ha (perm_a o a b Ho (wf_vars a Ha))) as [Pa|Pa].
  - destruct (present_dec b _ _ e Hb (perm_b o a b Ho (wf_vars b Hb))) as [Pb|Pb].
    + now apply (br_in _ _ _ _ _ _ Hr).
    + rewrite (br_out _ _ _ _ _ _ Hr) by tauto.
      pose proof (not_present_b o a b e Ho Hb Pb) as Hv. rewrite Hv, Hdd. symmetry. apply Hfb. congruence.
  - rewrite (br_out _ _ _ _ _ _ Hr) by tauto.
    pose proof (not_present_a o a b e Ho Ha Pa) as Hv. rewrite Hv. symmetry. apply Hfa. congruence.
Qed.

(** rule "none" *)
Lemma complete_inner_spec all d : forall s : table,
  (forall k, dget_or (complete_inner all d s) k d = dget_or s k d) /\
  (forall k, In k (dkeys (complete_inner all d s)) <-> In k (dkeys s) \/ In k all) /\
  (NoDup (dkeys s) -> NoDup (dkeys (complete_inner all d s))).
Proof.
  unfold complete_inner. induction all as [|k0 all IH]; intros s.
  - cbn. split; [reflexivity|]. split; [tauto|tauto].
  - cbn [fold_left]. destruct (dmem s k0) eqn:Hm.
    + destruct (IH s) as (H1 & H2 & H3). split; [exact H1|]. split; [|exact H3].
      intros k. rewrite H2. apply dmem_In in Hm. cbn. split; [tauto|].
      intros [H|[<-|H]]; tauto.
    + destruct (IH (dset s k0 d)) as (H1 & H2 & H3). split; [|split].
      * intros k. rewrite H1. unfold dget_or. rewrite dget_dset.
        destruct (eq_dec k k0) as [->|N]; [|reflexivity].
        unfold dmem in Hm. destruct (dget s k0); [discriminate|reflexivity].
      * intros k. rewrite H2, In_dkeys_dset. cbn. intuition congruence.
      * intros Hn. apply H3. now apply NoDup_dset.
Qed.

Lemma inner_dense_sub (nt : ntd) cards d ko s :
  dget (make_inner_dense nt cards d) ko = Some s ->
  exists s0, dget nt ko = Some s0 /\
    (forall k, dget_or s k d = dget_or s0 k d) /\
    (forall k, In k (dkeys s) -> In k (dkeys s0) \/ In k (assignments cards)).
Proof.
  destruct nt as [|[k0 s0] nt]; [discriminate|]. cbn [make_inner_dense dget].
  destruct (eq_dec ko k0) as [->|N].
  - intros H. injection H as <-. exists s0. split; [reflexivity|].
    destruct (complete_inner_spec (assignments cards) d s0) as (H1 & H2 & _).
    split; [exact H1|]. intros k. now rewrite H2.
  - intros H. exists s. split; [exact H|]. split; [reflexivity|]. tauto.
Qed.
Lemma inner_dense_None (nt : ntd) cards d ko :
  dget (make_inner_dense nt cards d) ko = None <-> dget nt ko = None.
Proof.
  destruct nt as [|[k0 s0] nt]; [tauto|]. cbn [make_inner_dense dget].
  destruct (eq_dec ko k0); [split; discriminate|tauto].
Qed.
Lemma dense_default_get cards (d : val) k :
  dget_or (map (fun a => (a, d)) (assignments cards)) k d = d.
Proof.
  unfold dget_or. destruct (dget _ k) as [v|] eqn:Hv; [|reflexivity].
  apply dget_In in Hv. apply in_map_iff in Hv. destruct Hv as (x & H & _). congruence.
Qed.

Lemma binop_none o a b f :
  oracle_ok o -> wf_struct a -> wf_struct b -> cards_agree a b ->
  veqb (sdef a) (sdef b) = true -> (exists v, In v (svars a) /\ In v (svars b)) ->
  exists r, apply_binop o a b f RuleNone = Ok r /\
    binop_result o a b f r (fun e =>
      (forall v, In v (svars a) -> ~ In v (svars b) -> e v < card_of a v) /\
      (forall v, In v (svars b) -> ~ In v (svars a) -> e v < card_of b v)).
Proof.
  intros Ho Ha Hb Hc Hd (v0 & Hv0).
  assert (Ha_o : incl (b_rema o a b) (svars a)) by (intros v; rewrite In_b_rema by exact Ho; tauto).
  assert (Ha_i : incl (b_inter o a b) (svars a)) by (intros v; rewrite In_b_inter by exact Ho; tauto).
  assert (Hb_o : incl (b_remb o a b) (svars b)) by (intros v; rewrite In_b_remb by exact Ho; tauto).
  assert (Hb_i : incl (b_inter o a b) (svars b)) by (intros v; rewrite In_b_inter by exact Ho; tauto).
  destruct (nested_ok a _ _ Ha (perm_a o a b Ho (wf_vars a Ha))) as (na & Hna & Ha').
  destruct (nested_ok b _ _ Hb (perm_b o a b Ho (wf_vars b Hb))) as (nb & Hnb & Hb').
  rewrite (apply_binop_unfold o a b f RuleNone na nb Ho Ha Hb Hc Hd Hna Hnb).
  unfold any_scope_op, any_scope_none. cbn [fst snd].
  pose proof (inter_cards o a b Ho Ha Hb Hc) as Hic. rewrite Hic.
  assert (Hne : forall d : val, make_dense_default (map (card_of b) (b_inter o a b)) d =
     Ok (map (fun x => (x, d)) (assignments (map (card_of b) (b_inter o a b))))).
  { intros d. apply (In_b_inter o a b Ho) in Hv0.
    destruct (b_inter o a b) as [|x l]; [destruct Hv0|]. reflexivity. }
  rewrite !Hne. cbn [bind].
  set (ci := map (card_of b) (b_inter o a b)) in *. set (d := sdef a) in *.
  set (dd := map (fun x => (x, d)) (assignments ci)).
  set (na' := make_inner_dense na ci d). set (nb' := make_inner_dense nb ci d).
  set (combos := list_prod (assignments (map (card_of a) (b_rema o a b)))
                           (assignments (map (card_of b) (b_remb o a b)))).
  set (SA := fun k => dget_or na' k dd). set (SB := fun k => dget_or nb' k dd).
  assert (Hdd : sdef b = d) by (symmetry; now apply veqb_eq).
  assert (Hsub : forall (nt : ntd) k, sub_or nt k (Some dd) = Ok (dget_or nt k dd)).
  { intros nt k. unfold sub_or, dget_or. destruct (dget nt k); reflexivity. }
  assert (Hddk : forall ki, In ki (dkeys dd) -> Forall2 (fun i c => i < c) ki ci).
  { intros ki Hki. unfold dd, dkeys in Hki. rewrite map_map in Hki. cbn [fst] in Hki.
    rewrite map_id in Hki. now apply In_assignments. }
  assert (Hcom : forall ka kb, In (ka, kb) combos ->
     sub_or na' ka (Some dd) = Ok (SA ka) /\ sub_or nb' kb (Some dd) = Ok (SB kb) /\
     Forall2 (fun i c => i < c) ka (map (card_of a) (b_rema o a b)) /\
     Forall2 (fun i c => i < c) kb (map (card_of b) (b_remb o a b)) /\
     (forall ki, In ki (dkeys (SA ka)) \/ In ki (dkeys (SB kb)) ->
        Forall2 (fun i c => i < c) ki ci)).
  { intros ka kb H. apply in_prod_iff in H. rewrite !In_assignments in H. destruct H as [Hka Hkb].
    split; [apply Hsub|]. split; [apply Hsub|]. split; [exact Hka|]. split; [exact Hkb|].
    intros ki [Hki|Hki].
    - unfold SA, dget_or in Hki. destruct (dget na' ka) as [s|] eqn:Hs; [|now apply Hddk].
      apply inner_dense_sub in Hs. destruct Hs as (s0 & Hs0 & _ & Hk).
      destruct (Hk ki Hki) as [Hk'|Hk']; [|now apply In_assignments].
      apply dget_or_incl in Hk'. destruct Hk' as (v & Hk').
      rewrite <- Hic.
      apply dget_In in Hs0. apply (src_range a _ _ na ka _ ki v Ha Ha' Ha_o Ha_i Hs0 Hk').
    - unfold SB, dget_or in Hki. destruct (dget nb' kb) as [s|] eqn:Hs; [|now apply Hddk].
      apply inner_dense_sub in Hs. destruct Hs as (s0 & Hs0 & _ & Hk).
      destruct (Hk ki Hki) as [Hk'|Hk']; [|now apply In_assignments].
      apply dget_or_incl in Hk'. destruct Hk' as (v & Hk').
      apply dget_In in Hs0. apply (src_range b _ _ nb kb _ ki v Hb Hb' Hb_o Hb_i Hs0 Hk'). }
  destruct (apply_any_spec o na' nb' (Some dd) (Some dd) combos f d SA SB
              (length (b_rema o a b)) (length (b_remb o a b)) Ho) as (nt & Hnt & _).
  { intros ka kb H. destruct (Hcom ka kb H) as (H1 & H2 & H3 & H4 & _).
    apply Forall2_length in H3, H4. rewrite map_length in H3, H4. auto. }
  rewrite Hnt. cbn [bind].
  destruct (binop_core o a b f na nb na' nb' (Some dd) (Some dd) combos SA SB nt
              Ho Ha Hb Hc Hdd Ha' Hb' Hcom) as (r & Hr & Hres).
  - intros e He. split.
    + unfold SA. unfold dget_or at 2. destruct (dget na' (map e (b_rema o a b))) as [s|] eqn:Hs.
      * apply inner_dense_sub in Hs. destruct Hs as (s0 & Hs0 & Hv & _). fold d. rewrite Hv.
        apply (nested_or a _ _ na e s0 Ha' Hs0).
      * fold d. unfold dd. rewrite dense_default_get. symmetry.
        apply (nested_absent a _ _ na e Ha'). now apply inner_dense_None in Hs.
    + unfold SB. unfold dget_or at 2. destruct (dget nb' (map e (b_remb o a b))) as [s|] eqn:Hs.
      * apply inner_dense_sub in Hs. destruct Hs as (s0 & Hs0 & Hv & _). fold d. rewrite Hv, <- Hdd.
        apply (nested_or b _ _ nb e s0 Hb' Hs0).
      * fold d. unfold dd. rewrite dense_default_get. symmetry. rewrite <- Hdd.
        apply (nested_absent b _ _ nb e Hb'). now apply inner_dense_None in Hs.
  - exact Hnt.
  - exists r. split; [exact Hr|].
    assert (Hcov : forall e, In (map e (b_rema o a b), map e (b_remb o a b)) combos <->
      (forall v, In v (svars a) -> ~ In v (svars b) -> e v < card_of a v) /\
      (forall v, In v (svars b) -> ~ In v (svars a) -> e v < card_of b v)).
    { intros e. unfold combos. rewrite in_prod_iff, !In_assignments, !Forall2_map_both.
      split; intros [H1 H2]; split; intros v.
      - intros Hv1 Hv2. apply H1. apply In_b_rema; auto.
      - intros Hv1 Hv2. apply H2. apply In_b_remb; auto.
      - intros Hv. apply In_b_rema in Hv; [|exact Ho]. apply H1; tauto.
      - intros Hv. apply In_b_remb in Hv; [|exact Ho]. apply H2; tauto. }
    destruct Hres as [R1 R2 R3 R4 R5 R6 R7]. split; auto.
    + intros k v Hk. destruct (R5 k v Hk) as (H1 & e & H2 & H3 & H4). split; [exact H1|].
      exists e. rewrite <- Hcov. auto.
    + intros e He. apply R6, Hcov, He.
    + intros e He. apply R7. rewrite Hcov. exact He.
Qed.

(** With no shared variable the rule "none" raises TypeError. *)
Lemma binop_none_disjoint o a b f :
  oracle_ok o -> wf_struct a -> wf_struct b -> veqb (sdef a) (sdef b) = true ->
  (forall v, In v (svars a) -> ~ In v (svars b)) ->
  apply_binop o a b f RuleNone = Err TypeError.
Proof.
  intros Ho Ha Hb Hd Hdis.
  assert (Hc : cards_agree a b).
  { intros v c c' H1 H2. apply has_card_iff in H1, H2; auto. exfalso. apply (Hdis v); tauto. }
  destruct (nested_ok a _ _ Ha (perm_a o a b Ho (wf_vars a Ha))) as (na & Hna & Ha').
  destruct (nested_ok b _ _ Hb (perm_b o a b Ho (wf_vars b Hb))) as (nb & Hnb & Hb').
  rewrite (apply_binop_unfold o a b f RuleNone na nb Ho Ha Hb Hc Hd Hna Hnb).
  assert (b_inter o a b = []) as ->; [|reflexivity].
  destruct (b_inter o a b) as [|x l] eqn:Hi; [reflexivity|].
  assert (In x (b_inter o a b)) by (rewrite Hi; left; reflexivity).
  apply In_b_inter in H; [|exact Ho]. exfalso. apply (Hdis x); tauto.
Qed.

Lemma b_card_has o a b r : oracle_ok o -> wf_struct a -> wf_struct b -> cards_agree a b ->
  svars r = b_vars o a b -> scards r = map (b_card a b) (svars r) ->
  forall v c, has_card r v c <-> has_card a v c \/ has_card b v c.
Proof.
  intros Ho Ha Hb Hc Hv Hcr v c. unfold has_card at 1. rewrite Hcr.
  assert (forall l, In (v, c) (combine l (map (b_card a b) l)) <-> In v l /\ c = b_card a b v) as ->.
  { induction l as [|x l IH]; cbn; [tauto|]. rewrite IH. split.
    - intros [H|H]; [injection H as -> <-; auto|tauto].
    - intros [[->|H] Hx]; [left; congruence|tauto]. }
  rewrite Hv, (In_b_vars o a b Ho), !(has_card_iff _ v c) by assumption.
  unfold b_card. destruct (mem v (svars b)) eqn:Hm; [apply mem_In in Hm|apply mem_nIn in Hm].
  - split; [tauto|]. intros [[H1 H2]|[H1 H2]]; [|tauto]. split; [tauto|].
    subst c. apply (Hc v); (apply has_card_iff; [assumption|split; [tauto|reflexivity]]).
  - tauto.
Qed.

(** Well-formedness of results. *)
Lemma binop_struct o a b f r cov : oracle_ok o -> binop_result o a b f r cov -> wf_struct r.
Proof.
  intros Ho Hr. split.
  - rewrite (br_vars _ _ _ _ _ _ Hr). now apply NoDup_b_vars.
  - rewrite (br_cards _ _ _ _ _ _ Hr). apply map_length.
  - intros k v Hk. apply (br_keys _ _ _ _ _ _ Hr k v Hk).
  - apply (br_nodup _ _ _ _ _ _ Hr).
Qed.
Lemma binop_wf o a b f r cov : oracle_ok o -> wf_struct a -> wf_struct b ->
  binop_result o a b f r cov ->
  (forall e, cov e -> is_lp (f (sval a e) (sval b e))) -> wf_sparse r.
Proof.
  intros Ho Ha Hb Hr Hlp. split; [split|].
  - rewrite (br_vars _ _ _ _ _ _ Hr). now apply NoDup_b_vars.
  - rewrite (br_cards _ _ _ _ _ _ Hr). apply map_length.
  - intros k v Hk. apply (br_keys _ _ _ _ _ _ Hr k v Hk).
  - apply (br_nodup _ _ _ _ _ _ Hr).
  - intros k v Hk. destruct (br_keys _ _ _ _ _ _ Hr k v Hk) as (_ & e & _ & He & ->). now apply Hlp.
Qed.

Lemma sval_lp f e : wf_sparse f -> is_lp (sdef f) -> is_lp (sval f e).
Proof.
  intros Hw Hd. unfold sval. destruct (dget (stbl f) (map e (svars f))) as [v|] eqn:Hv; [|exact Hd].
  apply dget_In in Hv. eapply wf_vals; eauto.
Qed.
Lemma zd_lp f : zero_default f -> is_lp (sdef f).
Proof. intros ->. exact I. Qed.

Lemma pot_vadd x y : is_lp x -> is_lp y -> pot (vadd x y) = (pot x * pot y)%R /\ is_lp (vadd x y).
Proof.
  destruct x as [|a| |], y as [|b| |]; cbn; intros; try contradiction; split; auto; try lra.
  apply exp_plus.
Qed.
