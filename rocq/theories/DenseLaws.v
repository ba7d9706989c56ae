(** Dense Categorical factors in a cluster graph (C99 - ): the operations the graph uses, a
    variant of them that aligns the axes by name, and the laws of that variant for positive
    tables. *)
From Coq Require Import ZArith.
From Verif Require Export DenseProofs3 GraphLaws.

(** The methods of categorical.py:267-511 as called by cluster_graph.py and _cluster.py.
    Simplification: the evidence holds natural numbers. *)
Definition dense_ops (o : oracle) : fops dense nat :=
  {| f_vars := dvars; f_mul := d_multiply; f_cancel := d_cancel;
     f_marg := fun f vs => d_marginalize o f vs true;
     f_reduce := fun f vs xs => d_reduce f vs (map Z.of_nat xs);
     f_dist := d_distance_from_vacuous; f_kl := fun p q => d_kl_divergence p q true |}.

(** Not in the code: the marginal taken in the order of the factor's own axes, and the aligned
    quotient instead of [cancel].  Used only in proofs. *)
Definition aligned_ops (o : oracle) : fops dense nat :=
  {| f_vars := dvars; f_mul := d_multiply; f_cancel := d_divide;
     f_marg := fun f vs => d_marginalize o f (filter (fun v => mem v vs) (dvars f)) true;
     f_reduce := fun f vs xs => d_reduce f vs (map Z.of_nat xs);
     f_dist := d_distance_from_vacuous; f_kl := fun p q => d_kl_divergence p q true |}.

(** A positive table whose variables have the common cardinalities [card], at least two, and the
    common assignment names [nm]. *)
Record dgood (card : string -> nat) (nm : string -> list aname) (f : dense) : Prop := {
  dg_wf : wf_dense f;
  dg_card : forall v c, d_has_card f v c -> c = card v;
  dg_two : forall v, In v (dvars f) -> 2 <= card v;
  dg_names : forall v ns, dget (dnames f) v = Some ns -> ns = nm v;
  dg_pos : forall e, d_in_range f e -> (0 < dpot f e)%R }.

(** The potential, zero outside the table. *)
Definition dpt (f : dense) (e : env) : R :=
  if forallb (fun v => e v <? d_card_of f v) (dvars f) then dpot f e else 0%R.

Lemma sum_over_pos (card : string -> nat) vs g : forall e, (forall v, In v vs -> 0 < card v) ->
  (forall e', (forall v, In v vs -> e' v < card v) -> (forall v, ~ In v vs -> e' v = e v) -> (0 < g e')%R) ->
  (0 < sum_over card vs g e)%R.
Proof.
  induction vs as [|v vs IH]; intros e Hc H; cbn [sum_over].
  - apply H; [intros v []|reflexivity].
  - assert (P : forall i, i < card v -> (0 < sum_over card vs g (upd e v i))%R).
    { intros i Hi. apply IH; [intros w Hw; apply Hc; right; exact Hw|]. intros e' H1 H2. apply H.
      - intros w [<-|Hw]; [|auto]. destruct (in_dec string_dec v vs) as [D|D]; [auto|]. rewrite (H2 v D), upd_same. exact Hi.
      - intros w Hw. rewrite H2 by (intros C; apply Hw; right; exact C). apply upd_other. intros ->. apply Hw. left; reflexivity. }
    pose proof (Hc v (or_introl eq_refl)) as Hv. clear - P Hv.
    assert (Q : forall l : list nat, (forall i, In i l -> (0 < sum_over card vs g (upd e v i))%R) -> l <> [] ->
      (0 < Rsum (map (fun i => sum_over card vs g (upd e v i)) l))%R).
    { induction l as [|i l IHl]; intros H Hl; [congruence|]. cbn [map]. change (Rsum (?x :: ?y)) with (x + Rsum y)%R.
      pose proof (H i (or_introl eq_refl)). destruct l as [|j l]; [cbn; lra|].
      assert (0 < Rsum (map (fun i => sum_over card vs g (upd e v i)) (j :: l)))%R; [|lra].
      apply IHl; [intros k Hk; apply H; right; exact Hk|discriminate]. }
    apply Q; [|destruct (card v); [lia|discriminate]]. intros i Hi. apply in_seq in Hi. apply P. lia.
Qed.

Section Laws.
Context (card : string -> nat) (nm : string -> list aname).
Notation good := (dgood card nm).

Lemma dg_agree a b : good a -> good b -> d_cards_agree a b.
Proof. intros A B v c c' H H'. rewrite (dg_card _ _ _ A v c H), (dg_card _ _ _ B v c' H'). reflexivity. Qed.
Lemma dg_nagree a b : good a -> good b -> names_agree a b.
Proof. intros A B v c c' H H'. rewrite (dg_names _ _ _ A v c H), (dg_names _ _ _ B v c' H'). reflexivity. Qed.
Lemma dg_card_of f v : good f -> In v (dvars f) -> d_card_of f v = card v.
Proof. intros G Hv. apply (dg_card _ _ _ G). apply d_has_card_of; [apply (dg_wf _ _ _ G)|exact Hv]. Qed.
Lemma dg_range f e : good f -> (d_in_range f e <-> in_card card (dvars f) e).
Proof.
  intros G. rewrite d_range_iff by apply (dg_wf _ _ _ G). unfold in_card. split; intros H v Hv.
  - rewrite <- (dg_card_of f v G Hv). auto.
  - rewrite (dg_card_of f v G Hv). auto.
Qed.
Lemma dpt_in f e : wf_shape f -> d_in_range f e -> dpt f e = dpot f e.
Proof.
  intros W H. unfold dpt. rewrite d_range_iff in H by exact W.
  rewrite (proj2 (forallb_forall _ _)); [reflexivity|]. intros v Hv. apply Nat.ltb_lt. auto.
Qed.
Lemma dpt_out f e : wf_shape f -> ~ d_in_range f e -> dpt f e = 0%R.
Proof.
  intros W H. unfold dpt. destruct (forallb _ _) eqn:E; [|reflexivity]. exfalso. apply H.
  rewrite d_range_iff by exact W. rewrite forallb_forall in E. intros v Hv. apply Nat.ltb_lt. auto.
Qed.
Lemma in_range_dec f e : wf_shape f -> {d_in_range f e} + {~ d_in_range f e}.
Proof.
  intros W. destruct (forallb (fun v => e v <? d_card_of f v) (dvars f)) eqn:E; [left|right].
  - rewrite d_range_iff by exact W. rewrite forallb_forall in E. intros v Hv. apply Nat.ltb_lt. auto.
  - intros C. rewrite d_range_iff in C by exact W.
    rewrite (proj2 (forallb_forall _ _)) in E; [discriminate|]. intros v Hv. apply Nat.ltb_lt. auto.
Qed.
Lemma dpt_iff f e : good f -> (dpt f e <> 0%R <-> d_in_range f e).
Proof.
  intros G. split; intros H.
  - destruct (in_range_dec f e (dg_wf _ _ _ G)) as [I|I]; [exact I|]. elim H. apply dpt_out; [apply (dg_wf _ _ _ G)|exact I].
  - rewrite dpt_in by (try apply (dg_wf _ _ _ G); exact H). pose proof (dg_pos _ _ _ G e H). lra.
Qed.
Lemma dg_weight f : good f -> (0 < d_weight_of f)%R.
Proof.
  intros G. unfold d_weight_of. apply sum_over_pos.
  - intros v Hv. rewrite (dg_card_of f v G Hv). pose proof (dg_two _ _ _ G v Hv). lia.
  - intros e He _. apply (dg_pos _ _ _ G). apply d_range_iff; [apply (dg_wf _ _ _ G)|exact He].
Qed.
Lemma dg_some f : good f -> exists e, d_in_range f e.
Proof.
  intros G. exists (fun _ => 0). apply dg_range; [exact G|]. intros v Hv. pose proof (dg_two _ _ _ G v Hv). lia.
Qed.

Lemma mul_law a b : good a -> good b -> exists r, d_multiply a b = Ok r /\ good r /\
  (forall v, In v (dvars r) <-> In v (dvars a) \/ In v (dvars b)) /\
  (forall e, dpt r e = (dpt a e * dpt b e)%R).
Proof.
  intros A B. destruct (d_multiply_spec a b (dg_wf _ _ _ A) (dg_wf _ _ _ B) (dg_agree a b A B) (dg_nagree a b A B))
    as (r & H1 & H2 & H3 & H4 & H5 & H6).
  assert (R : forall e, d_in_range r e <-> d_in_range a e /\ d_in_range b e).
  { intros e. split.
    - intros H. split; intros v c Hc; apply H, H4; auto.
    - intros [Ha Hb] v c Hc. apply H4 in Hc. destruct Hc; auto. }
  exists r. split; [exact H1|]. split; [split|split; [exact H3|]].
  - exact H2.
  - intros v c Hc. apply H4 in Hc. destruct Hc as [Hc|Hc]; [exact (dg_card _ _ _ A v c Hc)|exact (dg_card _ _ _ B v c Hc)].
  - intros v Hv. apply H3 in Hv. destruct Hv as [Hv|Hv]; [exact (dg_two _ _ _ A v Hv)|exact (dg_two _ _ _ B v Hv)].
  - intros v ns Hns. apply H5 in Hns. destruct Hns as [Hc|Hc]; [exact (dg_names _ _ _ A v ns Hc)|exact (dg_names _ _ _ B v ns Hc)].
  - intros e He. rewrite (proj2 (H6 e He)). apply R in He. destruct He.
    apply Rmult_lt_0_compat; [now apply (dg_pos _ _ _ A)|now apply (dg_pos _ _ _ B)].
  - intros e. pose proof (wd_s _ H2). pose proof (wd_s _ (dg_wf _ _ _ A)). pose proof (wd_s _ (dg_wf _ _ _ B)).
    destruct (in_range_dec r e) as [I|I]; auto.
    + pose proof (proj1 (R e) I) as [Ia Ib]. rewrite !dpt_in by auto. apply H6, I.
    + rewrite (dpt_out r) by auto. destruct (in_range_dec a e) as [Ia|Ia]; auto; [|rewrite (dpt_out a) by auto; ring].
      destruct (in_range_dec b e) as [Ib|Ib]; auto; [|rewrite (dpt_out b) by auto; ring]. elim I. apply R. auto.
Qed.
Lemma div_law a b : good a -> good b -> incl (dvars b) (dvars a) ->
  exists r, d_divide a b = Ok r /\ good r /\ (forall v, In v (dvars r) <-> In v (dvars a)) /\
    (forall e, dpt r e = if Req_EM_T (dpt b e) 0 then 0 else dpt a e / dpt b e)%R.
Proof.
  intros A B Hi. pose proof (dg_wf _ _ _ A) as WA. pose proof (dg_wf _ _ _ B) as WB.
  destruct (d_divide_pot a b WA WB (dg_agree a b A B) (dg_nagree a b A B) Hi) as (r & H1 & H2 & H4 & H5 & H6 & H7).
  assert (R : forall e, d_in_range r e <-> d_in_range a e).
  { intros e. split; intros H v c Hc; apply H, H4, Hc. }
  assert (Rb : forall e, d_in_range a e -> d_in_range b e).
  { intros e H. apply dg_range in H; [|exact A]. apply dg_range; [exact B|]. intros v Hv. apply H, Hi, Hv. }
  assert (Z : forall e, d_in_range a e -> dpot b e <> 0%R) by (intros e He; pose proof (dg_pos _ _ _ B e (Rb e He)); lra).
  assert (V : forall v, In v (dvars r) <-> In v (dvars a)).
  { intros v. split; intros Hv.
    - pose proof (d_has_card_of r v H2 Hv) as Hc. apply H4 in Hc. apply d_has_card_iff in Hc; [tauto|apply WA].
    - pose proof (d_has_card_of a v WA Hv) as Hc. apply H4 in Hc. apply d_has_card_iff in Hc; [tauto|exact H2]. }
  exists r. split; [exact H1|]. split; [split|split; [exact V|]].
  - split; [exact H2|]. intros e He. apply R in He. rewrite (H6 e He).
    apply pot_vsub; [now apply (wd_vals a WA)|apply (wd_vals b WB); auto|]. exact (Z e He).
  - intros v c Hc. apply H4 in Hc. exact (dg_card _ _ _ A v c Hc).
  - intros v Hv. apply V in Hv. exact (dg_two _ _ _ A v Hv).
  - intros v ns Hns. apply H5 in Hns. exact (dg_names _ _ _ A v ns Hns).
  - intros e He. apply R in He. rewrite (H7 e He (Z e He)).
    apply Rdiv_lt_0_compat; [now apply (dg_pos _ _ _ A)|apply (dg_pos _ _ _ B); auto].
  - intros e. destruct (in_range_dec a e) as [I|I]; [apply WA| |].
    + rewrite (dpt_in r), (dpt_in a), (dpt_in b) by (auto; try apply WB; try apply WA; now apply R).
      destruct (Req_EM_T _ _) as [E|_]; [elim (Z e I E)|]. now apply H7, Z.
    + rewrite (dpt_out r), (dpt_out a) by (auto; try apply WA; rewrite R; exact I).
      destruct (Req_EM_T _ _); [reflexivity|]. unfold Rdiv. ring.
Qed.

Lemma marg_law o f vs : good f -> NoDup vs -> incl vs (dvars f) ->
  exists r, d_marginalize o f (filter (fun v => mem v vs) (dvars f)) true = Ok r /\ good r /\
    (forall v, In v (dvars r) <-> In v vs) /\ dvars r = filter (fun v => mem v vs) (dvars f) /\
    (forall removed e, NoDup removed -> (forall v, In v removed <-> In v (dvars f) /\ ~ In v vs) ->
       dpt r e = sum_over card removed (dpt f) e).
Proof.
  intros G Hn Hi. pose proof (dg_wf _ _ _ G) as W. set (kept := filter (fun v => mem v vs) (dvars f)).
  assert (K : forall v, In v kept <-> In v vs).
  { intros v. unfold kept. rewrite filter_In, mem_In. split; [tauto|]. intros H. split; auto. }
  destruct (d_marginalize_spec o f kept true kept W eq_refl) as (r & H1 & H2 & H3 & H4 & H5 & H6).
  - unfold kept. apply filter_ext_in. intros v Hv. apply eq_true_iff_eq. rewrite !mem_In. symmetry. apply K.
  - intros v c Hc Hv. rewrite (dg_card _ _ _ G v c Hc). apply d_has_card_iff in Hc; [|apply W].
    pose proof (dg_two _ _ _ G v (proj1 Hc)). lia.
  - intros v c Hc Hv. rewrite (dg_card _ _ _ G v c Hc). apply d_has_card_iff in Hc; [|apply W].
    pose proof (dg_two _ _ _ G v (proj1 Hc)). lia.
  - assert (V : forall v, In v (dvars r) <-> In v vs) by (intros v; now rewrite H3).
    assert (Cr : forall v c, d_has_card r v c -> c = card v) by (intros v c Hc; apply H4 in Hc; apply (dg_card _ _ _ G v c), Hc).
    assert (Rr : forall e, d_in_range r e <-> in_card card vs e).
    { intros e. split.
      - intros H v Hv. apply V in Hv. pose proof (d_has_card_of r v H2 Hv) as Hc. rewrite <- (Cr v _ Hc). now apply H.
      - intros H v c Hc. rewrite (Cr v c Hc). apply H. apply V. apply d_has_card_iff in Hc; [tauto|apply H2]. }
    assert (S : forall removed e, NoDup removed -> (forall v, In v removed <-> In v (dvars f) /\ ~ In v vs) ->
       d_in_range r e -> forall e', (forall v, In v removed -> e' v < d_card_of f v) -> (forall v, ~ In v removed -> e' v = e v) ->
       d_in_range f e').
    { intros rm e _ Hrm Hr e' E1 E2. apply dg_range; [exact G|]. intros v Hv. rewrite Rr in Hr.
      destruct (in_dec string_dec v vs) as [I|I].
      - rewrite E2; [now apply Hr|]. rewrite Hrm. tauto.
      - rewrite <- (dg_card_of f v G Hv). apply E1, Hrm. auto. }
    exists r. split; [exact H1|]. split; [split|split; [exact V|split; [exact H3|]]].
    + exact H2.
    + exact Cr.
    + intros v Hv. apply V in Hv. apply (dg_two _ _ _ G). auto.
    + intros v ns Hns. apply H5 in Hns. apply (dg_names _ _ _ G v ns), Hns.
    + intros e He. set (rm := filter (fun v => negb (mem v vs)) (dvars f)).
      assert (Hrm : forall v, In v rm <-> In v (dvars f) /\ ~ In v vs) by (intros v; unfold rm; rewrite filter_In, negb_true_iff, mem_nIn; tauto).
      assert (Nrm : NoDup rm) by (apply NoDup_filter, (ws_vars f W)).
      rewrite (H6 e rm He Nrm) by (intros v; rewrite Hrm, K; tauto). apply sum_over_pos.
      * intros v Hv. apply Hrm in Hv. rewrite (dg_card_of f v G (proj1 Hv)). pose proof (dg_two _ _ _ G v (proj1 Hv)). lia.
      * intros e' E1 E2. apply (dg_pos _ _ _ G). eapply (S rm e); eauto.
    + intros rm e Nrm Hrm. rewrite <- (sum_over_ext_card (d_card_of f) card rm)
        by (intros v Hv; apply Hrm in Hv; now apply dg_card_of).
      destruct (in_range_dec r e) as [I|I]; [apply H2| |].
      * rewrite dpt_in by (auto; apply H2). rewrite (H6 e rm I Nrm) by (intros v; rewrite Hrm, K; tauto).
        apply sum_over_ext_range. intros e' E1 E2. symmetry. apply dpt_in; [apply W|]. eapply (S rm e); eauto.
      * rewrite dpt_out by (auto; apply H2). symmetry.
        transitivity (sum_over (d_card_of f) rm (fun _ => 0%R) e).
        -- apply sum_over_ext_range. intros e' E1 E2. apply dpt_out; [apply W|]. intros C. apply I. apply Rr. intros v Hv.
           apply dg_range in C; [|exact G]. rewrite <- E2; [|rewrite Hrm; tauto]. apply C. auto.
        -- rewrite sum_over_assign. apply Rsum_zero. reflexivity.
Qed.

Lemma reduce_law f vs xs r : good f -> NoDup vs -> incl vs (dvars f) -> length xs = length vs ->
  d_reduce f vs (map Z.of_nat xs) = Ok r ->
  good r /\ (forall v, In v (dvars r) <-> In v (dvars f) /\ ~ In v vs) /\
  (forall e, map e vs = xs -> dpt r e = dpt f e).
Proof.
  intros G Hn Hi Hl H. pose proof (dg_wf _ _ _ G) as W.
  assert (Hl' : length (map Z.of_nat xs) = length vs) by now rewrite map_length.
  assert (Hr : forall v z c, In (v, z) (combine vs (map Z.of_nat xs)) -> d_has_card f v c -> (0 <= z < Z.of_nat c)%Z).
  { intros v z c Hz Hc. destruct (Z_lt_dec z (Z.of_nat c)) as [L|L].
    - split; [|exact L]. apply in_combine_r in Hz. apply in_map_iff in Hz. destruct Hz as (x & <- & _). lia.
    - exfalso. rewrite (d_reduce_out_of_range f vs _ v z c (wd_s _ W) Hn Hl' Hz Hc) in H by (left; lia). discriminate. }
  destruct (d_reduce_spec f vs _ W Hn Hl' Hr) as (r' & H1 & H2 & H3 & H4 & H5 & H6).
  rewrite H1 in H. assert (r' = r) by congruence. subst r'. clear H.
  assert (V : forall v, In v (dvars r) <-> In v (dvars f) /\ ~ In v vs).
  { intros v. rewrite H3, filter_In, negb_true_iff, mem_nIn. tauto. }
  assert (A : forall e : env, map e vs = xs -> forall v z, In (v, z) (combine vs (map Z.of_nat xs)) -> Z.of_nat (e v) = z).
  { intros e <-. clear. induction vs as [|w l IH]; intros v z [].
    - injection H as <- <-. reflexivity.
    - now apply IH. }
  assert (B : forall e : env, map e vs = xs -> d_in_range r e -> d_in_range f e).
  { intros e He Hre v c Hc. destruct (in_dec string_dec v vs) as [I|I].
    - assert (X : In (v, Z.of_nat (e v)) (combine vs (map Z.of_nat xs))).
      { subst xs. clear - I. induction vs as [|w l IH]; [destruct I|]. cbn. destruct I as [->|I]; [left; reflexivity|right; auto]. }
      pose proof (Hr v _ c X Hc). lia.
    - apply Hre. apply H4. auto. }
  assert (P : forall e : env, map e vs = xs -> d_in_range r e -> dpot r e = dpot f e).
  { intros e He Hre. unfold dpot. f_equal. apply H6. intros v z Hz _. now apply (A e He). }
  split; [split|split; [exact V|]].
  - exact H2.
  - intros v c Hc. apply H4 in Hc. apply (dg_card _ _ _ G v c), Hc.
  - intros v Hv. apply V in Hv. apply (dg_two _ _ _ G v), Hv.
  - intros v ns Hns. apply H5 in Hns. apply (dg_names _ _ _ G v ns), Hns.
  - intros e He. set (e' := upds e vs xs).
    assert (M : map e' vs = xs) by (apply map_upds; auto).
    assert (O : forall v, In v (dvars r) -> e' v = e v) by (intros v Hv; apply V in Hv; apply upds_other; tauto).
    rewrite <- (dpot_ext r e' e O).
    assert (He' : d_in_range r e').
    { apply d_range_iff; [apply H2|]. intros v Hv. rewrite (O v Hv). revert v Hv. apply d_range_iff; [apply H2|exact He]. }
    rewrite (P e' M He'). apply (dg_pos _ _ _ G). now apply B.
  - intros e He. destruct (in_range_dec r e) as [I|I]; [apply H2| |].
    + rewrite !dpt_in by (auto; first [apply H2|apply W|apply B; auto]). now apply P.
    + rewrite (dpt_out r) by (auto; apply H2). symmetry. apply dpt_out; [apply W|]. intros C. apply I. intros v c Hc. apply C. apply H4 in Hc. tauto.
Qed.
Lemma reduce_some f vs (e : env) : good f -> NoDup vs -> incl vs (dvars f) -> dpt f e <> 0%R ->
  exists r, d_reduce f vs (map Z.of_nat (map e vs)) = Ok r.
Proof.
  intros G Hn Hi H. apply dpt_iff in H; [|exact G]. pose proof (dg_wf _ _ _ G) as W.
  destruct (d_reduce_spec f vs (map Z.of_nat (map e vs)) W Hn) as (r & H1 & _); [now rewrite !map_length| |eauto].
  intros v z c Hz Hc.
  assert (z = Z.of_nat (e v)) as ->.
  { clear - Hz. induction vs as [|w l IH]; [destruct Hz|]. destruct Hz as [Hz|Hz]; [|auto]. injection Hz as <- <-. reflexivity. }
  pose proof (H v c Hc). lia.
Qed.

Lemma aligned_lawful o : lawful (aligned_ops o) card good dpt.
Proof.
  split; cbn [aligned_ops f_vars f_mul f_cancel f_marg f_reduce f_dist f_kl].
  - intros f e e' G H. pose proof (dg_wf _ _ _ G) as W. unfold dpt.
    rewrite (dpot_ext f e e' H).
    replace (forallb (fun v => e v <? d_card_of f v) (dvars f)) with (forallb (fun v => e' v <? d_card_of f v) (dvars f)); [reflexivity|].
    clear W G. induction (dvars f) as [|v l IH]; [reflexivity|]. cbn. rewrite (H v (or_introl eq_refl)). f_equal.
    apply IH. intros w Hw. apply H. right; exact Hw.
  - intros f e G. unfold dpt. destruct (forallb _ _); [apply dpot_nonneg|lra].
  - intros f e G H. apply dpt_iff in H; [|exact G]. now apply dg_range.
  - intros f G. apply (ws_vars f (dg_wf _ _ _ G)).
  - exact mul_law.
  - intros a b A B Hi _. exact (div_law a b A B Hi).
  - intros f vs G Hn Hi. destruct (marg_law o f vs G Hn Hi) as (r & H1 & H2 & H3 & _ & H4). eauto 6.
  - exact reduce_law.
  - exact reduce_some.
  - intros f G _ _. destruct (d_vacuous_spec f (dg_wf _ _ _ G) (dg_weight f G)) as (H1 & H2 & H3).
    eexists. split; [exact H1|]. split; [exact H2|]. intros Hd. destruct (dg_some f G) as (e0 & He0).
    exists (dpot f e0). split; [now apply (dg_pos _ _ _ G)|]. intros e He. apply dg_range in He; [|exact G].
    rewrite dpt_in by (auto; apply (dg_wf _ _ _ G)). now apply (proj1 H3 Hd).
  - intros p q P Q Hv _ _ _. pose proof (dg_wf _ _ _ P) as WP. pose proof (dg_wf _ _ _ Q) as WQ.
    assert (HP : Permutation (dvars p) (dvars q)).
    { apply NoDup_Permutation; auto; [apply (ws_vars p WP)|apply (ws_vars q WQ)]. }
    pose proof (dg_weight p P) as Wp. pose proof (dg_weight q Q) as Wq.
    destruct (d_kl_spec p q WP WQ HP (dg_agree p q P Q) (dg_nagree p q P Q) Wp Wq) as (d & H1 & H2 & H3 & H4).
    assert (R : forall e, d_in_range p e -> d_in_range q e).
    { intros e He. exact (d_range_same p q e WP WQ HP (dg_agree p q P Q) He). }
    exists d. split; [exact H1|]. split; [|split].
    + right. destruct H3 as [-> H3]; [|eauto]. intros (e & E1 & _ & E3). pose proof (dg_pos _ _ _ Q e (R e E1)). lra.
    + intros Hd. pose proof (proj1 H4 Hd) as Hd1. exists (d_weight_of q / d_weight_of p)%R. split; [now apply Rdiv_lt_0_compat|].
      intros e He. apply dg_range in He; [|exact P]. specialize (Hd1 e He). rewrite !dpt_in by (auto; first [apply WP|apply WQ]).
      assert (E : dpot q e = (dpot q e / d_weight_of q * d_weight_of q)%R) by (field; lra).
      rewrite E, <- Hd1. field. lra.
    + intros He. apply H4.
      assert (E : forall e, d_in_range p e -> dpot p e = dpot q e).
      { intros e I. rewrite <- (dpt_in p), <- (dpt_in q) by (auto; first [apply WP|apply WQ]). now rewrite He. }
      assert (EW : d_weight_of p = d_weight_of q).
      { unfold d_weight_of. rewrite (same_scope_sum_d p q (dpot p) _ WP WQ HP (dg_agree p q P Q) (dpot_ext' p)).
        apply sum_over_ext_range. intros e E1 _. apply E. apply dg_range; [exact P|]. intros v Hv'.
        apply Hv in Hv'. rewrite <- (dg_card_of q v Q Hv'). auto. }
      intros e I. now rewrite (E e I), EW.
Qed.
End Laws.
