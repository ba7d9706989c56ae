(** Dense tables with zeros: the laws of the operations when [cancel] is only used between tables
    over the same variables in the same order. *)
From Coq Require Import ZArith.
From Verif Require Export DenseZero.
Local Open Scope string_scope.
Local Open Scope nat_scope.
Local Open Scope list_scope.

(** Not in the code, used only in proofs: the table with its zeros replaced by ones. *)
Definition nozero (b : dense) : dense :=
  {| dvars := dvars b;
     dtens := {| tshape := tshape (dtens b); tget := fun k => match tget (dtens b) k with NInf => Fin 0 | x => x end |};
     dcards := dcards b; dnames := dnames b |}.
(** Not in the code, used only in proofs: [cancel] between tables over the same variables, and the
    aligned quotient otherwise. *)
Definition zero_ops (o : oracle) : fops dense nat :=
  {| f_vars := dvars; f_mul := d_multiply;
     f_cancel := fun a b => if eqb (dvars a) (dvars b) && Nat.ltb 0 (length (dvars a)) then d_cancel a b else d_divide a (nozero b);
     f_marg := fun f vs => d_marginalize o f (filter (fun v => mem v vs) (dvars f)) true;
     f_reduce := fun f vs xs => d_reduce f vs (map Z.of_nat xs);
     f_dist := d_distance_from_vacuous; f_kl := fun p q => d_kl_divergence p q true |}.

(** A table whose variables have the common cardinalities [card], at least two, and the common
    assignment names [nm]; zeros allowed. *)
Record zgood (card : string -> nat) (nm : string -> list aname) (f : dense) : Prop := {
  zg_ok : dok card nm f;
  zg_two : forall v, In v (dvars f) -> 2 <= card v }.

Lemma nozero_wf b : wf_dense b -> wf_dense (nozero b).
Proof.
  intros [[W1 W2 W3 W4 W5] W6]. split; [split; assumption|]. intros e He. specialize (W6 e He). unfold dval in *. cbn.
  destruct (tget (dtens b) (map e (dvars b))); cbn in *; auto.
Qed.
Lemma nozero_pot b e : wf_dense b -> d_in_range b e -> dpot (nozero b) e = if Req_EM_T (dpot b e) 0 then 1%R else dpot b e.
Proof.
  intros W He. pose proof (wd_vals b W e He) as Hl. unfold dpot, dval in *. cbn.
  destruct (tget (dtens b) (map e (dvars b))) as [|x| |]; cbn in *; try contradiction.
  - destruct (Req_EM_T 0 0) as [_|C]; [apply exp_0|congruence].
  - destruct (Req_EM_T (exp x) 0) as [C|_]; [pose proof (exp_pos x); lra|reflexivity].
Qed.
Lemma sum_over_ge (card : string -> nat) vs g : ext g -> (forall e, 0 <= g e)%R -> forall e, (forall v, In v vs -> e v < card v) ->
  (g e <= sum_over card vs g e)%R.
Proof.
  intros X P. induction vs as [|v vs IH]; intros e He; cbn [sum_over]; [lra|].
  assert (Hi : In (e v) (seq 0 (card v))) by (apply in_seq; pose proof (He v (or_introl eq_refl)); lia).
  assert (E : forall w, upd e v (e v) w = e w).
  { intros w. destruct (string_dec w v) as [->|N]; [apply upd_same|now apply upd_other]. }
  assert (T : (g e <= sum_over card vs g (upd e v (e v)))%R).
  { rewrite <- (X (upd e v (e v)) e E). apply IH. intros w Hw. rewrite E. apply He. right; exact Hw. }
  assert (Q : forall l (i : nat), In i l -> (sum_over card vs g (upd e v i) <= Rsum (map (fun i => sum_over card vs g (upd e v i)) l))%R).
  { induction l as [|j l IHl]; intros i [].
    - subst. rewrite map_cons, Rsum_cons.
      assert (0 <= Rsum (map (fun i => sum_over card vs g (upd e v i)) l))%R; [|lra].
      apply Rsum_nonneg. intros x _. now apply sum_over_nonneg.
    - rewrite map_cons, Rsum_cons. specialize (IHl i H). pose proof (sum_over_nonneg card vs g P (upd e v j)). lra. }
  apply Rle_trans with (1 := T). apply Q. exact Hi.
Qed.

Section Laws.
Context (card : string -> nat) (nm : string -> list aname).
Notation good := (zgood card nm).
Lemma zg_wf f : good f -> wf_dense f.
Proof. intros H. apply (dk_wf _ _ _ (zg_ok _ _ _ H)). Qed.
Lemma zg_agree a b : good a -> good b -> d_cards_agree a b.
Proof. intros A B. apply (dk_agree card nm); apply zg_ok; assumption. Qed.
Lemma zg_nagree a b : good a -> good b -> names_agree a b.
Proof. intros A B. apply (dk_nagree card nm); apply zg_ok; assumption. Qed.
Lemma zg_card_of f v : good f -> In v (dvars f) -> d_card_of f v = card v.
Proof. intros G Hv. apply (dk_card _ _ _ (zg_ok _ _ _ G)). apply d_has_card_of; [apply (zg_wf f G)|exact Hv]. Qed.
Lemma zg_range f e : good f -> (d_in_range f e <-> in_card card (dvars f) e).
Proof. intros G. exact (dk_range card nm f e (zg_ok _ _ _ G)). Qed.
Lemma zpt_in f e : good f -> dpt f e <> 0%R -> d_in_range f e.
Proof.
  intros G H. destruct (in_range_dec f e (zg_wf f G)) as [I|I]; [exact I|]. elim H. apply dpt_out; [apply (zg_wf f G)|exact I].
Qed.
Lemma zg_weight f e : good f -> dpt f e <> 0%R -> (0 < d_weight_of f)%R.
Proof.
  intros G H. pose proof (zpt_in f e G H) as I. pose proof (zg_wf f G) as W. rewrite dpt_in in H by (auto; apply W).
  rewrite <- (d_weight_any f e W). pose proof (dpot_nonneg f e) as P.
  assert (Q : (dpot f e <= sum_over (d_card_of f) (dvars f) (dpot f) e)%R); [|lra].
  apply sum_over_ge; [apply dpot_ext'|apply dpot_nonneg|]. exact (proj1 (d_range_iff f e W) I).
Qed.

Lemma zmul_law a b : good a -> good b -> exists r, d_multiply a b = Ok r /\ good r /\
  (forall v, In v (dvars r) <-> In v (dvars a) \/ In v (dvars b)) /\
  (forall e, dpt r e = (dpt a e * dpt b e)%R).
Proof.
  intros A B. destruct (mul_ok card nm a b (zg_ok _ _ _ A) (zg_ok _ _ _ B)) as (r & H1 & H2 & H3 & H6).
  assert (Gr : good r).
  { split; [exact H2|]. intros v Hv. apply H3 in Hv. destruct Hv as [Hv|Hv]; [exact (zg_two _ _ _ A v Hv)|exact (zg_two _ _ _ B v Hv)]. }
  assert (R : forall e, d_in_range r e <-> d_in_range a e /\ d_in_range b e).
  { intros e. rewrite (zg_range r e Gr), (zg_range a e A), (zg_range b e B). unfold in_card. split.
    - intros H. split; intros v Hv; apply H, H3; auto.
    - intros [Ha Hb] v Hv. apply H3 in Hv. destruct Hv; auto. }
  exists r. split; [exact H1|]. split; [exact Gr|]. split; [exact H3|].
  intros e. pose proof (wd_s _ (zg_wf r Gr)). pose proof (wd_s _ (zg_wf a A)). pose proof (wd_s _ (zg_wf b B)).
  destruct (in_range_dec r e) as [I|I]; auto.
  - pose proof (proj1 (R e) I) as [Ia Ib]. rewrite !dpt_in by auto. apply H6, I.
  - rewrite (dpt_out r) by auto. destruct (in_range_dec a e) as [Ia|Ia]; auto; [|rewrite (dpt_out a) by auto; ring].
    destruct (in_range_dec b e) as [Ib|Ib]; auto; [|rewrite (dpt_out b) by auto; ring]. elim I. apply R. auto.
Qed.
Lemma zcancel_law a b : good a -> good b -> incl (dvars b) (dvars a) -> (forall e, dpt b e = 0%R -> dpt a e = 0%R) ->
  exists r, (if eqb (dvars a) (dvars b) && Nat.ltb 0 (length (dvars a)) then d_cancel a b else d_divide a (nozero b)) = Ok r /\
    good r /\ (forall v, In v (dvars r) <-> In v (dvars a)) /\
    (forall e, dpt r e = if Req_EM_T (dpt b e) 0 then 0 else dpt a e / dpt b e)%R.
Proof.
  intros A B Hi Hz. pose proof (zg_wf a A) as WA. pose proof (zg_wf b B) as WB.
  assert (Rb : forall e, d_in_range a e -> d_in_range b e).
  { intros e H. apply zg_range in H; [|exact A]. apply zg_range; [exact B|]. intros v Hv. apply H, Hi, Hv. }
  assert (Hz' : forall e, d_in_range a e -> dpot b e = 0%R -> dpot a e = 0%R).
  { intros e I Z. rewrite <- (dpt_in a) by (auto; apply WA). apply Hz. rewrite dpt_in; auto. }
  assert (X : exists r, (if eqb (dvars a) (dvars b) && Nat.ltb 0 (length (dvars a)) then d_cancel a b else d_divide a (nozero b)) = Ok r /\
    wf_dense r /\ (forall v c, d_has_card r v c <-> d_has_card a v c) /\
    (forall v ns, dget (dnames r) v = Some ns <-> dget (dnames a) v = Some ns) /\
    (forall e, d_in_range a e -> dpot b e <> 0%R -> dpot r e = (dpot a e / dpot b e)%R) /\
    (forall e, d_in_range a e -> dpot b e = 0%R -> dpot r e = 0%R)).
  { destruct (eqb (dvars a) (dvars b) && Nat.ltb 0 (length (dvars a)))%bool eqn:Q.
    - apply andb_true_iff in Q. destruct Q as [Q1 Q2]. apply eqb_true in Q1. apply Nat.ltb_lt in Q2.
      apply (d_cancel_same_vars a b WA WB Q1); [intros E; rewrite E in Q2; cbn in Q2; lia|now apply zg_agree|now apply zg_nagree|exact Hz'].
    - destruct (d_divide_pot a (nozero b) WA (nozero_wf b WB) (zg_agree a b A B) (zg_nagree a b A B) Hi) as (r & H1 & H2 & H4 & H5 & H6 & H7).
      assert (Nz : forall e, d_in_range a e -> dpot (nozero b) e <> 0%R).
      { intros e I. rewrite (nozero_pot b e WB (Rb e I)). destruct (Req_EM_T (dpot b e) 0); [lra|assumption]. }
      exists r. split; [exact H1|]. split; [split; [exact H2|]|split; [exact H4|split; [exact H5|split]]].
      + intros e He. assert (He' : d_in_range a e) by (intros v c H; apply He, H4, H). rewrite (H6 e He').
        apply pot_vsub; [now apply (wd_vals a WA)|apply (wd_vals _ (nozero_wf b WB) e (Rb e He'))|exact (Nz e He')].
      + intros e I Z. rewrite (H7 e I (Nz e I)), (nozero_pot b e WB (Rb e I)). destruct (Req_EM_T (dpot b e) 0); [contradiction|reflexivity].
      + intros e I Z. rewrite (H7 e I (Nz e I)), (Hz' e I Z). unfold Rdiv. ring. }
  destruct X as (r & H1 & H2 & H4 & H5 & H6 & H7).
  assert (R : forall e, d_in_range r e <-> d_in_range a e).
  { intros e. split; intros H v c Hc; apply H, H4, Hc. }
  assert (V : forall v, In v (dvars r) <-> In v (dvars a)).
  { intros v. split; intros Hv.
    - pose proof (d_has_card_of r v H2 Hv) as Hc. apply H4 in Hc. apply d_has_card_iff in Hc; [tauto|apply WA].
    - pose proof (d_has_card_of a v WA Hv) as Hc. apply H4 in Hc. apply d_has_card_iff in Hc; [tauto|apply H2]. }
  exists r. split; [exact H1|]. split; [split; [split|]|split; [exact V|]].
  - exact H2.
  - intros v c Hc. apply H4 in Hc. exact (dk_card _ _ _ (zg_ok _ _ _ A) v c Hc).
  - intros v ns Hns. apply H5 in Hns. exact (dk_names _ _ _ (zg_ok _ _ _ A) v ns Hns).
  - intros v Hv. apply V in Hv. exact (zg_two _ _ _ A v Hv).
  - intros e. destruct (in_range_dec a e) as [I|I]; [apply WA| |].
    + rewrite (dpt_in r), (dpt_in a), (dpt_in b) by (auto; try apply WB; try apply WA; try apply H2; now apply R).
      destruct (Req_EM_T _ _) as [E|E]; [now apply H7|now apply H6].
    + rewrite (dpt_out r), (dpt_out a) by (auto; try apply WA; try apply H2; rewrite R; exact I).
      destruct (Req_EM_T _ _); [reflexivity|]. unfold Rdiv. ring.
Qed.
Lemma zmarg_law o f vs : good f -> NoDup vs -> incl vs (dvars f) ->
  exists r, d_marginalize o f (filter (fun v => mem v vs) (dvars f)) true = Ok r /\ good r /\
    (forall v, In v (dvars r) <-> In v vs) /\ dvars r = filter (fun v => mem v vs) (dvars f) /\
    (forall removed e, NoDup removed -> (forall v, In v removed <-> In v (dvars f) /\ ~ In v vs) ->
       dpt r e = sum_over card removed (dpt f) e).
Proof.
  intros G Hn Hi. pose proof (zg_wf f G) as W. set (kept := filter (fun v => mem v vs) (dvars f)).
  assert (K : forall v, In v kept <-> In v vs).
  { intros v. unfold kept. rewrite filter_In, mem_In. split; [tauto|]. intros H. split; auto. }
  assert (C1 : forall v c, d_has_card f v c -> 2 <= c).
  { intros v c Hc. rewrite (dk_card _ _ _ (zg_ok _ _ _ G) v c Hc). apply (zg_two _ _ _ G). apply d_has_card_iff in Hc; [tauto|apply W]. }
  destruct (d_marginalize_spec o f kept true kept W eq_refl) as (r & H1 & H2 & H3 & H4 & H5 & H6).
  - unfold kept. apply filter_ext_in. intros v Hv. apply eq_true_iff_eq. rewrite !mem_In. symmetry. apply K.
  - intros v c Hc Hv. pose proof (C1 v c Hc). lia.
  - intros v c Hc Hv. pose proof (C1 v c Hc). lia.
  - assert (V : forall v, In v (dvars r) <-> In v vs) by (intros v; now rewrite H3).
    assert (Gr : good r).
    { split; [split|].
      - exact H2.
      - intros v c Hc. apply H4 in Hc. apply (dk_card _ _ _ (zg_ok _ _ _ G) v c), Hc.
      - intros v ns Hns. apply H5 in Hns. apply (dk_names _ _ _ (zg_ok _ _ _ G) v ns), Hns.
      - intros v Hv. apply V in Hv. apply (zg_two _ _ _ G). auto. }
    assert (Rr : forall e, d_in_range r e <-> in_card card vs e).
    { intros e. rewrite (zg_range r e Gr). unfold in_card. split; intros H v Hv; apply H, V, Hv. }
    assert (S : forall removed e, NoDup removed -> (forall v, In v removed <-> In v (dvars f) /\ ~ In v vs) ->
       d_in_range r e -> forall e', (forall v, In v removed -> e' v < d_card_of f v) -> (forall v, ~ In v removed -> e' v = e v) ->
       d_in_range f e').
    { intros rm e _ Hrm Hr e' E1 E2. apply zg_range; [exact G|]. intros v Hv. rewrite Rr in Hr.
      destruct (in_dec string_dec v vs) as [I|I].
      - rewrite E2; [now apply Hr|]. rewrite Hrm. tauto.
      - rewrite <- (zg_card_of f v G Hv). apply E1, Hrm. auto. }
    exists r. split; [exact H1|]. split; [exact Gr|split; [exact V|split; [exact H3|]]].
    intros rm e Nrm Hrm. rewrite <- (sum_over_ext_card (d_card_of f) card rm)
        by (intros v Hv; apply Hrm in Hv; now apply zg_card_of).
    destruct (in_range_dec r e) as [I|I]; [apply H2| |].
    + rewrite dpt_in by (auto; apply H2). rewrite (H6 e rm I Nrm) by (intros v; rewrite Hrm, K; tauto).
      apply sum_over_ext_range. intros e' E1 E2. symmetry. apply dpt_in; [apply W|]. eapply (S rm e); eauto.
    + rewrite dpt_out by (auto; apply H2). symmetry.
      transitivity (sum_over (d_card_of f) rm (fun _ => 0%R) e).
      * apply sum_over_ext_range. intros e' E1 E2. apply dpt_out; [apply W|]. intros C. apply I. apply Rr. intros v Hv.
        apply zg_range in C; [|exact G]. rewrite <- E2; [|rewrite Hrm; tauto]. apply C. auto.
      * rewrite sum_over_assign. apply Rsum_zero. reflexivity.
Qed.
Lemma zreduce_law f vs xs r : good f -> NoDup vs -> incl vs (dvars f) -> length xs = length vs ->
  d_reduce f vs (map Z.of_nat xs) = Ok r ->
  good r /\ (forall v, In v (dvars r) <-> In v (dvars f) /\ ~ In v vs) /\
  (forall e, map e vs = xs -> dpt r e = dpt f e).
Proof.
  intros G Hn Hi Hl H. pose proof (zg_wf f G) as W.
  assert (Hl' : length (map Z.of_nat xs) = length vs) by now rewrite map_length.
  assert (Hr : forall v z c, In (v, z) (combine vs (map Z.of_nat xs)) -> d_has_card f v c -> (0 <= z < Z.of_nat c)%Z).
  { intros v z c Hz Hc. destruct (Z_lt_dec z (Z.of_nat c)) as [L|L].
    - split; [|exact L]. apply in_combine_r in Hz. apply in_map_iff in Hz. destruct Hz as (x & <- & _). lia.
    - exfalso. rewrite (d_reduce_out_of_range f vs _ v z c (wd_s _ W) Hn Hl' Hz Hc) in H by (left; lia). discriminate. }
  destruct (d_reduce_spec f vs _ W Hn Hl' Hr) as (r' & H1 & H2 & H3 & H4 & H5 & H6).
  rewrite H1 in H. assert (r' = r) by congruence. subst r'. clear H.
  assert (V : forall v, In v (dvars r) <-> In v (dvars f) /\ ~ In v vs).
  { intros v. rewrite H3, filter_In, negb_true_iff, mem_nIn. tauto. }
  assert (A : forall e : env, map e vs = xs -> forall v z, In (v, z) (combine vs (map Z.of_nat xs)) -> Z.of_nat (e v) = z).
  { intros e <-. clear. induction vs as [|w l IH]; intros v z [].
    - injection H as <- <-. reflexivity.
    - now apply IH. }
  assert (B : forall e : env, map e vs = xs -> d_in_range r e -> d_in_range f e).
  { intros e He Hre v c Hc. destruct (in_dec string_dec v vs) as [I|I].
    - assert (X : In (v, Z.of_nat (e v)) (combine vs (map Z.of_nat xs))).
      { subst xs. clear - I. induction vs as [|w l IH]; [destruct I|]. cbn. destruct I as [->|I]; [left; reflexivity|right; auto]. }
      pose proof (Hr v _ c X Hc). lia.
    - apply Hre. apply H4. auto. }
  assert (P : forall e : env, map e vs = xs -> d_in_range r e -> dpot r e = dpot f e).
  { intros e He Hre. unfold dpot. f_equal. apply H6. intros v z Hz _. now apply (A e He). }
  split; [split; [split|]|split; [exact V|]].
  - exact H2.
  - intros v c Hc. apply H4 in Hc. apply (dk_card _ _ _ (zg_ok _ _ _ G) v c), Hc.
  - intros v ns Hns. apply H5 in Hns. apply (dk_names _ _ _ (zg_ok _ _ _ G) v ns), Hns.
  - intros v Hv. apply V in Hv. apply (zg_two _ _ _ G v), Hv.
  - intros e He. destruct (in_range_dec r e) as [I|I]; [apply H2| |].
    + rewrite !dpt_in by (auto; first [apply H2|apply W|apply B; auto]). now apply P.
    + rewrite (dpt_out r) by (auto; apply H2). symmetry. apply dpt_out; [apply W|]. intros C. apply I. intros v c Hc. apply C. apply H4 in Hc. tauto.
Qed.
Lemma zreduce_some f vs (e : env) : good f -> NoDup vs -> incl vs (dvars f) -> dpt f e <> 0%R ->
  exists r, d_reduce f vs (map Z.of_nat (map e vs)) = Ok r.
Proof.
  intros G Hn Hi H. apply zpt_in in H; [|exact G]. pose proof (zg_wf f G) as W.
  destruct (d_reduce_spec f vs (map Z.of_nat (map e vs)) W Hn) as (r & H1 & _); [now rewrite !map_length| |eauto].
  intros v z c Hz Hc.
  assert (z = Z.of_nat (e v)) as ->.
  { clear - Hz. induction vs as [|w l IH]; [destruct Hz|]. destruct Hz as [Hz|Hz]; [|auto]. injection Hz as <- <-. reflexivity. }
  pose proof (H v c Hc). lia.
Qed.

Lemma zero_lawful o : lawful (zero_ops o) card good dpt.
Proof.
  split; cbn [zero_ops f_vars f_mul f_cancel f_marg f_reduce f_dist f_kl].
  - intros f e e' G H. unfold dpt.
    rewrite (dpot_ext f e e' H).
    replace (forallb (fun v => e v <? d_card_of f v) (dvars f)) with (forallb (fun v => e' v <? d_card_of f v) (dvars f)); [reflexivity|].
    clear G. induction (dvars f) as [|v l IH]; [reflexivity|]. cbn. rewrite (H v (or_introl eq_refl)). f_equal.
    apply IH. intros w Hw. apply H. right; exact Hw.
  - intros f e G. unfold dpt. destruct (forallb _ _); [apply dpot_nonneg|lra].
  - intros f e G H. apply zpt_in in H; [|exact G]. now apply zg_range.
  - intros f G. apply (ws_vars f (zg_wf f G)).
  - exact zmul_law.
  - intros a b A B Hi Hz. exact (zcancel_law a b A B Hi Hz).
  - intros f vs G Hn Hi. destruct (zmarg_law o f vs G Hn Hi) as (r & H1 & H2 & H3 & _ & H4). eauto 6.
  - exact zreduce_law.
  - exact zreduce_some.
  - intros f G _ (e0 & He0). pose proof (zg_wf f G) as W. destruct (d_vacuous_spec f W (zg_weight f e0 G He0)) as (H1 & H2 & H3).
    eexists. split; [exact H1|]. split; [exact H2|]. intros Hd. pose proof (zpt_in f e0 G He0) as I0.
    exists (dpot f e0). split.
    + rewrite dpt_in in He0 by (auto; apply W). pose proof (dpot_nonneg f e0). lra.
    + intros e He. apply zg_range in He; [|exact G]. rewrite dpt_in by (auto; apply W). now apply (proj1 H3 Hd).
  - intros p q P Q Hv _ (ep & Hep) (eq & Heq). pose proof (zg_wf p P) as WP. pose proof (zg_wf q Q) as WQ.
    assert (HP : Permutation (dvars p) (dvars q)).
    { apply NoDup_Permutation; auto; [apply (ws_vars p WP)|apply (ws_vars q WQ)]. }
    pose proof (zg_weight p ep P Hep) as Wp. pose proof (zg_weight q eq Q Heq) as Wq.
    destruct (d_kl_spec p q WP WQ HP (zg_agree p q P Q) (zg_nagree p q P Q) Wp Wq) as (d & H1 & H2 & H3 & H4).
    assert (R : forall e, d_in_range p e -> d_in_range q e).
    { intros e He. exact (d_range_same p q e WP WQ HP (zg_agree p q P Q) He). }
    exists d. split; [exact H1|]. split; [|split].
    + destruct (Classical_Prop.classic (exists e, d_in_range p e /\ 0 < dpot p e /\ dpot q e = 0)%R) as [C|C]; [left; auto|right].
      destruct (H3 C) as [-> K]. eauto.
    + intros Hd. pose proof (proj1 H4 Hd) as Hd1. exists (d_weight_of q / d_weight_of p)%R. split; [now apply Rdiv_lt_0_compat|].
      intros e He. apply zg_range in He; [|exact P]. specialize (Hd1 e He). rewrite !dpt_in by (auto; first [apply WP|apply WQ]).
      assert (E : dpot q e = (dpot q e / d_weight_of q * d_weight_of q)%R) by (field; lra).
      rewrite E, <- Hd1. field. lra.
    + intros He. apply H4.
      assert (E : forall e, d_in_range p e -> dpot p e = dpot q e).
      { intros e I. rewrite <- (dpt_in p), <- (dpt_in q) by (auto; first [apply WP|apply WQ]). now rewrite He. }
      assert (EW : d_weight_of p = d_weight_of q).
      { unfold d_weight_of. rewrite (same_scope_sum_d p q (dpot p) _ WP WQ HP (zg_agree p q P Q) (dpot_ext' p)).
        apply sum_over_ext_range. intros e E1 _. apply E. apply zg_range; [exact P|]. intros v Hv'.
        apply Hv in Hv'. rewrite <- (zg_card_of q v Q Hv'). auto. }
      intros e I. now rewrite (E e I), EW.
Qed.
End Laws.
