(** Elimination of variables from products of dense tables. *)
From Coq Require Import String List Reals Permutation.
Import ListNotations.
From Verif Require Import SparseProofs2 ElimFacts DenseLaws DenseZero DenseZeroLaws DenseGraphEx SumFacts BaseFacts.
Local Open Scope string_scope.
Local Open Scope nat_scope.
Local Open Scope list_scope.

Lemma filter_self (P : string -> bool) l : filter (fun v => mem v (filter P l)) l = filter P l.
Proof.
  apply filter_ext_in. intros v Hv. destruct (P v) eqn:E.
  - apply mem_In, filter_In. now split.
  - apply mem_nIn. intros H. apply filter_In in H. destruct H. congruence.
Qed.
Lemma eliminate_dense o fs v : eliminate (dense_ops o) fs v = eliminate (zero_ops o) fs v.
Proof.
  unfold eliminate. cbn [f_vars f_mul f_marg dense_ops zero_ops]. destruct (filter _ fs) as [|f rest]; [reflexivity|].
  destruct (foldM d_multiply rest f) as [p|]; [|reflexivity]. cbn [bind]. now rewrite (filter_self (fun w => negb (eqb w v)) (dvars p)).
Qed.
Lemma eliminate_all_dense o vs : forall fs, eliminate_all (dense_ops o) fs vs = eliminate_all (zero_ops o) fs vs.
Proof.
  unfold eliminate_all. induction vs as [|v vs IH]; intros fs; [reflexivity|]. cbn [foldM]. rewrite eliminate_dense.
  destruct (eliminate (zero_ops o) fs v); [cbn [bind]; apply IH|reflexivity].
Qed.
Section Dense.
Context (card : string -> nat) (nm : string -> list aname).
Lemma dpts fs e : (forall f, In f fs -> zgood card nm f) -> (forall f v, In f fs -> In v (dvars f) -> e v < card v) ->
  Rprod (map (fun f => dpt f e) fs) = Rprod (map (fun f => dpot f e) fs).
Proof.
  intros G R. f_equal. apply map_ext_in. intros f Hf. destruct (G f Hf) as [D _]. apply dpt_in; [apply (dk_wf _ _ _ D)|].
  apply (dk_range card nm f e D). intros v Hv. exact (R f v Hf Hv).
Qed.
Lemma dense_elimination o fs vs : NoDup vs -> (forall f, In f fs -> zgood card nm f) ->
  exists rs, eliminate_all (dense_ops o) fs vs = Ok rs /\ (forall f, In f rs -> zgood card nm f) /\
  (forall w, (exists f, In f rs /\ In w (dvars f)) <-> (exists f, In f fs /\ In w (dvars f)) /\ ~ In w vs) /\
  forall done, NoDup done -> (forall v, In v done <-> In v vs /\ exists f, In f fs /\ In v (dvars f)) ->
    forall e, (forall f v, In f fs -> In v (dvars f) -> ~ In v vs -> e v < card v) ->
    Rprod (map (fun f => dpot f e) rs) = sum_over card done (fun e => Rprod (map (fun f => dpot f e) fs)) e.
Proof.
  intros N G. destruct (eliminate_all_spec (zero_ops o) card _ dpt (zero_lawful card nm o) vs fs N G) as (rs & E & Gr & S & P).
  exists rs. rewrite eliminate_all_dense. split; [exact E|]. split; [exact Gr|]. split; [exact S|].
  intros done Nd Hd e R. rewrite <- (dpts rs e Gr).
  2: { intros f v Hf Hv. destruct (proj1 (S v) (ex_intro _ f (conj Hf Hv))) as ((g & Hg & Hgv) & Hn). exact (R g v Hg Hgv Hn). }
  change (Rprod (map (fun f => dpt f e) rs)) with (GraphProd.prod_at dpt rs e).
  rewrite (P done Nd Hd e). apply sum_over_ext_range. intros e' H1 H2. apply (dpts fs e' G). intros f v Hf Hv.
  destruct (in_dec string_dec v done) as [I|I]; [exact (H1 v I)|]. rewrite (H2 v I). apply (R f v Hf Hv). intros C. apply I, Hd. split; [exact C|now exists f].
Qed.
Lemma dense_order o fs vs ws r1 r2 : NoDup vs -> NoDup ws -> (forall v, In v vs <-> In v ws) -> (forall f, In f fs -> zgood card nm f) ->
  eliminate_all (dense_ops o) fs vs = Ok r1 -> eliminate_all (dense_ops o) fs ws = Ok r2 ->
  (forall w, (exists f, In f r1 /\ In w (dvars f)) <-> (exists f, In f r2 /\ In w (dvars f))) /\
  forall e, (forall f v, In f fs -> In v (dvars f) -> ~ In v vs -> e v < card v) -> Rprod (map (fun f => dpot f e) r1) = Rprod (map (fun f => dpot f e) r2).
Proof.
  intros N M H G E1 E2.
  destruct (dense_elimination o fs vs N G) as (x & Ex & _ & Sx & Px). rewrite E1 in Ex. injection Ex as <-.
  destruct (dense_elimination o fs ws M G) as (y & Ey & _ & Sy & Py). rewrite E2 in Ey. injection Ey as <-.
  split; [intros w; rewrite Sx, Sy, H; tauto|]. intros e R.
  set (all := concat (map dvars fs)).
  assert (HA : forall v, In v all <-> exists f, In f fs /\ In v (dvars f)).
  { intros v. unfold all. rewrite in_concat. split; [intros (l & Hl & Hv); apply in_map_iff in Hl; destruct Hl as (f & <- & Hf); now exists f|].
    intros (f & Hf & Hv). exists (dvars f). split; [now apply in_map|exact Hv]. }
  set (done := filter (fun v => mem v all) vs).
  assert (HD : forall v, In v done <-> In v vs /\ exists f, In f fs /\ In v (dvars f)) by (intros v; unfold done; rewrite filter_In, mem_In, HA; tauto).
  rewrite (Px done (NoDup_filter _ _ N) HD e R). symmetry. apply (Py done (NoDup_filter _ _ N)).
  - intros v. rewrite HD, H. tauto.
  - intros f v Hf Hv Hn. apply (R f v Hf Hv). now rewrite H.
Qed.
Lemma marg_vars o f vs r : d_marginalize o f vs true = Ok r -> dvars r = vs.
Proof.
  unfold d_marginalize, d_marginal_vars. intros H. apply bind_ok in H. destruct H as (idx & _ & H). apply bind_ok in H. destruct H as (t & _ & H).
  apply bind_ok in H. destruct H as (ns & _ & H). unfold mk_dense in H. repeat (apply bind_ok in H; destruct H as (? & _ & H)). now injection H as <-.
Qed.
Lemma same_pot f g e : zgood card nm f -> zgood card nm g -> (forall v, In v (dvars f) <-> In v (dvars g)) -> dpt f e = dpt g e ->
  (forall v, In v (dvars f) -> e v < card v) -> dpot f e = dpot g e.
Proof.
  intros [Df _] [Dg _] V H R. rewrite <- (dpt_in f e), <- (dpt_in g e); [exact H| | | |].
  - apply (dk_wf _ _ _ Dg).
  - apply (dk_range card nm g e Dg). intros v Hv. apply R, V, Hv.
  - apply (dk_wf _ _ _ Df).
  - apply (dk_range card nm f e Df). exact R.
Qed.
(** Two marginals in a row, listed in the order of the table. *)
Lemma dense_steps o f xs ys : zgood card nm f -> (filter (fun v => mem v xs) (dvars f) = xs) -> (filter (fun v => mem v ys) xs = ys) ->
  exists a b r, d_marginalize o f xs true = Ok a /\ d_marginalize o a ys true = Ok b /\ d_marginalize o f ys true = Ok r /\ dvars b = ys /\ dvars r = ys /\ forall e, (forall v, In v ys -> e v < card v) -> dpot b e = dpot r e.
Proof.
  intros G Hx Hy. pose proof (ws_vars _ (dk_wf _ _ _ (zg_ok _ _ _ G))) as N.
  assert (Nx : NoDup xs) by (rewrite <- Hx; now apply NoDup_filter). assert (Ny : NoDup ys) by (rewrite <- Hy; now apply NoDup_filter).
  assert (Ix : incl xs (dvars f)) by (intros v Hv; rewrite <- Hx in Hv; apply filter_In in Hv; tauto).
  assert (Iy : incl ys xs) by (intros v Hv; rewrite <- Hy in Hv; apply filter_In in Hv; tauto).
  assert (Hyf : filter (fun v => mem v ys) (dvars f) = ys).
  { transitivity (filter (fun v => mem v ys) (filter (fun v => mem v xs) (dvars f))); [|rewrite Hx; exact Hy]. rewrite filter_filter. apply filter_ext_in. intros v _. destruct (mem v ys) eqn:E; [|now destruct (mem v xs)].
    symmetry. rewrite andb_true_r. apply mem_In, Iy. now apply mem_In in E. }
  pose proof (zero_lawful card nm o) as L.
  destruct (lw_marg _ _ _ _ L f xs G Nx Ix) as (a & Ea & Ga & Va & _).
  destruct (lw_marg _ _ _ _ L f ys G Ny) as (r & Er & Gr & Vr & _); [intros v Hv; apply Ix, Iy, Hv|].
  destruct (marg_steps _ card _ dpt L f xs ys G Nx Ny Ix Iy) as (a' & b & r' & E1 & E2 & E3 & V & P).
  rewrite Ea in E1. injection E1 as <-. rewrite Er in E3. injection E3 as <-.
  destruct (lw_marg _ _ _ _ L a ys Ga Ny) as (b' & Eb & Gb & Vb & _); [intros v Hv; apply Va, Iy, Hv|]. rewrite E2 in Eb. injection Eb as <-.
  cbn [f_marg zero_ops f_vars] in Ea, Er, E2. rewrite Hx in Ea. rewrite Hyf in Er. rewrite (marg_vars _ _ _ _ Ea), Hy in E2.
  exists a, b, r. do 3 (split; [assumption|]). split; [exact (marg_vars _ _ _ _ E2)|]. split; [exact (marg_vars _ _ _ _ Er)|].
  intros e R. apply same_pot; [exact Gb|exact Gr|exact V|exact (P e)|]. intros v Hv. apply R. now rewrite (marg_vars _ _ _ _ E2) in Hv.
Qed.
(** Evidence before or after a product. *)
Lemma dense_evidence_product a b vs (e0 : env) p q : zgood card nm a -> zgood card nm b -> NoDup vs -> incl vs (dvars a ++ dvars b) ->
  d_multiply a b = Ok p -> d_reduce p vs (map Z.of_nat (map e0 vs)) = Ok q ->
  forall a' b' r, d_reduce a (filter (fun v => mem v (dvars a)) vs) (map Z.of_nat (map e0 (filter (fun v => mem v (dvars a)) vs))) = Ok a' ->
    d_reduce b (filter (fun v => mem v (dvars b)) vs) (map Z.of_nat (map e0 (filter (fun v => mem v (dvars b)) vs))) = Ok b' ->
    d_multiply a' b' = Ok r ->
    (forall v, In v (dvars q) <-> In v (dvars r)) /\ forall e, (forall v, In v (dvars q) -> e v < card v) -> dpot q e = dpot r e.
Proof.
  intros Ga Gb N I Ep Eq a' b' r Ea Eb Er. pose proof (zero_lawful card nm SparseExamples.id_oracle) as L.
  destruct (reduce_product _ card _ dpt L a b vs e0 p q Ga Gb N I Ep Eq a' b' r Ea Eb Er) as (V & P). split; [exact V|]. intros e R.
  destruct (lw_mul _ _ _ _ L a b Ga Gb) as (p' & Ep' & Gp & Vp & _). cbn [f_mul zero_ops] in Ep'. rewrite Ep in Ep'. injection Ep' as <-.
  destruct (lw_reduce _ _ _ _ L p vs (map e0 vs) q Gp N) as (Gq & _); [intros v Hv; apply Vp, in_app_iff, I, Hv|apply map_length|exact Eq|].
  destruct (lw_reduce _ _ _ _ L a _ (map e0 (filter (fun v => mem v (dvars a)) vs)) a' Ga (NoDup_filter (fun v => mem v (dvars a)) _ N)) as (Ga' & _); [|apply map_length|exact Ea|].
  { intros v Hv. apply filter_In in Hv. destruct Hv as [_ Hv]. now apply mem_In in Hv. }
  destruct (lw_reduce _ _ _ _ L b _ (map e0 (filter (fun v => mem v (dvars b)) vs)) b' Gb (NoDup_filter (fun v => mem v (dvars b)) _ N)) as (Gb' & _); [|apply map_length|exact Eb|].
  { intros v Hv. apply filter_In in Hv. destruct Hv as [_ Hv]. now apply mem_In in Hv. }
  destruct (lw_mul _ _ _ _ L a' b' Ga' Gb') as (r' & Er' & Gr & _). cbn [f_mul zero_ops] in Er'. rewrite Er in Er'. injection Er' as <-.
  now apply same_pot.
Qed.
End Dense.
Lemma elim_dense_ex : (forall f, In f dx_chain -> zgood dx_card dx_nm f) /\ dx_chain <> [] /\ NoDup ["b"; "a"].
Proof.
  split; [|split; [discriminate|repeat constructor; cbn; intuition discriminate]].
  intros f Hf. destruct (dx_chain_good f Hf) as [A B C D E]. split; [now split|exact C].
Qed.
Lemma elim_dense_laws_ex : zgood dx_card dx_nm (dx ["a"; "b"]) /\ zgood dx_card dx_nm (dx ["b"; "c"]) /\
  (filter (fun v => mem v ["a"; "b"]) (dvars (dx ["a"; "b"])) = ["a"; "b"]) /\ (filter (fun v => mem v ["b"]) ["a"; "b"] = ["b"]) /\
  exists p q a' b' r, d_multiply (dx ["a"; "b"]) (dx ["b"; "c"]) = Ok p /\ d_reduce p ["b"] (map Z.of_nat [1]) = Ok q /\
    d_reduce (dx ["a"; "b"]) ["b"] (map Z.of_nat [1]) = Ok a' /\ d_reduce (dx ["b"; "c"]) ["b"] (map Z.of_nat [1]) = Ok b' /\ d_multiply a' b' = Ok r.
Proof.
  split; [apply elim_dense_ex; cbn; tauto|]. split; [apply elim_dense_ex; cbn; tauto|]. split; [reflexivity|]. split; [reflexivity|].
  eexists _, _, _, _, _. repeat split; reflexivity.
Qed.
