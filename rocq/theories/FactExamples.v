(** Concrete factorised factors used by the property file. *)
From Verif Require Export FactEq.
#[global] Set Bullet Behavior "Strict Subproofs".
Local Open Scope string_scope.
Local Open Scope R_scope.

(** One integrated variable: sharing it is transitive. *)
Lemma share_one (y : string) (p : string -> Prop) f g h : (forall v, p v -> v = y) -> share p f g -> share p g h -> share p f h.
Proof. intros Hp (v & Pv & V1 & V2) (w & Pw & W1 & W2). assert (w = v) as -> by (rewrite (Hp v Pv), (Hp w Pw); reflexivity). exists v. auto. Qed.
Theorem fg_marginal_one o a y : oracle_ok o -> scoped a -> (forall f, In f (fg_factors a) -> solid f /\ plain f) ->
  In y (fg_vars a) -> (exists v, In v (fg_vars a) /\ v <> y) ->
  exists j m r, fg_joint a = Ok j /\ g_marginalize o j [y] false = Ok m /\ fg_marginalize o a [y] false = Ok r /\
    match r with
    | inl g => (forall v, In v (ga_vars g) <-> In v (ga_vars m)) /\ wf_gauss g /\ forall e, lp g e = lp m e
    | Datatypes.inr b => (forall v, In v (fg_vars b) <-> In v (ga_vars m)) /\ scoped b /\ exists jb, fg_joint b = Ok jb /\ forall e, lp jb e = lp m e
    end /\ (forall v, In v (ga_vars m) <-> In v (fg_vars a) /\ v <> y).
Proof.
  intros Ho Sa HS Hy (v0 & Hv0 & Nv0).
  assert (HI : forall v, integrated a [y] false v <-> v = y).
  { intros v. unfold integrated. cbn. split; [intros (_ & [E|[]]); congruence|intros ->; auto]. }
  destruct (fg_marginal_spec o a [y] false Ho Sa HS) as (j & m & r & Ej & Em & Er & Hr & Hm).
  - constructor; [intros []|constructor].
  - intros v [<-|[]]. exact Hy.
  - exists v0. rewrite HI. now split.
  - intros f g h _ _ _. apply (share_one y). intros v. apply HI.
  - exists j, m, r. repeat (split; [assumption|]). intros v. rewrite Hm, HI. reflexivity.
Qed.
Lemma chain_scoped o : oracle_ok o -> scoped (chain_fg o).
Proof.
  intros Ho. destruct (mk_fg_ok o chain Ho) as (b & E & _ & Sb). { intros f Hf. destruct (chain_ok f Hf) as ((W & _) & _). exact W. }
  rewrite chain_made in E. injection E as <-. exact Sb.
Qed.
(** The chain with one variable integrated out meets the hypotheses. *)
Lemma chain_one : exists o, oracle_ok o /\ scoped (chain_fg o) /\ (forall f, In f (fg_factors (chain_fg o)) -> solid f /\ plain f) /\
  In "y" (fg_vars (chain_fg o)) /\ exists v, In v (fg_vars (chain_fg o)) /\ v <> "y".
Proof.
  destruct id_oracle_ok as (o & Ho). exists o. split; [exact Ho|]. split; [now apply chain_scoped|]. split; [exact chain_ok|].
  split; [apply chain_fg_vars; auto|]. exists "x". split; [apply chain_fg_vars; auto|discriminate].
Qed.
(** Two integrated variables shared by all factors that have either. *)
Definition pairs_ok : list gauss := [two_v "x" "y" 1 0 1; two_v "x" "y" 2 1 2; one_v "a" 1].
Lemma pairs_solid f : In f pairs_ok -> solid f /\ plain f.
Proof.
  intros [<-|[<-|[<-|[]]]]; [apply two_v_solid|apply two_v_solid|apply one_v_solid]; try discriminate; lra.
Qed.
Lemma pairs_hyps : exists o a, oracle_ok o /\ mk_fg o pairs_ok = Ok a /\ scoped a /\ (forall f, In f (fg_factors a) -> solid f /\ plain f) /\
  NoDup ["a"] /\ incl ["a"] (fg_vars a) /\ (exists v, In v (fg_vars a) /\ ~ integrated a ["a"] true v) /\
  (forall f g h, In f (fg_factors a) -> In g (fg_factors a) -> In h (fg_factors a) ->
     share (integrated a ["a"] true) f g -> share (integrated a ["a"] true) g h -> share (integrated a ["a"] true) f h).
Proof.
  destruct id_oracle_ok as (o & Ho).
  assert (EC : mapM g_copy pairs_ok = Ok pairs_ok).
  { unfold pairs_ok. cbn [mapM]. rewrite !copy_two, copy_one by (discriminate || lra). reflexivity. }
  destruct (mk_fg_ok o pairs_ok Ho) as (a & Ea & _ & Sa). { intros f Hf. destruct (pairs_solid f Hf) as ((W & _) & _). exact W. }
  exists o, a. split; [exact Ho|]. split; [exact Ea|]. split; [exact Sa|]. unfold mk_fg in Ea. rewrite EC in Ea. injection Ea as Ea.
  assert (EF : fg_factors a = pairs_ok) by now rewrite <- Ea. rewrite EF. split; [exact pairs_solid|].
  assert (HV : forall v, In v (fg_vars a) <-> v = "x" \/ v = "y" \/ v = "a").
  { intros v. destruct Sa as (_ & Sa). rewrite Sa, EF. unfold in_scope, pairs_ok. split.
    - intros (f & [<-|[<-|[<-|[]]]] & Hv); cbn in Hv; intuition.
    - intros [-> | [-> | ->]]; [exists (two_v "x" "y" 1 0 1)|exists (two_v "x" "y" 1 0 1)|exists (one_v "a" 1)]; cbn; auto. }
  split; [constructor; [intros []|constructor]|]. split; [intros v [<-|[]]; apply HV; auto|]. split.
  - exists "a". split; [apply HV; auto|]. intros (_ & H). apply H. now left.
  - intros f g h Hf Hg Hh (v & (Pv & Nv) & V1 & V2) (w & (Pw & Nw) & W1 & W2).
    assert (Gx : forall f, In f pairs_ok -> (exists v, In v (ga_vars f) /\ ~ In v ["a"]) -> In "x" (ga_vars f)).
    { intros k [<-|[<-|[<-|[]]]] (u & Hu & Nu); cbn in *; auto. }
    exists "x". split; [split; [apply HV; auto|intros [E|[]]; discriminate]|]. split; apply Gx; eauto.
Qed.
(** * Comparison *)
Definition eqA : gauss := one_v "x" 1.
Definition eqB : gauss := one_v "x" 2.
Lemma one_v_canonical v k : 0 < k -> canonical (one_v v k).
Proof. intros Hk. destruct (one_v_solid v k Hk) as ((W & V & _) & _). split; [exact W|]. split; [exact V|]. eexists. reflexivity. Qed.
Lemma eqA_self : matches eqA eqA.
Proof. eapply matches_self; [reflexivity|discriminate]. Qed.
Lemma eqB_A : ~ matches eqB eqA.
Proof.
  intros (_ & (p & q & Hp & Hq & _ & (H & _))). injection Hp as <-. injection Hq as <-. specialize (H "x" "x" (or_introl eq_refl) (or_introl eq_refl)).
  cbn in H. unfold close, default_tol in H. replace (2 - 1) with 1 in H by ring. rewrite Rabs_R1 in H. lra.
Qed.
Lemma eqA_B : ~ matches eqA eqB.
Proof.
  intros (_ & (p & q & Hp & Hq & _ & (H & _))). injection Hp as <-. injection Hq as <-. specialize (H "x" "x" (or_introl eq_refl) (or_introl eq_refl)).
  cbn in H. unfold close, default_tol in H. rewrite (Rabs_left (1 - 2)), (Rabs_right 2) in H by lra. lra.
Qed.
Lemma matchb_false f b : ~ matches f b -> matchb f b = false.
Proof. intros H. destruct (matchb f b) eqn:E; [|reflexivity]. apply matchb_iff in E. contradiction. Qed.
Lemma eq_copies l : (forall f, In f l -> f = eqA \/ f = eqB) -> mapM g_copy l = Ok l.
Proof.
  induction l as [|f l IH]; intros H; [reflexivity|]. cbn [mapM]. rewrite IH by (intros g Hg; apply H; now right).
  destruct (H f (or_introl eq_refl)) as [->| ->]; unfold eqA, eqB; rewrite copy_one by lra; reflexivity.
Qed.
Lemma eq_canonical l : (forall f, In f l -> f = eqA \/ f = eqB) -> forall f, In f l -> canonical f.
Proof. intros H f Hf. destruct (H f Hf) as [->| ->]; apply one_v_canonical; lra. Qed.
Definition eq_fg (o : oracle) (l : list gauss) : fg := {| fg_vars := so o (dedup (concat (map ga_vars l))); fg_factors := l |}.
Lemma two_AB (x y : gauss) : (x = eqA \/ x = eqB) -> (y = eqA \/ y = eqB) -> forall f, In f [x; y] -> f = eqA \/ f = eqB.
Proof. intros Hx Hy f [<-|[<-|[]]]; assumption. Qed.
Lemma eq_not_refl o : oracle_ok o -> exists a fs bs, mk_fg o [eqA; eqA] = Ok a /\ fg_equals a a = Ok (false, fs, bs).
Proof.
  intros Ho. exists (eq_fg o [eqA; eqA]). assert (HC := two_AB eqA eqA (or_introl eq_refl) (or_introl eq_refl)).
  destruct (fg_equals_spec (eq_fg o [eqA; eqA]) (eq_fg o [eqA; eqA])) as (bs & E & _); [exact (eq_canonical _ HC)|exact (eq_canonical _ HC)|reflexivity|reflexivity|].
  exists [eqA; eqA], bs. split; [unfold mk_fg; rewrite (eq_copies _ HC); reflexivity|]. rewrite E. cbn [eq_fg fg_factors]. do 3 f_equal.
  unfold pairs, row. cbn [fold_right filter]. rewrite (proj2 (matchb_iff eqA eqA) eqA_self). reflexivity.
Qed.
Lemma eq_different o : oracle_ok o -> exists a b fs bs, mk_fg o [eqA; eqB] = Ok a /\ mk_fg o [eqA; eqA] = Ok b /\ fg_equals a b = Ok (true, fs, bs) /\
  exists ja jb e, fg_joint a = Ok ja /\ fg_joint b = Ok jb /\ lp ja e <> lp jb e.
Proof.
  intros Ho. exists (eq_fg o [eqA; eqB]), (eq_fg o [eqA; eqA]). assert (HC := two_AB eqA eqA (or_introl eq_refl) (or_introl eq_refl)).
  assert (HD := two_AB eqA eqB (or_introl eq_refl) (or_intror eq_refl)).
  destruct (fg_equals_spec (eq_fg o [eqA; eqB]) (eq_fg o [eqA; eqA])) as (bs & E & _); [exact (eq_canonical _ HD)|exact (eq_canonical _ HC)|reflexivity|reflexivity|].
  exists [eqA; eqB], bs. split; [unfold mk_fg; rewrite (eq_copies _ HD); reflexivity|]. split; [unfold mk_fg; rewrite (eq_copies _ HC); reflexivity|]. split.
  - rewrite E. cbn [eq_fg fg_factors]. do 3 f_equal. unfold pairs, row. cbn [fold_right filter]. rewrite (proj2 (matchb_iff eqA eqA) eqA_self), (matchb_false _ _ eqB_A). reflexivity.
  - assert (HW : forall l, (forall f, In f l -> canonical f) -> all_wf l) by (intros l Hl f Hf; now apply Hl).
    destruct (joint_spec (eq_fg o [eqA; eqB])) as (ja & Ea & Wa & _ & La); [discriminate|exact (HW _ (eq_canonical _ HD))|].
    destruct (joint_spec (eq_fg o [eqA; eqA])) as (jb & Eb & Wb & _ & Lb); [discriminate|exact (HW _ (eq_canonical _ HC))|].
    exists ja, jb, (fun _ => 1). split; [exact Ea|]. split; [exact Eb|]. rewrite La, Lb. cbn [eq_fg fg_factors].
    destruct (one_v_solid "x" 1 Rlt_0_1) as (SA & PA). assert (H2 : 0 < 2) by lra. destruct (one_v_solid "x" 2 H2) as (SB & PB).
    intros Q. apply (f_equal (fun r => match r with Ok l => pot l | Err _ => 0 end)) in Q. cbv beta iota in Q.
    assert (G1 : forall f, In f [eqA; eqB] -> solid f /\ plain f) by (intros f Hf; destruct (HD f Hf) as [->| ->]; now split).
    assert (G2 : forall f, In f [eqA; eqA] -> solid f /\ plain f) by (intros f Hf; destruct (HC f Hf) as [->| ->]; now split).
    rewrite (proj2 (lvs_plain _ _ G1)), (proj2 (lvs_plain _ _ G2)) in Q. unfold gvals in Q. cbn [map fold_right] in Q. unfold eqA, eqB in Q. rewrite !one_v_val in Q.
    rewrite !Rmult_1_r, <- !exp_plus in Q. apply exp_inv in Q. lra.
Qed.
(** [A, B] meets the hypotheses of the positive results. *)
Lemma eq_sep_hyps : (forall f, In f [eqA; eqB] -> canonical f /\ forall p, ga_can f = Some p -> snd p <> NaN) /\
  ForallOrdPairs (fun f g => ~ matches f g /\ ~ matches g f) [eqA; eqB] /\
  sep_rows [eqA; eqB] [eqB; eqA] /\ sep_cols [eqA; eqB] [eqB; eqA].
Proof.
  assert (HD := two_AB eqA eqB (or_introl eq_refl) (or_intror eq_refl)). pose proof eqA_B as N1. pose proof eqB_A as N2. split.
  { intros f Hf. split; [exact (eq_canonical _ HD f Hf)|]. intros p Hp. destruct (HD f Hf) as [->| ->]; injection Hp as <-; discriminate. }
  split; [|split].
  - constructor; [constructor; [now split|constructor]|]. constructor; [constructor|constructor].
  - intros f Hf. constructor; [constructor; [|constructor]|constructor; [constructor|constructor]]. destruct (HD f Hf) as [->| ->]; tauto.
  - intros f Hf. assert (f = eqA \/ f = eqB) as Hf' by (destruct Hf as [<-|[<-|[]]]; auto).
    constructor; [constructor; [|constructor]|constructor; [constructor|constructor]]. destruct Hf' as [->| ->]; tauto.
Qed.
