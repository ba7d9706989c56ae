(** Comparing mixtures. *)
From Verif Require Export MixMarg.
#[global] Set Bullet Behavior "Strict Subproofs".
Local Open Scope R_scope.

(** [c'] is [c] after conversions (more forms may be present). *)
Definition ext (c c' : gauss) : Prop :=
  wf_gauss c' /\ regular c' /\ ga_vac c' = ga_vac c /\ ga_vars c' = ga_vars c /\
  (forall p, ga_can c = Some p -> ga_can c' = Some p) /\ (forall p, ga_cov c = Some p -> ga_cov c' = Some p) /\
  forall e, lp c' e = lp c e.
Lemma ext_refl c : wf_gauss c -> regular c -> ext c c.
Proof. intros W R. split; [exact W|]. split; [exact R|]. now repeat split. Qed.
Lemma ext_trans a b c : ext a b -> ext b c -> ext a c.
Proof.
  intros (W1 & R1 & A1 & V1 & C1 & D1 & L1) (W2 & R2 & A2 & V2 & C2 & D2 & L2). split; [exact W2|]. split; [exact R2|]. split; [congruence|].
  split; [congruence|]. split; [auto|]. split; [auto|]. intros e. now rewrite L2.
Qed.
Lemma same_fun_lp f f' e : same_fun f f' -> lp f' e = lp f e.
Proof. intros (_ & _ & _ & L). apply L. Qed.
Lemma get_can_ext f : wf_gauss f -> regular f -> exists f' p, get_can f = Ok (f', p) /\ ext f f' /\ ga_can f' = Some p.
Proof.
  intros W HR. destruct (get_can_wf f W) as (f' & K & h & g & E & V & C & S & W' & A & D). exists f', (K, h, g). split; [exact E|]. split; [|exact C].
  split; [exact W'|]. split; [|split; [exact A|split; [exact V|split; [|split]]]].
  - unfold get_can, update_canform in E. destruct (ga_can f) as [[[K0 h0] g0]|] eqn:Ec.
    + cbn [bind] in E. rewrite Ec in E. injection E as <- _ _ _. exact HR.
    + pose proof W as (_ & Hf & _ & Hv). destruct (ga_cov f) as [[[C0 m0] w0]|] eqn:Ev; [|destruct Hf; congruence].
      destruct (Hv _ eq_refl) as ((S1 & S2 & S3 & S4) & Hy & HD). intros K1 h1 g1 HK1. rewrite C in HK1. injection HK1 as <- _ _.
      assert (EK : K = minv C0).
      { apply bind_ok in E. destruct E as (f1 & E1 & E). apply bind_ok in E1. destruct E1 as (K2 & EK & E1). unfold np_inv in EK.
        rewrite S1, S2, Nat.eqb_refl in EK. destruct (Req_b (mdet C0) R0); [discriminate EK|]. injection EK as <-.
        apply bind_ok in E1. destruct E1 as (h2 & _ & E1). apply bind_ok in E1. destruct E1 as (q2 & _ & E1). apply bind_ok in E1. destruct E1 as (d2 & _ & E1).
        apply bind_ok in E1. destruct E1 as (l2 & _ & E1). injection E1 as <-. cbn [ga_can] in E. now injection E as _ <- _ _. }
      rewrite EK. split; [now apply symm_minv|]. rewrite mdet_minv by lra. now apply Rinv_0_lt_compat.
  - intros p Hp. unfold get_can, update_canform in E. rewrite Hp in E. cbn [bind] in E. rewrite Hp in E. injection E as <- ->. exact Hp.
  - intros p Hp. congruence.
  - intros e. apply same_fun_lp. exact (proj1 (get_can_same f f' _ W E)).
Qed.
Lemma get_cov_ext f : wf_gauss f -> regular f -> ga_vac f = false -> exists f' p, get_cov f = Ok (f', p) /\ ext f f' /\ ga_cov f' = Some p.
Proof.
  intros W HR HV. pose proof W as (Hd & Hf & Hc & Hv).
  assert (G : exists f' p, get_cov f = Ok (f', p) /\ ga_can f' = ga_can f).
  { unfold get_cov, update_covform. rewrite HV. destruct (ga_cov f) as [q|] eqn:Ev; [exists f, q; cbn [bind]; now rewrite Ev|].
    destruct (ga_can f) as [[[K h] g]|] eqn:Ec; [|destruct Hf; congruence]. destruct (HR K h g Ec) as (_ & HD).
    pose proof (update_covform_can (ga_vars f) K h g (Hc _ eq_refl)) as U. unfold update_covform in U. cbn [ga_vac ga_cov ga_can ga_vars] in U.
    rewrite U by lra. cbn [bind ga_cov]. do 2 eexists. split; [reflexivity|reflexivity]. }
  destruct G as (f' & p & E & Cf). exists f', p. split; [exact E|]. destruct (get_cov_same f f' p W HR E) as (S & V & Cv & _). split; [|exact Cv].
  pose proof S as (W' & _ & A & _). split; [exact W'|]. split; [intros K h g Hk; apply (HR K h g); congruence|]. split; [exact A|]. split; [exact V|].
  split; [intros q Hq; congruence|]. split; [|intros e; now apply same_fun_lp].
  intros q Hq. unfold get_cov, update_covform in E. rewrite HV, Hq in E. cbn [bind] in E. rewrite Hq in E. injection E as <- <-. exact Hq.
Qed.
Lemma reorder_id f vars : ga_vars f = vars -> g_reorder f vars = Ok f.
Proof. intros <-. unfold g_reorder. assert (eqb (ga_vars f) (ga_vars f) = true) as -> by now apply eqb_true. reflexivity. Qed.
Lemma allclose_self A B rtol atol : 0 <= rtol -> 0 <= atol -> nr A = nr B -> nc A = nc B -> exists b, allclose A B rtol atol = Ok b /\ (A = B -> b = true).
Proof.
  intros H1 H2 Hr Hc. unfold allclose. rewrite Hr, Hc, !Nat.eqb_refl. cbn [andb]. eexists. split; [reflexivity|]. intros ->.
  apply forallb_forall. intros i _. apply forallb_forall. intros j _. cbn [visclose]. apply Rle_b_true.
  unfold Rminus. rewrite Rplus_opp_r, Rabs_R0. pose proof (Rabs_pos (ent B i j)). pose proof (Rmult_le_pos _ _ H1 H). lra.
Qed.
Lemma visclose_self v rtol atol : 0 <= rtol -> 0 <= atol -> v <> NaN -> visclose v v rtol atol = true.
Proof.
  intros H1 H2 Hn. destruct v; cbn; try reflexivity; [|congruence]. apply Rle_b_true. unfold Rminus. rewrite Rplus_opp_r, Rabs_R0.
  pose proof (Rabs_pos r). pose proof (Rmult_le_pos _ _ H1 H). lra.
Qed.
Definition no_nan (f : gauss) : Prop := (forall p, ga_can f = Some p -> snd p <> NaN) /\ (forall p, ga_cov f = Some p -> snd p <> NaN).
Definition holds (f1 f2 : gauss) : Prop := (forall p, ga_can f1 = Some p -> ga_can f2 = Some p) /\ (forall p, ga_cov f1 = Some p -> ga_cov f2 = Some p).
Lemma g_equals_step f1 f2 : wf_gauss f1 -> wf_gauss f2 -> regular f2 -> ga_vac f1 = false -> ga_vac f2 = false -> ga_vars f1 = ga_vars f2 ->
  exists b f2', g_equals f1 f2 default_tol default_tol = Ok (b, f1, f2') /\ ext f2 f2' /\ (no_nan f1 -> holds f1 f2 -> b = true).
Proof.
  intros W1 W2 R2 V1 V2 EV. assert (T : 0 <= default_tol) by (unfold default_tol; lra). pose proof W1 as (Hd & Hf & Hc1 & Hv1).
  unfold g_equals. assert (seteqb (ga_vars f1) (ga_vars f2) = true) as -> by (apply seteqb_iff; now rewrite EV). cbn [negb].
  destruct (g_copy_ok f2 W2) as (c & Ec & _). rewrite Ec. cbn [bind].
  assert (eqb (ga_vars f1) (ga_vars f2) = true) as -> by now apply eqb_true. cbn [bind]. rewrite V1, Bool.andb_false_r.
  destruct (ga_can f1) as [[[K h] g]|] eqn:Ecan.
  - destruct (get_can_ext f2 W2 R2) as (f2' & [[K2 h2] g2] & E & X & Cf). destruct (Hc1 _ eq_refl) as (S1 & S2 & S3 & S4).
    destruct X as (W' & R' & A' & V' & C' & D' & L'). pose proof W' as (_ & _ & Hc2 & _). destruct (Hc2 _ Cf) as (T1 & T2 & T3 & T4). rewrite V', <- EV in T1, T2, T3.
    assert (X : ext f2 f2') by (repeat (split; [assumption|]); assumption).
    assert (Same : holds f1 f2 -> (K2, h2, g2) = (K, h, g)) by (intros (H & _); rewrite (C' _ (H _ Ecan)) in Cf; congruence).
    assert (Ek : get_can f2' = Ok (f2', (K2, h2, g2))) by (unfold get_can, update_canform; rewrite Cf; cbn [bind]; now rewrite Cf).
    unfold canform_equals. rewrite E. cbn [bind fst snd]. destruct (visclose g g2 default_tol default_tol) eqn:Eg; cbn [negb bind fst snd].
    2: { exists false, f2'. split; [reflexivity|]. split; [exact X|]. intros (N & _) HH. pose proof (Same HH) as Q. injection Q as -> -> ->.
         rewrite visclose_self in Eg; [discriminate|exact T|exact T|exact (N _ Ecan)]. }
    rewrite (reorder_id f2') by congruence. cbn [bind]. rewrite Ek. cbn [bind fst snd].
    destruct (allclose_self h h2 default_tol default_tol T T) as (b1 & Eb1 & Hb1); [congruence|congruence|]. rewrite Eb1. cbn [bind].
    destruct b1; cbn [negb bind fst snd].
    + destruct (allclose_self K K2 default_tol default_tol T T) as (b2 & Eb2 & Hb2); [congruence|congruence|]. rewrite Eb2. cbn [bind fst snd].
      exists b2, f2'. split; [reflexivity|]. split; [exact X|]. intros _ HH. apply Hb2. pose proof (Same HH) as Q. now injection Q.
    + exists false, f2'. split; [reflexivity|]. split; [exact X|]. intros _ HH. apply Hb1. pose proof (Same HH) as Q. now injection Q.
  - destruct (ga_cov f1) as [[[C m] w]|] eqn:Ecov; [|destruct Hf; congruence]. unfold update_covform. rewrite V1, Ecov. cbn [bind]. rewrite Ecov.
    destruct (get_cov_ext f2 W2 R2 V2) as (f2' & [[C2 m2] w2] & E & X & Cf). destruct (Hv1 _ eq_refl) as ((S1 & S2 & S3 & S4) & _).
    destruct X as (W' & R' & A' & V' & C' & D' & L'). pose proof W' as (_ & _ & _ & Hv2). destruct (Hv2 _ Cf) as ((T1 & T2 & T3 & T4) & _). rewrite V', <- EV in T1, T2, T3.
    assert (X : ext f2 f2') by (repeat (split; [assumption|]); assumption).
    assert (Same : holds f1 f2 -> (C2, m2, w2) = (C, m, w)) by (intros (_ & H); rewrite (D' _ (H _ Ecov)) in Cf; congruence).
    assert (Ek : get_cov f2' = Ok (f2', (C2, m2, w2))) by (unfold get_cov, update_covform; rewrite A', V2, Cf; cbn [bind]; now rewrite Cf).
    unfold covform_equals. rewrite E. cbn [bind fst snd]. destruct (visclose (vexp w) (vexp w2) default_tol default_tol) eqn:Eg; cbn [negb bind fst snd].
    2: { exists false, f2'. split; [reflexivity|]. split; [exact X|]. intros (_ & N) HH. pose proof (Same HH) as Q. injection Q as -> -> ->.
         rewrite visclose_self in Eg; [discriminate|exact T|exact T|]. specialize (N _ Ecov). cbn in N. destruct w; cbn; congruence. }
    rewrite (reorder_id f2') by congruence. cbn [bind]. rewrite Ek. cbn [bind fst snd].
    destruct (allclose_self m m2 default_tol default_tol T T) as (b1 & Eb1 & Hb1); [congruence|congruence|]. rewrite Eb1. cbn [bind].
    destruct b1; cbn [negb bind fst snd].
    + destruct (allclose_self C C2 default_tol default_tol T T) as (b2 & Eb2 & Hb2); [congruence|congruence|]. rewrite Eb2. cbn [bind fst snd].
      exists b2, f2'. split; [reflexivity|]. split; [exact X|]. intros _ HH. apply Hb2. pose proof (Same HH) as Q. now injection Q.
    + exists false, f2'. split; [reflexivity|]. split; [exact X|]. intros _ HH. apply Hb1. pose proof (Same HH) as Q. now injection Q.
Qed.

(** The loops *)
Definition cmp (vs : list string) (c : gauss) : Prop := wf_gauss c /\ regular c /\ ga_vac c = false /\ ga_vars c = vs.
Lemma cmp_ext vs c c' : cmp vs c -> ext c c' -> cmp vs c'.
Proof. intros (W & R & A & V) (W' & R' & A' & V' & _). split; [exact W'|]. split; [exact R'|]. split; congruence. Qed.
Lemma F2_set_nth {A B} (P : A -> B -> Prop) l m j x y : Forall2 P l m -> nth_error l j = Some x -> P x y -> Forall2 P l (set_nth m j y).
Proof.
  intros F. revert j. induction F as [|a b l m Hab F IH]; intros j Hj Hp; [destruct j; discriminate|]. destruct j as [|j]; cbn in Hj.
  - injection Hj as ->. unfold set_nth. cbn. now constructor.
  - unfold set_nth. cbn. constructor; [exact Hab|]. now apply IH.
Qed.
Lemma F2_nth {A B} (P : A -> B -> Prop) l m j x : Forall2 P l m -> nth_error l j = Some x -> exists y, nth_error m j = Some y /\ P x y.
Proof.
  intros F. revert j. induction F as [|a b l m Hab F IH]; intros j Hj; [destruct j; discriminate|]. destruct j as [|j]; cbn in *; [injection Hj as ->; eauto|].
  now apply IH.
Qed.
Lemma py_nth_some {A} (l : list A) j x : nth_error l j = Some x -> py_nth l j = Ok x.
Proof. intros H. unfold py_nth. now rewrite H. Qed.
Definition found_in (fi : gauss) (bs : list gauss) (js : list nat) : Prop :=
  exists j bj b' r, In j js /\ nth_error bs j = Some bj /\ ext bj b' /\ g_equals fi b' default_tol default_tol = Ok (true, fi, r).
Lemma inner_spec vs fi bs js : cmp vs fi -> (forall c, In c bs -> cmp vs c) -> (forall j, In j js -> (j < length bs)%nat) ->
  exists found bs', mix_eq_inner fi js bs = Ok (found, fi, bs') /\ Forall2 ext bs bs' /\
    (found = true -> found_in fi bs js) /\
    (forall j bj, In j js -> nth_error bs j = Some bj -> no_nan fi -> holds fi bj -> found = true).
Proof.
  intros Hfi Hbs Hjs. unfold mix_eq_inner.
  enough (G : forall f0 bs0, Forall2 ext bs bs0 -> exists found bs', foldM (fun (st : bool * gauss * list gauss) (j : nat) => let '(found, fi, bs) := st in
           let* bj := py_nth bs j in let* e := g_equals fi bj default_tol default_tol in
           let '(b, fi', bj') := e in Ok (found || b, fi', set_nth bs j bj'))%bool js (f0, fi, bs0) = Ok (found, fi, bs') /\ Forall2 ext bs bs' /\
    (found = true -> f0 = true \/ found_in fi bs js) /\ (f0 = true -> found = true) /\
    (forall j bj, In j js -> nth_error bs j = Some bj -> no_nan fi -> holds fi bj -> found = true)).
  { destruct (G false bs) as (found & bs' & E & F & H1 & _ & H3).
    - clear -Hbs. induction bs as [|b bs IH]; constructor; [destruct (Hbs b (or_introl eq_refl)) as (W & R & _); now apply ext_refl|].
      apply IH. intros c Hc. apply Hbs. now right.
    - exists found, bs'. split; [exact E|]. split; [exact F|]. split; [|exact H3]. intros Hf. destruct (H1 Hf) as [|]; [discriminate|assumption]. }
  clear -Hfi Hbs Hjs. induction js as [|j js IH]; intros f0 bs0 F.
  - exists f0, bs0. cbn [foldM]. split; [reflexivity|]. split; [exact F|]. split; [now left|]. split; [auto|]. intros j bj [].
  - assert (Hj : (j < length bs)%nat) by (apply Hjs; now left). destruct (nth_error bs j) as [bj|] eqn:Ej; [|apply nth_error_None in Ej; lia].
    destruct (F2_nth _ _ _ j bj F Ej) as (b0 & E0 & X0). pose proof (Hbs bj (nth_error_In _ _ Ej)) as Cj. pose proof (cmp_ext vs bj b0 Cj X0) as (W0 & R0' & A0 & V0).
    destruct Hfi as (Wf & Rf & Af & Vf).
    destruct (g_equals_step fi b0 Wf W0 R0' Af A0 ltac:(congruence)) as (b & b0' & Eq & X1 & Hb).
    cbn [foldM]. rewrite (py_nth_some bs0 j b0 E0). cbn [bind]. rewrite Eq. cbn [bind].
    destruct (IH (fun k Hk => Hjs k (or_intror Hk)) (f0 || b)%bool (set_nth bs0 j b0')) as (found & bs' & E & F' & H1 & H2 & H3).
    { apply (F2_set_nth ext bs bs0 j bj b0' F Ej). exact (ext_trans _ _ _ X0 X1). }
    exists found, bs'. split; [exact E|]. split; [exact F'|]. split; [|split].
    + intros Hf. destruct (H1 Hf) as [Ho|(k & bk & bk' & r & Hk & Q)]; [|right; exists k, bk, bk', r; split; [now right|exact Q]].
      apply Bool.orb_true_iff in Ho. destruct Ho as [Ho|Ho]; [now left|]. subst b. right. exists j, bj, b0, b0'. split; [now left|]. split; [exact Ej|]. split; [exact X0|exact Eq].
    + intros Hf. apply H2. now rewrite Hf.
    + intros k bk [<-|Hk] Ek Nn Hh; [|now apply (H3 k bk)]. apply H2. rewrite Ej in Ek. injection Ek as <-. rewrite Hb; [apply Bool.orb_true_r|exact Nn|].
      destruct Hh as (Hh1 & Hh2). destruct X0 as (_ & _ & _ & _ & Xc & Xd & _). split; intros p Hp; [apply Xc, Hh1, Hp|apply Xd, Hh2, Hp].
Qed.
Lemma set_nth_same {A} (l : list A) i x : nth_error l i = Some x -> set_nth l i x = l.
Proof.
  revert i. induction l as [|a l IH]; intros i E; [destruct i; discriminate|]. destruct i as [|i]; cbn in E; [injection E as ->; reflexivity|].
  unfold set_nth. cbn. f_equal. now apply IH.
Qed.
Lemma ext_F2_trans bs bs' bs'' : Forall2 ext bs bs' -> Forall2 ext bs' bs'' -> Forall2 ext bs bs''.
Proof.
  intros F. revert bs''. induction F as [|a b l m H F IH]; intros bs'' G; inversion G; subst; [constructor|]. constructor; [eapply ext_trans; eauto|]. now apply IH.
Qed.
Lemma outer_spec vs sa n is : forall bs, (forall c, In c sa -> cmp vs c) -> (forall c, In c bs -> cmp vs c) -> length sa = n -> length bs = n ->
  (forall i, In i is -> (i < n)%nat) ->
  exists b bs', mix_eq_outer n is sa bs = Ok (b, sa, bs') /\ Forall2 ext bs bs' /\
    (b = true -> forall i fi, In i is -> nth_error sa i = Some fi -> found_in fi bs (seq i (n - i))) /\
    ((forall i fi bi, In i is -> nth_error sa i = Some fi -> nth_error bs i = Some bi -> no_nan fi /\ holds fi bi) -> b = true).
Proof.
  induction is as [|i is IH]; intros bs Ha Hb La Lb Hi.
  - exists true, bs. cbn [mix_eq_outer]. split; [reflexivity|]. split; [|split; [intros _ i fi []|reflexivity]].
    clear -Hb. induction bs as [|b bs IH]; constructor; [destruct (Hb b (or_introl eq_refl)) as (W & R & _); now apply ext_refl|].
    apply IH. intros c Hc. apply Hb. now right.
  - assert (Hn : (i < n)%nat) by (apply Hi; now left). destruct (nth_error sa i) as [fi|] eqn:Ei; [|apply nth_error_None in Ei; lia].
    pose proof (Ha fi (nth_error_In _ _ Ei)) as Ci.
    destruct (inner_spec vs fi bs (seq i (n - i)) Ci Hb) as (found & bs' & E & F & H1 & H2); [intros j Hj; apply in_seq in Hj; lia|].
    cbn [mix_eq_outer]. rewrite (py_nth_some sa i fi Ei). cbn [bind]. rewrite E. cbn [bind]. rewrite (set_nth_same sa i fi Ei).
    destruct found.
    + assert (Hb' : forall c, In c bs' -> cmp vs c) by (intros c Hc; destruct (F2_in_r _ _ _ c F Hc) as (c0 & Hc0 & X); now apply (cmp_ext vs c0 c (Hb c0 Hc0))).
      assert (LF : length bs = length bs') by (clear -F; induction F; cbn; congruence).
      destruct (IH bs' Ha Hb' La ltac:(congruence) (fun k Hk => Hi k (or_intror Hk))) as (b & bs'' & E' & F' & G1 & G2).
      exists b, bs''. split; [exact E'|]. split; [now apply (ext_F2_trans bs bs')|]. split.
      * intros Hbt k fk [<-|Hk] Ek; [rewrite Ei in Ek; injection Ek as <-; now apply H1|].
        destruct (G1 Hbt k fk Hk Ek) as (j & bj & b' & r & Q1 & Q2 & Q3 & Q4).
        destruct (nth_error bs j) as [b0|] eqn:E0; [|apply nth_error_None in E0; assert (j < length bs')%nat by (apply nth_error_Some; congruence); lia].
        destruct (F2_nth _ _ _ j b0 F E0) as (bj' & Ebj & X). rewrite Q2 in Ebj. injection Ebj as <-.
        exists j, b0, b', r. split; [exact Q1|]. split; [exact E0|]. split; [exact (ext_trans _ _ _ X Q3)|exact Q4].
      * intros Hall. apply G2. intros k fk bk Hk Ek Ebk. destruct (nth_error bs k) as [b0|] eqn:E0.
        -- destruct (F2_nth _ _ _ k b0 F E0) as (bk' & Ebk' & X). rewrite Ebk in Ebk'. injection Ebk' as <-.
           destruct (Hall k fk b0 (or_intror Hk) Ek E0) as (Nn & Hh1 & Hh2). split; [exact Nn|]. destruct X as (_ & _ & _ & _ & Xc & Xd & _).
           split; intros p Hp; [apply Xc, Hh1, Hp|apply Xd, Hh2, Hp].
        -- apply nth_error_None in E0. assert (k < length bs')%nat by (apply nth_error_Some; congruence). lia.
    + exists false, bs'. split; [reflexivity|]. split; [exact F|]. split; [discriminate|]. intros Hall.
      destruct (nth_error bs i) as [bi|] eqn:Eb; [|apply nth_error_None in Eb; lia].
      destruct (Hall i fi bi (or_introl eq_refl) Ei Eb) as (Nn & Hh). apply (H2 i bi); auto. apply in_seq. lia.
Qed.
Definition cmp_mix (a : gmix) : Prop := gm_comps a <> [] /\ forall c, In c (gm_comps a) -> cmp (gm_vars a) c.
Lemma mix_equals_sound a b rtol atol sa sb : cmp_mix a -> cmp_mix b -> gm_vars a = gm_vars b -> mix_equals a b rtol atol = Ok (true, sa, sb) ->
  length (gm_comps a) = length (gm_comps b) /\
  (forall i fi, nth_error (gm_comps a) i = Some fi -> found_in fi (gm_comps b) (seq i (length (gm_comps a) - i))) /\
  sa = gm_comps a /\ Forall2 ext (gm_comps b) sb.
Proof.
  intros (Na & Ha) (Nb & Hb) EV E. unfold mix_equals in E. destruct (Nat.eqb_spec (length (gm_comps b)) (length (gm_comps a))) as [El|]; cbn [negb] in E; [|discriminate].
  rewrite <- EV in Hb.
  destruct (outer_spec (gm_vars a) (gm_comps a) (length (gm_comps a)) (seq 0 (length (gm_comps a))) (gm_comps b) Ha Hb eq_refl El) as (r & bs' & E' & F & H1 & _).
  { intros i Hi. apply in_seq in Hi. lia. }
  rewrite E in E'. injection E' as <- -> ->. split; [congruence|]. split; [|split; [reflexivity|exact F]]. intros i fi Hi. apply H1; [reflexivity| |exact Hi].
  apply in_seq. split; [lia|]. apply nth_error_Some. congruence.
Qed.
(** A mixture and a copy of it with the same components in the same order compare equal. *)
Lemma mix_equals_refl a b rtol atol : cmp_mix a -> cmp_mix b -> gm_vars a = gm_vars b -> 
  Forall2 (fun fi bi => no_nan fi /\ holds fi bi) (gm_comps a) (gm_comps b) ->
  exists sb, mix_equals a b rtol atol = Ok (true, gm_comps a, sb) /\ Forall2 ext (gm_comps b) sb.
Proof.
  intros (Na & Ha) (Nb & Hb) EV F0. assert (El : length (gm_comps a) = length (gm_comps b)) by (clear -F0; induction F0; cbn; congruence). unfold mix_equals. rewrite El, Nat.eqb_refl. cbn [negb]. rewrite <- EV in Hb.
  destruct (outer_spec (gm_vars a) (gm_comps a) (length (gm_comps b)) (seq 0 (length (gm_comps b))) (gm_comps b) Ha Hb El eq_refl) as (r & bs' & E' & F & _ & H2).
  { intros i Hi. apply in_seq in Hi. lia. }
  exists bs'. split; [|exact F]. rewrite E'. rewrite H2; [reflexivity|]. intros i fi bi _ Ei Eb. destruct (F2_nth _ _ _ i fi F0 Ei) as (b' & Eb' & Q). congruence.
Qed.
