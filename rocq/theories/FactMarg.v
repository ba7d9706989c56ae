(** Factorised factors: marginals.  Products of solid Gaussians, integrals of products. *)
From Coq Require Import ClassicalEpsilon.
From Verif Require Export FactReduce.
#[global] Set Bullet Behavior "Strict Subproofs".
Local Open Scope R_scope.

(** * Products of Gaussians with positive definite precision *)
Lemma qsum_nonneg K n u : posdef K -> nr K = n -> 0 <= qsum n K u.
Proof.
  intros (_ & P) <-. destruct (excluded_middle_informative (exists i, (i < nr K)%nat /\ u i <> 0)) as [H|H]; [left; now apply P|].
  right. unfold qsum, rsum. symmetry. apply Rsum_zero. intros i Hi. apply Rsum_zero. intros j Hj. apply in_seq in Hi.
  destruct (Req_dec (u i) 0) as [->|Ni]; [ring|]. exfalso. apply H. exists i. split; [lia|exact Ni].
Qed.
Lemma named_zero n vars v : named_coord (mzeros n 1) vars v = 0.
Proof. unfold named_coord. destruct (index_opt v vars); reflexivity. Qed.
Lemma can_form_zero vars K n e : NoDup vars -> can_form vars K (mzeros n 1) e = - (1 / 2) * qsum (length vars) K (fun i => e (nth i vars ""%string)).
Proof.
  intros Hd. rewrite can_form_pos by exact Hd. rewrite (rsum_ext (length vars) _ (fun _ => 0)); [|intros i Hi; cbn; ring].
  unfold rsum. rewrite Rsum_zero by reflexivity. ring.
Qed.
Lemma posdef_sum va vb nv K1 K2 M : NoDup va -> NoDup vb -> NoDup nv -> (forall v, In v nv <-> In v va \/ In v vb) ->
  posdef K1 -> posdef K2 -> nr K1 = length va -> nr K2 = length vb -> nr M = length nv ->
  (forall u v, In u nv -> In v nv -> named_entry M nv u v = named_entry K1 va u v + named_entry K2 vb u v) -> posdef M.
Proof.
  intros Da Db Dn Hin P1 P2 L1 L2 LM HM.
  assert (Sy : forall K vs u v, posdef K -> NoDup vs -> nr K = length vs -> named_entry K vs u v = named_entry K vs v u).
  { intros K vs u v (SK & _) Dv LK. destruct (in_dec string_dec u vs) as [Hu|Hu]; [|rewrite !named_entry_out by tauto; reflexivity].
    destruct (in_dec string_dec v vs) as [Hv|Hv]; [|rewrite !named_entry_out by tauto; reflexivity]. now apply named_symm. }
  split.
  - intros i j Hi Hj. rewrite LM in Hi, Hj. rewrite <- (nth_name_entry nv M i j Dn Hi Hj), <- (nth_name_entry nv M j i Dn Hj Hi).
    rewrite !HM by now apply nth_In. rewrite (Sy K1), (Sy K2) by assumption. reflexivity.
  - intros u (i & Hi & Ni). rewrite LM in *. set (e := fun v => u (pos nv v)).
    assert (Hq : qsum (length nv) M u = qsum (length nv) M (fun k => e (nth k nv ""%string))).
    { apply qsum_ext; [reflexivity|]. intros k Hk. unfold e. now rewrite pos_of_nth. }
    pose proof (can_form_op va vb nv K1 (mzeros 0 1) K2 (mzeros 0 1) M (mzeros 0 1) Rplus e) as Q.
    rewrite !can_form_zero in Q by assumption. rewrite Hq.
    assert (Q' : qsum (length nv) M (fun k => e (nth k nv ""%string)) = qsum (length va) K1 (fun k => e (nth k va ""%string)) + qsum (length vb) K2 (fun k => e (nth k vb ""%string))).
    { enough (G : - (1 / 2) * qsum (length nv) M (fun k => e (nth k nv ""%string)) = - (1 / 2) * qsum (length va) K1 (fun k => e (nth k va ""%string)) + - (1 / 2) * qsum (length vb) K2 (fun k => e (nth k vb ""%string))) by lra.
      apply Q; auto; try (intros; ring). intros v Hv. rewrite !named_zero. ring. }
    rewrite Q'. pose proof (qsum_nonneg K1 (length va) (fun k => e (nth k va ""%string)) P1 L1) as N1.
    pose proof (qsum_nonneg K2 (length vb) (fun k => e (nth k vb ""%string)) P2 L2) as N2.
    assert (Hx : e (nth i nv ""%string) <> 0) by (unfold e; now rewrite pos_of_nth).
    destruct (proj1 (Hin (nth i nv ""%string)) (nth_In _ _ Hi)) as [Hv|Hv].
    + enough (0 < qsum (length va) K1 (fun k => e (nth k va ""%string))) by lra. rewrite <- L1. apply P1.
      destruct (pos_nth va _ Hv) as (Hp & Ep). exists (pos va (nth i nv ""%string)). rewrite L1. split; [exact Hp|]. now rewrite Ep.
    + enough (0 < qsum (length vb) K2 (fun k => e (nth k vb ""%string))) by lra. rewrite <- L2. apply P2.
      destruct (pos_nth vb _ Hv) as (Hp & Ep). exists (pos vb (nth i nv ""%string)). rewrite L2. split; [exact Hp|]. now rewrite Ep.
Qed.
Lemma multiply_solid f1 f2 : solid f1 -> solid f2 ->
  exists r, g_multiply f1 f2 = Ok r /\ solid r /\ (forall v, In v (ga_vars r) <-> In v (ga_vars f1) \/ In v (ga_vars f2)) /\
    (forall e, lv r e = vadd (lv f1 e) (lv f2 e)) /\ (plain f1 -> plain f2 -> plain r).
Proof.
  intros S1 S2. pose proof S1 as (W1 & _). pose proof S2 as (W2 & _). pose proof W1 as (D1 & _). pose proof W2 as (D2 & _).
  destruct (multiply_lv f1 f2 W1 W2) as (r & Er & Wr & Vr & Lr).
  destruct (get_can_solid f1 S1) as (f1' & K1 & h1 & g1 & E1 & P1 & (A1 & A2 & A3 & A4)).
  destruct (get_can_solid f2 S2) as (f2' & K2 & h2 & g2 & E2 & P2 & (B1 & B2 & B3 & B4)).
  exists r. split; [exact Er|]. assert (Hpl : plain f1 -> plain f2 -> plain r).
  { intros Q1 Q2 e l L. rewrite (lp_lv r e Wr) in L. injection L as <-. rewrite Lr. apply pot_vadd; [apply (Q1 e)|apply (Q2 e)]; now apply lp_lv. }
  split; [|split; [exact Vr|split; [exact Lr|exact Hpl]]].
  pose proof Er as E. unfold g_multiply, absorb_or_cancel in E. rewrite E1, E2 in E. cbn [bind snd] in E.
  rewrite ix_square_ok, ix_column_ok in E by assumption. cbn [bind fst snd] in E. set (nv := new_vars (ga_vars f1) (ga_vars f2)) in *.
  assert (Dn : NoDup nv) by now apply new_vars_NoDup.
  unfold py_assert in E. destruct (eqb nv nv) eqn:Eq; [|discriminate E].
  cbn [bind] in E.
  match type of E with mk_can nv ?M ?t ?g = _ => set (M0 := M) in *; set (t0 := t) in * end.
  rewrite (mk_can_ok nv M0 t0 (vadd g1 g2) Dn) in E by (cbn; now repeat split). injection E as <-.
  assert (PM : posdef M0).
  { apply (posdef_sum (ga_vars f1) (ga_vars f2) nv K1 K2 M0); auto.
    intros u v Hu Hv. destruct (pos_nth nv u Hu) as (Hi & Hiu). destruct (pos_nth nv v Hv) as (Hj & Hjv).
    rewrite <- Hiu at 1. rewrite <- Hjv at 1. rewrite nth_name_entry by assumption. unfold M0. cbn [ent]. now rewrite Hiu, Hjv. }
  split; [exact Wr|]. split; [apply posdef_not_vacuous; [reflexivity|exact PM]|]. split; [intros p q _ Hq; discriminate Hq|]. split; [|intros C m w Hq; discriminate Hq].
  intros K h g Hk. injection Hk as <- _ _. exact PM.
Qed.
Lemma fold_solid fs : forall c, solid c -> plain c -> (forall f, In f fs -> solid f /\ plain f) ->
  exists j, foldM g_multiply fs c = Ok j /\ solid j /\ plain j.
Proof.
  induction fs as [|f fs IH]; intros c Sc Pc H; [exists c; now split|]. destruct (H f (or_introl eq_refl)) as (Sf & Pf).
  destruct (multiply_solid c f Sc Sf) as (p & Ep & Sp & _ & _ & Pp). destruct (IH p Sp (Pp Pc Pf)) as (j & Ej & Q). { intros g Hg. apply H. now right. }
  exists j. cbn [foldM]. rewrite Ep. split; [exact Ej|exact Q].
Qed.
Lemma plain_same f c : same_obj f c -> plain f -> plain c.
Proof. intros S P e l L. apply (P e). now rewrite <- (same_obj_lp' f c e S). Qed.
Lemma copy_same f c : wf_gauss f -> g_copy f = Ok c -> same_obj f c.
Proof. intros W E. destruct (g_copy_ok f W) as (c' & E' & V & C & D & Wc). assert (c' = c) as -> by congruence. split; [exact Wc|now split]. Qed.
Lemma joint_solid a : fg_factors a <> [] -> (forall f, In f (fg_factors a) -> solid f /\ plain f) -> exists j, fg_joint a = Ok j /\ solid j /\ plain j.
Proof.
  intros Hn H. unfold fg_joint. destruct (fg_factors a) as [|f fs]; [congruence|]. destruct (H f (or_introl eq_refl)) as (Sf & Pf).
  destruct (solid_copy f Sf) as (c & Ec & Sc & _). rewrite Ec. cbn [bind]. apply fold_solid; [exact Sc| |intros g Hg; apply H; now right].
  exact (plain_same f c (copy_same f c (proj1 Sf) Ec) Pf).
Qed.
Lemma solid_same fs cs : mapM g_copy fs = Ok cs -> (forall f, In f fs -> solid f /\ plain f) -> forall c, In c cs -> solid c /\ plain c.
Proof.
  intros E H c Hc. apply mapM_Ok_inv in E. destruct (F2_in_r _ _ _ c E Hc) as (f & Hf & Ef). destruct (H f Hf) as (Sf & Pf).
  destruct (solid_copy f Sf) as (c' & Ec' & Sc' & _). assert (c' = c) as -> by congruence. split; [exact Sc'|].
  exact (plain_same f c (copy_same f c (proj1 Sf) Ef) Pf).
Qed.

(** * Integrals of products *)
Definition indep (ys : list string) (F : (string -> R) -> R) : Prop := forall y, In y ys -> forall e t, F (setv e y t) = F e.
Lemma iint_scal ys : forall c F e I, indep ys c -> iint ys F e I -> iint ys (fun e => c e * F e) e (c e * I).
Proof.
  induction ys as [|y ys IH]; intros c F e I Hc; cbn [iint]; [congruence|]. intros (G & HG & HI).
  exists (fun t => c e * G t). split; [|now apply is_int_scal]. intros t. rewrite <- (Hc y (or_introl eq_refl) e t).
  apply IH; [intros z Hz; apply Hc; now right|apply HG].
Qed.
Lemma iint_app ys1 ys2 : forall F K e I, (forall e, iint ys2 F e (K e)) -> iint ys1 K e I -> iint (ys1 ++ ys2) F e I.
Proof.
  induction ys1 as [|y ys1 IH]; intros F K e I HF; cbn [iint app].
  - intros ->. apply HF.
  - intros (G & HG & HI). exists G. split; [|exact HI]. intros t. apply (IH F K); [exact HF|apply HG].
Qed.
Lemma iint_prod ys1 ys2 F G (I J : (string -> R) -> R) : indep ys2 F -> indep ys1 J ->
  (forall e, iint ys1 F e (I e)) -> (forall e, iint ys2 G e (J e)) -> forall e, iint (ys1 ++ ys2) (fun e => F e * G e) e (I e * J e).
Proof.
  intros IF IJ HF HG e. apply (iint_app ys1 ys2 _ (fun e => J e * F e)).
  - intros e'. rewrite Rmult_comm. now apply iint_scal.
  - rewrite Rmult_comm. now apply iint_scal.
Qed.
Definition gvals (fs : list gauss) (e : string -> R) : R := fold_right Rmult 1 (map (fun f => gval f e) fs).
Lemma gval_lv f e : gval f e = pot (lv f e).
Proof. unfold gval, lv. destruct (lp f e); reflexivity. Qed.
Lemma lv_plain f e : solid f -> plain f -> is_lp (lv f e).
Proof. intros (W & _) P. apply (P e). now apply lp_lv. Qed.
Lemma lvs_plain fs e : (forall f, In f fs -> solid f /\ plain f) -> is_lp (lvs fs e) /\ pot (lvs fs e) = gvals fs e.
Proof.
  induction fs as [|f fs IH]; intros H.
  - split; [exact I|]. unfold gvals. cbn. apply exp_0.
  - destruct (H f (or_introl eq_refl)) as (Sf & Pf). destruct IH as (I1 & I2); [intros g Hg; apply H; now right|]. rewrite lvs_cons.
    destruct (pot_vadd (lv f e) (lvs fs e) (lv_plain f e Sf Pf) I1) as (Q1 & Q2). split; [exact Q1|]. rewrite Q2, I2, <- gval_lv. reflexivity.
Qed.
Lemma gval_ext f e e' : (forall v, In v (ga_vars f) -> e v = e' v) -> gval f e = gval f e'.
Proof. intros H. unfold gval, lp. now rewrite (map_ext_in e e' (ga_vars f) H). Qed.
Lemma gval_indep f ys : (forall y, In y ys -> ~ In y (ga_vars f)) -> indep ys (gval f).
Proof. intros H y Hy e t. apply gval_ext. intros v Hv. apply setv_other. intros ->. exact (H y Hy Hv). Qed.
Lemma pot_inj x y : is_lp x -> is_lp y -> pot x = pot y -> x = y.
Proof.
  destruct x as [|a| |], y as [|b| |]; cbn; intros H1 H2 E; try contradiction; [reflexivity| | |].
  - pose proof (exp_pos b). lra.
  - pose proof (exp_pos a). lra.
  - now rewrite (exp_inv a b E).
Qed.
