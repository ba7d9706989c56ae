(** Evidence, quotients and marginals of nonlinear Gaussians, and where they fail. *)
From Verif Require Export NlgOps.
Local Open Scope string_scope.
Local Open Scope list_scope.
Local Open Scope R_scope.

(** Evidence. *)
Lemma dget_update (d d' : dict string R) v : NoDup (dkeys d') ->
  dget (dupdate d d') v = match dget d' v with Some x => Some x | None => dget d v end.
Proof.
  unfold dupdate. revert d; induction d' as [|[k x] d' IH]; intros d Hn; [reflexivity|]. cbn [fold_left].
  cbn [dkeys map fst] in Hn. inversion Hn as [|? ? Hk Hn']; subst. rewrite IH by exact Hn'. cbn [fst snd dget].
  rewrite dget_dset. destruct (eq_dec v k) as [->|N]; [|reflexivity].
  assert (E : dget d' k = None) by now apply dget_None. now rewrite E.
Qed.
Lemma keys_update (d d' : dict string R) v : In v (dkeys (dupdate d d')) <-> In v (dkeys d') \/ In v (dkeys d).
Proof.
  unfold dupdate. revert d; induction d' as [|[k x] d' IH]; intros d; [cbn; tauto|]. cbn [fold_left fst snd]. rewrite IH, In_dkeys_dset. cbn [dkeys map fst In]. intuition congruence.
Qed.
Lemma NoDup_update (d d' : dict string R) : NoDup (dkeys d) -> NoDup (dkeys (dupdate d d')).
Proof. unfold dupdate. revert d; induction d' as [|[k x] d' IH]; intros d H; [exact H|]. cbn [fold_left fst snd]. apply IH. now apply NoDup_dset. Qed.
Lemma combine_keys (vrs : list string) (values : list R) : length values = length vrs -> dkeys (combine vrs values) = vrs.
Proof. revert values; induction vrs as [|v l IH]; intros [|x values] H; try reflexivity; try discriminate. unfold dkeys in *. cbn. f_equal. apply IH. now injection H. Qed.
Lemma combine_obeys (vrs : list string) (values : list R) e : NoDup vrs -> length values = length vrs ->
  (forall v x, dget (combine vrs values) v = Some x -> e v = x) <-> map e vrs = values.
Proof.
  revert values; induction vrs as [|v l IH]; intros [|x values] Hd H; try discriminate; [cbn; split; [reflexivity|discriminate]|]. inversion Hd as [|? ? Hv Hl]; subst.
  injection H as H. specialize (IH values Hl H). cbn [combine map]. split.
  - intros HE. f_equal; [apply HE; cbn [dget]; destruct (eq_dec v v); [reflexivity|congruence]|]. apply IH. intros u y Hu. apply HE. cbn [dget]. destruct (eq_dec u v) as [->|]; [|exact Hu].
    exfalso. apply Hv. apply dget_Some_key in Hu. now rewrite combine_keys in Hu.
  - intros [= E1 E2] u y Hu. cbn [dget] in Hu. destruct (eq_dec u v) as [->|]; [congruence|]. now apply (proj2 IH E2).
Qed.
Theorem nl_reduce_spec f vrs values : nl_wf f -> NoDup (dkeys (nl_ev f)) -> NoDup vrs -> length values = length vrs ->
  exists r, nl_reduce f vrs values = Ok r /\ nl_wf r /\ same_kind f r /\ opt_same (nl_upd f) (nl_upd r) /\ opt_same (nl_cond f) (nl_cond r) /\
    NoDup (dkeys (nl_ev r)) /\ (forall v, In v (dkeys (nl_ev r)) <-> In v vrs \/ In v (dkeys (nl_ev f))) /\
    (forall e, obeys (nl_ev r) e <-> map e vrs = values /\ forall v x, dget (nl_ev f) v = Some x -> ~ In v vrs -> e v = x).
Proof.
  intros Wf Hk Hd Hl. destruct (nl_copy_spec f Wf) as (d & Ed & CD). pose proof (nl_wf_copy f d Wf CD) as Wd. pose proof CD as (SK & K6 & K7 & K8 & K9).
  unfold nl_reduce. rewrite Ed. cbn [bind]. eexists. split; [reflexivity|]. split; [exact Wd|]. split; [exact SK|]. split; [exact K8|]. split; [exact K9|]. cbn [nl_ev set_ev]. rewrite K6.
  assert (EK : dkeys (combine vrs values) = vrs) by now apply combine_keys.
  rewrite dict_of_NoDup by (now rewrite EK). split; [now apply NoDup_update|]. split; [intros v; now rewrite keys_update, EK|]. intros e. rewrite <- (combine_obeys vrs values e Hd Hl). split.
  - intros H. split; [intros v x Hx; apply H; rewrite dget_update by (now rewrite EK); now rewrite Hx|]. intros v x Hx Nv. apply H. rewrite dget_update by (now rewrite EK).
    assert (dget (combine vrs values) v = None) as -> by (apply dget_None; now rewrite EK). exact Hx.
  - intros (H1 & H2) v x Hx. rewrite dget_update in Hx by (now rewrite EK). destruct (dget (combine vrs values) v) as [y|] eqn:Ey; [injection Hx as <-; now apply H1|].
    apply H2; [exact Hx|]. apply dget_None in Ey. now rewrite EK in Ey.
Qed.
Lemma opt_upd_ok f r : same_kind f r -> opt_same (nl_upd f) (nl_upd r) -> upd_ok f -> upd_ok r.
Proof.
  intros (K1 & K2 & _) K8 HU. unfold upd_ok, opt_same in *. rewrite K2. destruct (nl_upd f) as [u|], (nl_upd r) as [v|]; try contradiction; [|exact I].
  destruct HU as (W & S1 & I1). destruct K8 as (S2 & _). split; [apply S2|]. split; [now apply (sym_same u)|]. destruct S2 as (_ & V & _). now rewrite V.
Qed.
Theorem nl_reduce_joint o f A b c j vrs values : oracle_ok o -> nl_wf f -> nl_ok f A b -> nl_cond f = Some c -> informed f c -> nl_joint_distribution o f = Ok j ->
  NoDup vrs -> length values = length vrs -> ~ incl (ga_vars c) (vrs ++ dkeys (nl_ev f)) ->
  exists r jr, nl_reduce f vrs values = Ok r /\ nl_joint_distribution o r = Ok jr /\
    (forall v, In v (ga_vars jr) <-> In v (ga_vars j) /\ ~ In v vrs) /\
    forall e, map e vrs = values -> obeys (nl_ev f) e -> exists l, lp j e = Ok l /\ lp jr e = Ok l.
Proof.
  intros Ho Wf OK Ec IN Ej Hd Hl HN. pose proof OK as (O1 & O2 & O3 & O4 & O5 & O6 & O7 & O8). destruct (nl_joint_spec o f A b c Ho Wf OK Ec IN) as (j' & Ej' & (Wj & Sj & Vj & Lj) & _).
  rewrite Ej in Ej'. injection Ej' as <-. pose proof IN as (Sc & Ic & Ha & Hn).
  destruct (nl_reduce_spec f vrs values Wf O7 Hd Hl) as (r & Er & Wr & SK & KU & KC & NK & IK & OB). pose proof SK as (K1 & K2 & K3 & K4 & K5).
  assert (OKr : nl_ok r A b). { unfold nl_ok, nl_vars in *. rewrite K1, K2, K3, K4. do 6 (split; [assumption|]). split; [exact NK|]. now apply (opt_upd_ok f). }
  unfold opt_same in KC. rewrite Ec in KC. destruct (nl_cond r) as [c'|] eqn:Ec'; [|contradiction]. destruct KC as (SO & HS). pose proof SO as (_ & V & _).
  assert (IN' : informed r c').
  { split; [now apply HS|]. rewrite V, K1. split; [exact Ic|]. split.
    - intros v Hv. rewrite IK. destruct (Ha v Hv); tauto.
    - intros C. apply HN. intros v Hv. apply in_or_app. apply IK. now apply C. }
  destruct (nl_joint_spec o r A b c' Ho Wr OKr Ec' IN') as (jr & Ejr & (Wjr & _ & Vjr & Ljr) & _). exists r, jr. split; [exact Er|]. split; [exact Ejr|].
  split; [intros v; rewrite Vjr, Vj, V, K2, IK; tauto|]. intros e He Ho'. destruct (Lj e Ho') as (l1 & l2 & l3 & L1 & L2 & L3 & L).
  destruct (Ljr e) as (m1 & m2 & m3 & M1 & M2 & M3 & M). { apply OB. split; [exact He|]. intros v x Hx _. now apply Ho'. }
  exists (vadd (vadd l1 l2) l3). split; [exact L|]. rewrite M. rewrite (same_obj_lp' c c' e SO), L1 in M1. injection M1 as <-.
  rewrite (noise_lp_copy f r A b e SK), L2 in M2. injection M2 as <-. rewrite (upd_lp_copy f r e KU), L3 in M3. injection M3 as <-. reflexivity.
Qed.

(** Quotients. *)
Lemma divide_symm f1 f2 r : wf_gauss f1 -> wf_gauss f2 -> sym_prec f1 -> sym_prec f2 -> g_divide f1 f2 = Ok r -> sym_prec r.
Proof.
  intros W1 W2 S1 S2 Er. pose proof W1 as (D1 & _). pose proof W2 as (D2 & _).
  destruct (get_can_wf f1 W1) as (f1' & K1 & h1 & g1 & E1 & _ & _ & (A1 & A2 & A3 & A4) & _).
  destruct (get_can_wf f2 W2) as (f2' & K2 & h2 & g2 & E2 & _ & _ & (B1 & B2 & B3 & B4) & _).
  pose proof (get_can_symm _ _ _ _ _ W1 S1 E1) as Y1. pose proof (get_can_symm _ _ _ _ _ W2 S2 E2) as Y2.
  pose proof Er as E. unfold g_divide, absorb_or_cancel in E. rewrite E1, E2 in E. cbn [bind snd] in E.
  rewrite ix_square_ok, ix_column_ok in E by assumption. cbn [bind fst snd] in E. set (nv := new_vars (ga_vars f1) (ga_vars f2)) in *.
  unfold py_assert in E. destruct (eqb nv nv) eqn:Eq; [|discriminate E]. cbn [bind] in E.
  assert (Dn : NoDup nv) by now apply new_vars_NoDup.
  match type of E with mk_can nv ?M ?t ?g = _ => set (M0 := M) in *; set (t0 := t) in *; set (g0 := g) in * end.
  rewrite (mk_can_ok nv M0 t0 g0 Dn) in E by (cbn; now repeat split). injection E as <-.
  intros p Hp. injection Hp as <-. cbn [fst]. intros i j Hi Hj. cbn [M0 ent].
  assert (NS : forall K vars u v, symm K -> nr K = length vars -> named_entry K vars u v = named_entry K vars v u).
  { intros K vars u v HK L. unfold named_entry. destruct (index_opt u vars) as [a|] eqn:Ea; destruct (index_opt v vars) as [b|] eqn:Eb; try reflexivity.
    apply HK; rewrite L; apply nth_error_Some; [rewrite (index_opt_nth _ _ _ Ea)|rewrite (index_opt_nth _ _ _ Eb)]; discriminate. }
  rewrite (NS K1 (ga_vars f1)), (NS K2 (ga_vars f2)) by assumption. reflexivity.
Qed.
Theorem nl_divide_cal o f g A b c u j : oracle_ok o -> nl_wf f -> nl_ok f A b -> nl_cond f = Some c -> informed f c -> nl_joint_distribution o f = Ok j ->
  nl_upd f = Some u -> wf_gauss g -> sym_prec g -> ga_vac g = false -> incl (ga_vars g) (nl_cal f) ->
  exists r jr, nl_divide_gauss o f g = Ok r /\ nl_joint r = jr /\ same_kind f r /\ nl_ev r = nl_ev f /\
    (forall v, In v (ga_vars jr) <-> In v (ga_vars j)) /\
    forall e, obeys (nl_ev f) e -> exists l1 l2 lu lg, lp c e = Ok l1 /\ noise_lp f A b e = Ok l2 /\ lp u e = Ok lu /\ lp g e = Ok lg /\
      lp j e = Ok (vadd (vadd l1 l2) lu) /\ lp jr e = Ok (vadd (vadd l1 l2) (vsub lu lg)).
Proof.
  intros Ho Wf OK Ec IN Ej Eu Wg Sg Vg Ig. pose proof OK as (O1 & O2 & O3 & O4 & O5 & O6 & O7 & O8). destruct (nl_joint_spec o f A b c Ho Wf OK Ec IN) as (j' & Ej' & (Wj & Sj & Vj & Lj) & _).
  rewrite Ej in Ej'. injection Ej' as <-. destruct (nl_copy_spec f Wf) as (d & Ed & CD). pose proof (nl_ok_copy f d A b OK CD) as OKd.
  destruct (informed_copy f d c Ec IN CD) as (c' & Ec' & IN' & V' & L'). pose proof CD as (SK & K6 & K7 & K8 & K9). pose proof SK as (K1 & K2 & K3 & K4 & K5).
  unfold nl_divide_gauss. rewrite Ed. cbn [bind]. rewrite Vg, K2, (proj2 (subsetb_incl _ _) Ig).
  unfold opt_same in K8. rewrite Eu in K8. destruct (nl_upd d) as [u'|] eqn:Eu'; [|contradiction]. destruct K8 as (SO & _). pose proof SO as (Wu & Vu & _).
  destruct (divide_full u' g Wu Wg) as (q & Eq & Wq & Vq & Lq). rewrite Eq. cbn [bind].
  unfold upd_ok in O8. rewrite Eu in O8. destruct O8 as (_ & Su & Iu).
  assert (Sq : sym_prec q) by (apply (divide_symm u' g q Wu Wg (sym_same u u' SO Su) Sg Eq)).
  assert (OKq : nl_ok (set_upd d q) A b).
  { destruct OKd as (P1 & P2 & P3 & P4 & P5 & P6 & P7 & _). do 7 (split; [assumption|]). split; [exact Wq|]. split; [exact Sq|]. intros v Hv. cbn [nl_cal set_upd]. rewrite K2.
    apply Vq in Hv. destruct Hv as [Hv|Hv]; [apply Iu; now rewrite <- Vu|now apply Ig]. }
  destruct (nl_recompute_spec o (set_upd d q) A b c' Ho OKq Ec' IN') as (jr & Er & Wjr & _ & _ & Vjr & Ljr). exists (set_joint (set_upd d q) jr), jr.
  split; [exact Er|]. split; [reflexivity|]. split; [exact SK|]. split; [exact K6|]. split; [intros v; rewrite Vjr, Vj, V'; cbn [set_upd nl_cal nl_ev]; rewrite K2, K6; reflexivity|].
  intros e He. destruct (Lj e He) as (l1 & l2 & l3 & L1 & L2 & L3 & L). cbn [set_upd nl_ev] in Ljr. rewrite K6 in Ljr. destruct (Ljr e He) as (m1 & m2 & m3 & M1 & M2 & M3 & M).
  destruct (Lq e (ga_vars q) (Permutation_refl _)) as (lu & lg & Lu & Lg & _ & Lq'). unfold upd_lp in L3, M3. cbn [set_upd nl_upd] in M3. rewrite Eu in L3.
  rewrite (same_obj_lp' u u' e SO) in Lu. rewrite Lu in L3. injection L3 as <-. exists l1, l2, lu, lg. do 5 (split; [assumption|]). rewrite M.
  rewrite L', L1 in M1. injection M1 as <-. rewrite Lq' in M3. injection M3 as <-. change (noise_lp d A b e = Ok m2) in M2. rewrite (noise_lp_copy f d A b e SK), L2 in M2. injection M2 as <-. reflexivity.
Qed.
(** A product and then the quotient by the same factor. *)
Lemma vsub_back l1 lu lg : vsub (vadd lu (Fin lg)) (Fin lg) = lu -> vadd l1 (vsub (vadd lu (Fin lg)) (Fin lg)) = vadd l1 lu.
Proof. intros ->. reflexivity. Qed.
Lemma vadd_vsub lu lg : vsub (vadd lu (Fin lg)) (Fin lg) = lu.
Proof. destruct lu; cbn; try reflexivity. f_equal. ring. Qed.
Theorem nl_divide_back o f g A b c j r : oracle_ok o -> nl_wf f -> nl_ok f A b -> nl_cond f = Some c -> informed f c -> nl_joint_distribution o f = Ok j ->
  solid g -> incl (ga_vars g) (nl_cal f) -> nl_multiply_gauss f g = Ok r ->
  exists q, nl_divide_gauss o r g = Ok q /\ same_kind f q /\ nl_ev q = nl_ev f /\ (forall v, In v (ga_vars (nl_joint q)) <-> In v (ga_vars j)) /\
    forall e lg, obeys (nl_ev f) e -> lp g e = Ok (Fin lg) -> lp (nl_joint q) e = lp j e.
Proof.
  intros Ho Wf OK Ec IN Ej Sg Ig Er. pose proof Sg as (Wg & Vg & _). destruct (nl_multiply_cal f g Wf Wg Vg Ig) as (r' & Er' & Wr & SK & K6 & KC & OKr & Lr).
  rewrite Er in Er'. injection Er' as <-. pose proof SK as (K1 & K2 & K3 & K4 & K5). pose proof IN as (Sc & Ic & Ha & Hn).
  destruct (nl_joint_spec o f A b c Ho Wf OK Ec IN) as (j' & Ej' & (Wj & Sj & Vj & Lj) & _). rewrite Ej in Ej'. injection Ej' as <-.
  unfold opt_same in KC. rewrite Ec in KC. destruct (nl_cond r) as [c'|] eqn:Ec'; [|contradiction]. destruct KC as (SO & HS). pose proof SO as (_ & V & _).
  assert (IN' : informed r c') by (split; [now apply HS|]; rewrite V, K1, K6; now repeat split). pose proof (OKr A b (solid_sym g Sg) OK) as OK'.
  destruct (nl_joint_spec o r A b c' Ho Wr OK' Ec' IN') as (jr & Ejr & (_ & _ & Vjr & _) & _).
  destruct (nl_upd r) as [u|] eqn:Eu.
  2: { exfalso. unfold nl_multiply_gauss in Er. apply bind_ok in Er. destruct Er as (d & Ed & Er). rewrite Vg in Er.
       destruct (nl_copy_spec f Wf) as (d' & Ed' & ((_ & K2' & _) & _)). rewrite Ed in Ed'. injection Ed' as <-. rewrite K2', (proj2 (subsetb_incl _ _) Ig) in Er.
       apply bind_ok in Er. destruct Er as (u & _ & Er). injection Er as <-. discriminate Eu. }
  destruct (nl_divide_cal o r g A b c' u jr Ho Wr OK' Ec' IN' Ejr Eu Wg (solid_sym g Sg) Vg) as (q & jq & Eq & Ejq & SKq & K6q & Vq & Lq); [now rewrite K2|].
  exists q. split; [exact Eq|]. destruct SKq as (Q1 & Q2 & Q3 & Q4 & Q5). split; [unfold same_kind; now rewrite Q1, Q2, Q3, Q4, Q5|]. split; [congruence|].
  split; [intros v; rewrite Ejq, Vq, Vjr, Vj, V, K2, K6; reflexivity|]. intros e lg He Hg. destruct (Lj e He) as (l1 & l2 & l3 & L1 & L2 & L3 & L). rewrite K6 in Lq.
  destruct (Lq e He) as (m1 & m2 & mu & mg & M1 & M2 & M3 & M4 & _ & M). destruct (Lr e l3 L3) as (lg' & Lg' & Lu). rewrite Hg in Lg', M4. injection Lg' as <-. injection M4 as <-.
  unfold upd_lp in Lu. rewrite Eu, M3 in Lu. injection Lu as ->. rewrite (same_obj_lp' c c' e SO), L1 in M1. injection M1 as <-.
  rewrite (noise_lp_copy f r A b e SK), L2 in M2. injection M2 as <-. rewrite Ejq, M, L. now rewrite vadd_vsub.
Qed.

(** Marginals. *)
Definition nval (f : nlg) (A : string -> string -> R) (b : string -> R) (c : gauss) (e : string -> R) : R :=
  gval c e * match noise_lp f A b e with Ok l => pot l | Err _ => 0 end * match upd_lp f e with Ok l => pot l | Err _ => 0 end.
Definition nl_plain (f : nlg) (c : gauss) : Prop :=
  plain c /\ is_lp (nl_w f) /\ match nl_upd f with None => True | Some u => solid u /\ plain u end.
Lemma noise_is_lp f A b e l : nl_ok f A b -> is_lp (nl_w f) -> noise_lp f A b e = Ok l -> is_lp l.
Proof.
  intros (O1 & O2 & O3 & O4 & O5 & _) Hw E. unfold noise_lp, lp, cov_obj in E. cbn [ga_vars] in E. rewrite lp_cov_only in E.
  rewrite (cov_log_potential_ok (length (nl_cal f))) in E; [|now repeat split|split; [apply O5|now apply posdef_det]|apply map_length].
  injection E as <-. destruct (nl_w f); cbn in *; auto.
Qed.
Lemma plain_at f e l : wf_gauss f -> lp f e = Ok l -> is_lp l -> plain f.
Proof.
  intros W E H. destruct (get_can_wf f W) as (f' & K & h & g & G & _). apply (plain_g f f' K h g W G). unfold lp in E. rewrite (lp_canon f f' K h g e W G) in E. injection E as <-.
  destruct g; cbn in *; auto.
Qed.
Lemma obeys_evv ev : obeys ev (evv ev).
Proof. intros v x H. unfold evv. now rewrite H. Qed.
Lemma joint_val f A b c j e : nl_ok f A b -> nl_plain f c -> is_joint f A b c j -> obeys (nl_ev f) e -> gval j e = nval f A b c e /\ exists l, lp j e = Ok l /\ is_lp l.
Proof.
  intros OK (Pc & Pw & Pu) (Wj & Sj & Vj & Lj) He. destruct (Lj e He) as (l1 & l2 & l3 & L1 & L2 & L3 & L). unfold nval, gval. rewrite L, L1, L2, L3.
  assert (H1 : is_lp l1) by now apply (Pc e). assert (H2 : is_lp l2) by now apply (noise_is_lp f A b e).
  assert (H3 : is_lp l3). { unfold upd_lp in L3. destruct (nl_upd f) as [u|]; [destruct Pu as (_ & Pu); now apply (Pu e)|injection L3 as <-; exact I]. }
  destruct (pot_vadd l1 l2 H1 H2) as (Q2 & Q1). destruct (pot_vadd (vadd l1 l2) l3 Q2 H3) as (Q4 & Q3). split; [now rewrite Q3, Q1|]. eexists. split; [reflexivity|exact Q4].
Qed.
Theorem nl_marginal_integral o f A b c j xs ys : oracle_ok o -> nl_wf f -> nl_ok f A b -> nl_cond f = Some c -> informed f c -> nl_plain f c ->
  nl_joint_distribution o f = Ok j -> Permutation (ys ++ xs) (ga_vars j) ->
  exists r, nl_marginalize o f xs true = Ok r /\ ga_vars r = xs /\ solid r /\ plain r /\
    forall e, obeys (nl_ev f) e -> iint ys (nval f A b c) e (gval r e).
Proof.
  intros Ho Wf OK Ec IN HP Ej HPm. destruct (nl_joint_spec o f A b c Ho Wf OK Ec IN) as (j' & Ej' & IJ & Sj). rewrite Ej in Ej'. injection Ej' as <-.
  pose proof IJ as (Wj & _ & Vj & Lj). pose proof HP as (Pc & Pw & Pu). pose proof IN as (Sc & Ic & Ha & Hn).
  assert (So : solid j). { apply Sj. destruct (nl_upd f); [apply Pu|exact I]. }
  destruct (joint_val f A b c j (evv (nl_ev f)) OK HP IJ (obeys_evv _)) as (_ & l & El & Hl). pose proof (plain_at j _ l Wj El Hl) as Pj.
  destruct (marg_integral o ys j xs Ho So Pj HPm) as (r & Er & Vr & Sr & Pr & Ir).
  assert (Ix : forall v, In v xs -> In v (ga_vars j)) by (intros v Hv; apply (Permutation_in _ HPm), in_or_app; now right).
  assert (Iy : forall v, In v ys -> In v (ga_vars j)) by (intros v Hv; apply (Permutation_in _ HPm), in_or_app; now left).
  exists r. split; [|split; [exact Vr|split; [exact Sr|split; [exact Pr|]]]].
  - unfold nl_marginalize. cbn [marginal_vars].
    assert (SB : subsetb xs (nl_vars f) = true). { apply subsetb_incl. intros v Hv. apply Ix, Vj in Hv. unfold nl_vars. apply in_or_app. destruct Hv as ([H|H] & _); [left; now apply Ic|now right]. }
    rewrite SB. cbn [py_assert bind]. unfold nl_joint_distribution in Ej. apply bind_ok in Ej. destruct Ej as (d & Ed & Ej). rewrite Ed. cbn [bind].
    apply bind_ok in Ej. destruct Ej as (d' & Ed' & [= Ej]). rewrite Ed'. cbn [bind]. rewrite Ej. destruct So as (_ & Vac & _). rewrite Vac. exact Er.
  - intros e He. apply (iint_ext_on ys (gval j)); [|apply Ir]. intros e' He'. apply (joint_val f A b c j e' OK HP IJ). intros v x Hx.
    rewrite He'; [now apply He|]. intros Hv. apply Iy, Vj in Hv. destruct Hv as (_ & Hv). apply Hv. now apply dget_Some_key in Hx.
Qed.
Lemma nl_marginal_away o f vrs : nl_marginalize o f vrs false = nl_marginalize o f (so o (set_diff (nl_vars f) vrs)) true.
Proof. reflexivity. Qed.

(** Failures. *)
Lemma nl_uninformed o f : nl_wf f -> NoDup (dkeys (nl_ev f)) -> (exists v, In v (nl_cing f) /\ ~ In v (dkeys (nl_ev f)) /\ forall c, nl_cond f = Some c -> ~ In v (ga_vars c)) ->
  exists j, nl_recompute o f = Ok (set_joint f j) /\ ga_vars j = nl_vars f /\ ga_vac j = true /\ forall e, lp j e = Ok (Fin 0).
Proof.
  intros Wf Hk (v & H1 & H2 & H3). unfold nl_recompute.
  assert (I1 : incl (filter (fun v => mem v (nl_cing f)) (dkeys (nl_ev f))) (dkeys (nl_ev f))) by (intros u Hu; apply filter_In in Hu; tauto).
  assert (I2 : incl (filter (fun v => mem v (nl_cal f)) (dkeys (nl_ev f))) (dkeys (nl_ev f))) by (intros u Hu; apply filter_In in Hu; tauto).
  rewrite (mapM_evv _ _ I1), (mapM_evv _ _ I2). cbn [bind].
  match goal with |- context [seteqb ?a ?b] => destruct (seteqb a b) eqn:E end.
  - exfalso. pose proof (proj2 (proj1 (seteqb_iff _ _) E v) H1) as H1'. clear H1. rename H1' into H1. apply in_app_or in H1. destruct H1 as [H1|H1]; [|exact (H2 (I1 v H1))].
    destruct (nl_cond f) as [c|]; [exact (H3 c eq_refl H1)|exact H1].
  - cbn [negb]. destruct Wf as (Hd & _). unfold make_vacuous. rewrite mk_can_ok by (exact Hd || now repeat split). cbn [bind]. eexists. split; [reflexivity|]. split; [reflexivity|]. cbn [ga_vac].
    set (n := length (nl_vars f)). assert (PV : prec_vacuous (mzeros n n) = true).
    { unfold n, nl_vars. rewrite app_length. destruct (nl_cing f) as [|a l0]; [destruct H1|]. apply zeros_vacuous. } split; [exact PV|]. intros e. unfold lp. cbn [ga_vars]. 
    set (z := {| ga_vars := nl_vars f |}). assert (Wz : wf_gauss z). { split; [exact Hd|]. split; [left; discriminate|]. split; intros q Hq; [|discriminate]. injection Hq as <-. now repeat split. }
    pose proof (lp_canon z z _ _ _ e Wz (get_can_some z _ _ _ eq_refl)) as L. cbn [ga_vars z] in L. rewrite L. rewrite can_form_zero by exact Hd. unfold qsum. rewrite rsum_zero; [cbn; f_equal; f_equal; ring|]. intros i _. apply rsum_zero. intros k _. cbn. ring.
Qed.
Lemma nl_all_observed o f : NoDup (dkeys (nl_ev f)) -> nl_cond f = None -> incl (nl_cing f) (dkeys (nl_ev f)) -> nl_recompute o f = Err UnboundLocalError.
Proof.
  intros Hk Ec Hi. unfold nl_recompute.
  assert (I1 : incl (filter (fun v => mem v (nl_cing f)) (dkeys (nl_ev f))) (dkeys (nl_ev f))) by (intros u Hu; apply filter_In in Hu; tauto).
  assert (I2 : incl (filter (fun v => mem v (nl_cal f)) (dkeys (nl_ev f))) (dkeys (nl_ev f))) by (intros u Hu; apply filter_In in Hu; tauto).
  rewrite (mapM_evv _ _ I1), (mapM_evv _ _ I2). cbn [bind]. rewrite Ec. cbn [app].
  assert (E : seteqb (filter (fun v => mem v (nl_cing f)) (dkeys (nl_ev f))) (nl_cing f) = true).
  { apply (proj2 (seteqb_iff _ _)). intros v. rewrite filter_In, mem_In. split; [tauto|]. intros Hv. split; [now apply Hi|exact Hv]. }
  rewrite E. reflexivity.
Qed.
Lemma nl_cond_observed o f c : oracle_ok o -> NoDup (dkeys (nl_ev f)) -> nl_cond f = Some c -> solid c -> ga_vars c <> [] -> incl (ga_vars c) (nl_cing f) ->
  incl (nl_cing f) (dkeys (nl_ev f)) -> nl_recompute o f = Err AssertionError.
Proof.
  intros Ho Hk Ec Sc Nc Ic Hi. unfold nl_recompute.
  assert (I1 : incl (filter (fun v => mem v (nl_cing f)) (dkeys (nl_ev f))) (dkeys (nl_ev f))) by (intros u Hu; apply filter_In in Hu; tauto).
  assert (I2 : incl (filter (fun v => mem v (nl_cal f)) (dkeys (nl_ev f))) (dkeys (nl_ev f))) by (intros u Hu; apply filter_In in Hu; tauto).
  rewrite (mapM_evv _ _ I1), (mapM_evv _ _ I2). cbn [bind]. rewrite Ec.
  assert (E : seteqb (ga_vars c ++ filter (fun v => mem v (nl_cing f)) (dkeys (nl_ev f))) (nl_cing f) = true).
  { apply (proj2 (seteqb_iff _ _)). intros v. rewrite in_app_iff, filter_In, mem_In. split; [intros [H|H]; [now apply Ic|tauto]|]. intros Hv. right. split; [now apply Hi|exact Hv]. }
  rewrite E. cbn [negb]. unfold cond_reduced. destruct (copy_solid_lp c Sc) as (d & Ed & Sd & V & _). rewrite Ed. cbn [bind].
  set (l := set_inter (dkeys (nl_ev f)) (ga_vars d)). assert (Dl : NoDup l) by apply NoDup_set_inter. pose proof (proj1 Ho l Dl) as HP. set (vrs := so o l) in *.
  assert (Iv : forall v, In v vrs <-> In v (ga_vars d)).
  { intros v. split; intros Hv; [apply (Permutation_in _ (Permutation_sym HP)), In_set_inter in Hv; tauto|]. apply (Permutation_in _ HP), In_set_inter. split; [|exact Hv].
    apply Hi, Ic. now rewrite <- V. }
  assert (I3 : incl vrs (dkeys (nl_ev f))) by (intros v Hv; apply Hi, Ic; rewrite <- V; now apply Iv). rewrite (mapM_evv _ _ I3). cbn [bind].
  assert (Hl : (0 < length vrs)%nat). { destruct vrs as [|v vs] eqn:Ev; [|cbn; lia]. exfalso. apply Nc. destruct (ga_vars c) as [|v l'] eqn:Ev'; [reflexivity|].
    exfalso. destruct (proj2 (Iv v)). rewrite V. now left. }
  rewrite (proj2 (Nat.ltb_lt _ _) Hl). rewrite (g_reduce_all d vrs); [reflexivity|apply Sd|exact (Permutation_NoDup HP Dl)|intros v Hv; now apply Iv|intros v Hv; now apply Iv|apply map_length].
Qed.
