(** Copies, products, quotients, reductions and marginals of nonlinear Gaussians. *)
From Verif Require Export NlgJoint.
Local Open Scope string_scope.
Local Open Scope list_scope.
Local Open Scope R_scope.

Definition nl_wf (f : nlg) : Prop :=
  NoDup (nl_vars f) /\ nr (nl_Q f) = length (nl_cal f) /\ nc (nl_Q f) = length (nl_cal f) /\ wf_gauss (nl_joint f) /\
  (forall u, nl_upd f = Some u -> wf_gauss u) /\ (forall c, nl_cond f = Some c -> wf_gauss c).
Definition opt_same (a b : option gauss) : Prop :=
  match a, b with
  | None, None => True
  | Some x, Some y => same_obj x y /\ (solid x -> solid y)
  | _, _ => False
  end.
(** The parts that say which object it is, not counting the distributions it holds. *)
Definition same_kind (f d : nlg) : Prop :=
  nl_cing d = nl_cing f /\ nl_cal d = nl_cal f /\ nl_T d = nl_T f /\ nl_Q d = nl_Q f /\ nl_w d = nl_w f.
Definition copy_of (f d : nlg) : Prop :=
  same_kind f d /\ nl_ev d = nl_ev f /\ same_obj (nl_joint f) (nl_joint d) /\ opt_same (nl_upd f) (nl_upd d) /\ opt_same (nl_cond f) (nl_cond d).

Lemma same_obj_copy g : wf_gauss g -> exists d, g_copy g = Ok d /\ same_obj g d /\ (solid g -> solid d).
Proof.
  intros W. destruct (g_copy_ok g W) as (d & E & V & C & D & Wd). exists d. split; [exact E|]. split; [now split|]. intros Sg.
  destruct (solid_copy g Sg) as (d' & E' & Sd & _). rewrite E in E'. injection E' as <-. exact Sd.
Qed.
Lemma opt_copy_ok g : (forall u, g = Some u -> wf_gauss u) -> exists d, opt_copy g = Ok d /\ opt_same g d.
Proof.
  intros H. destruct g as [u|]; [|exists None; now split]. destruct (same_obj_copy u (H u eq_refl)) as (d & E & S1 & S2).
  exists (Some d). unfold opt_copy. rewrite E. cbn [bind]. now split.
Qed.
Lemma disjoint_inter (a b : list string) : NoDup (a ++ b) -> set_inter a b = [].
Proof.
  intros H. destruct (set_inter a b) as [|v l] eqn:E; [reflexivity|]. exfalso.
  assert (In v (set_inter a b)) as Hv by (rewrite E; now left). apply In_set_inter in Hv. exact (proj2 (proj2 (NoDup_app_elim _ _ H)) v (proj1 Hv) (proj2 Hv)).
Qed.
Lemma nl_copy_spec f : nl_wf f -> exists d, nl_copy f = Ok d /\ copy_of f d.
Proof.
  intros (Hd & Q1 & Q2 & Wj & Wu & Wc). unfold nl_copy, mk_nlg. unfold nl_vars in Hd. rewrite (disjoint_inter _ _ Hd). cbn [length Nat.eqb negb raise_if bind].
  rewrite (proj2 (nodupb_iff _) Hd). cbn [negb raise_if bind]. rewrite Q1, Nat.eqb_refl. cbn [negb raise_if bind].
  unfold make_square_matrix. rewrite Q1, Q2, Nat.eqb_refl. cbn [py_assert bind].
  destruct (opt_copy_ok (nl_cond f) Wc) as (c & Ec & Sc). rewrite Ec. cbn [bind].
  destruct (opt_copy_ok (nl_upd f) Wu) as (u & Eu & Su). rewrite Eu. cbn [bind].
  destruct (same_obj_copy (nl_joint f) Wj) as (j & Ej & Sj & _). rewrite Ej. cbn [bind]. eexists. split; [reflexivity|].
  split; [now repeat split|]. split; [reflexivity|]. split; [exact Sj|]. now split.
Qed.
Lemma nl_wf_copy f d : nl_wf f -> copy_of f d -> nl_wf d.
Proof.
  intros (Hd & Q1 & Q2 & Wj & Wu & Wc) ((K1 & K2 & K3 & K4 & K5) & K6 & K7 & K8 & K9). unfold nl_wf, nl_vars in *. rewrite K1, K2, K4.
  do 3 (split; [assumption|]). split; [apply K7|]. split.
  - intros u Eu. unfold opt_same in K8. rewrite Eu in K8. destruct (nl_upd f); [exact (proj1 (proj1 K8))|contradiction].
  - intros u Eu. unfold opt_same in K9. rewrite Eu in K9. destruct (nl_cond f); [exact (proj1 (proj1 K9))|contradiction].
Qed.
Lemma upd_lp_copy f d e : opt_same (nl_upd f) (nl_upd d) -> upd_lp d e = upd_lp f e.
Proof. unfold opt_same, upd_lp. destruct (nl_upd f), (nl_upd d); intros H; try contradiction; [|reflexivity]. apply same_obj_lp', H. Qed.
Lemma noise_lp_copy f d A b e : same_kind f d -> noise_lp d A b e = noise_lp f A b e.
Proof. intros (K1 & K2 & K3 & K4 & K5). unfold noise_lp. now rewrite K1, K2, K4, K5. Qed.
Lemma sym_same u v : same_obj u v -> sym_prec u -> sym_prec v.
Proof. intros (_ & _ & C & _) H p Hp. apply H. congruence. Qed.
Lemma nl_ok_copy f d A b : nl_ok f A b -> copy_of f d -> nl_ok d A b.
Proof.
  intros (Hd & Hc & Q1 & Q2 & PQ & HT & Hk & HU) ((K1 & K2 & K3 & K4 & K5) & K6 & K7 & K8 & K9). unfold nl_ok, nl_vars in *. rewrite K1, K2, K3, K4, K6.
  do 7 (split; [assumption|]). unfold upd_ok, opt_same in *. rewrite K2. destruct (nl_upd f) as [u|], (nl_upd d) as [v|]; try contradiction; [|exact I].
  destruct HU as (W & S1 & I1). destruct K8 as (S2 & _). split; [apply S2|]. split; [now apply (sym_same u)|]. destruct S2 as (_ & V & _). now rewrite V.
Qed.
Lemma informed_copy f d c : nl_cond f = Some c -> informed f c -> copy_of f d -> exists c', nl_cond d = Some c' /\ informed d c' /\ ga_vars c' = ga_vars c /\ forall e, lp c' e = lp c e.
Proof.
  intros Ec (Sc & Ic & Ha & Hn) ((K1 & K2 & K3 & K4 & K5) & K6 & K7 & K8 & K9). unfold opt_same in K9. rewrite Ec in K9. destruct (nl_cond d) as [c'|]; [|contradiction].
  destruct K9 as (S1 & S2). exists c'. split; [reflexivity|]. pose proof S1 as (_ & V & _). split; [|split; [exact V|intros e; now apply same_obj_lp']].
  split; [now apply S2|]. rewrite V, K1, K6. now repeat split.
Qed.

(** The object's function: the conditioning factor times the noise density times the update factor. *)
Definition is_joint (f : nlg) (A : string -> string -> R) (b : string -> R) (c j : gauss) : Prop :=
  wf_gauss j /\ sym_prec j /\ (forall v, In v (ga_vars j) <-> (In v (ga_vars c) \/ In v (nl_cal f)) /\ ~ In v (dkeys (nl_ev f))) /\
  forall e, obeys (nl_ev f) e -> exists l1 l2 l3, lp c e = Ok l1 /\ noise_lp f A b e = Ok l2 /\ upd_lp f e = Ok l3 /\
    lp j e = Ok (vadd (vadd l1 l2) l3).
Theorem nl_joint_spec o f A b c : oracle_ok o -> nl_wf f -> nl_ok f A b -> nl_cond f = Some c -> informed f c ->
  exists j, nl_joint_distribution o f = Ok j /\ is_joint f A b c j /\ (match nl_upd f with None => True | Some u => solid u end -> solid j).
Proof.
  intros Ho Wf OK Ec IN. destruct (nl_copy_spec f Wf) as (d & Ed & CD). pose proof CD as (SK & K6 & K7 & K8 & K9). pose proof SK as (K1 & K2 & K3 & K4 & K5).
  destruct (informed_copy f d c Ec IN CD) as (c' & Ec' & IN' & V' & L').
  destruct (nl_recompute_spec o d A b c' Ho (nl_ok_copy f d A b OK CD) Ec' IN') as (j & Ej & Wj & Sj & So & Vj & Lj).
  exists j. unfold nl_joint_distribution. rewrite Ed. cbn [bind]. rewrite Ej. cbn [bind nl_joint set_joint]. split; [reflexivity|]. split.
  - split; [exact Wj|]. split; [exact Sj|]. split; [intros v; rewrite Vj, V', K2, K6; reflexivity|]. intros e He. rewrite <- K6 in He. destruct (Lj e He) as (l1 & l2 & l3 & L1 & L2 & L3 & L).
    exists l1, l2, l3. rewrite <- L', <- (noise_lp_copy f d A b e SK), <- (upd_lp_copy f d e K8). now repeat split.
  - intros HS. apply So. unfold opt_same in K8. destruct (nl_upd f), (nl_upd d); try contradiction; [|exact I]. apply K8, HS.
Qed.

(** Products. *)
Theorem nl_multiply_cal f g : nl_wf f -> wf_gauss g -> ga_vac g = false -> incl (ga_vars g) (nl_cal f) ->
  exists r, nl_multiply_gauss f g = Ok r /\ nl_wf r /\ same_kind f r /\ nl_ev r = nl_ev f /\ opt_same (nl_cond f) (nl_cond r) /\
    (forall A b, sym_prec g -> nl_ok f A b -> nl_ok r A b) /\
    forall e l, upd_lp f e = Ok l -> exists lg, lp g e = Ok lg /\ upd_lp r e = Ok (vadd l lg).
Proof.
  intros Wf Wg Vg Ig. destruct (nl_copy_spec f Wf) as (d & Ed & CD). pose proof (nl_wf_copy f d Wf CD) as Wd. pose proof CD as (SK & K6 & K7 & K8 & K9). pose proof SK as (K1 & K2 & K3 & K4 & K5).
  unfold nl_multiply_gauss. rewrite Ed. cbn [bind]. rewrite Vg, K2, (proj2 (subsetb_incl _ _) Ig). pose proof Wd as (D1 & D2 & D3 & D4 & D5 & D6).
  assert (STEP : exists u', match nl_upd d with None => g_copy g | Some u => g_multiply u g end = Ok u' /\ wf_gauss u' /\
    (sym_prec g -> (forall u, nl_upd f = Some u -> sym_prec u) -> sym_prec u') /\
    (forall v, In v (ga_vars u') -> In v (ga_vars g) \/ exists u, nl_upd f = Some u /\ In v (ga_vars u)) /\
    forall e l, upd_lp f e = Ok l -> exists lg, lp g e = Ok lg /\ lp u' e = Ok (vadd l lg)).
  { unfold opt_same, upd_lp in *. destruct (nl_upd f) as [u0|] eqn:E0, (nl_upd d) as [u|] eqn:Eu; try contradiction.
    - destruct K8 as (SO & _). pose proof SO as (Wu & Vu & _). destruct (multiply_full u g Wu Wg) as (r & Er & Wr & Vr & Lr). exists r. split; [exact Er|]. split; [exact Wr|].
      split. { intros Sg Su. destruct (multiply_symm u g Wu Wg (sym_same u0 u SO (Su u0 eq_refl)) Sg) as (r' & Er' & _ & Sr & _). rewrite Er in Er'. injection Er' as <-. exact Sr. }
      split. { intros v Hv. apply Vr in Hv. destruct Hv as [Hv|Hv]; [right; exists u0; split; [reflexivity|now rewrite <- Vu]|now left]. }
      intros e l Hl. destruct (Lr e (ga_vars r) (Permutation_refl _)) as (l1 & l2 & L1 & L2 & _ & L). exists l2. split; [exact L2|].
      rewrite (same_obj_lp' u0 u e SO), Hl in L1. injection L1 as <-. exact L.
    - destruct (same_obj_copy g Wg) as (u' & Eu' & SO & _). exists u'. split; [exact Eu'|]. split; [apply SO|]. split; [intros Sg _; now apply (sym_same g)|].
      split. { intros v Hv. left. destruct SO as (_ & V & _). now rewrite <- V. }
      intros e l [= <-]. destruct (lp_exists g e Wg) as (lg & Lg). exists lg. split; [exact Lg|]. rewrite (same_obj_lp' g u' e SO), vadd_0_l. exact Lg. }
  destruct STEP as (u' & Eu' & Wu' & Su' & Vu' & Lu'). rewrite Eu'. cbn [bind]. eexists. split; [reflexivity|].
  split. { split; [exact D1|]. split; [exact D2|]. split; [exact D3|]. split; [exact D4|]. split; [intros u [= <-]; exact Wu'|exact D6]. }
  split; [exact SK|]. split; [exact K6|]. split; [exact K9|]. split.
  - intros A b Sg OK. pose proof (nl_ok_copy f d A b OK CD) as (O1 & O2 & O3 & O4 & O5 & O6 & O7 & O8). do 7 (split; [assumption|]).
    unfold upd_ok. cbn [nl_upd set_upd nl_cal]. destruct OK as (_ & _ & _ & _ & _ & _ & _ & HU). split; [exact Wu'|]. split.
    + apply Su'; [exact Sg|]. intros u Eu. unfold upd_ok in HU. rewrite Eu in HU. apply HU.
    + intros v Hv. rewrite K2. destruct (Vu' v Hv) as [H|(u & Eu & H)]; [now apply Ig|]. unfold upd_ok in HU. rewrite Eu in HU. now apply HU.
  - intros e l Hl. destruct (Lu' e l Hl) as (lg & L1 & L2). exists lg. split; [exact L1|exact L2].
Qed.
Definition cond_lp (f : nlg) (e : string -> R) : res val := match nl_cond f with None => Ok (Fin 0) | Some c => lp c e end.
Theorem nl_multiply_cing f g : nl_wf f -> wf_gauss g -> ga_vac g = false -> incl (ga_vars g) (nl_cing f) -> ga_vars g <> [] ->
  exists r c, nl_multiply_gauss f g = Ok r /\ nl_wf r /\ same_kind f r /\ nl_ev r = nl_ev f /\ opt_same (nl_upd f) (nl_upd r) /\ nl_cond r = Some c /\
    (forall v, In v (ga_vars c) <-> In v (ga_vars g) \/ exists c0, nl_cond f = Some c0 /\ In v (ga_vars c0)) /\
    (solid g -> (forall c0, nl_cond f = Some c0 -> solid c0) -> solid c) /\
    (forall A b, nl_ok f A b -> nl_ok r A b) /\
    forall e l, cond_lp f e = Ok l -> exists lg, lp g e = Ok lg /\ cond_lp r e = Ok (vadd l lg).
Proof.
  intros Wf Wg Vg Ig Ng. destruct (nl_copy_spec f Wf) as (d & Ed & CD). pose proof (nl_wf_copy f d Wf CD) as Wd. pose proof CD as (SK & K6 & K7 & K8 & K9). pose proof SK as (K1 & K2 & K3 & K4 & K5).
  unfold nl_multiply_gauss. rewrite Ed. cbn [bind]. rewrite Vg, K2, K1, (proj2 (subsetb_incl _ (nl_cing f)) Ig). pose proof Wd as (D1 & D2 & D3 & D4 & D5 & D6).
  assert (NS : subsetb (ga_vars g) (nl_cal f) = false).
  { destruct (subsetb (ga_vars g) (nl_cal f)) eqn:E; [|reflexivity]. exfalso. apply subsetb_incl in E. destruct (ga_vars g) as [|v l]; [congruence|].
    destruct Wf as (Hd & _). exact (proj2 (proj2 (NoDup_app_elim _ _ Hd)) v (Ig v (or_introl eq_refl)) (E v (or_introl eq_refl))). }
  rewrite NS. unfold cond_lp.
  assert (STEP : exists u', match nl_cond d with None => g_copy g | Some u => g_multiply u g end = Ok u' /\ wf_gauss u' /\
    (forall v, In v (ga_vars u') <-> In v (ga_vars g) \/ exists c0, nl_cond f = Some c0 /\ In v (ga_vars c0)) /\
    (solid g -> (forall c0, nl_cond f = Some c0 -> solid c0) -> solid u') /\
    forall e l, match nl_cond f with None => Ok (Fin 0) | Some c => lp c e end = Ok l -> exists lg, lp g e = Ok lg /\ lp u' e = Ok (vadd l lg)).
  { unfold opt_same in *. destruct (nl_cond f) as [u0|] eqn:E0, (nl_cond d) as [u|] eqn:Eu; try contradiction.
    - destruct K9 as (SO & HS). pose proof SO as (Wu & Vu & _). destruct (multiply_full u g Wu Wg) as (r & Er & Wr & Vr & Lr). exists r. split; [exact Er|]. split; [exact Wr|].
      split. { intros v. rewrite Vr, Vu. split; [intros [H|H]; [right; now exists u0|now left]|intros [H|(c0 & [= <-] & H)]; tauto]. }
      split. { intros Sg Sc. destruct (multiply_solid u g (HS (Sc u0 eq_refl)) Sg) as (r' & Er' & Sr & _). rewrite Er in Er'. injection Er' as <-. exact Sr. }
      intros e l Hl. destruct (Lr e (ga_vars r) (Permutation_refl _)) as (l1 & l2 & L1 & L2 & _ & L). exists l2. split; [exact L2|].
      rewrite (same_obj_lp' u0 u e SO), Hl in L1. injection L1 as <-. exact L.
    - destruct (same_obj_copy g Wg) as (u' & Eu' & SO & HS). exists u'. split; [exact Eu'|]. split; [apply SO|].
      split. { intros v. destruct SO as (_ & V & _). rewrite V. split; [now left|intros [H|(c0 & [=] & _)]; exact H]. }
      split; [intros Sg _; now apply HS|].
      intros e l [= <-]. destruct (lp_exists g e Wg) as (lg & Lg). exists lg. split; [exact Lg|]. rewrite (same_obj_lp' g u' e SO), vadd_0_l. exact Lg. }
  destruct STEP as (u' & Eu' & Wu' & Vu' & Su' & Lu'). rewrite Eu'. cbn [bind]. exists (set_cond d u'), u'. split; [reflexivity|].
  split. { split; [exact D1|]. split; [exact D2|]. split; [exact D3|]. split; [exact D4|]. split; [exact D5|intros u [= <-]; exact Wu']. }
  split; [exact SK|]. split; [exact K6|]. split; [exact K8|]. split; [reflexivity|]. split; [exact Vu'|]. split; [exact Su'|]. split; [|exact Lu'].
  intros A b OK. exact (nl_ok_copy f d A b OK CD).
Qed.
Lemma nl_multiply_vac f g : nl_wf f -> ga_vac g = true -> exists r, nl_multiply_gauss f g = Ok r /\ copy_of f r.
Proof. intros Wf Vg. destruct (nl_copy_spec f Wf) as (d & Ed & CD). exists d. unfold nl_multiply_gauss. rewrite Ed. cbn [bind]. now rewrite Vg. Qed.
Lemma nl_multiply_mixed f g : nl_wf f -> ga_vac g = false -> ~ incl (ga_vars g) (nl_cal f) -> ~ incl (ga_vars g) (nl_cing f) -> nl_multiply_gauss f g = Err ValueError.
Proof.
  intros Wf Vg N1 N2. destruct (nl_copy_spec f Wf) as (d & Ed & ((K1 & K2 & _) & _)). unfold nl_multiply_gauss. rewrite Ed. cbn [bind]. rewrite Vg, K1, K2.
  destruct (subsetb (ga_vars g) (nl_cal f)) eqn:E1; [exfalso; apply N1; now apply subsetb_incl|].
  destruct (subsetb (ga_vars g) (nl_cing f)) eqn:E2; [exfalso; apply N2; now apply subsetb_incl|]. reflexivity.
Qed.

(** The joint of a product. *)
Theorem nl_multiply_joint o f g A b c j : oracle_ok o -> nl_wf f -> nl_ok f A b -> nl_cond f = Some c -> informed f c -> nl_joint_distribution o f = Ok j ->
  solid g -> incl (ga_vars g) (nl_cal f) \/ (incl (ga_vars g) (nl_cing f) /\ incl (ga_vars g) (ga_vars c) /\ ga_vars g <> []) ->
  exists r jr, nl_multiply_gauss f g = Ok r /\ nl_joint_distribution o r = Ok jr /\ nl_ev r = nl_ev f /\
    (forall v, In v (ga_vars jr) <-> In v (ga_vars j)) /\
    forall e, obeys (nl_ev f) e -> exists l lg, lp j e = Ok l /\ lp g e = Ok lg /\ lp jr e = Ok (vadd l lg).
Proof.
  intros Ho Wf OK Ec IN Ej Sg HG. pose proof Sg as (Wg & Vg & _). destruct (nl_joint_spec o f A b c Ho Wf OK Ec IN) as (j' & Ej' & (Wj & Sj & Vj & Lj) & _).
  rewrite Ej in Ej'. injection Ej' as <-. pose proof IN as (Sc & Ic & Ha & Hn). destruct HG as [Ig|(Ig & Igc & Ng)].
  - destruct (nl_multiply_cal f g Wf Wg Vg Ig) as (r & Er & Wr & SK & K6 & KC & OKr & Lr). pose proof SK as (K1 & K2 & K3 & K4 & K5).
    unfold opt_same in KC. rewrite Ec in KC. destruct (nl_cond r) as [c'|] eqn:Ec'; [|contradiction]. destruct KC as (SO & HS). pose proof SO as (_ & V & _).
    assert (IN' : informed r c') by (split; [now apply HS|]; rewrite V, K1, K6; now repeat split).
    destruct (nl_joint_spec o r A b c' Ho Wr (OKr A b (solid_sym g Sg) OK) Ec' IN') as (jr & Ejr & (Wjr & _ & Vjr & Ljr) & _). exists r, jr.
    split; [exact Er|]. split; [exact Ejr|]. split; [exact K6|]. split; [intros v; rewrite Vjr, Vj, V, K2, K6; reflexivity|]. intros e He.
    destruct (Lj e He) as (l1 & l2 & l3 & L1 & L2 & L3 & L). rewrite K6 in Ljr. destruct (Ljr e He) as (m1 & m2 & m3 & M1 & M2 & M3 & M).
    destruct (Lr e l3 L3) as (lg & Lg & Lu). exists (vadd (vadd l1 l2) l3), lg. split; [exact L|]. split; [exact Lg|]. rewrite M.
    rewrite (same_obj_lp' c c' e SO), L1 in M1. injection M1 as <-. rewrite (noise_lp_copy f r A b e SK), L2 in M2. injection M2 as <-.
    rewrite Lu in M3. injection M3 as <-. now rewrite vadd_assoc.
  - destruct (nl_multiply_cing f g Wf Wg Vg Ig Ng) as (r & c' & Er & Wr & SK & K6 & KU & Ec' & Vc & Scr & OKr & Lr). pose proof SK as (K1 & K2 & K3 & K4 & K5).
    assert (V : forall v, In v (ga_vars c') <-> In v (ga_vars c)).
    { intros v. rewrite Vc, Ec. split; [intros [H|(c0 & [= <-] & H)]; [now apply Igc|exact H]|intros H; right; now exists c]. }
    assert (IN' : informed r c').
    { split; [apply Scr; [exact Sg|intros c0 E0; rewrite Ec in E0; injection E0 as <-; exact Sc]|]. rewrite K1, K6. split; [intros v Hv; apply Ic; now apply V|].
      split; [intros v Hv; rewrite V; now apply Ha|]. intros C. apply Hn. intros v Hv. apply C. now apply V. }
    destruct (nl_joint_spec o r A b c' Ho Wr (OKr A b OK) Ec' IN') as (jr & Ejr & (Wjr & _ & Vjr & Ljr) & _). exists r, jr.
    split; [exact Er|]. split; [exact Ejr|]. split; [exact K6|]. split; [intros v; rewrite Vjr, Vj, V, K2, K6; reflexivity|]. intros e He.
    destruct (Lj e He) as (l1 & l2 & l3 & L1 & L2 & L3 & L). rewrite K6 in Ljr. destruct (Ljr e He) as (m1 & m2 & m3 & M1 & M2 & M3 & M).
    destruct (Lr e l1) as (lg & Lg & Lu); [unfold cond_lp; now rewrite Ec|]. exists (vadd (vadd l1 l2) l3), lg. split; [exact L|]. split; [exact Lg|]. rewrite M.
    unfold cond_lp in Lu. rewrite Ec', M1 in Lu. injection Lu as ->. rewrite (noise_lp_copy f r A b e SK), L2 in M2. injection M2 as <-.
    rewrite (upd_lp_copy f r e KU), L3 in M3. injection M3 as <-. f_equal.
    rewrite <- (vadd_assoc l1 lg l2), (vadd_comm lg l2), (vadd_assoc l1 l2 lg), <- (vadd_assoc (vadd l1 l2) lg l3), (vadd_comm lg l3), vadd_assoc. reflexivity.
Qed.
