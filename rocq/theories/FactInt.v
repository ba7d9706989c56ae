(** Factorised factors: the marginal is the marginal of the joint. *)
From Verif Require Export FactMerge.
#[global] Set Bullet Behavior "Strict Subproofs".
Local Open Scope R_scope.

Lemma add_weight_solid f x : solid f -> plain f -> is_lp x -> plain (add_log_weight f x).
Proof.
  intros (W & _) P Hx e l L. destruct (add_weight_lv f x W) as (Wa & _ & La). rewrite (lp_lv _ e Wa), La in L. injection L as <-.
  apply pot_vadd; [|exact Hx]. apply (P e). now apply lp_lv.
Qed.
Lemma g_marginalize_keep o f vrs keep : g_marginalize o f vrs keep = g_marginalize o f (marginal_vars o (ga_vars f) vrs keep) true.
Proof. reflexivity. Qed.
(** What one group contributes. *)
Lemma marg_step_ok o out ms w g : oracle_ok o -> solid g -> plain g ->
  let ys := set_inter (ga_vars g) out in
  (exists wg, marg_step o out (ms, w) g = Ok (ms, vadd w wg) /\ is_lp wg /\ (forall v, In v (ga_vars g) -> In v out) /\ forall e, iint ys (gval g) e (pot wg)) \/
  (exists m, marg_step o out (ms, w) g = Ok (ms ++ [m], w) /\ solid m /\ plain m /\ (forall v, In v (ga_vars m) <-> In v (ga_vars g) /\ ~ In v out) /\
     (exists v, In v (ga_vars m)) /\ forall e, iint ys (gval g) e (gval m e)).
Proof.
  intros Ho S P ys. pose proof S as (W & _). pose proof W as (Hd & _). unfold marg_step. fold ys.
  assert (Iy : forall v, In v ys <-> In v (ga_vars g) /\ In v out) by (intros v; apply In_set_inter).
  assert (Dy : NoDup ys) by apply NoDup_set_inter.
  destruct (seteqb ys (ga_vars g)) eqn:Es.
  - left. assert (HP : Permutation ys (ga_vars g)) by now apply seteqb_perm.
    destruct (marg_solid o g (ga_vars g) Ho S Hd (incl_refl _)) as (g' & C & m & wg & _ & _ & _ & _ & G & _).
    exists wg. unfold get_log_weight. rewrite G. cbn [bind snd]. split; [reflexivity|].
    split; [exact (proj1 (weight_integral g g' C m wg ys (fun _ => 0) S P G HP))|]. split.
    + intros v Hv. apply Iy. now apply (Permutation_in _ (Permutation_sym HP)).
    + intros e. exact (proj2 (weight_integral g g' C m wg ys e S P G HP)).
  - right. pose proof Ho as (Hs & _). pose proof (Hs ys Dy) as Py. rewrite g_marginalize_keep. cbn [marginal_vars].
    set (xs := so o (set_diff (ga_vars g) (so o ys))). pose proof (Hs _ (NoDup_set_diff (ga_vars g) (so o ys))) as Px. fold xs in Px.
    assert (Ix : forall v, In v xs <-> In v (ga_vars g) /\ ~ In v out).
    { intros v. transitivity (In v (set_diff (ga_vars g) (so o ys))); [split; apply Permutation_in; [now apply Permutation_sym|exact Px]|]. rewrite In_set_diff.
      assert (In v (so o ys) <-> In v ys) by (split; apply Permutation_in; [now apply Permutation_sym|exact Py]). pose proof (Iy v). tauto. }
    assert (Dx : NoDup xs) by (apply (Permutation_NoDup Px), NoDup_set_diff).
    assert (HP : Permutation (ys ++ xs) (ga_vars g)).
    { apply NoDup_Permutation; [|exact Hd|].
      - apply NoDup_app_intro; auto. intros v Hv Hx. apply Iy in Hv. apply Ix in Hx. tauto.
      - intros v. rewrite in_app_iff, Iy, Ix. destruct (in_dec string_dec v out); tauto. }
    destruct (marg_integral o ys g xs Ho S P HP) as (m & E & V & Sm & Pm & I). exists m. rewrite E. cbn [bind]. split; [reflexivity|].
    split; [exact Sm|]. split; [exact Pm|]. split; [intros v; rewrite V; apply Ix|]. split; [|exact I].
    rewrite V. destruct xs as [|v t] eqn:Ex; [|exists v; now left]. exfalso. apply Bool.not_true_iff_false in Es. apply Es.
    rewrite app_nil_r in HP. apply seteqb_iff. intros v. split; apply Permutation_in; [exact HP|now apply Permutation_sym].
Qed.
Lemma lvs_indep ms ys : (forall y, In y ys -> ~ in_scope ms y) -> indep ys (gvals ms).
Proof.
  intros H y Hy e t. unfold gvals. f_equal. apply map_ext_in. intros m Hm. apply gval_indep with (ys := ys); [|exact Hy].
  intros z Hz Hv. apply (H z Hz). now exists m.
Qed.
Lemma marg_steps_ok o out gs : oracle_ok o -> (forall g, In g gs -> solid g /\ plain g) -> ForallOrdPairs (disj_out out) gs ->
  forall ms0 w0, exists ms w, foldM (marg_step o out) gs (ms0, w0) = Ok (ms0 ++ ms, vadd w0 w) /\ is_lp w /\ (forall m, In m ms -> solid m /\ plain m) /\
    (forall v, in_scope ms v <-> in_scope gs v /\ ~ In v out) /\
    (forall e, iint (concat (map (fun g => set_inter (ga_vars g) out) gs)) (gvals gs) e (gvals ms e * pot w)).
Proof.
  intros Ho. induction gs as [|g gs IH]; intros H HA ms0 w0.
  - exists [], (Fin 0). cbn [foldM]. rewrite app_nil_r, vadd_0_r. split; [reflexivity|]. split; [exact I|]. split; [intros m []|]. split.
    + intros v. split; [intros (f & [] & _)|intros ((f & [] & _) & _)].
    + intros e. cbn. unfold gvals. cbn. rewrite exp_0. ring.
  - destruct (H g (or_introl eq_refl)) as (Sg & Pg). inversion HA as [|? ? HF HA']; subst. rewrite Forall_forall in HF.
    assert (H' : forall h, In h gs -> solid h /\ plain h) by (intros h Hh; apply H; now right).
    set (Y := concat (map (fun g => set_inter (ga_vars g) out) gs)).
    assert (HY : forall v, In v Y -> In v out /\ in_scope gs v).
    { intros v Hv. apply in_concat in Hv. destruct Hv as (l & Hl & Hv). apply in_map_iff in Hl. destruct Hl as (h & <- & Hh). apply In_set_inter in Hv.
      split; [tauto|]. exists h. tauto. }
    assert (IF : indep Y (gval g)).
    { apply gval_indep. intros y Hy Hv. destruct (HY y Hy) as (Hout & (h & Hh & Hyh)). exact (HF h Hh y Hout Hv Hyh). }
    assert (HJ : forall ms w, (forall v, in_scope ms v -> ~ In v out) -> indep (set_inter (ga_vars g) out) (fun e => gvals ms e * pot w)).
    { intros ms w Hm y Hy e t. f_equal. apply lvs_indep with (ys := set_inter (ga_vars g) out); [|exact Hy]. intros z Hz Hs. apply In_set_inter in Hz. exact (Hm z Hs (proj2 Hz)). }
    cbn [foldM map concat]. fold Y. destruct (marg_step_ok o out ms0 w0 g Ho Sg Pg) as [(wg & E & Lw & Vg & Ig)|(m & E & Sm & Pm & Vm & _ & Ig)].
    + destruct (IH H' HA' ms0 (vadd w0 wg)) as (ms & w & Ef & Lw' & Hms & Sc & II). exists ms, (vadd wg w). rewrite E. cbn [bind]. rewrite Ef, <- vadd_assoc.
      destruct (pot_vadd wg w Lw Lw') as (Lww & Pww). split; [reflexivity|]. split; [exact Lww|]. split; [exact Hms|]. split.
      * intros v. rewrite Sc, scope_cons. pose proof (Vg v). tauto.
      * intros e. replace (gvals ms e * pot (vadd wg w)) with (pot wg * (gvals ms e * pot w)) by (rewrite Pww; ring).
        apply (iint_prod _ _ (gval g) (gvals gs) (fun _ => pot wg) (fun e => gvals ms e * pot w)); auto. apply HJ. intros v Hv. now apply Sc.
    + destruct (IH H' HA' (ms0 ++ [m]) w0) as (ms & w & Ef & Lw' & Hms & Sc & II). exists (m :: ms), w. rewrite E. cbn [bind]. rewrite Ef, <- app_assoc.
      split; [reflexivity|]. split; [exact Lw'|]. split; [intros h [<-|Hh]; [now split|now apply Hms]|]. split.
      * intros v. rewrite !scope_cons, Sc, Vm. tauto.
      * intros e. replace (gvals (m :: ms) e * pot w) with (gval m e * (gvals ms e * pot w)) by (unfold gvals; cbn [map fold_right]; ring).
        apply (iint_prod _ _ (gval g) (gvals gs) (gval m) (fun e => gvals ms e * pot w)); auto. apply HJ. intros v Hv. now apply Sc.
Qed.
Lemma intersecting_some fs vs v f : In f fs -> In v (ga_vars f) -> In v vs -> Nat.eqb (length (intersecting fs vs)) 0 = false.
Proof.
  intros Hf Hv Hs. apply Nat.eqb_neq. unfold intersecting. generalize 0%nat at 1 as k. induction fs as [|g fs IH]; intros k; [destruct Hf|].
  destruct Hf as [->|Hf].
  - assert (meets vs (ga_vars f) = true) as -> by (apply meets_true; now exists v). cbn. lia.
  - destruct (meets vs (ga_vars g)); [cbn; lia|]. now apply IH.
Qed.
Lemma concat_disj out gs : (forall g, In g gs -> NoDup (ga_vars g)) -> ForallOrdPairs (disj_out out) gs -> NoDup (concat (map (fun g => set_inter (ga_vars g) out) gs)).
Proof.
  intros Hn HA. induction HA as [|g gs HF HA IH]; [constructor|]. cbn [map concat]. apply NoDup_app_intro; [apply NoDup_set_inter|apply IH; intros h Hh; apply Hn; now right|].
  intros v Hv Hc. apply in_concat in Hc. destruct Hc as (l & Hl & Hc). apply in_map_iff in Hl. destruct Hl as (h & <- & Hh). apply In_set_inter in Hv, Hc.
  rewrite Forall_forall in HF. apply (HF h Hh v); tauto.
Qed.
(** The variables a call [marginalize(vrs, keep)] integrates out. *)
Definition integrated (a : fg) (vrs : list string) (keep : bool) (v : string) : Prop :=
  In v (fg_vars a) /\ (if keep then ~ In v vrs else In v vrs).
Definition share (p : string -> Prop) (f g : gauss) : Prop := exists v, p v /\ In v (ga_vars f) /\ In v (ga_vars g).
Lemma marginal_vars_ok o (vars vrs : list string) keep : oracle_ok o -> NoDup vrs -> incl vrs vars ->
  NoDup (marginal_vars o vars vrs keep) /\ forall v, In v (marginal_vars o vars vrs keep) <-> In v vars /\ (if keep then In v vrs else ~ In v vrs).
Proof.
  intros (Ho & _) Hd Hi. destruct keep; cbn [marginal_vars].
  - split; [exact Hd|]. intros v. split; [intros Hv; split; [now apply Hi|exact Hv]|tauto].
  - pose proof (Ho _ (NoDup_set_diff vars vrs)) as HP. split; [apply (Permutation_NoDup HP), NoDup_set_diff|].
    intros v. rewrite <- In_set_diff. split; apply Permutation_in; [now apply Permutation_sym|exact HP].
Qed.
Theorem fg_marginal_spec o a vrs keep : oracle_ok o -> scoped a -> (forall f, In f (fg_factors a) -> solid f /\ plain f) ->
  NoDup vrs -> incl vrs (fg_vars a) -> (exists v, In v (fg_vars a) /\ ~ integrated a vrs keep v) ->
  (forall f g h, In f (fg_factors a) -> In g (fg_factors a) -> In h (fg_factors a) ->
     share (integrated a vrs keep) f g -> share (integrated a vrs keep) g h -> share (integrated a vrs keep) f h) ->
  exists j m r, fg_joint a = Ok j /\ g_marginalize o j vrs keep = Ok m /\ fg_marginalize o a vrs keep = Ok r /\
    match r with
    | inl g => (forall v, In v (ga_vars g) <-> In v (ga_vars m)) /\ wf_gauss g /\ forall e, lp g e = lp m e
    | Datatypes.inr b => (forall v, In v (fg_vars b) <-> In v (ga_vars m)) /\ scoped b /\ exists jb, fg_joint b = Ok jb /\ forall e, lp jb e = lp m e
    end /\ (forall v, In v (ga_vars m) <-> In v (fg_vars a) /\ ~ integrated a vrs keep v).
Proof.
  intros Ho (Da & Sa) HS Hd Hi (v0 & Hv0 & Nv0) HT.
  assert (Hn : fg_factors a <> []). { intros E. apply Sa in Hv0. rewrite E in Hv0. destruct Hv0 as (f & [] & _). }
  assert (HW : all_wf (fg_factors a)) by (intros f Hf; apply HS in Hf; apply Hf).
  destruct (joint_solid a Hn HS) as (j & Ej & Sj & Pj). destruct (joint_spec a Hn HW) as (j' & Ej' & Wj & Vj & Lj). rewrite Ej in Ej'. injection Ej' as <-.
  destruct (marginal_vars_ok o (fg_vars a) vrs keep Ho Hd Hi) as (Dk & Ik). set (kept := marginal_vars o (fg_vars a) vrs keep) in *.
  set (out := set_diff (fg_vars a) kept).
  assert (Io : forall v, In v out <-> integrated a vrs keep v).
  { intros v. unfold out. rewrite In_set_diff, Ik. unfold integrated. destruct keep; destruct (in_dec string_dec v vrs); tauto. }
  assert (Ik' : forall v, In v kept <-> In v (fg_vars a) /\ ~ integrated a vrs keep v).
  { intros v. rewrite Ik. unfold integrated. destruct keep; destruct (in_dec string_dec v vrs); tauto. }
  assert (Hj : forall v, In v (ga_vars j) <-> In v (fg_vars a)) by (intros v; rewrite Vj, Sa; reflexivity).
  (* the copy *)
  destruct (mapM_copy _ HW) as (cs & Ecs & Fcs). pose proof (solid_same _ _ Ecs HS) as Hcs.
  destruct (mapM_copy cs (same_wf _ _ Fcs)) as (ds & Eds & Fds). pose proof (solid_same _ _ Eds Hcs) as Hds.
  pose proof (F2_trans same_obj same_obj same_obj _ _ _ same_obj_trans Fcs Fds) as Fa.
  unfold fg_marginalize. fold kept out.
  assert (Hr : raise_if (Nat.eqb (length (intersecting (fg_factors a) kept)) 0) PyException = Ok tt).
  { apply Sa in Hv0 as Hv0'. destruct Hv0' as (f & Hf & Hv). rewrite (intersecting_some _ kept v0 f Hf Hv); [reflexivity|]. now apply Ik'. }
  rewrite Hr. cbn [bind]. unfold fg_copy at 1. rewrite Ecs. cbn [bind]. unfold mk_fg at 1. rewrite Eds. cbn [bind fg_factors].
  destruct (merge_ok ds out Hds) as (gs & Egs & Hgs & Sgs & Lgs & Ags).
  { intros f g h Hf Hg Hh H1 H2. destruct (F2_in_r _ _ _ f Fa Hf) as (f' & Hf' & (_ & Vf & _)). destruct (F2_in_r _ _ _ g Fa Hg) as (g' & Hg' & (_ & Vg & _)).
    destruct (F2_in_r _ _ _ h Fa Hh) as (h' & Hh' & (_ & Vh & _)). unfold shares in *. rewrite Vf, Vg, Vh in *.
    destruct (HT f' g' h' Hf' Hg' Hh') as (v & Q1 & Q2 & Q3).
    - destruct H1 as (v & Q1 & Q2 & Q3). exists v. rewrite <- Io. auto.
    - destruct H2 as (v & Q1 & Q2 & Q3). exists v. rewrite <- Io. auto.
    - exists v. rewrite Io. auto. }
  rewrite Egs. cbn [bind]. destruct (marg_steps_ok o out gs Ho Hgs Ags [] (Fin 0)) as (ms & w & Em & Lw & Hms & Sms & Ims). rewrite Em. cbn [bind app].
  rewrite vadd_0_l.
  assert (Sc : forall v, in_scope gs v <-> In v (fg_vars a)) by (intros v; now rewrite Sgs, (same_scope _ _ v Fa), Sa).
  (* the marginal of the joint *)
  destruct (marginal_vars_ok o (ga_vars j) vrs keep Ho Hd) as (Dk2 & Ik2). { intros v Hv. apply Hj. now apply Hi. }
  set (xs := marginal_vars o (ga_vars j) vrs keep) in *.
  assert (Ix : forall v, In v xs <-> In v (fg_vars a) /\ ~ integrated a vrs keep v).
  { intros v. rewrite Ik2, Hj. unfold integrated. destruct keep; destruct (in_dec string_dec v vrs); tauto. }
  set (Y := concat (map (fun g => set_inter (ga_vars g) out) gs)) in *.
  assert (HY : forall v, In v Y <-> integrated a vrs keep v).
  { intros v. rewrite <- Io. split.
    - intros Hv. apply in_concat in Hv. destruct Hv as (l & Hl & Hv). apply in_map_iff in Hl. destruct Hl as (h & <- & Hh). apply In_set_inter in Hv. tauto.
    - intros Hv. assert (Hs : in_scope gs v) by (apply Sc; apply Io in Hv; apply Hv). destruct Hs as (g & Hg & Hvg). apply in_concat. exists (set_inter (ga_vars g) out).
      split; [now apply (in_map (fun g => set_inter (ga_vars g) out))|]. now apply In_set_inter. }
  assert (HP : Permutation (Y ++ xs) (ga_vars j)).
  { apply NoDup_Permutation; [|apply Wj|].
    - apply NoDup_app_intro; [|exact Dk2|].
      + apply concat_disj; [|exact Ags]. intros g Hg. apply Hgs in Hg. destruct Hg as (((Dg & _) & _) & _). exact Dg.
      + intros v H1 H2. apply HY in H1. apply Ix in H2. tauto.
    - intros v. rewrite in_app_iff, HY, Ix, Hj. unfold integrated. destruct keep; destruct (in_dec string_dec v vrs); tauto. }
  destruct (marg_integral o Y j xs Ho Sj Pj HP) as (m & Emj & Vm & Sm & Pm & Imj).
  assert (Val : forall e, lp m e = Ok (vadd (lvs ms e) w)).
  { intros e. rewrite (lp_lv m e (proj1 Sm)). f_equal. destruct (lvs_plain ms e Hms) as (Q1 & Q2). destruct (pot_vadd _ _ Q1 Lw) as (Q3 & Q4).
    apply pot_inj; [now apply lv_plain|exact Q3|]. rewrite Q4, Q2, <- gval_lv. apply (iint_unique Y (gval j) e); [apply Imj|].
    apply (iint_ext Y (gvals gs)); [|apply Ims]. intros e'. rewrite <- (proj2 (lvs_plain gs e' Hgs)), Lgs, (lvs_same _ _ e' Fa), gval_lv.
    f_equal. symmetry. apply lv_of, Lj. }
  assert (Hm : forall v, In v (ga_vars m) <-> In v (fg_vars a) /\ ~ integrated a vrs keep v) by (intros v; rewrite Vm; apply Ix).
  assert (Hsm : forall v, in_scope ms v <-> In v (ga_vars m)) by (intros v; rewrite Hm, Sms, Sc, Io; reflexivity).
  exists j, m. rewrite g_marginalize_keep. fold xs.
  destruct ms as [|m1 ms].
  { exfalso. assert (Hs : in_scope [] v0) by (apply Hsm, Hm; now split). destruct Hs as (f & [] & _). }
  destruct (Hms m1 (or_introl eq_refl)) as ((W1 & _) & _). destruct (add_weight_lv m1 w W1) as (Wa & Va & La).
  destruct ms as [|m2 ms].
  - eexists. split; [exact Ej|]. split; [exact Emj|]. split; [reflexivity|]. split; [|exact Hm]. split; [|split; [exact Wa|]].
    + intros v. rewrite Va, <- Hsm, scope_cons. split; [now left|]. intros [Hv|(f & [] & _)]. exact Hv.
    + intros e. rewrite (lp_lv _ e Wa), La, Val, lvs_cons. change (lvs [] e) with (Fin 0). now rewrite vadd_0_r.
  - destruct (mk_fg_ok o (add_log_weight m1 w :: m2 :: ms) Ho) as (b & Eb & Fb & Sb). { intros g [<-|Hg]; [exact Wa|]. destruct (Hms g (or_intror Hg)) as ((Wg & _) & _). exact Wg. }
    rewrite Eb. cbn [bind]. eexists. split; [exact Ej|]. split; [exact Emj|]. split; [reflexivity|]. split; [|exact Hm]. split; [|split; [exact Sb|]].
    + intros v. pose proof Sb as (_ & Sb'). rewrite Sb', (same_scope _ _ v Fb), scope_cons, Va, <- scope_cons. apply Hsm.
    + destruct (joint_spec b) as (jb & Ejb & _ & _ & Ljb); [inversion Fb; discriminate|exact (same_wf _ _ Fb)|]. exists jb. split; [exact Ejb|]. intros e.
      rewrite Ljb, Val, (lvs_same _ _ e Fb). f_equal. rewrite !(lvs_cons _ (m2 :: ms)), La, <- !vadd_assoc. f_equal. apply vadd_comm.
Qed.
