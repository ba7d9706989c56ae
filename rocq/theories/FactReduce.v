(** Factorised factors: restrictions and normalising. *)
From Coq Require Import ClassicalEpsilon.
From Verif Require Export FactOps.
#[global] Set Bullet Behavior "Strict Subproofs".

Lemma dget_combine_map (e : string -> R) vrs v : dget (dict_of (combine vrs (map e vrs))) v = if mem v vrs then Some (e v) else None.
Proof.
  assert (G : forall l d, dget (fold_left (fun d (p : string * R) => dset d (fst p) (snd p)) (combine l (map e l)) d) v = if mem v l then Some (e v) else dget d v).
  { induction l as [|u l IH]; intros d; [reflexivity|]. cbn [combine map fold_left fst snd]. rewrite IH, dget_dset.
    destruct (mem v l) eqn:El.
    - assert (mem v (u :: l) = true) as -> by (apply mem_In; right; now apply mem_In). reflexivity.
    - destruct (eq_dec v u) as [->|Nu].
      + assert (mem u (u :: l) = true) as -> by (apply mem_In; now left). reflexivity.
      + assert (mem v (u :: l) = false) as ->; [|reflexivity]. apply mem_nIn. apply mem_nIn in El. intros [<-|Hv]; [now apply Nu|now apply El]. }
  exact (G vrs []).
Qed.
Lemma dkeys_dict_combine (vrs : list string) (values : list R) : length values = length vrs -> NoDup vrs -> dkeys (dict_of (combine vrs values)) = vrs.
Proof.
  intros HL Hd. rewrite dict_of_NoDup; rewrite dkeys_combine by exact HL; [reflexivity|exact Hd].
Qed.
Lemma subset_values (e : string -> R) vrs vars vs xs : NoDup vars -> subset_evidence (dict_of (combine vrs (map e vrs))) vars = (vs, xs) -> map e vs = xs.
Proof.
  intros Hn H. rewrite subset_evidence_eq in H by exact Hn. inversion H; subst. clear Hn H.
  induction vars as [|v vars IH]; cbn [filter flat_map map]; [reflexivity|]. unfold dmem at 1. rewrite dget_combine_map.
  destruct (mem v vrs); cbn [map app]; [|exact IH]. now rewrite IH.
Qed.
Lemma meets_true (l m : list string) : meets l m = true <-> exists v, In v l /\ In v m.
Proof.
  unfold meets. split.
  - intros H. destruct (set_inter l m) as [|v t] eqn:E; [discriminate|]. exists v. apply In_set_inter. rewrite E. now left.
  - intros (v & Hv). apply In_set_inter in Hv. destruct (set_inter l m); [destruct Hv|reflexivity].
Qed.
Lemma meets_false (l m : list string) : meets l m = false <-> forall v, In v l -> ~ In v m.
Proof.
  split.
  - intros H v Hl Hm. enough (meets l m = true) by congruence. apply meets_true. now exists v.
  - intros H. destruct (meets l m) eqn:E; [|reflexivity]. apply meets_true in E. destruct E as (v & Hl & Hm). now destruct (H v Hl).
Qed.
Lemma values_env (vrs : list string) (values : list R) : NoDup vrs -> length values = length vrs -> exists e, map e vrs = values.
Proof.
  intros Hd HL. exists (fun v => nth (pos vrs v) values 0%R). apply (nth_ext _ _ 0%R 0%R); rewrite map_length; [now symmetry|].
  intros k Hk. rewrite (nth_indep _ 0%R (nth (pos vrs ""%string) values 0%R)) by now rewrite map_length.
  rewrite (map_nth (fun v => nth (pos vrs v) values 0%R)). now rewrite pos_of_nth.
Qed.

(** * Restrictions *)
Lemma reduce_steps vrs values fs : NoDup vrs -> length values = length vrs ->
  (forall f, In f fs -> wf_gauss f /\ sym_prec f /\ (incl (ga_vars f) vrs -> incl vrs (ga_vars f))) ->
  forall rs w, all_wf rs -> exists rs' w', foldM (reduce_step vrs values) fs (rs, w) = Ok (rs', w') /\ all_wf rs' /\
    (forall e, map e vrs = values -> vadd w' (lvs rs' e) = vadd (vadd w (lvs rs e)) (lvs fs e)) /\
    (forall v, in_scope rs' v <-> in_scope rs v \/ in_scope fs v /\ ~ In v vrs) /\
    ((rs <> [] \/ exists f, In f fs /\ ~ incl (ga_vars f) vrs) -> rs' <> []).
Proof.
  intros Hd HL. induction fs as [|f fs IH]; intros H rs w Wr.
  - exists rs, w. split; [reflexivity|]. split; [exact Wr|]. split; [|split].
    + intros e _. symmetry. apply vadd_0_r.
    + intros v. split; [now left|]. intros [Hv|((f & [] & _) & _)]. exact Hv.
    + intros [Hr|(f & [] & _)]. exact Hr.
  - destruct (H f (or_introl eq_refl)) as (Wf & Sf & If). assert (H' : forall g, In g fs -> wf_gauss g /\ sym_prec g /\ (incl (ga_vars g) vrs -> incl vrs (ga_vars g))) by (intros g Hg; apply H; now right).
    cbn [foldM]. unfold reduce_step at 1. pose proof Wf as (Df & _).
    destruct (seteqb vrs (ga_vars f)) eqn:Es.
    + assert (HP : Permutation vrs (ga_vars f)) by now apply seteqb_perm. pose proof (proj1 (seteqb_iff _ _) Es) as Hin.
      assert (Lf : exists l, log_potential f values (Some vrs) = Ok l /\ forall e, map e vrs = values -> l = lv f e).
      { destruct (values_env vrs values Hd HL) as (e0 & E0). exists (lv f e0). rewrite <- E0, (lp_order f vrs e0 Df HP). split; [exact (lp_lv f e0 Wf)|]. intros e E1.
        unfold lv, lp. rewrite <- (lp_order f vrs e0 Df HP), <- (lp_order f vrs e Df HP). now rewrite E1. }
      destruct Lf as (l & El & Hl). rewrite El. cbn [bind].
      destruct (IH H' rs (vadd w l) Wr) as (rs' & w' & E & Wr' & Lr & Sr & Nr). exists rs', w'. split; [exact E|]. split; [exact Wr'|]. split; [|split].
      * intros e He. rewrite (Lr e He), lvs_cons, (Hl e He), <- !vadd_assoc. f_equal. rewrite vadd_comm, <- !vadd_assoc. f_equal. apply vadd_comm.
      * intros v. rewrite Sr, scope_cons. pose proof (Hin v). tauto.
      * intros [Hr|(g & [<-|Hg] & Hi)]; apply Nr; [now left| |right; now exists g]. exfalso. apply Hi. intros v Hv. now apply Hin.
    + destruct (meets vrs (ga_vars f)) eqn:Em.
      * destruct (subset_evidence (dict_of (combine vrs values)) (ga_vars f)) as [vs xs] eqn:Ev.
        destruct (subset_evidence_spec _ _ vs xs Df Ev) as (Dv & Iv & Lv). rewrite (dkeys_dict_combine vrs values HL Hd) in Iv.
        destruct (reduce_full f vs xs Wf Sf Dv) as (r & Er & Wrr & Vr & Lr'). { intros v Hv. now apply Iv. }
        { intros Hi. assert (Hi' : incl (ga_vars f) vrs) by (intros v Hv; apply Iv; now apply Hi). enough (seteqb vrs (ga_vars f) = true) by congruence.
          apply seteqb_iff. intros v. split; [now apply If|apply Hi']. }
        { exact Lv. }
        rewrite Er. cbn [bind].
        destruct (IH H' (rs ++ [r]) w) as (rs' & w' & E & Wr' & Lr & Sr & Nr). { intros g Hg. apply in_app_or in Hg. destruct Hg as [Hg|[<-|[]]]; [now apply Wr|exact Wrr]. }
        exists rs', w'. split; [exact E|]. split; [exact Wr'|]. split; [|split].
        -- intros e He. rewrite (Lr e He), lvs_app, !lvs_cons. destruct (Lr' e) as (l & L1 & L2). { subst values. now apply (subset_values e vrs (ga_vars f)). }
           rewrite (lv_of _ _ _ L1), (lv_of _ _ _ L2). change (lvs [] e) with (Fin 0). now rewrite vadd_0_r, <- !vadd_assoc.
        -- intros v. rewrite Sr, scope_app, !scope_cons, Vr, Iv. assert (~ in_scope [] v) by (intros (g & [] & _)). pose proof (Wr' : all_wf rs').
           destruct (in_dec string_dec v vrs); tauto.
        -- intros _. apply Nr. left. destruct rs; discriminate.
      * destruct (g_copy_ok f Wf) as (c & Ec & Vc & Cc & Dc & Wc). rewrite Ec. cbn [bind].
        destruct (IH H' (rs ++ [c]) w) as (rs' & w' & E & Wr' & Lr & Sr & Nr). { intros g Hg. apply in_app_or in Hg. destruct Hg as [Hg|[<-|[]]]; [now apply Wr|exact Wc]. }
        exists rs', w'. split; [exact E|]. split; [exact Wr'|]. split; [|split].
        -- intros e He. rewrite (Lr e He), lvs_app, !lvs_cons. rewrite (lv_same f c) by (split; [exact Wc|now split]). change (lvs [] e) with (Fin 0). now rewrite vadd_0_r, <- !vadd_assoc.
        -- intros v. rewrite Sr, scope_app, !scope_cons, Vc. assert (~ in_scope [] v) by (intros (g & [] & _)). pose proof (proj1 (meets_false _ _) Em v).
           destruct (in_dec string_dec v vrs); tauto.
        -- intros _. apply Nr. left. destruct rs; discriminate.
Qed.
Theorem fg_reduce_spec o a vrs values : oracle_ok o -> NoDup vrs -> length values = length vrs ->
  (forall f, In f (fg_factors a) -> wf_gauss f /\ sym_prec f /\ (incl (ga_vars f) vrs -> incl vrs (ga_vars f))) ->
  (exists f, In f (fg_factors a) /\ ~ incl (ga_vars f) vrs) ->
  exists r, fg_reduce o a vrs values = Ok r /\ fg_factors r <> [] /\ all_wf (fg_factors r) /\ scoped r /\
    (forall v, in_scope (fg_factors r) v <-> in_scope (fg_factors a) v /\ ~ In v vrs) /\
    forall e, map e vrs = values -> lvs (fg_factors r) e = lvs (fg_factors a) e.
Proof.
  intros Ho Hd HL H Hx. destruct (reduce_steps vrs values (fg_factors a) Hd HL H [] (Fin 0)) as (rs & w & E & Wr & L & Sc & N). { intros f []. }
  unfold fg_reduce. rewrite E. cbn [bind]. destruct rs as [|f fs]; [destruct (N (or_intror Hx)); reflexivity|].
  destruct (add_weight_lv f w (Wr f (or_introl eq_refl))) as (Wa & Va & La).
  destruct (mk_fg_ok o (add_log_weight f w :: fs) Ho) as (b & Eb & Fb & Sb). { intros g [<-|Hg]; [exact Wa|apply Wr; now right]. }
  exists b. split; [exact Eb|]. split; [inversion Fb; discriminate|]. split; [exact (same_wf _ _ Fb)|]. split; [exact Sb|]. split.
  - intros v. rewrite (same_scope _ _ v Fb), scope_cons, Va, <- scope_cons, Sc. split; [intros [(g & [] & _)|Hv]; exact Hv|now right].
  - intros e He. rewrite (lvs_same _ _ e Fb), lvs_cons, La, (vadd_comm (lv f e)), <- vadd_assoc, <- lvs_cons, (L e He). now rewrite !vadd_0_l.
Qed.
(** A factor whose scope lies strictly inside the observed variables makes the call fail. *)
Lemma foldM_err {A S} (f : S -> A -> res S) er l1 x l2 : (forall s, f s x = Err er) -> (forall s y e, In y l1 -> f s y = Err e -> e = er) ->
  forall s, foldM f (l1 ++ x :: l2) s = Err er.
Proof.
  intros Hx. induction l1 as [|y l1 IH]; intros H s; cbn [app foldM].
  - now rewrite Hx.
  - destruct (f s y) as [s'|e] eqn:Ey; cbn [bind]; [apply IH; intros t z e' Hz; apply H; now right|]. f_equal. now apply (H s y e (or_introl eq_refl)).
Qed.
(** Only the empty list of factors, or scopes all equal to the observed variables, leave no factor. *)
Theorem fg_reduce_all o a vrs values : NoDup vrs -> length values = length vrs ->
  (forall f, In f (fg_factors a) -> wf_gauss f /\ forall v, In v (ga_vars f) <-> In v vrs) ->
  fg_reduce o a vrs values = Err IndexError.
Proof.
  intros Hd HL H. unfold fg_reduce. enough (G : forall w, exists w', foldM (reduce_step vrs values) (fg_factors a) ([], w) = Ok ([], w')).
  { destruct (G (Fin 0)) as (w' & ->). reflexivity. }
  induction (fg_factors a) as [|f fs IH]; intros w; [cbn; eauto|]. destruct (H f (or_introl eq_refl)) as (Wf & Hf).
  assert (Es : seteqb vrs (ga_vars f) = true) by (apply seteqb_iff; intros v; now rewrite Hf).
  pose proof Wf as (Df & _). assert (HP : Permutation vrs (ga_vars f)) by now apply seteqb_perm.
  destruct (values_env vrs values Hd HL) as (e0 & E0).
  assert (E2 : log_potential f values (Some vrs) = log_potential f (map e0 (ga_vars f)) None) by (rewrite <- E0; now apply lp_order). pose proof (lp_lv f e0 Wf) as L. unfold lp in L. rewrite L in E2.
  assert (E3 : reduce_step vrs values ([], w) f = Ok ([], vadd w (lv f e0))) by (unfold reduce_step; now rewrite Es, E2).
  cbn [foldM]. rewrite E3. cbn [bind]. apply IH. intros g Hg. apply H. now right.
Qed.
Theorem fg_reduce_inside o a vrs values f : NoDup vrs -> length values = length vrs ->
  (forall g, In g (fg_factors a) -> wf_gauss g /\ sym_prec g) ->
  In f (fg_factors a) -> incl (ga_vars f) vrs -> ~ incl vrs (ga_vars f) -> ga_vars f <> [] -> fg_reduce o a vrs values = Err AssertionError.
Proof.
  intros Hd HL H Hf Hi Hn Hne. unfold fg_reduce. enough (G : forall st, foldM (reduce_step vrs values) (fg_factors a) st = Err AssertionError) by now rewrite G.
  assert (Hbad : forall g, In g (fg_factors a) -> incl (ga_vars g) vrs -> ~ incl vrs (ga_vars g) -> ga_vars g <> [] -> forall st, reduce_step vrs values st g = Err AssertionError).
  { intros g Hg Ig Ng Ne [rs w]. unfold reduce_step. destruct (H g Hg) as (Wg & Sg). pose proof Wg as (Dg & _).
    destruct (seteqb vrs (ga_vars g)) eqn:Es. { exfalso. apply Ng. intros v Hv. now apply (proj1 (seteqb_iff _ _) Es). }
    assert (Em : meets vrs (ga_vars g) = true). { apply meets_true. destruct (ga_vars g) as [|v t]; [congruence|]. exists v. split; [apply Ig|]; now left. }
    rewrite Em. destruct (subset_evidence (dict_of (combine vrs values)) (ga_vars g)) as [vs xs] eqn:Ev.
    destruct (subset_evidence_spec _ _ vs xs Dg Ev) as (Dv & Iv & Lv). rewrite (dkeys_dict_combine vrs values HL Hd) in Iv.
    rewrite (g_reduce_all g vs xs); [reflexivity|exact Wg|exact Dv| | |exact Lv]; intros v Hv; [now apply Iv|apply Iv; auto]. }
  assert (Hgood : forall g, In g (fg_factors a) -> forall st er, reduce_step vrs values st g = Err er -> er = AssertionError).
  { intros g Hg [rs w] er E. destruct (H g Hg) as (Wg & Sg). destruct (excluded_middle_informative (incl (ga_vars g) vrs -> incl vrs (ga_vars g))) as [Y|N].
    - exfalso. destruct (reduce_steps vrs values [g] Hd HL) with (rs := @nil gauss) (w := w) as (rs' & w' & E' & _).
      { intros g' [<-|[]]. now split. } { intros g' []. }
      cbn [foldM] in E'. unfold reduce_step in E, E'. destruct (seteqb vrs (ga_vars g)).
      + destruct (log_potential g values (Some vrs)); [discriminate E|]. discriminate E'.
      + destruct (meets vrs (ga_vars g)).
        * destruct (subset_evidence _ _) as [vs xs]. destruct (g_reduce g vs xs); [discriminate E|]. discriminate E'.
        * destruct (g_copy g); [discriminate E|]. discriminate E'.
    - destruct (excluded_middle_informative (incl (ga_vars g) vrs)) as [Ig|Ng]; [|tauto].
      destruct (ga_vars g) as [|v t] eqn:Eg.
      + exfalso. unfold reduce_step in E. rewrite Eg in E. destruct (seteqb vrs []) eqn:Es; [apply N; intros _ v Hv; now apply (proj1 (seteqb_iff _ _) Es)|].
        assert (meets vrs [] = false) as Em by (apply meets_false; intros v _ []). rewrite Em in E. destruct (g_copy_ok g Wg) as (c & Ec & _). rewrite Ec in E. discriminate E.
      + rewrite <- Eg in *. rewrite (Hbad g Hg Ig) in E; [congruence|tauto|congruence]. }
  intros st. destruct (in_split f _ Hf) as (l1 & l2 & El). rewrite El. apply foldM_err.
  - intros s. apply Hbad; assumption.
  - intros s y er Hy. apply Hgood. rewrite El. apply in_or_app. now left.
Qed.

(** * Normalising *)
Theorem fg_normalize_fails o a : oracle_ok o -> all_wf (fg_factors a) -> (2 <= length (fg_factors a))%nat -> fg_normalize o a = Err AttributeError.
Proof.
  intros Ho H HL. destruct (fg_copy_ok o a Ho H) as (c & Ec & Fc & _). unfold fg_normalize. rewrite Ec. cbn [bind].
  pose proof (Forall2_length _ _ _ Fc) as L. destruct (fg_factors c) as [|x [|y l]]; cbn in L; try lia. reflexivity.
Qed.
Theorem fg_normalize_one o a f f' C m w : oracle_ok o -> fg_factors a = [f] -> solid f -> get_cov f = Ok (f', (C, m, Fin w)) ->
  exists r, fg_normalize o a = Ok r /\ scoped r /\ (forall e, lvs (fg_factors r) e = vsub (lvs (fg_factors a) e) (Fin w)) /\
    exists g, fg_factors r = [g] /\ solid g /\ plain g /\ forall ys e, Permutation ys (ga_vars g) -> iint ys (gval g) e 1.
Proof.
  intros Ho Ea S G. destruct (solid_copy f S) as (c1 & E1 & S1 & V1). destruct (solid_copy c1 S1) as (c2 & E2 & S2 & V2).
  destruct (copy_get_cov f c1 f' _ (proj1 S) G E1 ltac:(apply S1)) as (c1' & G1). destruct (copy_get_cov c1 c2 c1' _ (proj1 S1) G1 E2 ltac:(apply S2)) as (c2' & G2).
  destruct (normalize_full c2 c2' C m w S2 G2) as (r & Er & Sr & Pr & Vr & Gr & Lr).
  assert (Ec : fg_copy o a = Ok {| fg_vars := so o (dedup (concat (map ga_vars [c1]))); fg_factors := [c2] |}).
  { unfold fg_copy. rewrite Ea. cbn [mapM]. rewrite E1. cbn [bind]. unfold mk_fg. cbn [mapM]. rewrite E2. reflexivity. }
  unfold fg_normalize. rewrite Ec. cbn [bind fg_factors fg_merge_dependent mapM]. destruct (solid_copy c2 S2) as (c3 & E3 & S3 & V3). rewrite E3. cbn [bind].
  unfold mk_fg at 1. cbn [mapM]. destruct (solid_copy c3 S3) as (c4 & E4 & _). rewrite E4. cbn [bind]. rewrite Er. cbn [bind].
  eexists. split; [reflexivity|]. cbn [fg_vars fg_factors]. split; [|split].
  - destruct Ho as (Ho & _). pose proof (Ho _ (NoDup_dedup (concat (map ga_vars [c1])))) as HP. split; cbn [fg_vars fg_factors].
    + apply (Permutation_NoDup HP), NoDup_dedup.
    + intros v. assert (Q : In v (so o (dedup (concat (map ga_vars [c1])))) <-> In v (concat (map ga_vars [c1]))).
      { rewrite <- (In_dedup v (concat (map ga_vars [c1]))). split; apply Permutation_in; [now apply Permutation_sym|exact HP]. }
      rewrite Q, scope_concat, !scope_cons, Vr, V2. assert (~ in_scope [] v) by (intros (g & [] & _)). tauto.
  - intros e. rewrite Ea, !lvs_cons. change (lvs [] e) with (Fin 0). rewrite !vadd_0_r.
    assert (L2 : lv c2 e = lv f e).
    { unfold lv. destruct (g_copy_ok f (proj1 S)) as (d1 & D1 & A1 & A2 & A3 & A4). assert (d1 = c1) as -> by congruence.
      destruct (g_copy_ok c1 (proj1 S1)) as (d2 & D2 & B1 & B2 & B3 & B4). assert (d2 = c2) as -> by congruence.
      rewrite (same_obj_lp' c1 c2 e) by (split; [exact B4|now split]). rewrite (same_obj_lp' f c1 e) by (split; [exact A4|now split]). reflexivity. }
    rewrite <- L2. apply lv_of. apply Lr. apply lp_lv, S2.
  - exists r. split; [reflexivity|]. split; [exact Sr|]. split; [exact Pr|]. intros ys e HP.
    replace 1%R with (pot (Fin 0)) by (cbn; apply exp_0). exact (proj2 (weight_integral r r C m (Fin 0) ys e Sr Pr Gr HP)).
Qed.
