(** The division with cancel_method 1: several variables, several numerators; the instances and
    examples for PropMixOpt. *)
From Verif Require Export MixOptDiv3 MixExamples.
#[global] Set Bullet Behavior "Strict Subproofs".
Local Open Scope R_scope.

(** * Only the last numerator component enters the inverse *)
Lemma new_vars_same (l : list string) : new_vars l l = l.
Proof. unfold new_vars. now rewrite (proj2 (subsetb_incl l l) (incl_refl _)). Qed.
Definition inverse_step (opt : optimiser) (b : gmix) := fun (st : list gmix * list (list R)) ga =>
  let* inv := mapM (fun gb => g_divide gb ga) (gm_comps b) in let* m := mk_mix inv in let* loc := mix_argmin opt m in
  match loc with Some x => Ok ([m], snd st ++ [x])%list | None => Err PyException end.
Lemma inverse_last opt a b cs c ms zs : gm_comps a = (cs ++ [c])%list -> inverse_gaussians opt a b = Ok (ms, zs) ->
  exists inv m, mapM (fun gb => g_divide gb c) (gm_comps b) = Ok inv /\ mk_mix inv = Ok m /\ ms = [m].
Proof.
  intros Ea E. unfold inverse_gaussians in E. rewrite Ea in E. fold (inverse_step opt b) in E. apply bind_ok in E. destruct E as (st & Es & E).
  apply bind_ok in E. destruct E as (modes & _ & E). apply bind_ok in E. destruct E as (u & _ & E). injection E as <- <-.
  rewrite foldM_app in Es. apply bind_ok in Es. destruct Es as (s1 & _ & Es). cbn [foldM] in Es. unfold inverse_step in Es.
  apply bind_ok in Es. destruct Es as (st' & Es & Es'). injection Es' as ->. apply bind_ok in Es. destruct Es as (inv & Ei & Es).
  apply bind_ok in Es. destruct Es as (m & Em & Es). apply bind_ok in Es. destruct Es as ([x|] & _ & Es); [|discriminate]. injection Es as <-. now exists inv, m.
Qed.

(** * Several variables *)
Definition keeps_length (opt : optimiser) : Prop := forall f x0 x s, opt f x0 = Ok (x, s) -> length x = length x0.
Lemma start_length c x : wf_gauss c -> start_of c = Ok x -> length x = length (ga_vars c).
Proof.
  intros W E. unfold start_of in E. apply bind_ok in E. destruct E as ((c' & [[C m] w]) & G & E). injection E as <-. rewrite map_length, seq_length.
  pose proof (get_cov_shape _ _ _ W G) as (_ & _ & H & _). exact H.
Qed.
Lemma argmin_length opt a x : keeps_length opt -> wf_mix a -> mix_argmin opt a = Ok (Some x) -> length x = length (gm_vars a).
Proof.
  intros Hl (_ & W) E. unfold mix_argmin in E. apply bind_ok in E. destruct E as ([[best arg] ok] & Es & E). destruct ok; [|discriminate]. injection E as ->.
  unfold search in Es. fold (search_step opt (mix_potential a) (fun p q => vltb p q) a) in Es.
  assert (G : forall cs st st', (forall c, In c cs -> wf_gauss c /\ ga_vars c = gm_vars a) -> (forall y, snd (fst st) = Some y -> length y = length (gm_vars a)) ->
    foldM (search_step opt (mix_potential a) (fun p q => vltb p q) a) cs st = Ok st' -> forall y, snd (fst st') = Some y -> length y = length (gm_vars a)).
  { clear -Hl. induction cs as [|c cs IH]; intros st st' Hc H0 E y Hy; cbn [foldM] in E; [injection E as <-; now apply H0|].
    apply bind_ok in E. destruct E as (s1 & E1 & E). refine (IH s1 st' (fun d Hd => Hc d (or_intror Hd)) _ E y Hy). clear IH E Hy y.
    intros y Hy. destruct st as [[best arg] ok]. unfold search_step in E1. apply bind_ok in E1. destruct E1 as (x0 & Ex & E1). apply bind_ok in E1. destruct E1 as ([x s] & Eo & E1).
    cbn [fst snd] in *. destruct s.
    - apply bind_ok in E1. destruct E1 as (p & _ & E1). destruct (vltb p best); injection E1 as <-; cbn [fst snd] in Hy; [|now apply H0].
      injection Hy as ->. rewrite (Hl _ _ _ _ Eo). destruct (Hc c (or_introl eq_refl)) as (Wc & <-). now apply start_length.
    - injection E1 as <-. now apply H0. }
  apply (G (gm_comps a) _ _ W) with (y := x) in Es; [exact Es|discriminate|reflexivity].
Qed.
Lemma duplicate_points_long l tol r : (forall x, In x l -> (2 <= length x)%nat) -> remove_duplicate_points l tol = Ok r -> False.
Proof.
  intros H E. unfold remove_duplicate_points in E. destruct l as [|x l]; [discriminate|]. cbn [py_nth nth_error bind foldM] in E.
  destruct x as [|? [|? ?]]; [specialize (H [] (or_introl eq_refl)); cbn in H; lia|specialize (H [_] (or_introl eq_refl)); cbn in H; lia|]. discriminate E.
Qed.
Lemma m1_several opt hess a b r : keeps_length opt -> wf_mix a -> wf_mix b -> gm_vars b = gm_vars a -> (2 <= length (gm_vars a))%nat -> mix_division_m1 opt hess a b <> Ok r.
Proof.
  intros Hl (Na & Wa) (Nb & Wb) V L E. unfold mix_division_m1 in E. apply bind_ok in E. destruct E as (q & E & _).
  unfold inverse_gaussians in E. fold (inverse_step opt b) in E. apply bind_ok in E. destruct E as (st & Es & E).
  apply bind_ok in E. destruct E as (modes & Em & E). apply bind_ok in E. destruct E as (u & Eu & _).
  assert (G : forall cs s s', (forall c, In c cs -> wf_gauss c /\ ga_vars c = gm_vars a) -> (forall x, In x (snd s) -> length x = length (gm_vars a)) ->
    foldM (inverse_step opt b) cs s = Ok s' -> forall x, In x (snd s') -> length x = length (gm_vars a)).
  { clear Es. induction cs as [|c cs IH]; intros s s' Hc H0 E' x Hx; cbn [foldM] in E'; [injection E' as <-; now apply H0|].
    apply bind_ok in E'. destruct E' as (s1 & E1 & E'). refine (IH s1 s' (fun d Hd => Hc d (or_intror Hd)) _ E' x Hx). clear IH E' Hx x.
    intros y Hy. unfold inverse_step in E1. apply bind_ok in E1. destruct E1 as (inv & Ei & E1). apply bind_ok in E1. destruct E1 as (m & Emm & E1). apply bind_ok in E1. destruct E1 as (loc & El & E1).
    destruct loc as [x|]; [|discriminate]. injection E1 as <-. cbn [snd] in Hy. apply in_app_iff in Hy. destruct Hy as [Hy|[<-|[]]]; [now apply H0|].
    destruct (Hc c (or_introl eq_refl)) as (Wc & Vc).
    destruct (mapM_F2 (fun gb => g_divide gb c) (fun _ d => wf_gauss d /\ ga_vars d = gm_vars a) (gm_comps b)) as (inv' & Ei' & Fi).
    { intros d Hd. destruct (Wb d Hd) as (Wd & Vd). destruct (g_divide_spec d c Wd Wc) as (t & Et & Wt & Vt & _). exists t. split; [exact Et|]. split; [exact Wt|]. rewrite Vt, Vd, Vc, V. apply new_vars_same. }
    rewrite Ei in Ei'. injection Ei' as <-.
    destruct (mk_mix_ok inv (gm_vars a)) as (m' & Em' & Vm & Wm & _).
    { intros ->. inversion Fi. congruence. }
    { intros d Hd. destruct (F2_in_r _ _ _ d Fi Hd) as (? & _ & ?). assumption. }
    rewrite Emm in Em'. injection Em' as <-. rewrite <- Vm. now apply (argmin_length opt). }
  assert (Gm : forall zs ms ms', (forall x, In x zs -> (2 <= length x)%nat) -> (forall x, In x ms -> (2 <= length x)%nat) ->
    foldM (fun modes x0 => let* r := opt (fun x => let* la := mix_log_potential a x None in let* lb := mix_log_potential b x None in Ok (vmul (Fin (-1)) (vsub la lb))) x0 in
             Ok (if (snd r : bool) then modes ++ [fst r] else modes)%list) zs ms = Ok ms' -> forall x, In x ms' -> (2 <= length x)%nat).
  { clear -Hl. induction zs as [|z zs IH]; intros ms ms' Hz Hm E x Hx; cbn [foldM] in E; [injection E as <-; now apply Hm|].
    apply bind_ok in E. destruct E as (m1 & E1 & E). refine (IH m1 ms' (fun d Hd => Hz d (or_intror Hd)) _ E x Hx). clear IH E Hx x.
    intros y Hy. apply bind_ok in E1. destruct E1 as ([x s] & Eo & E1). injection E1 as <-. cbn [fst snd] in Hy. destruct s; [|now apply Hm].
    apply in_app_iff in Hy. destruct Hy as [Hy|[<-|[]]]; [now apply Hm|]. rewrite (Hl _ _ _ _ Eo). apply Hz. now left. }
  apply (duplicate_points_long modes (1 / 1000) u); [|exact Eu].
  apply (Gm _ [] modes (fun x Hx => eq_ind_r (fun n => (2 <= n)%nat) L (G (gm_comps a) ([], []) st Wa (fun y Hy => match Hy with end) Es x Hx)) (fun y Hy => match Hy with end) Em).
Qed.

(** * Instances *)
Definition can1 (p : cpar) : gauss :=
  {| ga_vars := ["a"%string]; ga_vac := prec_vacuous (Mat 1 1 (fun _ _ => fst (fst p))); ga_can := Some (Mat 1 1 (fun _ _ => fst (fst p)), Mat 1 1 (fun _ _ => snd (fst p)), Fin (snd p)); ga_cov := None |}.
Lemma can1_one p : one_can "a" (can1 p) p.
Proof. exists (Mat 1 1 (fun _ _ => fst (fst p))), (Mat 1 1 (fun _ _ => snd (fst p))). repeat split. Qed.
Definition mix1 (ps : list cpar) : gmix := {| gm_vars := ["a"%string]; gm_comps := map can1 ps |}.
Lemma mix1_dims ps : Forall2 (one_dim "a") (gm_comps (mix1 ps)) ps.
Proof. cbn [gm_comps mix1]. induction ps as [|p ps IH]; constructor; [apply one_can_dim, can1_one|exact IH]. Qed.
Lemma mix1_wf p ps : wf_mix (mix1 (p :: ps)).
Proof. split; [discriminate|]. intros c Hc. destruct (F2_in_l _ _ _ c (mix1_dims (p :: ps)) Hc) as (q & _ & (W & V & _)). now split. Qed.
Lemma mix1_pos ps e : ps <> [] -> 0 < mval (mix1 ps) e.
Proof.
  intros H. destruct ps as [|p ps]; [congruence|]. rewrite (proj2 (one_dims_mval "a" _ _ e (mix1_wf p ps) (mix1_dims _))). apply Rsum_pos_list; [discriminate|]. intros; apply exp_pos.
Qed.

(** Method 1 on one numerator component whose quotient peaks at 1: the result is off by a factor. *)
Lemma gap_half k h : gap [- ln 2; - ln 2] (k, h, 0) = 0.
Proof.
  unfold gap. cbn [map snd]. unfold Rsum. cbn [fold_right]. replace (exp (- ln 2 - 0) + (exp (- ln 2 - 0) + 0)) with 1; [apply ln_1|].
  replace (- ln 2 - 0) with (- ln 2) by ring. rewrite exp_Ropp, exp_ln by lra. field.
Qed.
Lemma gap_quarter k h : gap [- ln 4; - ln 4] (k, h, 0) = - ln 2.
Proof.
  unfold gap. cbn [map snd]. unfold Rsum. cbn [fold_right]. rewrite <- (ln_Rinv 2) by lra. f_equal. replace (- ln 4 - 0) with (- ln 4) by ring. rewrite exp_Ropp, exp_ln by lra. field.
Qed.
Definition num : gmix := mix1 [(2, 0, 0)].
Definition den (g : R) : gmix := mix1 [(1, 0, g); (1, 0, g)].
Lemma den_dims g : Forall2 (one_dim "a") (gm_comps (den g)) (map (fun g => (1, 0, g)) [g; g]).
Proof. apply (mix1_dims [(1, 0, g); (1, 0, g)]). Qed.
Lemma m1_wrong opt hess : exact_opt opt -> exact_hess hess ->
  exists a b r, wf_mix a /\ wf_mix b /\ gm_vars a = gm_vars b /\ mix_divide_method opt hess 1 a b = Ok r /\ forall e, mixpot r e <> Ok (Fin (mval a e / mval b e)).
Proof.
  intros Ho Hh. exists num, (den (- ln 2)). destruct (m1_spec opt hess "a" num (den (- ln 2)) (2, 0, 0) 1 0 [- ln 2; - ln 2] Ho Hh) as (r & Er & _ & _ & Pr);
    [apply mix1_wf|apply mix1_wf|apply mix1_dims|apply den_dims|cbn; lra|].
  exists r. split; [apply mix1_wf|]. split; [apply mix1_wf|]. split; [reflexivity|]. split; [exact Er|]. intros e E. rewrite Pr in E. injection E as E.
  assert (Q : 0 < mval num e / mval (den (- ln 2)) e) by (apply Rdiv_lt_0_compat; apply mix1_pos; discriminate).
  assert (X : exp (m1_const (2, 0, 0) 1 0 [- ln 2; - ln 2]) = 1) by (apply (Rmult_eq_reg_r (mval num e / mval (den (- ln 2)) e)); lra).
  assert (C : m1_const (2, 0, 0) 1 0 [- ln 2; - ln 2] = 0) by (apply exp_inv; now rewrite exp_0).
  unfold m1_const, inv_log, mode in C. cbn [fst snd] in C. rewrite gap_half in C. cbv zeta in C. replace ((0 - 0) / (2 - 1)) with 0 in C by field.
  assert (L : ln ((2 - 1) / (2 * PI)) < ln 1). { pose proof PI2_1. pose proof PI_RGT_0. apply ln_increasing; [apply Rdiv_lt_0_compat; lra|]. apply (Rmult_lt_reg_r (2 * PI)); [lra|]. field_simplify; lra. }
  rewrite ln_1 in L. lra.
Qed.
Lemma ln2_pos : 0 < ln 2.
Proof. rewrite <- ln_1. apply ln_increasing; lra. Qed.
Lemma m2_wrong : exists a b r, wf_mix a /\ wf_mix b /\ gm_vars a = gm_vars b /\ (forall opt hess, mix_divide_method opt hess 2 a b = Ok r) /\
  forall e, mixpot r e = Ok (Fin (1 / 4 * (mval a e / mval b e))) /\ mixpot r e <> Ok (Fin (mval a e / mval b e)).
Proof.
  exists num, (den (- ln 4)). destruct (m2_spec "a" num (den (- ln 4)) [(2, 0, 0)] 1 0 [- ln 4; - ln 4]) as (r & Er & _ & _ & Pr);
    [apply mix1_wf|apply mix1_wf|apply mix1_dims|apply den_dims|intros p [<-|[]]; cbn; lra|].
  exists r. split; [apply mix1_wf|]. split; [apply mix1_wf|]. split; [reflexivity|]. split; [intros; exact Er|]. intros e.
  assert (V : mixpot r e = Ok (Fin (1 / 4 * (mval num e / mval (den (- ln 4)) e)))).
  { rewrite (proj1 (Pr e)). do 2 f_equal. cbn [map]. unfold Rsum. cbn [fold_right]. unfold m2_value. rewrite gap_quarter, Rabs_Ropp, Rabs_right by (apply Rle_ge; left; exact ln2_pos).
    replace (- ln 2 - ln 2) with (- (ln 2 + ln 2)) by ring. rewrite exp_Ropp, exp_plus, exp_ln by lra.
    rewrite (proj2 (one_dims_mval "a" num _ e (mix1_wf _ _) (mix1_dims [(2, 0, 0)]))). cbn [map]. unfold Rsum. cbn [fold_right]. unfold Rdiv. field.
    apply Rgt_not_eq. apply mix1_pos. discriminate. }
  split; [exact V|]. rewrite V. intros E. injection E as E.
  assert (Q : 0 < mval num e / mval (den (- ln 4)) e) by (apply Rdiv_lt_0_compat; apply mix1_pos; discriminate). lra.
Qed.
Lemma method_unknown opt hess n a b : length (gm_comps b) <> 1%nat -> (3 <= n)%nat -> mix_divide_method opt hess n a b = Err UnboundLocalError.
Proof. intros L H. unfold mix_divide_method. destruct n as [|[|[|n]]]; try lia. destruct (gm_comps b) as [|? [|? ?]]; [reflexivity|now elim L|reflexivity]. Qed.

(** Examples for the statements. *)
Lemma m1_hyps : exists opt hess, exact_opt opt /\ exact_hess hess /\ wf_mix num /\ wf_mix (den 0) /\ Forall2 (one_dim "a") (gm_comps num) [(2, 0, 0)] /\
  Forall2 (one_dim "a") (gm_comps (den 0)) (map (fun g => (1, 0, g)) [0; 0]) /\ 1 + 1 / 100000000 < fst (fst (2, 0, 0)).
Proof.
  destruct exact_exists as (opt & hess & Ho & Hh). exists opt, hess. split; [exact Ho|]. split; [exact Hh|]. split; [apply mix1_wf|]. split; [apply mix1_wf|].
  split; [apply mix1_dims|]. split; [apply den_dims|]. cbn. lra.
Qed.
Lemma m2_hyps : wf_mix num /\ wf_mix (den 0) /\ Forall2 (one_dim "a") (gm_comps num) [(2, 0, 0)] /\ Forall2 (one_dim "a") (gm_comps (den 0)) (map (fun g => (1, 0, g)) [0; 0]) /\
  forall p, In p [(2, 0, 0)] -> fst (fst p) <> 1 /\ 0 <= gap [0; 0] p.
Proof.
  split; [apply mix1_wf|]. split; [apply mix1_wf|]. split; [apply mix1_dims|]. split; [apply den_dims|]. intros p [<-|[]]. cbn [fst snd]. split; [lra|].
  unfold gap. cbn [map snd]. unfold Rsum. cbn [fold_right]. replace (0 - 0) with 0 by ring. rewrite exp_0.
  assert (L : ln 1 < ln (1 + (1 + 0))) by (apply ln_increasing; lra). rewrite ln_1 in L. lra.
Qed.
Definition stay : optimiser := fun _ x0 => Ok (x0, true).
Lemma m1_several_hyps : keeps_length stay /\ wf_mix mix_ab /\ gm_vars mix_ab = gm_vars mix_ab /\ (2 <= length (gm_vars mix_ab))%nat.
Proof. split; [intros f x0 x s E; now injection E as <- <-|]. split; [exact mix_ab_wf|]. split; [reflexivity|]. cbn. lia. Qed.
Lemma inverse_last_hyps : exists opt hess zs ms, exact_opt opt /\ exact_hess hess /\ gm_comps num = ([] ++ [can1 (2%R, 0%R, 0%R)])%list /\ inverse_gaussians opt num (den 0) = Ok (ms, zs).
Proof.
  destruct m1_hyps as (opt & hess & Ho & Hh & W1 & W2 & F1 & F2 & L). destruct (m1_spec opt hess "a" num (den 0) _ _ _ _ Ho Hh W1 W2 F1 F2 L) as (r & Er & _).
  unfold mix_division_m1 in Er. apply bind_ok in Er. destruct Er as ([ms zs] & Er & _). exists opt, hess, zs, ms. now repeat split.
Qed.
Definition two_modes : gmix := mixw [(0, 0); (3, 1)].
Lemma wg_mean m w : mean_of (wg m w) [m].
Proof. eexists _, _, _, _. split; [apply wg_cov|]. cbn. split; [reflexivity|]. intros i Hi. destruct i; [reflexivity|lia]. Qed.
Lemma wg_solid m w : solid (wg m w).
Proof.
  split; [apply wg_wf|]. split; [reflexivity|]. split; [intros q1 q2 E; discriminate E|]. split; [intros K h g E; discriminate E|].
  intros C m' w' E. injection E as <- _ _. exact meye1_posdef.
Qed.
Lemma two_modes_hyps : wf_mix two_modes /\ (forall c, In c (gm_comps two_modes) -> solid c) /\ (exists ps, Forall2 has_params (gm_comps two_modes) ps) /\
  searches stay (neg_log two_modes) two_modes [([0], true); ([3], true)] /\ descends stay (neg_log two_modes).
Proof.
  split; [apply mixw_wf|]. split; [intros c [<-|[<-|[]]]; apply wg_solid|]. split; [eexists; apply (mixw_params [(0, 0); (3, 1)])|]. split.
  - constructor; [exists [0]; split; [apply wg_mean|reflexivity]|]. constructor; [exists [3]; split; [apply wg_mean|reflexivity]|constructor].
  - intros x0 x s E. injection E as <- <-. split; [reflexivity|]. intros u v E1 E2. rewrite E1 in E2. injection E2 as <-. lra.
Qed.
Lemma sklearn_hyps : let params := [([0], meye 1, 1 / 4); ([3], meye 1, 3 / 4)] in NoDup ["a"%string] /\ params <> [] /\
  forall m C w, In (m, C, w) params -> length m = 1%nat /\ nr C = 1%nat /\ nc C = 1%nat /\ posdef C /\ 0 <= w.
Proof.
  cbv zeta. split; [apply nd1'|]. split; [discriminate|]. intros m C w [E|[E|[]]]; injection E as <- <- <-; repeat split; try apply meye1_posdef; lra.
Qed.
