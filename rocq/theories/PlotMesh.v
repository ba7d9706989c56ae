(** Contours of Gaussians and mixtures of two variables; the plots of nonlinear Gaussians. *)
From Coq Require Import Lra Lia Permutation.
From Verif Require Export PlotMix.
From Verif Require Import FactOps FactMarg MixFacts MixEq.
Local Open Scope nat_scope.
Local Open Scope list_scope.
Local Open Scope R_scope.

Lemma chunks_rows {A B} (f : A -> res B) (g : R -> list A) n ys : (forall y, length (g y) = n) ->
  forall z, mapM f (concat (map g ys)) = Ok z -> Forall2 (fun y row => mapM f (g y) = Ok row) ys (chunks (length ys) n z).
Proof.
  intros L. induction ys as [|y ys IH]; intros z E; [constructor|]. cbn [map concat] in E. rewrite mapM_app in E.
  apply bind_ok in E. destruct E as (r1 & E1 & E). apply bind_ok in E. destruct E as (r2 & E2 & [= <-]).
  pose proof (mapM_length _ _ _ E1) as L1. rewrite L in L1. cbn [length chunks].
  rewrite firstn_app, <- L1, firstn_all, Nat.sub_diag, skipn_app, skipn_all, Nat.sub_diag. cbn [firstn skipn app]. rewrite app_nil_r.
  constructor; [exact E1|]. rewrite L1. now apply IH.
Qed.
Lemma combine_grid (xs ys : list R) : combine (concat (map (fun _ => xs) ys)) (concat (map (fun y => map (fun _ => y) xs) ys)) =
  concat (map (fun y => map (fun x => (x, y)) xs) ys).
Proof.
  induction ys as [|y ys IH]; [reflexivity|]. cbn [map concat].
  assert (G : forall l1 l2 : list R, combine (xs ++ l1) (map (fun _ => y) xs ++ l2) = map (fun x => (x, y)) xs ++ combine l1 l2).
  { clear IH. induction xs as [|x xs' IHx]; intros l1 l2; [reflexivity|]. cbn. now rewrite IHx. }
  now rewrite G, IH.
Qed.
Lemma nth_map_in {A B} (f : A -> B) l i d d' : (i < length l)%nat -> nth i (map f l) d' = f (nth i l d).
Proof. intros H. rewrite (nth_indep _ _ (f d)) by now rewrite map_length. apply map_nth. Qed.
Lemma F2_nth {A B} (P : A -> B -> Prop) l m dx dy i : Forall2 P l m -> (i < length l)%nat -> P (nth i l dx) (nth i m dy).
Proof. intros F. revert i. induction F as [|x y l m H F IH]; intros i Hi; cbn in *; [lia|]. destruct i as [|i]; [exact H|]. apply IH. lia. Qed.

Lemma plot_2d_ok func xl yl vx vy : (forall x y, exists v, func [x; y] = Ok v) ->
  exists xm ym zm, plot_2d func xl yl vx vy = Ok (Contour xm ym zm vx vy) /\ mesh_of (fun x y => func [x; y]) xl yl 100 xm ym zm.
Proof.
  intros T. unfold plot_2d. set (xs := linspace (fst xl) (snd xl) 100). set (ys := linspace (fst yl) (snd yl) 100).
  rewrite (combine_grid xs ys). destruct (mapM_total (fun p : R * R => func [fst p; snd p]) (concat (map (fun y => map (fun x => (x, y)) xs) ys))) as (z & E); [intros [x y] _; apply T|].
  rewrite E. cbn [bind].
  assert (Lx : length xs = 100%nat) by apply linspace_length. assert (Ly : length ys = 100%nat) by apply linspace_length.
  pose proof (chunks_rows (fun p : R * R => func [fst p; snd p]) (fun y => map (fun x => (x, y)) xs) (length xs) ys ltac:(intros y; apply map_length) z E) as F.
  do 3 eexists. split; [reflexivity|]. split; [now rewrite map_length|]. split; [now rewrite map_length|].
  split; [rewrite <- (Forall2_length _ _ _ F); exact Ly|].
  intros i j Hi Hj. rewrite (nth_map_in (fun _ => xs) ys i 0) by lia. rewrite (nth_map_in (fun y => map (fun _ => y) xs) ys i 0) by lia.
  rewrite (nth_map_in (fun _ => nth i ys 0) xs j 0) by lia. split; [now apply linspace_nth|]. split; [now apply linspace_nth|].
  pose proof (F2_nth _ _ _ 0 [] i F ltac:(lia)) as Er. cbn beta in Er. destruct (mapM_nth _ _ _ (0, 0) NaN Er) as (_ & H). rewrite map_length in H.
  specialize (H j ltac:(lia)). rewrite (nth_map_in (fun x => (x, nth i ys 0)) xs j 0) in H by lia. exact H.
Qed.

(** Equal functions have equal values, however the point is given. *)
Lemma same_value_n f f' log x : wf_gauss f -> same_fun f f' -> ga_vars f' = ga_vars f -> length x = length (ga_vars f) -> g_value log f' x = g_value log f x.
Proof.
  intros W (_ & _ & _ & H) V L. pose proof W as (Hd & _). specialize (H (fun v => nth (pos (ga_vars f) v) x 0)). rewrite V in H.
  assert (Ex : map (fun v => nth (pos (ga_vars f) v) x 0) (ga_vars f) = x).
  { apply nth_ext with (d := 0) (d' := 0); [now rewrite map_length|]. intros i Hi. rewrite map_length in Hi.
    rewrite (nth_map_in (fun v => nth (pos (ga_vars f) v) x 0) (ga_vars f) i ""%string) by exact Hi. now rewrite pos_of_nth. }
  rewrite Ex in H. unfold g_value, potential. now rewrite H.
Qed.

(** * Gaussians of two variables *)
Definition three_sigma_of (p : mat * mat * val) (i : nat) (l : R * R) : Prop :=
  let '(C, m, _) := p in 0 < ent C i i /\ l = (ent m i 0 - 3 * sqrt (ent C i i), ent m i 0 + 3 * sqrt (ent C i i)).
Lemma g_limits_ok f vx vy : ga_vars f = [vx; vy] -> solid f -> exists f' p xl yl, get_cov f = Ok (f', p) /\ g_limits_2d f = Ok (xl, yl) /\
  three_sigma_of p 0 xl /\ three_sigma_of p 1 yl.
Proof.
  intros V S. destruct (cov_of_solid f S) as (f' & C & m & w & E & _ & _ & Sh & P). destruct (solid_copy f S) as (c & Ec & Sc & Vc).
  pose proof (copy_same f c (proj1 S) Ec) as (_ & _ & Ck & Cv).
  assert (Eg : exists c', get_cov c = Ok (c', (C, m, w))).
  { destruct S as (_ & Vac & _). destruct Sc as (_ & Vac' & _). unfold get_cov, update_covform in *. rewrite Vac in E. rewrite Vac', Ck, Cv.
    destruct (ga_cov f) as [p|] eqn:Ev; [cbn [bind] in *; rewrite Ev in E; rewrite Cv; injection E as <- ->; eauto|].
    destruct (ga_can f) as [[[K h] g]|]; [|discriminate]. apply bind_ok in E. destruct E as (d & Ed & E). apply bind_ok in Ed. destruct Ed as (A1 & E1 & Ed). rewrite E1. cbn [bind].
    apply bind_ok in Ed. destruct Ed as (A2 & E2 & Ed). rewrite E2. cbn [bind]. apply bind_ok in Ed. destruct Ed as (A3 & E3 & Ed). rewrite E3. cbn [bind].
    apply bind_ok in Ed. destruct Ed as (A4 & E4 & [= <-]). rewrite E4. cbn [bind ga_cov] in *. injection E as <- <- <- <-. eauto. }
  destruct Eg as (c' & Eg). destruct (three_sigma_ok C m 0 _ w Sh P ltac:(rewrite V; cbn; lia)) as (H0 & E0). destruct (three_sigma_ok C m 1 _ w Sh P ltac:(rewrite V; cbn; lia)) as (H1 & E1).
  exists f', (C, m, w). do 2 eexists. split; [exact E|]. split; [unfold g_limits_2d; rewrite Ec; cbn [bind]; rewrite Eg; cbn [bind snd]; rewrite E0; cbn [bind]; rewrite E1; reflexivity|].
  cbn. repeat split; assumption.
Qed.
Lemma gauss_contour f log xlim ylim vx vy : ga_vars f = [vx; vy] -> solid f ->
  exists f' p xm ym zm xl yl, g_plot f log xlim ylim = Ok (f, [Contour xm ym zm vx vy]) /\
    mesh_of (fun x y => if log then log_potential f [x; y] None else potential f [x; y]) xl yl 100 xm ym zm /\
    get_cov f = Ok (f', p) /\
    match xlim with Some l => xl = l | None => three_sigma_of p 0 xl end /\
    match ylim with Some l => yl = l | None => three_sigma_of p 1 yl end.
Proof.
  intros V S. destruct (g_limits_ok f vx vy V S) as (f' & p & xl & yl & E & El & H0 & H1). unfold g_plot. rewrite V. cbn [length].
  unfold g_plot_2d. rewrite El. cbn [bind fst snd]. rewrite V. cbn [py_nth nth_error bind].
  set (xl' := match xlim with Some l => l | None => xl end). set (yl' := match ylim with Some l => l | None => yl end).
  assert (T : forall x y, exists v, g_value log f [x; y] = Ok v). { intros x y. apply (wf_value f log [x; y] (proj1 S)). now rewrite V. }
  destruct (plot_2d_ok (g_value log f) xl' yl' vx vy T) as (xm & ym & zm & Ep & M).
  exists f', p, xm, ym, zm, xl', yl'. split; [|split; [exact M|split; [exact E|]]].
  - unfold g_value in Ep; destruct log; cbv iota in Ep; change (potential f) with (fun x => potential f x); rewrite Ep; reflexivity.
  - unfold xl', yl'. destruct xlim, ylim; auto.
Qed.
Lemma gauss_other f log xlim ylim : length (ga_vars f) <> 1%nat -> length (ga_vars f) <> 2%nat -> g_plot f log xlim ylim = Err NotImplementedError.
Proof. unfold g_plot. destruct (length (ga_vars f)) as [|[|[|n]]]; congruence. Qed.

(** * Mixtures of two variables *)
Definition mix_value (log : bool) (a : gmix) (x : list R) : res val := if log then mix_log_potential a x None else mix_potential a x.
Lemma mix_value_total log a x : wf_mix a -> length x = length (gm_vars a) -> exists v, mix_value log a x = Ok v.
Proof.
  intros W L. destruct W as (Hn & H). destruct log; cbn [mix_value].
  - unfold mix_log_potential. destruct (mapM_total (fun c => log_potential c x None) (gm_comps a)) as (ls & E).
    { intros c Hc. destruct (H c Hc) as (Wc & Vc). apply (wf_value c true x Wc). congruence. }
    rewrite E. cbn [bind]. apply mapM_length in E. unfold logsumexp. destruct ls as [|l ls]; [destruct (gm_comps a); [congruence|discriminate]|]. eauto.
  - unfold mix_potential. generalize (Fin 0). clear Hn. induction (gm_comps a) as [|c cs IH]; intros acc; cbn [foldM]; [eauto|].
    destruct (H c (or_introl eq_refl)) as (Wc & Vc). destruct (wf_value c false x Wc ltac:(congruence)) as (v & E). cbn [g_value] in E. rewrite E. cbn [bind].
    apply IH. intros d Hd. apply H. now right.
Qed.
Lemma mix_value_same log a a' x : wf_mix a -> Forall2 (fun c c' => same_fun c c' /\ ga_vars c' = ga_vars c) (gm_comps a) (gm_comps a') -> length x = length (gm_vars a) ->
  mix_value log a' x = mix_value log a x.
Proof.
  intros (_ & H) F L. destruct log; cbn [mix_value].
  - unfold mix_log_potential. f_equal. revert H. induction F as [|c c' cs cs' (S & V) F IH]; intros H; [reflexivity|]. cbn [mapM].
    destruct (H c (or_introl eq_refl)) as (Wc & Vc). rewrite (same_value_n c c' true x Wc S V ltac:(congruence) : log_potential c' x None = log_potential c x None).
    rewrite IH; [reflexivity|]. intros d Hd. apply H. now right.
  - unfold mix_potential. generalize (Fin 0). revert H. induction F as [|c c' cs cs' (S & V) F IH]; intros H acc; [reflexivity|]. cbn [foldM].
    destruct (H c (or_introl eq_refl)) as (Wc & Vc). rewrite (same_value_n c c' false x Wc S V ltac:(congruence) : potential c' x = potential c x).
    destruct (potential c x); [|reflexivity]. cbn [bind]. apply IH. intros d Hd. apply H. now right.
Qed.
Lemma solid_mix_wf a : solid_mix a -> wf_mix a.
Proof. intros (Hn & H). split; [exact Hn|]. intros c Hc. destruct (H c Hc) as ((W & _) & V). now split. Qed.
Lemma mix_contour a log xlim ylim individual vx vy : gm_vars a = [vx; vy] -> wf_mix a -> (xlim = None \/ ylim = None -> solid_mix a) ->
  exists a' xm ym zm xl yl, mix_plot a log xlim ylim individual = Ok (a', [Contour xm ym zm vx vy]) /\
    gm_vars a' = gm_vars a /\ Forall2 same_fun (gm_comps a) (gm_comps a') /\
    mesh_of (fun x y => if log then mix_log_potential a [x; y] None else mix_potential a [x; y]) xl yl 100 xm ym zm /\
    match xlim, ylim with
    | Some lx, Some ly => xl = lx /\ yl = ly
    | _, _ => covers (gm_comps a) 0 xl /\ covers (gm_comps a) 1 yl
    end.
Proof.
  intros V W S. unfold mix_plot. rewrite V. cbn [length]. unfold mix_plot_2d.
  assert (G : exists a' xl yl, match xlim, ylim with Some x, Some y => Ok (a, (x, y)) | _, _ => mix_limits_2d a end = Ok (a', (xl, yl)) /\ gm_vars a' = gm_vars a /\
     Forall2 (fun c c' => same_fun c c' /\ ga_vars c' = ga_vars c) (gm_comps a) (gm_comps a') /\
     match xlim, ylim with Some lx, Some ly => xl = lx /\ yl = ly | _, _ => covers (gm_comps a) 0 xl /\ covers (gm_comps a) 1 yl end).
  { assert (Q : solid_mix a -> exists a' xl yl, mix_limits_2d a = Ok (a', (xl, yl)) /\ gm_vars a' = gm_vars a /\
       Forall2 (fun c c' => same_fun c c' /\ ga_vars c' = ga_vars c) (gm_comps a) (gm_comps a') /\ covers (gm_comps a) 0 xl /\ covers (gm_comps a) 1 yl).
    { intros Sm. destruct (mix_covs a Sm) as (rs & E & F). destruct (mix_intervals_ok a rs 0 Sm ltac:(rewrite V; cbn; lia) E) as (xl & Ex & Cx).
      destruct (mix_intervals_ok a rs 1 Sm ltac:(rewrite V; cbn; lia) E) as (yl & Ey & Cy). exists (mix_after a rs), xl, yl. unfold mix_limits_2d. rewrite E. cbn [bind]. rewrite Ex. cbn [bind]. rewrite Ey. cbn [bind].
      split; [reflexivity|]. split; [reflexivity|]. split; [|now split]. cbn [mix_after gm_comps]. destruct W as (_ & W). clear -F W. revert W.
      induction F as [|c r cs rs (E & Sf & Vf) F IH]; intros W; [constructor|]. constructor; [split; [exact Sf|]; destruct (W c (or_introl eq_refl)); congruence|]. apply IH. intros d Hd. apply W. now right. }
    destruct xlim as [lx|], ylim as [ly|]; try (apply Q, S; auto).
    exists a, lx, ly. split; [reflexivity|]. split; [reflexivity|]. split; [|now split]. destruct W as (_ & W). clear -W. induction (gm_comps a) as [|c cs IH]; [constructor|].
    constructor; [split; [apply same_fun_refl; now apply W; left|reflexivity]|]. apply IH. intros d Hd. apply W. now right. }
  destruct G as (a' & xl & yl & E & V' & F & L). rewrite E. cbn [bind]. rewrite V. cbn [py_nth nth_error bind].
  assert (T : forall x y, mix_value log a' [x; y] = mix_value log a [x; y]) by (intros x y; apply (mix_value_same log a a' [x; y] W F); now rewrite V).
  destruct (plot_2d_ok (mix_value log a') xl yl vx vy) as (xm & ym & zm & Ep & M).
  { intros x y. rewrite T. apply (mix_value_total log a [x; y] W). now rewrite V. }
  exists a', xm, ym, zm, xl, yl. split; [|split; [congruence|split; [revert F; apply F2_imp; now intros c c' _ (Sf & _)|split; [|exact L]]]].
  - unfold mix_value in Ep; destruct log; cbv iota in Ep; change (mix_potential a') with (fun x => mix_potential a' x); rewrite Ep; reflexivity.
  - destruct M as (A & B & C & D). split; [exact A|]. split; [exact B|]. split; [exact C|]. intros i j Hi Hj. destruct (D i j Hi Hj) as (D1 & D2 & D3). split; [exact D1|]. split; [exact D2|].
    rewrite <- D3. symmetry. apply T.
Qed.
Lemma mix_other a log xlim ylim individual : length (gm_vars a) <> 1%nat -> length (gm_vars a) <> 2%nat -> mix_plot a log xlim ylim individual = Err NotImplementedError.
Proof. unfold mix_plot. destruct (length (gm_vars a)) as [|[|[|n]]]; congruence. Qed.
