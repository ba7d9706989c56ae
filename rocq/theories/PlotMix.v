(** Curves of mixtures and contours. *)
From Coq Require Import Lra Lia Permutation.
From Verif Require Export PlotFacts.
From Verif Require Import FactOps FactMarg MixFacts MixEq.
Local Open Scope nat_scope.
Local Open Scope list_scope.
Local Open Scope R_scope.

(** The sum over the components, point by point. *)
Definition sum_values (log : bool) (cs : list gauss) (x : R) (acc : val) : res val :=
  foldM (fun acc c => let* p := g_value log c [x] in Ok (vadd acc p)) cs acc.
Lemma add_all_nth xs ys i : (i < length xs)%nat -> (i < length ys)%nat -> nth i (add_all xs ys) NaN = vadd (nth i xs NaN) (nth i ys NaN).
Proof.
  revert ys i. induction xs as [|x xs IH]; intros [|y ys] i Hx Hy; cbn in *; try lia. destruct i as [|i]; [reflexivity|]. apply IH; lia.
Qed.
Lemma add_all_length xs ys : length xs = length ys -> length (add_all xs ys) = length xs.
Proof. intros H. unfold add_all. rewrite map_length, combine_length. lia. Qed.

Lemma mix_fold log individual xs cs : (forall c, In c cs -> exists ys, g_values c log xs = Ok ys) ->
  forall tot ds, length tot = length xs -> exists tot' ds',
    foldM (fun (st : list val * list drawing) c =>
             let* potx := g_values c log xs in
             Ok (add_all (fst st) potx, snd st ++ (if (individual : bool) then [Curve xs potx] else []))) cs (tot, ds) = Ok (tot', ds ++ ds') /\
    length tot' = length xs /\
    (forall i, (i < length xs)%nat -> sum_values log cs (nth i xs 0) (nth i tot NaN) = Ok (nth i tot' NaN)) /\
    (if individual then Forall2 (fun c d => exists ys, d = Curve xs ys /\ g_values c log xs = Ok ys) cs ds' else ds' = []).
Proof.
  induction cs as [|c cs IH]; intros H tot ds L.
  - exists tot, []. cbn [foldM]. rewrite app_nil_r. split; [reflexivity|]. split; [exact L|]. split; [reflexivity|]. destruct individual; [constructor|reflexivity].
  - destruct (H c (or_introl eq_refl)) as (ys & Ey). pose proof Ey as Ey'. unfold g_values in Ey'. destruct (mapM_nth _ _ _ 0 NaN Ey') as (Ly & Hy).
    destruct (IH ltac:(intros d Hd; apply H; now right) (add_all tot ys) (ds ++ (if individual then [Curve xs ys] else [])) ltac:(rewrite add_all_length; congruence))
      as (tot' & ds' & E & L' & Hs & Hd).
    exists tot', ((if individual then [Curve xs ys] else []) ++ ds'). split.
    + cbn [foldM]. rewrite Ey. cbn [bind fst snd]. rewrite E, app_assoc. reflexivity.
    + split; [exact L'|]. split.
      * intros i Hi. unfold sum_values. cbn [foldM]. pose proof (Hy i Hi) as Ei. change ((if log then log_potential c [nth i xs 0] None else potential c [nth i xs 0])) with (g_value log c [nth i xs 0]) in Ei.
        rewrite Ei. cbn [bind]. rewrite <- add_all_nth by lia. now apply Hs.
      * destruct individual; cbn [app]; [constructor; [now exists ys|exact Hd]|exact Hd].
Qed.

Lemma fold_min_spec t : forall x, (fold_left Rmin t x <= x /\ forall y, In y t -> fold_left Rmin t x <= y) /\ (fold_left Rmin t x = x \/ In (fold_left Rmin t x) t).
Proof.
  induction t as [|y t IH]; intros x; cbn [fold_left]; [split; [split; [lra|intros y []]|now left]|].
  destruct (IH (Rmin x y)) as ((A & B) & C). pose proof (Rmin_l x y). pose proof (Rmin_r x y). split.
  - split; [lra|]. intros z [<-|Hz]; [lra|now apply B].
  - destruct C as [C|C]; [|right; now right]. assert (E : Rmin x y = x \/ Rmin x y = y) by (unfold Rmin; destruct (Rle_dec x y); auto). destruct E as [E|E]; rewrite E in C |- *; [now left|right; left; congruence].
Qed.
Lemma fold_max_spec t : forall x, (x <= fold_left Rmax t x /\ forall y, In y t -> y <= fold_left Rmax t x) /\ (fold_left Rmax t x = x \/ In (fold_left Rmax t x) t).
Proof.
  induction t as [|y t IH]; intros x; cbn [fold_left]; [split; [split; [lra|intros y []]|now left]|].
  destruct (IH (Rmax x y)) as ((A & B) & C). pose proof (Rmax_l x y). pose proof (Rmax_r x y). split.
  - split; [lra|]. intros z [<-|Hz]; [lra|now apply B].
  - destruct C as [C|C]; [|right; now right]. assert (E : Rmax x y = x \/ Rmax x y = y) by (unfold Rmax; destruct (Rle_dec x y); auto). destruct E as [E|E]; rewrite E in C |- *; [now left|right; left; congruence].
Qed.
Lemma py_min_spec l : l <> [] -> exists x, py_min l = Ok x /\ In x l /\ forall y, In y l -> x <= y.
Proof.
  destruct l as [|a t]; [congruence|]. intros _. exists (fold_left Rmin t a). split; [reflexivity|]. destruct (fold_min_spec t a) as ((A & B) & C).
  split; [destruct C as [->|C]; [now left|now right]|]. intros y [<-|Hy]; [exact A|now apply B].
Qed.
Lemma py_max_spec l : l <> [] -> exists x, py_max l = Ok x /\ In x l /\ forall y, In y l -> y <= x.
Proof.
  destruct l as [|a t]; [congruence|]. intros _. exists (fold_left Rmax t a). split; [reflexivity|]. destruct (fold_max_spec t a) as ((A & B) & C).
  split; [destruct C as [->|C]; [now left|now right]|]. intros y [<-|Hy]; [exact A|now apply B].
Qed.

(** The smallest interval that holds the intervals of three standard deviations of all components. *)
Definition covers (cs : list gauss) (i : nat) (l : R * R) : Prop :=
  (forall c c' C m w, In c cs -> get_cov c = Ok (c', (C, m, w)) ->
     fst l <= ent m i 0 - 3 * sqrt (ent C i i) /\ ent m i 0 + 3 * sqrt (ent C i i) <= snd l) /\
  (exists c c' C m w, In c cs /\ get_cov c = Ok (c', (C, m, w)) /\ fst l = ent m i 0 - 3 * sqrt (ent C i i)) /\
  (exists c c' C m w, In c cs /\ get_cov c = Ok (c', (C, m, w)) /\ snd l = ent m i 0 + 3 * sqrt (ent C i i)).
Definition solid_mix (a : gmix) : Prop := gm_comps a <> [] /\ forall c, In c (gm_comps a) -> solid c /\ ga_vars c = gm_vars a.

Lemma mix_covs a : solid_mix a -> exists rs, mapM get_cov (gm_comps a) = Ok rs /\
  Forall2 (fun c r => get_cov c = Ok r /\ same_fun c (fst r) /\ ga_vars (fst r) = gm_vars a) (gm_comps a) rs.
Proof.
  intros (_ & H). apply (mapM_F2 get_cov (fun c r => get_cov c = Ok r /\ same_fun c (fst r) /\ ga_vars (fst r) = gm_vars a)).
  intros c Hc. destruct (H c Hc) as (Sc & Vc). destruct (cov_of_solid c Sc) as (f' & C & m & w & E & S & V & _). exists (f', (C, m, w)).
  split; [exact E|]. split; [exact E|]. split; [exact S|]. cbn. congruence.
Qed.
Lemma mix_intervals_ok a rs i : solid_mix a -> (i < length (gm_vars a))%nat -> mapM get_cov (gm_comps a) = Ok rs ->
  exists l, mix_intervals (map snd rs) i = Ok l /\ covers (gm_comps a) i l.
Proof.
  intros (Hn & H) Hi E. pose proof (mapM_Ok_inv _ _ _ E) as F. unfold mix_intervals.
  set (iv := fun p : mat * mat * val => let '(C, m, _) := p in (ent m i 0 - 3 * sqrt (ent C i i), ent m i 0 + 3 * sqrt (ent C i i))).
  assert (Em : mapM (fun p : mat * mat * val => let '(C, m, _) := p in three_sigma C m i) (map snd rs) = Ok (map iv (map snd rs))).
  { apply mapM_ok. intros [[C m] w] Hp. apply in_map_iff in Hp. destruct Hp as ([c' p] & Ep & Hr). cbn in Ep. subst p.
    destruct (F2_in_r _ _ _ _ F Hr) as (c & Hc & Ec). destruct (H c Hc) as (Sc & Vc).
    destruct (cov_of_solid c Sc) as (f' & C0 & m0 & w0 & E0 & _ & _ & Sh & P). rewrite Ec in E0. injection E0 as -> -> -> ->.
    now destruct (three_sigma_ok C0 m0 i _ w0 Sh P ltac:(now rewrite Vc)). }
  rewrite Em. cbn [bind]. rewrite !map_map.
  assert (Ne : rs <> []). { intros ->. inversion F. congruence. }
  destruct (py_min_spec (map (fun r => fst (iv (snd r))) rs)) as (lo & El & Il & Hl); [intros E0; apply map_eq_nil in E0; congruence|].
  destruct (py_max_spec (map (fun r => snd (iv (snd r))) rs)) as (hi & Eh & Ih & Hh); [intros E0; apply map_eq_nil in E0; congruence|].
  rewrite El. cbn [bind]. rewrite Eh. cbn [bind]. eexists. split; [reflexivity|]. cbn [fst snd]. split; [|split].
  - intros c c' C m w Hc Ec. destruct (F2_in_l _ _ _ c F Hc) as (r & Hr & Er). rewrite Ec in Er. injection Er as <-. split.
    + apply Hl. apply in_map_iff. exists (c', (C, m, w)). now split.
    + apply Hh. apply in_map_iff. exists (c', (C, m, w)). now split.
  - apply in_map_iff in Il. destruct Il as ([c' [[C m] w]] & <- & Hr). destruct (F2_in_r _ _ _ _ F Hr) as (c & Hc & Ec). exists c, c', C, m, w. now repeat split.
  - apply in_map_iff in Ih. destruct Ih as ([c' [[C m] w]] & <- & Hr). destruct (F2_in_r _ _ _ _ F Hr) as (c & Hc & Ec). exists c, c', C, m, w. now repeat split.
Qed.

Lemma sum_values_same log cs cs' x v : Forall2 (fun c c' => same_fun c c' /\ ga_vars c = [v] /\ ga_vars c' = [v]) cs cs' ->
  forall acc, sum_values log cs' x acc = sum_values log cs x acc.
Proof.
  induction 1 as [|c c' cs cs' (S & V & V') F IH]; intros acc; [reflexivity|]. unfold sum_values. cbn [foldM].
  rewrite (same_value c c' log x v S V V'). destruct (g_value log c [x]) as [p|]; [|reflexivity]. cbn [bind]. apply IH.
Qed.
Lemma sum_values_pot a x : sum_values false (gm_comps a) x (Fin 0) = mix_potential a [x].
Proof. reflexivity. Qed.

Lemma mix_curve a log xlim ylim individual v : gm_vars a = [v] -> wf_mix a -> (xlim = None -> solid_mix a) ->
  exists a' cs xs ys lo hi, mix_plot a log xlim ylim individual = Ok (a', cs ++ [Curve xs ys]) /\
    gm_vars a' = gm_vars a /\ Forall2 same_fun (gm_comps a) (gm_comps a') /\
    samples (fun x => sum_values log (gm_comps a) x (Fin 0)) lo hi 200 xs ys /\
    (if individual then Forall2 (fun c d => exists ys', d = Curve xs ys' /\ samples (fun x => g_value log c [x]) lo hi 200 xs ys') (gm_comps a) cs else cs = []) /\
    match xlim with Some l => l = (lo, hi) | None => covers (gm_comps a) 0 (lo, hi) end.
Proof.
  intros V (Hn & W) S. unfold mix_plot. rewrite V. cbn [length].
  assert (G : exists a' lo hi, match xlim with Some l => Ok (a, l) | None => mix_xlim a end = Ok (a', (lo, hi)) /\ gm_vars a' = gm_vars a /\
     Forall2 (fun c c' => same_fun c c' /\ ga_vars c = [v] /\ ga_vars c' = [v]) (gm_comps a) (gm_comps a') /\
     match xlim with Some l => l = (lo, hi) | None => covers (gm_comps a) 0 (lo, hi) end).
  { destruct xlim as [[lo hi]|].
    - exists a, lo, hi. split; [reflexivity|]. split; [reflexivity|]. split; [|reflexivity]. clear S Hn. induction (gm_comps a) as [|c cs IH]; [constructor|].
      constructor; [destruct (W c (or_introl eq_refl)) as (Wc & Vc); split; [now apply same_fun_refl|]; split; congruence|]. apply IH. intros c' Hc. apply W. now right.
    - specialize (S eq_refl). destruct (mix_covs a S) as (rs & E & F). unfold mix_xlim. rewrite E. cbn [bind].
      destruct (mix_intervals_ok a rs 0 S ltac:(rewrite V; cbn; lia) E) as ([lo hi] & El & Cl). rewrite El. cbn [bind].
      exists (mix_after a rs), lo, hi. split; [reflexivity|]. split; [reflexivity|]. split; [|exact Cl]. cbn [mix_after gm_comps]. clear E El Cl.
      assert (Q : forall c, In c (gm_comps a) -> ga_vars c = [v]) by (intros c Hc; destruct (W c Hc); congruence).
      clear -F Q V. revert Q. induction F as [|c r cs rs (E & Sf & Vf) F IH]; intros Q; [constructor|].
      constructor; [|apply IH; intros c' Hc; apply Q; now right]. split; [exact Sf|]. split; [apply Q; now left|congruence]. }
  destruct G as (a' & lo & hi & E & V' & F & L). rewrite E. cbn [bind fst snd].
  set (xs := linspace lo hi 200).
  destruct (mix_fold log individual xs (gm_comps a')) with (tot := repeat (Fin 0) 200) (ds := @nil drawing) as (tot & ds & Ef & Lt & Hs & Hd).
  { intros c' Hc'. destruct (F2_in_r _ _ _ c' F Hc') as (c & Hc & (Sf & _ & Vc)). apply g_values_ok; [apply Sf|now rewrite Vc]. }
  { rewrite repeat_length. unfold xs. now rewrite linspace_length. }
  rewrite Ef. cbn [bind fst snd app]. exists a', ds, xs, tot, lo, hi. split; [reflexivity|]. split; [congruence|].
  split; [revert F; apply F2_imp; now intros c c' _ (Sf & _)|]. split; [|split; [|exact L]].
  - unfold xs in Lt, Hs. rewrite linspace_length in Lt, Hs. split; [unfold xs; apply linspace_length|]. split; [exact Lt|]. intros i Hi. split; [now apply linspace_nth|].
    rewrite <- (sum_values_same log _ _ _ v F). rewrite <- (Hs i Hi). unfold xs. f_equal. symmetry.
    rewrite nth_indep with (d' := Fin 0) by now rewrite repeat_length. apply nth_repeat.
  - destruct individual; [|exact Hd]. clear -F Hd. revert ds Hd. induction F as [|c c' cs cs' (Sf & Vc & Vc') F IH]; intros ds Hd; inversion Hd as [|? d ? ds' (ys' & -> & Ey) Hd']; subst; [constructor|].
    constructor; [|now apply IH]. exists ys'. split; [reflexivity|].
    apply (samples_ext (fun x => g_value log c' [x])); [intros x; now apply (same_value c c' log x v)|]. now apply samples_make.
Qed.
