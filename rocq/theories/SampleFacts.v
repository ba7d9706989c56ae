(** Samples of a Gaussian have the law of the Gaussian. *)
From Coq Require Import FunctionalExtensionality.
From Verif Require Export SampleModel IntSub.
From Verif Require Import MxChol SigmaChol.
#[global] Set Bullet Behavior "Strict Subproofs".
Local Open Scope R_scope.

(** The density of independent standard normal numbers. *)
Definition std_density (vs : list string) (z : string -> R) : R :=
  fold_right Rmult 1 (map (fun v => exp (- (z v * z v) / 2) / sqrt (2 * PI)) vs).
(** The point that one call draws when the random numbers are the coordinates of [z]. *)
Definition sampled (f : gauss) (z : string -> R) : string -> R :=
  match g_sample f 1 (fun i _ => z (nth i (ga_vars f) ""%string)) with
  | Ok (_, X) => fun v => match index_opt v (ga_vars f) with Some i => ent X i 0 | None => z v end
  | Err _ => z
  end.

Lemma g_sample_ok f f' C m w num Z : solid f -> get_cov f = Ok (f', (C, m, w)) ->
  exists L X, np_cholesky C = Ok L /\ g_sample f num Z = Ok (f', X) /\ nr X = length (ga_vars f) /\ nc X = num /\
    forall i t, (i < length (ga_vars f))%nat -> (t < num)%nat -> ent X i t = rsum (length (ga_vars f)) (fun k => ent L i k * Z k t) + ent m i 0.
Proof.
  intros S G. destruct (solid_lp_cov f f' C m w S G) as ((H1 & H2 & H3 & H4) & P & _). set (n := length (ga_vars f)) in *.
  destruct (np_cholesky_ok C ltac:(congruence) P) as (L & EL & L1 & L2 & _).
  unfold get_cov in G. apply bind_ok in G. destruct G as (f0 & Eu & G). destruct (ga_cov f0) as [p|] eqn:Ec; [|discriminate]. injection G as -> ->.
  assert (Ea : mmul L (Mat n num Z) = Ok (mmul0 L (Mat n num Z))) by (unfold mmul; cbn [nr]; rewrite L2, H1, Nat.eqb_refl; reflexivity).
  assert (Es : exists X, madd (mmul0 L (Mat n num Z)) m = Ok X /\ nr X = n /\ nc X = num /\
    forall i t, (i < n)%nat -> (t < num)%nat -> ent X i t = ent (mmul0 L (Mat n num Z)) i t + ent m i 0).
  { unfold madd, mzip, bdim. cbn [mmul0 nr nc]. rewrite L1, H1, H3, H4, Nat.eqb_refl. cbn [bind].
    assert (B : (if Nat.eqb num 1 then Ok num else if Nat.eqb num 1 then Ok 1%nat else if Nat.eqb 1 1 then Ok num else Err ValueError) = Ok num) by (now destruct (Nat.eqb num 1)).
    rewrite B. cbn [bind]. eexists. split; [reflexivity|]. split; [reflexivity|]. split; [reflexivity|]. intros i t Hi Ht. cbn [ent]. unfold bix.
    replace (if Nat.eqb n 1 then 0%nat else i) with i by (destruct (Nat.eqb_spec n 1); [lia|reflexivity]).
    replace (if Nat.eqb num 1 then 0%nat else t) with t by (destruct (Nat.eqb_spec num 1); [lia|reflexivity]). reflexivity. }
  destruct Es as (X & Es & X1 & X2 & X3). exists L, X. split; [exact EL|]. split.
  - unfold g_sample. fold n. rewrite Eu. cbn [bind]. rewrite Ec, EL. cbn [bind]. rewrite Ea. cbn [bind]. rewrite Es. reflexivity.
  - split; [exact X1|]. split; [exact X2|]. intros i t Hi Ht. rewrite X3 by assumption. cbn [mmul0 ent]. rewrite L2, H1. reflexivity.
Qed.
(** Every column is a point drawn from the numbers in that column. *)
Lemma g_sample_columns f f' C m w num Z : solid f -> get_cov f = Ok (f', (C, m, w)) ->
  exists X, g_sample f num Z = Ok (f', X) /\ nr X = length (ga_vars f) /\ nc X = num /\
    forall t z, (t < num)%nat -> (forall i, (i < length (ga_vars f))%nat -> z (nth i (ga_vars f) ""%string) = Z i t) ->
      forall v, In v (ga_vars f) -> named_coord (Mat (nr X) 1 (fun i _ => ent X i t)) (ga_vars f) v = sampled f z v.
Proof.
  intros S G. destruct (g_sample_ok f f' C m w num Z S G) as (L & X & EL & E & X1 & X2 & X3). exists X. split; [exact E|]. split; [exact X1|]. split; [exact X2|].
  intros t z Ht Hz v Hv. unfold sampled.
  destruct (g_sample_ok f f' C m w 1 (fun i _ => z (nth i (ga_vars f) ""%string)) S G) as (L' & Y & EL' & -> & Y1 & Y2 & Y3).
  rewrite EL in EL'. injection EL' as <-. unfold named_coord. destruct (index_opt_In v _ Hv) as (i & Ei). rewrite Ei. cbn [ent].
  assert (Hi : (i < length (ga_vars f))%nat) by (apply nth_error_Some; rewrite (index_opt_nth v _ i Ei); discriminate). rewrite X3, Y3 by (auto; lia). f_equal. apply rsum_ext. intros k Hk. now rewrite Hz.
Qed.

Lemma index_of_nth (vs : list string) i : NoDup vs -> (i < length vs)%nat -> index_opt (nth i vs ""%string) vs = Some i.
Proof. intros Hd Hi. apply index_opt_nth_NoDup; [exact Hd|]. now apply nth_error_nth'. Qed.
Lemma qsum_opp n A u : qsum n A (fun i => - u i) = qsum n A u.
Proof. unfold qsum. apply rsum_ext. intros i _. apply rsum_ext. intros j _. ring. Qed.
Lemma std_density_eq vs z : std_density vs z = exp (- / 2 * rsum (length vs) (fun i => z (nth i vs ""%string) * z (nth i vs ""%string))) / sqrt (2 * PI) ^ length vs.
Proof.
  pose proof PI_RGT_0. assert (Hs : 0 < sqrt (2 * PI)) by (apply sqrt_lt_R0; lra). unfold std_density.
  induction vs as [|v vs IH].
  - cbn. rewrite Rmult_0_r, exp_0. field.
  - cbn [map fold_right length]. rewrite IH, rsum_Sl. cbn [nth pow]. rewrite Rmult_plus_distr_l, exp_plus.
    replace (- (z v * z v) / 2) with (- / 2 * (z v * z v)) by field. field. split; [apply pow_nonzero|]; lra.
Qed.
(** The density of the drawn point, up to the determinant of the map. *)
Lemma sampled_density f f' C m w L z : solid f -> get_cov f = Ok (f', (C, m, Fin w)) -> np_cholesky C = Ok L ->
  gval f (sampled f z) * rprod (length (ga_vars f)) (fun i => ent L i i) = exp w * std_density (ga_vars f) z.
Proof.
  intros S G EL. destruct (solid_lp_cov f f' C m (Fin w) S G) as (Sh & P & Hl). pose proof Sh as (H1 & H2 & H3 & H4). set (n := length (ga_vars f)) in *.
  pose proof S as ((Hd & _) & _). pose proof (posdef_det C P) as HD.
  destruct (g_sample_ok f f' C m (Fin w) 1 (fun i _ => z (nth i (ga_vars f) ""%string)) S G) as (L' & X & EL' & EX & X1 & X2 & X3).
  rewrite EL in EL'. injection EL' as <-.
  destruct (np_cholesky_sound C L (proj1 P) EL) as (_ & _ & _ & Po & _). rewrite H1 in Po.
  pose proof (rprod_pos n (fun i => ent L i i) Po) as HDp. set (D := rprod n (fun i => ent L i i)) in *.
  assert (ED : mdet C = D * D) by (rewrite (chol_det C L (proj1 P) EL), H1; reflexivity).
  unfold gval. rewrite Hl, (cov_log_potential_ok n C m (Fin w) _ Sh (conj (proj1 P) HD)) by apply map_length.
  cbn [vsub vopp vadd pot]. rewrite (qsum_ext n (minv C) (minv C) _ (fun i => - rsum n (fun k => ent L i k * z (nth k (ga_vars f) ""%string)))).
  2: { auto. }
  2: { intros i Hi. rewrite (nth_indep _ 0 (sampled f z ""%string)) by (now rewrite map_length). rewrite map_nth. unfold sampled. rewrite EX.
       rewrite index_of_nth by assumption. rewrite X3 by (auto; lia). fold n. ring. }
  pose proof (chol_quad C L (fun k => z (nth k (ga_vars f) ""%string)) (proj1 P) EL) as CQ. rewrite H1 in CQ. rewrite qsum_opp, CQ.
  rewrite std_density_eq. fold n. set (Q := rsum n _). pose proof PI_RGT_0. assert (Hs : 0 < sqrt (2 * PI)) by (apply sqrt_lt_R0; lra).
  assert (Hsn : 0 < sqrt (2 * PI) ^ n) by now apply pow_lt.
  replace ((2 * PI) ^ n * mdet C) with ((sqrt (2 * PI) ^ n * D) * (sqrt (2 * PI) ^ n * D)).
  2: { rewrite ED. replace ((2 * PI) ^ n) with (sqrt (2 * PI) ^ n * sqrt (2 * PI) ^ n); [ring|]. rewrite <- Rpow_mult_distr, sqrt_sqrt by lra. reflexivity. }
  assert (Hp : 0 < sqrt (2 * PI) ^ n * D) by now apply Rmult_lt_0_compat.
  rewrite ln_mult by assumption. set (l := ln (sqrt (2 * PI) ^ n * D)).
  replace (w + - (1 / 2 * (l + l)) + - (1 / 2) * Q) with (w + (- / 2 * Q + - l)) by field.
  rewrite !exp_plus, exp_Ropp. unfold l. rewrite exp_ln by exact Hp. field. split; lra.
Qed.

(** * The law of the sample *)
Lemma push_eq s a ys : forall z x v, NoDup ys -> push s a ys z x v = if in_dec string_dec v ys then s v * z v + a v z else x v.
Proof.
  induction ys as [|y ys IH]; intros z x v Hd; [reflexivity|]. inversion Hd as [|? ? Hn Hd']. subst. cbn [push]. rewrite IH by exact Hd'.
  destruct (in_dec string_dec v ys) as [i|i], (in_dec string_dec v (y :: ys)) as [j|j]; auto.
  - destruct j. now right.
  - destruct j as [<-|j]; [apply setv_same|contradiction].
  - apply setv_other. intros ->. apply j. now left.
Qed.
Definition pos_of (vs : list string) (v : string) : nat := match index_opt v vs with Some i => i | None => 0 end.
Lemma pos_of_nth vs i : NoDup vs -> (i < length vs)%nat -> pos_of vs (nth i vs ""%string) = i.
Proof. intros Hd Hi. unfold pos_of. now rewrite index_of_nth. Qed.
Definition tri_part (vs : list string) (L m : mat) (v : string) (z : string -> R) : R :=
  rsum (pos_of vs v) (fun k => ent L (pos_of vs v) k * z (nth k vs ""%string)) + ent m (pos_of vs v) 0.
Lemma tri_part_tri vs L m : NoDup vs -> forall ys pre, vs = pre ++ ys -> tri (tri_part vs L m) ys.
Proof.
  intros Hd. induction ys as [|y ys IH]; intros pre E; [exact I|]. split; [|apply (IH (pre ++ [y])); rewrite <- app_assoc; exact E].
  intros z z' Hz. unfold tri_part. f_equal.
  assert (Hp : pos_of vs y = length pre).
  { replace y with (nth (length pre) vs ""%string) by (rewrite E, app_nth2, Nat.sub_diag; [reflexivity|lia]). apply pos_of_nth; [exact Hd|]. rewrite E, app_length. cbn. lia. }
  rewrite Hp. apply rsum_ext. intros k Hk. f_equal. apply Hz. rewrite E, app_nth1 by lia. intros Hin. rewrite E in Hd.
  apply NoDup_app_elim in Hd. destruct Hd as (_ & _ & Hx). apply (Hx (nth k pre ""%string)); [apply nth_In; lia|exact Hin].
Qed.
Lemma rsum_lower n i (L : nat -> nat -> R) z : (forall i j, (i < j < n)%nat -> L i j = 0) -> (i < n)%nat ->
  rsum n (fun k => L i k * z k) = rsum i (fun k => L i k * z k) + L i i * z i.
Proof.
  intros Hl Hi. replace n with (i + (1 + (n - i - 1)))%nat by lia. rewrite rsum_app, rsum_app, rsum_1.
  rewrite (rsum_zero (n - i - 1)); [rewrite Nat.add_0_r; ring|]. intros k Hk. rewrite Hl by lia. ring.
Qed.
Theorem sample_law f f' C m w F e I : solid f -> get_cov f = Ok (f', (C, m, Fin w)) ->
  (iint (ga_vars f) (fun z => F (sampled f z) * std_density (ga_vars f) z) e I <-> iint (ga_vars f) (fun x => F x * gval f x) e (I * exp w)).
Proof.
  intros S G. destruct (solid_lp_cov f f' C m (Fin w) S G) as (Sh & P & Hl). pose proof Sh as (H1 & H2 & H3 & H4).
  pose proof S as ((Hd & _) & _). destruct (np_cholesky_ok C ltac:(congruence) P) as (L & EL & _).
  destruct (np_cholesky_sound C L (proj1 P) EL) as (_ & _ & Lo & Po & _). rewrite H1 in Po, Lo.
  set (vs := ga_vars f) in *. set (n := length vs) in *. pose proof (rprod_pos n (fun i => ent L i i) Po) as HD.
  set (D := rprod n (fun i => ent L i i)) in *. pose proof (exp_pos w) as Hw.
  set (s := fun v => ent L (pos_of vs v) (pos_of vs v)). set (a := tri_part vs L m).
  assert (Hs : forall y, In y vs -> 0 < s y).
  { intros y Hy. apply Po. unfold pos_of. destruct (index_opt_In y vs Hy) as (i & Ei). rewrite Ei. apply nth_error_Some. rewrite (index_opt_nth y vs i Ei). discriminate. }
  assert (EP : Rprods s vs = D).
  { unfold Rprods, D, rprod. f_equal. apply (nth_ext _ _ 0 0); [now rewrite !map_length, seq_length|]. rewrite map_length. intros i Hi.
    rewrite (nth_indep _ 0 (s ""%string)) by (now rewrite map_length). rewrite map_nth. rewrite (nth_indep _ 0 (ent L 0%nat 0%nat)) by (now rewrite map_length, seq_length).
    rewrite (map_nth (fun i => ent L i i) (seq 0 n) 0%nat i), seq_nth by exact Hi. unfold s. rewrite pos_of_nth by assumption. reflexivity. }
  assert (Q : forall z, (forall v, ~ In v vs -> z v = e v) -> sampled f z = push s a vs z e).
  { intros z Hz. apply functional_extensionality. intros v. rewrite push_eq by exact Hd. unfold sampled. fold vs.
    destruct (g_sample_ok f f' C m (Fin w) 1 (fun i _ => z (nth i vs ""%string)) S G) as (L' & X & EL' & -> & X1 & X2 & X3).
    rewrite EL in EL'. injection EL' as <-. fold vs in X3. fold n in X3. destruct (in_dec string_dec v vs) as [Hv|Hv].
    - destruct (index_opt_In v vs Hv) as (i & Ei). rewrite Ei.
      assert (Hn : nth_error vs i = Some v) by (now apply index_opt_nth). assert (Hi : (i < n)%nat) by (apply nth_error_Some; congruence).
      rewrite X3 by (auto; lia). rewrite (rsum_lower n i (ent L) (fun k => z (nth k vs ""%string)) Lo Hi).
      unfold s, a, tri_part, pos_of. rewrite Ei. rewrite (nth_error_nth vs i ""%string Hn). ring.
    - rewrite index_opt_None by exact Hv. now apply Hz. }
  set (c := D / exp w). assert (Hc : c <> 0) by (unfold c; apply Rgt_not_eq; now apply Rdiv_lt_0_compat).
  transitivity (iint vs (fun z => (fun x => c * (F x * gval f x)) (push s a vs z e)) e I).
  - assert (E : forall z, (forall v, ~ In v vs -> z v = e v) -> F (sampled f z) * std_density vs z = c * (F (push s a vs z e) * gval f (push s a vs z e))).
    { intros z Hz. rewrite <- (Q z Hz). replace (std_density vs z) with (gval f (sampled f z) * D / exp w); [unfold c; field; lra|].
      unfold D, n, vs. rewrite (sampled_density f f' C m w L z S G EL). field. lra. }
    split; apply iint_ext_on; intros z Hz; [|symmetry]; now apply E.
  - pose proof (iint_push s a vs Hd Hs (tri_part_tri vs L m Hd vs [] eq_refl) (fun x => c * (F x * gval f x)) e e I) as HI. rewrite EP in HI. etransitivity; [exact HI|].
    replace (D * I) with (c * (I * exp w)) by (unfold c; field; lra). now apply iint_scal_iff.
Qed.
