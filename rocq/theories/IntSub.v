(** Substitution by a triangular affine map in iterated integrals. *)
From Coquelicot Require Import Coquelicot.
From Verif Require Export IntFull.
#[global] Set Bullet Behavior "Strict Subproofs".
Local Open Scope R_scope.

Lemma is_int_affine f I s v : 0 < s -> is_int f I -> is_int (fun t => f (s * t + v)) (I / s).
Proof.
  intros Hs H P HP.
  assert (Hc : locally I (fun y : R => P (y / s))).
  { destruct HP as (eps & He). assert (Hp : 0 < eps * s) by (apply Rmult_lt_0_compat; [apply cond_pos|exact Hs]).
    exists (mkposreal _ Hp). intros y Hy. apply He. unfold ball in *. cbn in *. unfold AbsRing_ball, abs, minus, plus, opp in *. cbn in *.
    replace (y / s + - (I / s)) with ((y + - I) * / s) by (field; lra). rewrite Rabs_mult, (Rabs_pos_eq (/ s)) by (left; now apply Rinv_0_lt_compat).
    apply (Rmult_lt_reg_r s); [exact Hs|]. rewrite Rmult_assoc, Rinv_l, Rmult_1_r by lra. exact Hy. }
  specialize (H (fun y => P (y / s)) Hc). unfold filtermapi in *.
  inversion H as [Q1 Q2 (M1 & H1) (M2 & H2) HQ]. 
  apply (Filter_prod _ _ _ (fun x => Q1 (s * x + v)) (fun x => Q2 (s * x + v))).
  - exists ((M1 - v) / s). intros x Hx. apply H1. apply (Rmult_lt_compat_l s) in Hx; [|exact Hs].
    replace (s * ((M1 - v) / s)) with (M1 - v) in Hx by (field; lra). lra.
  - exists ((M2 - v) / s). intros x Hx. apply H2. apply (Rmult_lt_compat_l s) in Hx; [|exact Hs].
    replace (s * ((M2 - v) / s)) with (M2 - v) in Hx by (field; lra). lra.
  - intros x y Hx Hy. destruct (HQ _ _ Hx Hy) as (z & Iz & Pz). exists (z / s). split; [|exact Pz]. cbn [fst snd] in *.
    apply (is_RInt_comp_lin f s v x y) in Iz. apply (is_RInt_scal _ x y (/ s)) in Iz.
    replace (z / s) with (scal (/ s) z : R) by (unfold scal; cbn; unfold mult; cbn; unfold Rdiv; ring).
    revert Iz. apply is_RInt_ext. intros t _. unfold scal; cbn; unfold mult; cbn. field. lra.
Qed.
Lemma is_int_affine_iff f I s v : 0 < s -> (is_int (fun t => f (s * t + v)) I <-> is_int f (s * I)).
Proof.
  intros Hs. split; intros H.
  - pose proof (is_int_affine _ _ (/ s) (- v / s) (Rinv_0_lt_compat s Hs) H) as H1.
    replace (s * I) with (I / / s) by (field; lra). revert H1. apply is_int_ext. intros t. f_equal. field. lra.
  - replace I with (s * I / s) by (field; lra). now apply is_int_affine.
Qed.

(** Two integrands that agree where the integral looks. *)
Lemma iint_ext_on ys : forall F G e I, (forall e', (forall v, ~ In v ys -> e' v = e v) -> F e' = G e') -> iint ys F e I -> iint ys G e I.
Proof.
  induction ys as [|y ys IH]; intros F G e I H; cbn.
  - intros ->. now apply H.
  - intros (J & HJ & HI). exists J. split; [|exact HI]. intros t. apply (IH F); [|apply HJ]. intros e' He. apply H.
    intros v Hv. rewrite He by (intros X; apply Hv; now right). apply setv_other. intros ->. apply Hv. now left.
Qed.
Lemma iint_scal_iff ys : forall c F e I, c <> 0 -> (iint ys (fun e => c * F e) e (c * I) <-> iint ys F e I).
Proof.
  assert (A : forall c F e I, iint ys F e I -> iint ys (fun e => c * F e) e (c * I)).
  { induction ys as [|y ys IH]; intros c F e I; cbn; [now intros ->|]. intros (G & HG & HI). exists (fun t => c * G t).
    split; [intros t; now apply IH|now apply is_int_scal]. }
  intros c F e I Hc. split; [|apply A]. intros H. apply (A (/ c)) in H.
  replace (/ c * (c * I)) with I in H by (field; auto). revert H. apply iint_ext. intros e'. field. auto.
Qed.
(** The images of the coordinates [ys] of [z] replace those of [x]. *)
Fixpoint push (s : string -> R) (a : string -> (string -> R) -> R) (ys : list string) (z x : string -> R) : string -> R :=
  match ys with [] => x | y :: ys' => push s a ys' z (setv x y (s y * z y + a y z)) end.
Definition Rprods (s : string -> R) (ys : list string) : R := fold_right Rmult 1 (map s ys).
Lemma Rprods_pos s ys : (forall y, In y ys -> 0 < s y) -> 0 < Rprods s ys.
Proof.
  induction ys as [|y ys IH]; intros H; [exact Rlt_0_1|]. unfold Rprods in *. cbn. apply Rmult_lt_0_compat; [apply H; now left|]. apply IH. intros v Hv. apply H. now right.
Qed.
(** [a y] looks only at variables before [y]. *)
Fixpoint tri (a : string -> (string -> R) -> R) (ys : list string) : Prop :=
  match ys with
  | [] => True
  | y :: ys' => (forall z z', (forall v, ~ In v (y :: ys') -> z v = z' v) -> a y z = a y z') /\ tri a ys'
  end.
Theorem iint_push s a ys : NoDup ys -> (forall y, In y ys -> 0 < s y) -> tri a ys -> forall F z x I,
  iint ys (fun z => F (push s a ys z x)) z I <-> iint ys F x (Rprods s ys * I).
Proof.
  induction ys as [|y ys IH]; intros Hd Hs Ht F z x I.
  - cbn. unfold Rprods. cbn. rewrite Rmult_1_l. reflexivity.
  - inversion Hd as [|? ? Hn Hd']. subst. destruct Ht as (Ha & Ht). assert (Hy : 0 < s y) by (apply Hs; now left).
    assert (Hs' : forall v, In v ys -> 0 < s v) by (intros v Hv; apply Hs; now right).
    pose proof (Rprods_pos s ys Hs') as HP. specialize (IH Hd' Hs' Ht). set (p := Rprods s ys) in *.
    assert (Ep : Rprods s (y :: ys) = s y * p) by reflexivity. rewrite Ep. clear Ep.
    assert (E : forall t J, iint ys (fun z0 => F (push s a (y :: ys) z0 x)) (setv z y t) J <-> iint ys F (setv x y (s y * t + a y z)) (p * J)).
    { intros t J. rewrite <- (IH F (setv z y t)). cbn [push].
      assert (Q : forall e', (forall v, ~ In v ys -> e' v = setv z y t v) -> s y * e' y + a y e' = s y * t + a y z).
      { intros e' He. rewrite (He y Hn), setv_same. f_equal. apply Ha. intros v Hv. rewrite He by (intros X; apply Hv; now right).
        apply setv_other. intros ->. apply Hv. now left. }
      split; apply iint_ext_on; intros e' He; now rewrite (Q e' He). }
    split.
    + intros (G & HG & HI). exists (fun t => p * G (/ s y * t + - a y z / s y)). split.
      * intros t. pose proof (proj1 (E _ _) (HG (/ s y * t + - a y z / s y))) as H.
        replace (s y * (/ s y * t + - a y z / s y) + a y z) with t in H by (field; lra). exact H.
      * replace (s y * p * I) with (p * (s y * I)) by ring. apply is_int_scal.
        replace (s y * I) with (I / / s y) by (field; lra). apply is_int_affine; [now apply Rinv_0_lt_compat|exact HI].
    + intros (G & HG & HI). exists (fun t => / p * G (s y * t + a y z)). split.
      * intros t. apply E. replace (p * (/ p * G (s y * t + a y z))) with (G (s y * t + a y z)) by (field; lra). apply HG.
      * replace I with (/ p * (s y * p * I / s y)) by (field; lra). apply is_int_scal. now apply is_int_affine.
Qed.
