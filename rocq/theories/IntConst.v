(** A constant that is not zero has no integral over the whole line. *)
From Coquelicot Require Import Coquelicot.
From Verif Require Export IntFull.
Local Open Scope R_scope.

Lemma not_int_one I : ~ is_int (fun _ => 1) I.
Proof.
  unfold is_int, is_RInt_gen. intros H.
  destruct (H (fun v => Rabs (v - I) < 1)) as [Q1 Q2 (A & HA) (B & HB) HQ].
  { exists (mkposreal 1 Rlt_0_1). intros v Hv. exact Hv. }
  assert (V : forall b, B < b -> Rabs (b - (A - 1) - I) < 1).
  { intros b Hb. destruct (HQ (A - 1) b (HA (A - 1) ltac:(lra)) (HB b Hb)) as (v & Hv & Hb').
    cbn [fst snd] in Hv. pose proof (is_RInt_const (V := R_NormedModule) (A - 1) b 1) as Hc.
    assert (E : v = b - (A - 1)).
    { apply (is_RInt_unique (V := R_CompleteNormedModule)) in Hv. apply (is_RInt_unique (V := R_CompleteNormedModule)) in Hc. rewrite <- Hv, Hc. unfold scal. cbn. unfold mult. cbn. ring. }
    rewrite <- E. exact Hb'. }
  pose proof (V (B + 1) ltac:(lra)) as V1. pose proof (V (B + 4) ltac:(lra)) as V2.
  apply Rabs_def2 in V1. apply Rabs_def2 in V2. lra.
Qed.
Lemma not_iint_one ys : forall e I, ys <> [] -> ~ iint ys (fun _ => 1) e I.
Proof.
  induction ys as [|y ys IH]; intros e I N; [congruence|]. cbn. intros (J & HJ & HI). destruct ys as [|z ys].
  - cbn in HJ. apply (not_int_one I). revert HI. apply is_int_ext. exact HJ.
  - apply (IH (setv e y 0) (J 0) ltac:(discriminate)). apply HJ.
Qed.
