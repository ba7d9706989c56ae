(** Determinants of diagonal, unit and two by two arrays.  Nothing here models the code. *)
From Verif Require Import MatOps Rfield MxFacts MxSel.
From Coq Require Import Reals Lra Lia.
From mathcomp Require Import all_ssreflect ssralg matrix.
#[global] Set Bullet Behavior "Strict Subproofs".
Import GRing.Theory.
Local Open Scope ring_scope.
#[local] Delimit Scope R_scope with cR.

Lemma mdet_2 A : nr A = 2%N -> mdet A = (ent A 0 0 * ent A 1 1 - ent A 0 1 * ent A 1 0)%cR.
Proof.
  move=> H. rewrite /mdet H (expand_det_row _ ord0) !big_ord_recl big_ord0 /cofactor !det_mx11 !mxE /=.
  rewrite /bump /= !addn0 expr0 !expr1. rewrite !mul1r addr0. rewrite mulN1r mulrN. by [].
Qed.
Lemma mdet_1 A : nr A = 1%N -> mdet A = ent A 0 0.
Proof. move=> H. rewrite /mdet H det_mx11 mxE. by []. Qed.
Lemma mdet_0 A : nr A = 0%N -> mdet A = R1.
Proof. move=> H. by rewrite /mdet H det_mx00. Qed.
Lemma mdet_eye n : mdet (meye n) = R1.
Proof.
  rewrite /mdet /=. have -> : mx_of n n (meye n) = 1%:M; last by rewrite det1.
  apply/matrixP => i j. by rewrite mx_ofE -idnE.
Qed.
