(** Positive definite matrices, principal submatrices, Schur complements.  Nothing here models
    the code. *)
From Verif Require Import MatOps Rfield MxFacts.
From Coq Require Import Reals Lra Lia Permutation.
From mathcomp Require Import all_ssreflect ssralg matrix.
#[global] Set Bullet Behavior "Strict Subproofs".
Import GRing.Theory.
Local Open Scope ring_scope.
#[local] Delimit Scope R_scope with cR.

Lemma Radd_add (x y : R) : (x + y)%cR = (x : R_ringType) + y. Proof. by []. Qed.

Section Mx.
Notation qf u A := ((u^T *m A *m u) ord0 ord0).
Definition pdm n (A : 'M[R]_n) : Prop :=
  A^T = A /\ forall u : 'cV[R]_n, u <> 0 -> Rlt R0 (qf u A).
Lemma mx11 (M : 'M[R]_1) : M = (M ord0 ord0)%:M.
Proof. exact: mx11_scalar. Qed.

Lemma schur_det a b (A : 'M[R]_a) (B : 'M_(a, b)) (C : 'M_(b, a)) (D : 'M_b) :
  D \in unitmx -> \det (block_mx A B C D) = \det D * \det (A - B *m invmx D *m C).
Proof.
  move=> U.
  have -> : block_mx A B C D =
            block_mx 1%:M (B *m invmx D) 0 1%:M *m block_mx (A - B *m invmx D *m C) 0 C D.
  { rewrite mulmx_block !mul1mx !mul0mx !add0r ?addr0 subrK ?mul1mx.
    by rewrite mulmxKV. }
  by rewrite det_mulmx det_ublock det_lblock !det1 !mul1r mulrC.
Qed.
Lemma schur_det2 a b (A : 'M[R]_a) (B : 'M_(a, b)) (C : 'M_(b, a)) (D : 'M_b) :
  A \in unitmx -> \det (block_mx A B C D) = \det A * \det (D - C *m invmx A *m B).
Proof.
  move=> U.
  have -> : block_mx A B C D =
            block_mx 1%:M 0 (C *m invmx A) 1%:M *m block_mx A B 0 (D - C *m invmx A *m B).
  { rewrite mulmx_block !mul1mx !mul0mx ?mulmx0 ?addr0 ?add0r.
    by rewrite mulmxKV // addrC subrK. }
  by rewrite det_mulmx det_ublock det_lblock !det1 !mul1r.
Qed.
(** The upper left block of the inverse is the inverse of the Schur complement. *)
Lemma schur_inv a b (A : 'M[R]_a) (B : 'M_(a, b)) (C : 'M_(b, a)) (D : 'M_b) (W : 'M_(a + b)) :
  D \in unitmx -> block_mx A B C D *m W = 1%:M ->
  (A - B *m invmx D *m C) *m ulsubmx W = 1%:M.
Proof.
  move=> U. rewrite -[W]submxK mulmx_block => E.
  have := E. rewrite (@scalar_mx_block _ a b) => /eq_block_mx [E1 _ E3 _].
  rewrite block_mxKul.
  have E4 : dlsubmx W = - (invmx D *m C *m ulsubmx W).
  { have : invmx D *m (C *m ulsubmx W + D *m dlsubmx W) = 0 by rewrite E3 mulmx0.
    rewrite mulmxDr !mulmxA mulVmx // mul1mx => H.
    by apply/eqP; rewrite -addr_eq0 addrC H. }
  rewrite mulmxBl -E1 E4 mulmxN. by rewrite !mulmxA.
Qed.

Lemma qf_block a b (A : 'M[R]_a) (B : 'M_(a, b)) (C : 'M_(b, a)) (D : 'M_b) (u : 'cV_a) (v : 'cV_b) :
  (col_mx u v)^T *m block_mx A B C D *m col_mx u v =
  u^T *m A *m u + v^T *m C *m u + (u^T *m B *m v + v^T *m D *m v).
Proof.
  rewrite tr_col_mx mul_row_block mul_row_col. by rewrite !mulmxDl.
Qed.

Lemma pd_det n (A : 'M[R]_n) : pdm n A -> Rlt R0 (\det A).
Proof.
  elim: n A => [|n IH] A [S P].
  - rewrite det_mx00. exact: Rlt_0_1.
  - move: A S P; rewrite -[n.+1]/(1 + n)%N => A S P.
    rewrite -[A]submxK. set a := ulsubmx A. set B := ursubmx A. set C := dlsubmx A. set D := drsubmx A.
    have SA : A = block_mx a B C D by rewrite submxK.
    have [Sa SB SC SD] : [/\ a^T = a, C^T = B, B^T = C & D^T = D].
    { move: S. rewrite SA tr_block_mx => /eq_block_mx. by case. }
    have Pa : Rlt R0 (a ord0 ord0).
    { have N : col_mx (1%:M : 'cV[R]_1) (0 : 'cV[R]_n) <> 0.
      { rewrite -col_mx0 => /eq_col_mx [H _]. move/matrixP: H => /(_ ord0 ord0). rewrite !mxE eqxx.
        exact: R1_neq_R0. }
      have := P _ N. by rewrite SA qf_block trmx0 !mul0mx !mulmx0 !addr0 trmx1 mul1mx mulmx1. }
    have Ua : a \in unitmx.
    { rewrite unitmxE [a]mx11 det_scalar1 unitfE. apply/eqP => H. rewrite H in Pa. exact: (Rlt_irrefl _ Pa). }
    rewrite schur_det2 //. apply: Rmult_lt_0_compat.
    { rewrite [a]mx11 det_scalar1. exact: Pa. }
    apply: IH. split.
    { rewrite linearB /= SD !trmx_mul trmx_inv Sa SB SC. by rewrite mulmxA. }
    move=> u Hu. set w := - (invmx a *m B *m u).
    have N : col_mx w u <> 0 by rewrite -col_mx0 => /eq_col_mx [_ H].
    have := P _ N. rewrite SA qf_block.
    have E : w^T *m a *m w + u^T *m C *m w = 0.
    { have -> : w^T *m a = - (u^T *m C).
      { rewrite /w linearN /= !trmx_mul trmx_inv Sa SC mulNmx. by rewrite !mulmxA mulmxKV. }
      by rewrite mulNmx addNr. }
    rewrite E add0r.
    have -> : w^T *m B *m u + u^T *m D *m u = u^T *m (D - C *m invmx a *m B) *m u.
    { rewrite /w linearN /= !trmx_mul trmx_inv Sa SC mulmxBr mulmxBl !mulNmx addrC. by rewrite !mulmxA. }
    by [].
Qed.
Lemma pd_unit n (A : 'M[R]_n) : pdm n A -> A \in unitmx.
Proof.
  move=> /pd_det H. rewrite unitmxE unitfE. apply/eqP => E. rewrite E in H. exact: (Rlt_irrefl _ H).
Qed.
Lemma pd_inv n (A : 'M[R]_n) : pdm n A -> pdm n (invmx A).
Proof.
  move=> P. have U := pd_unit n A P. case: P => S P. split; first by rewrite trmx_inv S.
  move=> u Hu.
  have N : invmx A *m u <> 0.
  { move=> H. apply: Hu. by rewrite -(mulKVmx U u) H mulmx0. }
  have := P _ N. rewrite trmx_mul trmx_inv S. by rewrite -!mulmxA (mulmxA A) mulmxV // mul1mx mulmxA.
Qed.
Lemma pd_congr a n (Q : 'M[R]_(a, n)) (A : 'M_n) : Q *m Q^T = 1%:M -> pdm n A -> pdm a (Q *m A *m Q^T).
Proof.
  move=> E [S P]. split; first by rewrite !trmx_mul trmxK S mulmxA.
  move=> u Hu. have N : Q^T *m u <> 0.
  { move=> H. apply: Hu. by rewrite -(mul1mx u) -E -mulmxA H mulmx0. }
  have := P _ N. by rewrite trmx_mul trmxK !mulmxA.
Qed.
(** Symmetric reordering. *)
Lemma perm_det n (Q : 'M[R]_n) A : Q *m Q^T = 1%:M -> \det (Q *m A *m Q^T) = \det A.
Proof.
  move=> E. rewrite !det_mulmx mulrAC -det_mulmx E. by rewrite det1 mul1r.
Qed.
Lemma perm_inv n (Q : 'M[R]_n) A : Q *m Q^T = 1%:M -> A \in unitmx ->
  invmx (Q *m A *m Q^T) = Q *m invmx A *m Q^T.
Proof.
  move=> E U. have [UQ UT] := mulmx1_unit E.
  have iQ : invmx Q = Q^T by rewrite -[LHS]mulmx1 -E mulmxA mulVmx // mul1mx.
  have iT : invmx (Q^T) = Q by rewrite -iQ invmxK.
  rewrite -[RHS]mul1mx.
  have U2 : Q *m A *m Q^T \in unitmx by rewrite !unitmx_mul UQ UT U.
  rewrite -(mulVmx U2) -!mulmxA (mulmxA Q^T Q). 
  have -> : Q^T *m Q = 1%:M by rewrite -iQ mulVmx.
  rewrite mul1mx (mulmxA A) mulmxV // mul1mx E. by rewrite mulmx1.
Qed.
End Mx.
