(** The joint covariance of a vector and a noisy linear image of it.  Nothing here models the code. *)
From Verif Require Import MatOps BaseFacts Rfield MxFacts MxBlocks MxSel.
From Coq Require Import Reals Lra Lia Permutation List.
From mathcomp Require Import all_ssreflect ssralg matrix.
#[global] Set Bullet Behavior "Strict Subproofs".
Import GRing.Theory.
Local Open Scope ring_scope.
#[local] Delimit Scope R_scope with cR.

Lemma pd_congr_unit n (Q : 'M[R]_n) (A : 'M_n) : Q \in unitmx -> pdm n A -> pdm n (Q *m A *m Q^T).
Proof.
  move=> U [S P]. split; first by rewrite !trmx_mul trmxK S mulmxA.
  move=> u Hu. have N : Q^T *m u <> 0.
  { move=> H. apply: Hu. have UT : Q^T \in unitmx by rewrite unitmx_tr. by rewrite -(mulKmx UT u) H mulmx0. }
  have := P _ N. by rewrite trmx_mul trmxK !mulmxA.
Qed.
Lemma pd_nonneg n (A : 'M[R]_n) (u : 'cV[R]_n) : pdm n A -> Rle R0 ((u^T *m A *m u) ord0 ord0).
Proof.
  move=> [_ P]. case: (eqVneq u 0) => [->|/eqP N]; last by apply: Rlt_le; exact: P.
  rewrite mulmx0 mxE. exact: Rle_refl.
Qed.
Lemma pd_diag a b (A : 'M[R]_a) (D : 'M[R]_b) : pdm a A -> pdm b D -> pdm (a + b) (block_mx A 0 0 D).
Proof.
  move=> PA PD. split; first by rewrite tr_block_mx !trmx0 (proj1 PA) (proj1 PD).
  move=> u Hu. rewrite -[u]vsubmxK qf_block !mulmx0 !mul0mx addr0 add0r mxE.
  have HA := pd_nonneg a A (usubmx u) PA. have HD := pd_nonneg b D (dsubmx u) PD.
  case: (eqVneq (usubmx u) 0) => [E|/eqP N].
  - case: (eqVneq (dsubmx u) 0) => [E'|/eqP N].
    + case: Hu. by rewrite -[u]vsubmxK E E' col_mx0.
    + have := proj2 PD _ N. move=> H. exact: (Rplus_le_lt_0_compat _ _ HA H).
  - have := proj2 PA _ N. move=> H. exact: (Rplus_lt_le_0_compat _ _ H HD).
Qed.

Section Lin.
Variables (a b : nat) (C : 'M[R]_a) (A : 'M[R]_(b, a)) (Q : 'M[R]_b).
Hypotheses (PC : pdm a C) (PQ : pdm b Q).
Definition linL : 'M[R]_(a + b) := block_mx 1%:M 0 A 1%:M.
Definition linLi : 'M[R]_(a + b) := block_mx 1%:M 0 (- A) 1%:M.
Definition linJ : 'M[R]_(a + b) := block_mx C (C *m A^T) (A *m C) (A *m C *m A^T + Q).
Lemma lin_inv : linLi *m linL = 1%:M.
Proof. rewrite /linLi /linL mulmx_block !mul1mx !mulmx1 !mul0mx !mulmx0 !addr0 addNr add0r. by rewrite -scalar_mx_block. Qed.
Lemma linL_unit : linL \in unitmx. Proof. by case: (mulmx1_unit lin_inv). Qed.
Lemma lin_inv' : linL *m linLi = 1%:M.
Proof. exact: mulmx1C lin_inv. Qed.
Lemma lin_fact : linJ = linL *m block_mx C (0 : 'M[R_ringType]_(a, b)) (0 : 'M[R_ringType]_(b, a)) Q *m linL^T.
Proof.
  rewrite /linJ /linL tr_block_mx !trmx1 !trmx0 mulmx_block ?mul1mx ?mul0mx ?mulmx0 ?addr0 ?add0r mulmx_block.
  by rewrite ?mul1mx ?mulmx1 ?mulmx0 ?addr0 ?mul0mx ?addr0 ?add0r.
Qed.
Lemma lin_pd : pdm (a + b) linJ.
Proof. rewrite lin_fact. apply: pd_congr_unit; [exact: linL_unit|exact: pd_diag]. Qed.
Lemma lin_det : \det linJ = \det C * \det Q.
Proof. rewrite lin_fact !det_mulmx det_tr /linL det_lblock det_ublock !det1. by rewrite !mul1r !mulr1. Qed.
Lemma lin_invmx : invmx linJ = linLi^T *m block_mx (invmx C) (0 : 'M[R_ringType]_(a, b)) (0 : 'M[R_ringType]_(b, a)) (invmx Q) *m linLi.
Proof.
  have UJ := pd_unit _ _ lin_pd. set W := (X in _ = X).
  have E : linJ *m W = 1%:M.
  { rewrite lin_fact /W -!mulmxA (mulmxA linL^T) -trmx_mul lin_inv trmx1 mul1mx (mulmxA (block_mx C _ _ _)).
    rewrite mulmx_block ?mul0mx ?mulmx0 ?addr0 ?add0r (mulmxV (pd_unit _ _ PC)) (mulmxV (pd_unit _ _ PQ)).
    by rewrite -scalar_mx_block mul1mx lin_inv'. }
  by rewrite -[LHS]mulmx1 -E mulmxA mulVmx // mul1mx.
Qed.
Lemma lin_quad (x : 'cV[R]_a) (y : 'cV[R]_b) : (col_mx x y)^T *m invmx linJ *m col_mx x y =
  x^T *m invmx C *m x + (y - A *m x)^T *m invmx Q *m (y - A *m x).
Proof.
  have E : linLi *m col_mx x y = col_mx x (y - A *m x) by rewrite /linLi mul_block_col !mul1mx mul0mx addr0 mulNmx addrC.
  rewrite lin_invmx. have -> : (col_mx x y)^T *m (linLi^T *m block_mx (invmx C) (0 : 'M[R_ringType]_(a, b)) (0 : 'M[R_ringType]_(b, a)) (invmx Q) *m linLi) *m col_mx x y =
    (linLi *m col_mx x y)^T *m block_mx (invmx C) (0 : 'M[R_ringType]_(a, b)) (0 : 'M[R_ringType]_(b, a)) (invmx Q) *m (linLi *m col_mx x y) by rewrite trmx_mul !mulmxA.
  by rewrite E qf_block !mulmx0 !mul0mx addr0 add0r.
Qed.
End Lin.

(** For arrays. *)
Definition lin_blocks (n p : nat) (A C Q J : mat) : Prop :=
  nr J = (n + p)%coq_nat /\
  (forall i j, (i < n)%coq_nat -> (j < n)%coq_nat -> ent J i j = ent C i j) /\
  (forall i j, (i < p)%coq_nat -> (j < n)%coq_nat -> ent J (n + i)%coq_nat j = rsum n (fun l => ent A i l * ent C l j)%cR) /\
  (forall i j, (i < p)%coq_nat -> (j < n)%coq_nat -> ent J j (n + i)%coq_nat = rsum n (fun l => ent A i l * ent C l j)%cR) /\
  (forall i j, (i < p)%coq_nat -> (j < p)%coq_nat ->
     ent J (n + i)%coq_nat (n + j)%coq_nat = (rsum n (fun l => rsum n (fun q => ent A i l * ent C l q * ent A j q)) + ent Q i j)%cR).
Theorem lin_mat n p A C Q J : nr C = n -> nr Q = p -> posdef C -> posdef Q -> lin_blocks n p A C Q J ->
  posdef J /\ mdet J = (mdet C * mdet Q)%cR /\
  forall z : nat -> R, qsum (n + p)%coq_nat (minv J) z =
    (qsum n (minv C) z + qsum p (minv Q) (fun i => z (n + i)%coq_nat - rsum n (fun l => ent A i l * z l)))%cR.
Proof.
  move=> HC HQ PC PQ [HJ [J1 [J2 [J3 J4]]]]. subst n p.
  set n := nr C in HJ J1 J2 J3 J4 *. set p := nr Q in HJ J2 J3 J4 *.
  have HJ' : nr J = (n + p)%N by [].
  move: (PC) (PQ). rewrite !posdefE -/n -/p. set Cm := mx_of n n C. set Qm := mx_of p p Q. move=> PCm PQm.
  set Am := mx_of p n A.
  have SC : forall i j, (i < n)%coq_nat -> (j < n)%coq_nat -> ent C i j = ent C j i by case: PC.
  have EAC : forall (i : 'I_p) (j : 'I_n), (Am *m Cm) i j = rsum n (fun l => ent A i l * ent C l j)%cR.
  { move=> i j. rewrite mxE rsum_big. apply: eq_bigr => k _. by rewrite !mx_ofE. }
  have EJ : mx_of (n + p) (n + p) J = linJ n p Cm Am Qm.
  { apply/matrixP => i j. rewrite mx_ofE /linJ.
    rewrite -(splitK i) -(splitK j). case: (split i) => i'; case: (split j) => j' /=.
    - rewrite block_mxEul mx_ofE J1 //; exact/ltP.
    - rewrite block_mxEur. have -> : (Cm *m Am^T) = (Am *m Cm)^T by rewrite trmx_mul (proj1 PCm).
      rewrite mxE EAC -J3 //; exact/ltP.
    - rewrite block_mxEdl EAC -J2 //; exact/ltP.
    - rewrite block_mxEdr [RHS]mxE. have -> : Qm i' j' = ent Q i' j' by rewrite mx_ofE.
      rewrite -[(n + i')%N]/(n + i')%coq_nat -[(n + j')%N]/(n + j')%coq_nat J4; try exact/ltP. congr (_ + _)%cR.
      rewrite mxE. transitivity (\sum_(q < n) (rsum n (fun l => ent A i' l * ent C l q)%cR * ent A j' q)%cR).
      { rewrite rsum_big. under eq_bigr do rewrite rsum_big. rewrite exchange_big /=. apply: eq_bigr => q _.
        rewrite rsum_big. exact: (esym (@mulr_suml R_ringType _ _ _ _ _)). }
      apply: eq_bigr => q _. rewrite EAC mxE mx_ofE. by []. }
  have PJ : posdef J by rewrite posdefE HJ' EJ; exact: lin_pd.
  split; first by rewrite -posdefE. split.
  - rewrite /mdet HJ' EJ. exact: lin_det.
  - move=> z. pose x : 'cV[R]_n := \col_i z i. pose y : 'cV[R]_p := \col_i z (n + i)%N.
    have Hz : forall i : 'I_(n + p), (col_mx x y) i ord0 = z i.
    { move=> i. rewrite -(splitK i). case: (split i) => k /=; by rewrite ?col_mxEu ?col_mxEd mxE. }
    rewrite -(qf_qsum (n + p) (minv J) (col_mx x y) z Hz).
    have -> : mx_of (n + p) (n + p) (minv J) = invmx (linJ n p Cm Am Qm) by rewrite -EJ -HJ'; exact: mx_inv.
    rewrite lin_quad // mxE. congr (_ + _)%cR.
    + rewrite -[invmx Cm](mx_inv C). apply: qf_qsum => i. by rewrite mxE.
    + rewrite -[invmx Qm](mx_inv Q). apply: qf_qsum => i. rewrite mxE [y i ord0]mxE [X in _ + X]mxE [X in - X]mxE rsum_big. congr (_ - _)%cR.
      apply: eq_bigr => k _. by rewrite !mxE.
Qed.
