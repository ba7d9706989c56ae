(** The arrays of Mat.v and MatOps.v as matrices of the Mathematical Components library:
    products, inverses, determinants, permutations and blocks.  Nothing here models the code. *)
From Verif Require Import MatOps Rfield.
From Coq Require Import Reals Lra Lia.
From mathcomp Require Import all_ssreflect ssralg matrix.
#[global] Set Bullet Behavior "Strict Subproofs".
Import GRing.Theory.
Local Open Scope ring_scope.
#[local] Delimit Scope R_scope with cR.

Lemma rsum_big n f : rsum n f = \sum_(i < n) f (nat_of_ord i).
Proof.
  rewrite /rsum. elim: n f => [|n IH] f; first by rewrite big_ord0.
  by rewrite big_ord_recl /= -seq_shift List.map_map -(IH (fun i => f (S i))).
Qed.
Lemma rsum_ext n f g : (forall i, (i < n)%coq_nat -> f i = g i) -> rsum n f = rsum n g.
Proof. move=> H. rewrite !rsum_big. apply: eq_bigr => i _. apply: H. exact/ltP. Qed.

Lemma mx_ofE n m A (i : 'I_n) (j : 'I_m) : mx_of n m A i j = ent A i j.
Proof. by rewrite mxE. Qed.
Lemma of_mx_ent n m (M : 'M[R]_(n, m)) (i : 'I_n) (j : 'I_m) : ent (of_mx M) i j = M i j.
Proof. by rewrite /= !valK. Qed.
Lemma mx_of_mx n m (M : 'M[R]_(n, m)) : mx_of n m (of_mx M) = M.
Proof. by apply/matrixP => i j; rewrite mx_ofE of_mx_ent. Qed.
Lemma mx_of_ext n m A B : (forall i j, (i < n)%coq_nat -> (j < m)%coq_nat -> ent A i j = ent B i j) -> mx_of n m A = mx_of n m B.
Proof. move=> H. apply/matrixP => i j. rewrite !mx_ofE. by apply: H; apply/ltP. Qed.
Lemma mx_of_inj n m A B : mx_of n m A = mx_of n m B ->
  forall i j, (i < n)%coq_nat -> (j < m)%coq_nat -> ent A i j = ent B i j.
Proof.
  move=> /matrixP H i j /ltP hi /ltP hj. move: (H (Ordinal hi) (Ordinal hj)). by rewrite !mx_ofE.
Qed.

Lemma mx_mul n k m A B : nc A = k -> mx_of n m (mmul0 A B) = mx_of n k A *m mx_of k m B.
Proof.
  move=> <-. apply/matrixP => i j. rewrite mx_ofE mxE /= rsum_big. apply: eq_bigr => l _. by rewrite !mx_ofE.
Qed.
Lemma mx_tr n m A : mx_of n m (mtr A) = (mx_of m n A)^T.
Proof. by apply/matrixP => i j; rewrite mx_ofE mxE mx_ofE. Qed.
Lemma mx_scal n m c A : mx_of n m (mscal c A) = c *: mx_of n m A.
Proof. by apply/matrixP => i j; rewrite mx_ofE mxE mx_ofE. Qed.
Lemma mx_inv A : mx_of (nr A) (nr A) (minv A) = invmx (mx_of (nr A) (nr A) A).
Proof. exact: mx_of_mx. Qed.

Lemma mdet_unit A : mdet A <> R0 <-> mx_of (nr A) (nr A) A \in unitmx.
Proof. rewrite unitmxE unitfE. by split=> [H|/eqP]; [apply/eqP|]. Qed.
Lemma np_inv_ok A : nr A = nc A -> mdet A <> R0 -> np_inv A = Ok (minv A).
Proof.
  move=> H D. rewrite /np_inv H Nat.eqb_refl /Req_b. by case: Req_EM_T.
Qed.
Lemma np_det_ok A : nr A = nc A -> np_det A = Ok (mdet A).
Proof. move=> H. by rewrite /np_det H Nat.eqb_refl. Qed.

Lemma Rpow_exp (c : R) n : (c : R_ringType) ^+ n = pow c n.
Proof. elim: n => [|n IH] //. by rewrite exprS IH. Qed.
Lemma mdet_scal c A : mdet (mscal c A) = (c ^ nr A * mdet A)%cR.
Proof. by rewrite /mdet /= mx_scal detZ Rpow_exp. Qed.
Lemma mdet_minv A : mdet A <> R0 -> mdet (minv A) = (/ mdet A)%cR.
Proof.
  move=> D. rewrite /mdet /= mx_inv det_inv.
  rewrite {1}/GRing.inv /= /Rinvx. by case: eqP.
Qed.
Lemma minv_det_neq A : mdet A <> R0 -> mdet (minv A) <> R0.
Proof. move=> D. rewrite mdet_minv //. exact: Rinv_neq_0_compat. Qed.
Lemma minv_shape A : nr (minv A) = nr A /\ nc (minv A) = nr A.
Proof. by []. Qed.

Definition idn (i j : nat) : R := if Nat.eqb i j then R1 else R0.
Lemma idnE n (i j : 'I_n) : idn i j = (1%:M : 'M[R]_n) i j.
Proof.
  rewrite mxE /idn. case: Nat.eqb_spec => [H|H].
  - have -> : i = j by apply: val_inj. by rewrite eqxx.
  - case: eqP => // E. by case: H; rewrite E.
Qed.
Lemma minv_r A i j : mdet A <> R0 -> (i < nr A)%coq_nat -> (j < nr A)%coq_nat ->
  rsum (nr A) (fun k => ent A i k * ent (minv A) k j)%cR = idn i j.
Proof.
  move=> /mdet_unit U /ltP hi /ltP hj. have := mulmxV U. rewrite -mx_inv => /matrixP.
  move/(_ (Ordinal hi) (Ordinal hj)). rewrite -idnE mxE /= => <-. rewrite rsum_big.
  apply: eq_bigr => k _. by rewrite !mx_ofE.
Qed.
Lemma minv_l A i j : mdet A <> R0 -> (i < nr A)%coq_nat -> (j < nr A)%coq_nat ->
  rsum (nr A) (fun k => ent (minv A) i k * ent A k j)%cR = idn i j.
Proof.
  move=> /mdet_unit U /ltP hi /ltP hj. have := mulVmx U. rewrite -mx_inv => /matrixP.
  move/(_ (Ordinal hi) (Ordinal hj)). rewrite -idnE mxE /= => <-. rewrite rsum_big.
  apply: eq_bigr => k _. by rewrite !mx_ofE.
Qed.
(** A one-sided inverse is the inverse. *)
Lemma inv_unique n A B : nr A = n ->
  (forall i j, (i < n)%coq_nat -> (j < n)%coq_nat -> rsum n (fun k => ent B i k * ent A k j)%cR = idn i j) ->
  mdet A <> R0 /\ forall i j, (i < n)%coq_nat -> (j < n)%coq_nat -> ent B i j = ent (minv A) i j.
Proof.
  move=> <- H.
  have E : mx_of (nr A) (nr A) B *m mx_of (nr A) (nr A) A = 1%:M.
  { apply/matrixP => i j. rewrite mxE -idnE -H; try exact/ltP. rewrite rsum_big.
    apply: eq_bigr => k _. by rewrite !mx_ofE. }
  have [U1 U2] := mulmx1_unit E.
  split; first exact/mdet_unit.
  apply: mx_of_inj. rewrite mx_inv. by rewrite -[LHS]mulmx1 -(mulmxV U2) mulmxA E mul1mx.
Qed.

Definition symm (A : mat) : Prop := forall i j, (i < nr A)%coq_nat -> (j < nr A)%coq_nat -> ent A i j = ent A j i.
Lemma symmE A : symm A <-> (mx_of (nr A) (nr A) A)^T = mx_of (nr A) (nr A) A.
Proof.
  split=> [H|H].
  - apply/matrixP => i j. rewrite mxE !mx_ofE. by apply: H; apply/ltP.
  - move=> i j /ltP hi /ltP hj. move/matrixP: H => /(_ (Ordinal hi) (Ordinal hj)). by rewrite mxE !mx_ofE.
Qed.
Lemma symm_minv A : symm A -> symm (minv A).
Proof. by rewrite !symmE /= mx_inv trmx_inv => ->. Qed.
