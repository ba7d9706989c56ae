(** The determinant and the quadratic form of an array with a Cholesky factor. *)
From Verif Require Import SigmaChol MxSel Rfield MxFacts.
From Coq Require Import Reals Lra Lia.
From mathcomp Require Import all_ssreflect ssralg matrix.
#[global] Set Bullet Behavior "Strict Subproofs".
Import GRing.Theory.
Local Open Scope ring_scope.
#[local] Delimit Scope R_scope with cR.

Definition rprod (n : nat) (f : nat -> R) : R := List.fold_right Rmult R1 (List.map f (List.seq 0 n)).
Lemma rprod_big n f : rprod n f = \prod_(i < n) f (nat_of_ord i).
Proof.
  rewrite /rprod. elim: n f => [|n IH] f; first by rewrite big_ord0.
  by rewrite big_ord_recl /= -seq_shift List.map_map -(IH (fun i => f (S i))).
Qed.
Lemma rprod_pos n f : (forall i, (i < n)%coq_nat -> Rlt R0 (f i)) -> Rlt R0 (rprod n f).
Proof.
  rewrite /rprod. elim: n f => [|n IH] f H /=; first exact: Rlt_0_1.
  apply: Rmult_lt_0_compat; first by apply: H; lia. rewrite -seq_shift List.map_map. apply: IH => i Hi. apply: H. lia.
Qed.
Lemma chol_mx A L : symm A -> np_cholesky A = Ok L ->
  mx_of (nr A) (nr A) A = mx_of (nr A) (nr A) L *m (mx_of (nr A) (nr A) L)^T /\ \det (mx_of (nr A) (nr A) L) = rprod (nr A) (fun i => ent L i i).
Proof.
  move=> HS E. case: (np_cholesky_sound A L HS E) => [E1 [E2 [Lo [Po [M1 [M2 M3]]]]]]. split.
  - rewrite -mx_tr -(mx_mul _ _ _ L (mtr L)) //. apply: mx_of_ext => i j Hi Hj. symmetry. apply: M3.
    + by rewrite /= E1.
    + by rewrite /= E1.
  - rewrite det_trig.
    + rewrite rprod_big. by apply: eq_bigr => i _; rewrite mx_ofE.
    + apply/is_trig_mxP => i j Hij. rewrite mx_ofE. apply: Lo. split; [exact/ltP|]. exact/ltP.
Qed.

Theorem chol_det A L : symm A -> np_cholesky A = Ok L -> mdet A = (rprod (nr A) (fun i => ent L i i) * rprod (nr A) (fun i => ent L i i))%cR.
Proof. move=> HS E. case: (chol_mx A L HS E) => EA ED. by rewrite /mdet EA det_mulmx det_tr ED. Qed.
Theorem chol_quad A L (z : nat -> R) : symm A -> np_cholesky A = Ok L ->
  qsum (nr A) (minv A) (fun i => rsum (nr A) (fun k => ent L i k * z k))%cR = rsum (nr A) (fun i => z i * z i)%cR.
Proof.
  move=> HS E. case: (chol_mx A L HS E) => EA ED. case: (np_cholesky_sound A L HS E) => [_ [_ [_ [Po _]]]].
  set n := nr A in EA ED Po |- *. set Lm := mx_of n n L in EA ED.
  have U : Lm \in unitmx.
  { rewrite unitmxE unitfE ED. apply/eqP => H. move: (rprod_pos n (fun i => ent L i i) Po). rewrite H. exact: Rlt_irrefl. }
  have UT : Lm^T \in unitmx by rewrite unitmx_tr.
  set zv := (\col_(i < n) z i : 'cV[R]_n).
  rewrite -(qf_qsum n (minv A) (Lm *m zv)); last first.
  { move=> i. rewrite mxE rsum_big. apply: eq_bigr => k _. by rewrite mx_ofE mxE. }
  rewrite /n (mx_inv A) EA trmx_mul.
  have -> : invmx (Lm *m Lm^T) = invmx Lm^T *m invmx Lm.
  { apply: (can_inj (mulKmx (_ : Lm *m Lm^T \in unitmx))); first by rewrite unitmx_mul U UT.
    rewrite mulmxV; last by rewrite unitmx_mul U UT. by rewrite mulmxA -(mulmxA Lm) mulmxV // mulmx1 mulmxV. }
  rewrite -!mulmxA (mulmxA (invmx Lm)) mulVmx // mul1mx (mulmxA Lm^T) mulmxV // mul1mx mxE rsum_big.
  apply: eq_bigr => i _. by rewrite !mxE.
Qed.
