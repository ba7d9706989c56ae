(** Selecting rows and columns by position, positive definite arrays and the Schur complement
    at the level of arrays.  Nothing here models the code. *)
From Verif Require Import MatOps BaseFacts Rfield MxFacts MxBlocks.
From Coq Require Import Reals Lra Lia Permutation List.
From mathcomp Require Import all_ssreflect ssralg matrix.
#[global] Set Bullet Behavior "Strict Subproofs".
Import GRing.Theory.
Local Open Scope ring_scope.
#[local] Delimit Scope R_scope with cR.

Definition msel (A : mat) (l m : list nat) : mat :=
  Mat (length l) (length m) (fun i j => ent A (List.nth i l 0%N) (List.nth j m 0%N)).
Definition inr (n : nat) (l : list nat) : Prop := forall i, In i l -> (i < n)%coq_nat.
Lemma mix_ok A l m : inr (nr A) l -> inr (nc A) m -> mix A l m = Ok (msel A l m).
Proof.
  move=> Hl Hm. rewrite /mix.
  have -> : forallb (fun i => Nat.ltb i (nr A)) l = true.
  { apply/forallb_forall => i Hi. apply/Nat.ltb_lt. exact: Hl. }
  have -> // : forallb (fun i => Nat.ltb i (nc A)) m = true.
  { apply/forallb_forall => i Hi. apply/Nat.ltb_lt. exact: Hm. }
Qed.

(** The matrix with row i equal to the unit vector of position [l i]. *)
Definition selm (n : nat) (l : list nat) : 'M[R]_(length l, n) :=
  \matrix_(i, j) idn (List.nth i l 0%N) j.
Lemma inr_nth n l (i : 'I_(length l)) : inr n l -> (List.nth i l 0 < n)%N.
Proof. move=> H. apply/ltP. apply: H. apply: List.nth_In. by apply/ltP. Qed.
Lemma idn_sym i j : idn i j = idn j i.
Proof. by rewrite /idn Nat.eqb_sym. Qed.
Lemma sum_idn_l n (i : nat) (f : nat -> R) : (i < n)%N -> \sum_(k < n) (idn i k : R_ringType) * f k = f i.
Proof.
  move=> H. rewrite (bigD1 (Ordinal H)) //= big1 ?addr0.
  - rewrite /idn Nat.eqb_refl. exact: mul1r.
  - move=> k Nk. rewrite /idn. case: Nat.eqb_spec => [E|_]; last exact: mul0r.
    case/eqP: Nk. apply: val_inj. by rewrite /= E.
Qed.
Lemma selm_row n l p (M : 'M[R]_(n, p)) (i : 'I_(length l)) j (H : (List.nth i l 0 < n)%N) :
  (selm n l *m M) i j = M (Ordinal H) j.
Proof.
  rewrite mxE (bigD1 (Ordinal H)) //= big1 ?addr0.
  - rewrite mxE /idn /= Nat.eqb_refl. exact: mul1r.
  - move=> k Nk. rewrite mxE /idn. case: Nat.eqb_spec => [E|_]; last exact: mul0r.
    case/eqP: Nk. apply: val_inj. by rewrite /= E.
Qed.
Lemma selm_col n l p (M : 'M[R]_(p, n)) i (j : 'I_(length l)) (H : (List.nth j l 0 < n)%N) :
  (M *m (selm n l)^T) i j = M i (Ordinal H).
Proof.
  have -> : (M *m (selm n l)^T) i j = (selm n l *m M^T) j i by rewrite -[M in LHS]trmxK -trmx_mul [LHS]mxE.
  by rewrite (selm_row n l _ _ _ _ H) mxE.
Qed.
Lemma mx_sel A p q l m : inr p l -> inr q m ->
  mx_of (length l) (length m) (msel A l m) = selm p l *m mx_of p q A *m (selm q m)^T.
Proof.
  move=> Hl Hm. apply/matrixP => i j.
  rewrite (selm_col q m _ _ i j (inr_nth q m j Hm)) (selm_row p l _ _ i _ (inr_nth p l i Hl)).
  by rewrite !mx_ofE.
Qed.
Lemma mx_sel_col A p l : inr p l -> mx_of (length l) 1 (msel A l [:: 0%N]) = selm p l *m mx_of p 1 A.
Proof.
  move=> Hl. apply/matrixP => i j. rewrite (selm_row p l _ _ i _ (inr_nth p l i Hl)) !mx_ofE /=.
  have -> : nat_of_ord j = 0%N by case: j => [[|k] ?]. by [].
Qed.
Lemma selm_orth n l : inr n l -> NoDup l -> selm n l *m (selm n l)^T = 1%:M.
Proof.
  move=> H N. apply/matrixP => i j. rewrite (selm_row n l _ _ i _ (inr_nth n l i H)) mxE mxE -idnE /= /idn.
  have hi : (i < length l)%coq_nat by apply/ltP.
  have hj : (j < length l)%coq_nat by apply/ltP.
  case: Nat.eqb_spec => [E|E]; case: Nat.eqb_spec => [E'|E'] //.
  - case: E'. by apply: (proj1 (NoDup_nth l 0%N) N).
  - by case: E; rewrite E'.
Qed.
Lemma selm_app n l m : selm n (l ++ m)%list = castmx (esym (app_length l m), erefl n) (col_mx (selm n l) (selm n m)).
Proof.
  apply/matrixP => i j. rewrite castmxE /= esymK cast_ord_id mxE.
  have hi := ltn_ord i.
  rewrite mxE. case: splitP => k /= Hk; rewrite mxE.
  - rewrite app_nth1 Hk //. by apply/ltP.
  - rewrite Hk app_nth2; last by apply/leP; exact: leq_addr.
    rewrite -[(length l + k)%N]/(length l + k)%coq_nat. congr (idn (List.nth _ _ _) _). lia.
Qed.

(** Positive definite arrays. *)
Definition qsum (n : nat) (A : mat) (u : nat -> R) : R :=
  rsum n (fun i => rsum n (fun j => (u i * ent A i j * u j)%cR)).
Definition posdef (A : mat) : Prop :=
  symm A /\ forall u : nat -> R, (exists i, (i < nr A)%coq_nat /\ u i <> R0) -> Rlt R0 (qsum (nr A) A u).
Lemma qf_qsum n A (u : 'cV[R]_n) (x : nat -> R) : (forall i : 'I_n, u i ord0 = x i) ->
  (u^T *m mx_of n n A *m u) ord0 ord0 = qsum n A x.
Proof.
  move=> H. rewrite /qsum rsum_big.
  under [RHS]eq_bigr do rewrite rsum_big.
  rewrite exchange_big /= mxE. apply: eq_bigr => j _. rewrite mxE H.
  rewrite (@big_distrl R_comRingType) /=. apply: eq_bigr => i _. rewrite mxE mx_ofE H. by [].
Qed.
Lemma posdefE A : posdef A <-> pdm (nr A) (mx_of (nr A) (nr A) A).
Proof.
  split=> [[S P]|[S P]]; split; try exact/symmE.
  - move=> u Hu. pose x i := match insub i : option 'I_(nr A) with Some k => u k ord0 | None => R0 end.
    have Hx : forall i : 'I_(nr A), u i ord0 = x i by move=> i; rewrite /x valK.
    rewrite (qf_qsum _ A u x Hx). apply: P.
    have [i Hi] : exists i : 'I_(nr A), u i ord0 <> R0.
    { apply: Classical_Pred_Type.not_all_not_ex => Z. apply: Hu. apply/matrixP => i j.
      rewrite (ord1 j) mxE. apply: Classical_Prop.NNPP. exact: Z. }
    exists i. split; first exact/ltP. by rewrite -Hx.
  - move=> x [i [/ltP hi Hi]]. pose u : 'cV[R]_(nr A) := \col_k x k.
    have Hx : forall i : 'I_(nr A), u i ord0 = x i by move=> k; rewrite mxE.
    rewrite -(qf_qsum _ A u x Hx). apply: P => /matrixP /(_ (Ordinal hi) ord0). by rewrite !mxE.
Qed.
Lemma posdef_det A : posdef A -> Rlt R0 (mdet A).
Proof. by move/posdefE/pd_det. Qed.
Lemma posdef_det_neq A : posdef A -> mdet A <> R0.
Proof. move/posdef_det => H E. rewrite E in H. exact: (Rlt_irrefl _ H). Qed.
Lemma posdef_minv A : posdef A -> posdef (minv A).
Proof. move=> /posdefE P. apply/posdefE. rewrite /= mx_inv. exact: pd_inv. Qed.
Lemma posdef_sel A l : posdef A -> inr (nr A) l -> NoDup l -> posdef (msel A l l).
Proof.
  move=> /posdefE P H N. apply/posdefE => /=. rewrite (mx_sel A (nr A) (nr A)) //.
  apply: pd_congr => //. exact: selm_orth.
Qed.
Lemma minv_minv A : mdet A <> R0 -> forall i j, (i < nr A)%coq_nat -> (j < nr A)%coq_nat ->
  ent (minv (minv A)) i j = ent A i j.
Proof. move=> D. apply: mx_of_inj. by rewrite -[nr A]/(nr (minv A)) mx_inv /= mx_inv invmxK. Qed.
