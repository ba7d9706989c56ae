(** Integrating out part of the variables: the Schur complement for arrays.  Nothing here models
    the code. *)
From Verif Require Import MatOps BaseFacts Rfield MxFacts MxBlocks MxSel.
From Coq Require Import Reals Lra Lia Permutation List.
From mathcomp Require Import all_ssreflect ssralg matrix.
#[global] Set Bullet Behavior "Strict Subproofs".
Import GRing.Theory.
Local Open Scope ring_scope.
#[local] Delimit Scope R_scope with cR.

Lemma perm_inr n l : Permutation l (List.seq 0 n) -> inr n l /\ NoDup l /\ length l = n.
Proof.
  move=> P. split; [|split].
  - move=> i Hi. have := Permutation_in i P Hi. rewrite in_seq. lia.
  - apply: (Permutation_NoDup (Permutation_sym P)). exact: seq_NoDup.
  - by rewrite (Permutation_length P) seq_length.
Qed.

Lemma orth_app n l m : inr n (l ++ m)%list -> NoDup (l ++ m)%list ->
  col_mx (selm n l) (selm n m) *m (col_mx (selm n l) (selm n m))^T = 1%:M.
Proof.
  move=> Hi N.
  have Hl : inr n l by move=> i H; apply: Hi; apply: in_or_app; left.
  have Hm : inr n m by move=> i H; apply: Hi; apply: in_or_app; right.
  have [Nl [Nm D]] := NoDup_app_elim _ _ N.
  rewrite tr_col_mx mul_col_row !selm_orth // (@scalar_mx_block _ (length l) (length m)).
  have Z : selm n l *m (selm n m)^T = 0.
  { apply/matrixP => i j. rewrite (selm_row n l _ _ i _ (inr_nth n l i Hl)) !mxE /= /idn.
    case: Nat.eqb_spec => [E|//]. exfalso. apply: (D (List.nth i l 0%N)).
    - apply: List.nth_In. by apply/ltP.
    - rewrite -E. apply: List.nth_In. by apply/ltP. }
  rewrite Z. have -> // : selm n m *m (selm n l)^T = 0.
  by rewrite -[LHS]trmxK trmx_mul trmxK Z trmx0.
Qed.

Section Core.
Variables (a b : nat) (A : 'M[R]_a) (B : 'M[R]_(a, b)) (D : 'M[R]_b) (x : 'cV[R]_a) (y : 'cV[R]_b).
Hypotheses (SA : A^T = A) (SD : D^T = D) (U : D \in unitmx).
Notation S := (A - B *m invmx D *m B^T).
Notation hx := (A *m x + B *m y).
Notation hy := (B^T *m x + D *m y).
Lemma core_h : S *m x = hx - B *m invmx D *m hy.
Proof.
  rewrite mulmxBl mulmxDr. rewrite (mulmxA _ D) mulmxKV // !mulmxA opprD.
  rewrite addrACA. by rewrite subrr addr0.
Qed.
Lemma core_q : x^T *m S *m x = (col_mx x y)^T *m block_mx A B B^T D *m col_mx x y - hy^T *m invmx D *m hy.
Proof.
  rewrite -mulmxA core_h.
  have -> : block_mx A B B^T D = (block_mx A B B^T D)^T by rewrite tr_block_mx SA SD trmxK.
  rewrite -trmx_mul mul_block_col tr_col_mx mul_row_col.
  have -> : hy^T *m invmx D *m hy = x^T *m B *m invmx D *m hy + y^T *m hy.
  { rewrite [hy^T]linearD /= !trmx_mul trmxK SD mulmxDl mulmxDl. by rewrite mulmxK. }
  have -> : hy^T *m y = y^T *m hy.
  { apply/matrixP => i j. rewrite (ord1 i) (ord1 j). by rewrite -[hy^T *m y]trmxK trmx_mul trmxK mxE. }
  have -> : hx^T *m x = x^T *m hx.
  { apply/matrixP => i j. rewrite (ord1 i) (ord1 j). by rewrite -[hx^T *m x]trmxK trmx_mul trmxK mxE. }
  rewrite opprD addrACA subrr addr0 mulmxBr. by rewrite !mulmxA.
Qed.
End Core.

(** All the facts used for marginals.  [Sc], [t] stand for the arrays computed by the code. *)
Theorem schur_mat n K h m xi yi Sc :
  nr K = n -> posdef K -> Permutation (xi ++ yi)%list (List.seq 0 n) ->
  (forall i, (i < n)%coq_nat -> ent h i 0 = rsum n (fun k => ent K i k * ent m k 0)%cR) ->
  nr Sc = length xi ->
  (forall i j, (i < length xi)%coq_nat -> (j < length xi)%coq_nat ->
     ent Sc i j = (ent (msel K xi xi) i j -
       ent (mmul0 (mmul0 (msel K xi yi) (minv (msel K yi yi))) (mtr (msel K xi yi))) i j)%cR) ->
  posdef (msel K yi yi) /\ posdef Sc /\
  (forall i j, (i < length xi)%coq_nat -> (j < length xi)%coq_nat ->
     ent (minv Sc) i j = ent (msel (minv K) xi xi) i j) /\
  mdet K = (mdet (msel K yi yi) * mdet Sc)%cR /\
  (forall i, (i < length xi)%coq_nat ->
     rsum (length xi) (fun k => ent Sc i k * ent (msel m xi [:: 0%N]) k 0)%cR =
     (ent (msel h xi [:: 0%N]) i 0 -
      ent (mmul0 (mmul0 (msel K xi yi) (minv (msel K yi yi))) (msel h yi [:: 0%N])) i 0)%cR) /\
  qsum (length xi) Sc (fun i => ent (msel m xi [:: 0%N]) i 0) =
  (qsum n K (fun i => ent m i 0) - qsum (length yi) (minv (msel K yi yi)) (fun i => ent (msel h yi [:: 0%N]) i 0))%cR.
Proof.
  move=> HnK PK HP Hh HnS HS.
  have [Hin [Hnd Hlen]] := perm_inr _ _ HP.
  have Hx : inr n xi by move=> i H; apply: Hin; apply: in_or_app; left.
  have Hy : inr n yi by move=> i H; apply: Hin; apply: in_or_app; right.
  have [Nx [Ny _]] := NoDup_app_elim _ _ Hnd.
  rewrite app_length in Hlen. move: Hlen HnK Hin Hx Hy Hh HP => <- {n} HnK Hin Hx Hy Hh HP.
  set a := length xi in HnK Hin Hx Hy Hh HP HnS HS *. set b := length yi in HnK Hin Hx Hy Hh HP HnS HS *.
  have HnK' : nr K = (a + b)%N := HnK.
  have PD : posdef (msel K yi yi) by apply: posdef_sel => //; rewrite HnK.
  have := PK. rewrite posdefE HnK => PKm.
  set Km := mx_of (a + b) (a + b) K. have {}PKm : pdm (a + b) Km := PKm.
  set Q : 'M[R]_(a + b, a + b) := col_mx (selm (a + b) xi) (selm (a + b) yi).
  have QQ : Q *m Q^T = 1%:M by apply: orth_app.
  have [UQ UT] := mulmx1_unit QQ.
  have QTQ : Q^T *m Q = 1%:M.
  { have iQ : invmx Q = Q^T by rewrite -[LHS]mulmx1 -QQ mulmxA mulVmx // mul1mx.
    by rewrite -iQ mulVmx. }
  set A := mx_of a a (msel K xi xi). set B := mx_of a b (msel K xi yi). set D := mx_of b b (msel K yi yi).
  have EA : A = selm (a + b) xi *m Km *m (selm (a + b) xi)^T by apply: mx_sel.
  have EB : B = selm (a + b) xi *m Km *m (selm (a + b) yi)^T by apply: mx_sel.
  have ED : D = selm (a + b) yi *m Km *m (selm (a + b) yi)^T by apply: mx_sel.
  have SK : Km^T = Km by case: PKm.
  have SA : A^T = A by rewrite EA !trmx_mul trmxK SK mulmxA.
  have SD : D^T = D by rewrite ED !trmx_mul trmxK SK mulmxA.
  have EK : Q *m Km *m Q^T = block_mx A B B^T D.
  { rewrite /Q tr_col_mx mul_col_mx mul_col_row -EA -EB -ED. congr block_mx.
    by rewrite EB !trmx_mul trmxK SK mulmxA. }
  have PDm : pdm b D by have := PD; rewrite posdefE.
  have UD := pd_unit _ _ PDm.
  set Sm := A - B *m invmx D *m B^T.
  have ES : mx_of a a Sc = Sm.
  { apply/matrixP => i j. rewrite mx_ofE HS; try exact/ltP. rewrite /Sm [in RHS]mxE [X in _ = _ + X]mxE.
    rewrite -[B^T]mx_tr -[invmx D](mx_inv (msel K yi yi)) -!mx_mul //. by rewrite !mx_ofE. }
  have PQ : pdm (a + b) (Q *m Km *m Q^T) by apply: pd_congr.
  have iQ : invmx (Q *m Km *m Q^T) = Q *m invmx Km *m Q^T.
  { apply: perm_inv => //. exact: pd_unit. }
  have W1 : block_mx A B B^T D *m (Q *m invmx Km *m Q^T) = 1%:M.
  { rewrite -EK -iQ mulmxV //. exact: pd_unit. }
  have SI := schur_inv _ _ _ _ _ _ _ UD W1.
  have EW : ulsubmx (Q *m invmx Km *m Q^T) = mx_of a a (msel (minv K) xi xi).
  { rewrite (mx_sel _ (a + b) (a + b)) //.
    have -> : mx_of (a + b) (a + b) (minv K) = invmx Km by rewrite /Km -HnK'; exact: mx_inv.
    by rewrite /Q tr_col_mx mul_col_mx mul_col_row block_mxKul. }
  rewrite EW -/Sm in SI.
  have [US UC] := mulmx1_unit SI.
  have iS : invmx Sm = mx_of a a (msel (minv K) xi xi) by rewrite -[LHS]mulmx1 -SI mulmxA mulVmx // mul1mx.
  have PS : posdef Sc.
  { apply/posdefE. rewrite HnS -/a ES -(invmxK Sm) iS. apply: pd_inv. rewrite (mx_sel _ (a + b) (a + b)) //.
    apply: pd_congr; first exact: selm_orth.
    have -> : mx_of (a + b) (a + b) (minv K) = invmx Km by rewrite /Km -HnK'; exact: mx_inv.
    exact: pd_inv. }
  split=> //. split=> //. split; [|split; [|split]].
  - apply: mx_of_inj. rewrite -iS -ES -/a -HnS. exact: mx_inv.
  - have <- : \det (block_mx A B B^T D) = mdet K.
    { rewrite -EK perm_det // /mdet /Km. by rewrite HnK'. }
    rewrite schur_det // -/Sm -ES. by rewrite /mdet HnS.
  - set xm := mx_of (a + b) 1 m. set hm := mx_of (a + b) 1 h.
    have Eh : hm = Km *m xm.
    { apply/matrixP => i j. rewrite mx_ofE (ord1 j) Hh; last exact/ltP. rewrite mxE rsum_big.
      apply: eq_bigr => k _. by rewrite !mx_ofE. }
    set xv := mx_of a 1 (msel m xi [:: 0%N]). set yv := mx_of b 1 (msel m yi [:: 0%N]).
    have EQx : Q *m xm = col_mx xv yv by rewrite /Q mul_col_mx -!mx_sel_col.
    have EQh : Q *m hm = col_mx (mx_of a 1 (msel h xi [:: 0%N])) (mx_of b 1 (msel h yi [:: 0%N])).
    { by rewrite /Q mul_col_mx -!mx_sel_col. }
    have : Q *m hm = block_mx A B B^T D *m col_mx xv yv.
    { by rewrite Eh -EK -EQx -!mulmxA (mulmxA Q^T) QTQ mul1mx. }
    rewrite EQh mul_block_col => /eq_col_mx [Ehx Ehy].
    have C1 := core_h a b A B D xv yv UD. rewrite -Ehx -Ehy -/Sm -ES in C1.
    move=> i /ltP hi. move/matrixP: C1 => /(_ (Ordinal hi) ord0).
    rewrite [in X in X = _]mxE rsum_big.
    have -> : \sum_j mx_of a a Sc (Ordinal hi) j * xv j ord0 =
              \sum_(i0 < length xi) (ent Sc i i0 * ent (msel m xi [:: 0%N]) i0 0)%cR.
    { apply: eq_bigr => k _. by rewrite !mx_ofE. }
    move=> ->. rewrite mxE [X in _ + X]mxE.
    rewrite -[invmx D](mx_inv (msel K yi yi)) -!mx_mul //. by rewrite !mx_ofE.
  - set xm := mx_of (a + b) 1 m. set hm := mx_of (a + b) 1 h.
    have Eh : hm = Km *m xm.
    { apply/matrixP => i j. rewrite mx_ofE (ord1 j) Hh; last exact/ltP. rewrite mxE rsum_big.
      apply: eq_bigr => k _. by rewrite !mx_ofE. }
    set xv := mx_of a 1 (msel m xi [:: 0%N]). set yv := mx_of b 1 (msel m yi [:: 0%N]).
    have EQx : Q *m xm = col_mx xv yv by rewrite /Q mul_col_mx -!mx_sel_col.
    have EQh : Q *m hm = col_mx (mx_of a 1 (msel h xi [:: 0%N])) (mx_of b 1 (msel h yi [:: 0%N])).
    { by rewrite /Q mul_col_mx -!mx_sel_col. }
    have : Q *m hm = block_mx A B B^T D *m col_mx xv yv.
    { by rewrite Eh -EK -EQx -!mulmxA (mulmxA Q^T) QTQ mul1mx. }
    rewrite EQh mul_block_col => /eq_col_mx [Ehx Ehy].
    have C1 := core_q a b A B D xv yv SA SD UD. rewrite -Ehy -/Sm -ES in C1.
    have E1 : (col_mx xv yv)^T *m block_mx A B B^T D *m col_mx xv yv = xm^T *m Km *m xm.
    { rewrite -EQx -EK trmx_mul -!mulmxA (mulmxA Q^T Q) QTQ mul1mx (mulmxA Q^T Q) QTQ mul1mx. by []. }
    rewrite E1 in C1. move/matrixP: C1 => /(_ ord0 ord0).
    rewrite (qf_qsum a Sc xv (fun i => ent (msel m xi [:: 0%N]) i 0)); last by move=> i; rewrite mx_ofE.
    move=> ->. rewrite mxE [X in _ + X]mxE.
    rewrite (qf_qsum (a + b) K xm (fun i => ent m i 0)); last by move=> i; rewrite mx_ofE.
    rewrite -[invmx D](mx_inv (msel K yi yi)).
    rewrite (qf_qsum b (minv (msel K yi yi)) _ (fun i => ent (msel h yi [:: 0%N]) i 0)); last by move=> i; rewrite mx_ofE.
    by [].
Qed.

(** Reordering rows and columns alike. *)
Lemma msel_perm_det A l : Permutation l (List.seq 0 (nr A)) -> mdet (msel A l l) = mdet A.
Proof.
  move=> P. have [Hi [N L]] := perm_inr _ _ P. have Hl : inr (length l) l by rewrite L.
  have -> : mdet A = determinant (mx_of (length l) (length l) A) by rewrite /mdet L.
  rewrite /mdet /= (mx_sel A (length l) (length l)) //. apply: perm_det. exact: selm_orth.
Qed.
Lemma msel_perm_inv A l : Permutation l (List.seq 0 (nr A)) -> mdet A <> R0 ->
  forall i j, (i < length l)%coq_nat -> (j < length l)%coq_nat ->
  ent (minv (msel A l l)) i j = ent (msel (minv A) l l) i j.
Proof.
  move=> P D. have [Hi [N L]] := perm_inr _ _ P. apply: mx_of_inj.
  have Hl : inr (length l) l by rewrite L.
  rewrite (mx_inv (msel A l l)) /= !(mx_sel _ (length l) (length l)) //.
  have -> : mx_of (length l) (length l) (minv A) = invmx (mx_of (length l) (length l) A) by rewrite L mx_inv.
  apply: perm_inv; first exact: selm_orth. rewrite L. exact/mdet_unit.
Qed.
Lemma symm_sel A l : symm A -> inr (nr A) l -> symm (msel A l l).
Proof.
  move=> S H i j /= Hi Hj. by apply: S; apply: H; apply: List.nth_In.
Qed.
