(** Coq's real numbers as a field of the Mathematical Components library, so that its
    matrices, inverses and determinants can be used.  Nothing here models the code. *)
#[global] Set Warnings "-notation-overridden,-ambiguous-paths,-redundant-canonical-projection".
From Coq Require Import Reals Lra ClassicalEpsilon.
From mathcomp Require Import all_ssreflect ssralg.

Lemma R_eq_axiom : Equality.axiom (fun x y : R => if Req_EM_T x y then true else false).
Proof. by move=> x y; case: Req_EM_T => h; constructor. Qed.
Canonical R_eqType := Eval hnf in EqType R (EqMixin R_eq_axiom).

Definition R_find (P : pred R) (n : nat) : option R :=
  match excluded_middle_informative (exists x, P x) with
  | left h => Some (proj1_sig (constructive_indefinite_description _ h))
  | right _ => None
  end.
Lemma R_find_sound P n x : R_find P n = Some x -> P x.
Proof. by rewrite /R_find; case: excluded_middle_informative => // h; case: constructive_indefinite_description => y Py /= [<-]. Qed.
Lemma R_find_complete (P : pred R) : (exists x, P x) -> exists n, R_find P n.
Proof. by move=> h; exists 0; rewrite /R_find; case: excluded_middle_informative. Qed.
Lemma R_find_ext (P Q : pred R) : P =1 Q -> R_find P =1 R_find Q.
Proof.
move=> PQ n; rewrite /R_find.
case: excluded_middle_informative => [h|h]; case: excluded_middle_informative => [h'|h'] //.
- congr Some; have E : (fun x => is_true (P x)) = (fun x => is_true (Q x)).
    by apply: FunctionalExtensionality.functional_extensionality => x; rewrite PQ.
  move: h h'; rewrite E => h h'.
  by rewrite (Classical_Prop.proof_irrelevance _ h h').
- by case: h'; case: h => x; rewrite PQ; exists x.
- by case: h; case: h' => x; rewrite -PQ; exists x.
Qed.
Definition R_choiceMixin : choiceMixin R := Choice.Mixin R_find_sound R_find_complete R_find_ext.
Canonical R_choiceType := Eval hnf in ChoiceType R R_choiceMixin.

Lemma RplusA : associative Rplus. Proof. by move=> x y z; ring. Qed.
Lemma RmultA : associative Rmult. Proof. by move=> x y z; ring. Qed.
Definition R_zmodMixin := ZmodMixin RplusA Rplus_comm Rplus_0_l Rplus_opp_l.
Canonical R_zmodType := Eval hnf in ZmodType R R_zmodMixin.
Lemma R1_neq0 : R1 != R0.
Proof. by apply/eqP; exact: R1_neq_R0. Qed.
Definition R_ringMixin := RingMixin RmultA Rmult_1_l Rmult_1_r Rmult_plus_distr_r Rmult_plus_distr_l R1_neq0.
Canonical R_ringType := Eval hnf in RingType R R_ringMixin.
Canonical R_comRingType := Eval hnf in ComRingType R Rmult_comm.

Definition Rinvx (x : R) : R := if x == R0 then x else Rinv x.
Lemma RmultVx : forall x : R, x != R0 -> Rmult (Rinvx x) x = R1.
Proof. by move=> x x0; rewrite /Rinvx (negbTE x0); apply: Rinv_l; apply/eqP. Qed.
Lemma Rinvx0 : Rinvx R0 = R0.
Proof. by rewrite /Rinvx eqxx. Qed.
Definition R_fieldUnitMixin := FieldUnitMixin RmultVx Rinvx0.
Canonical R_unitRingType := Eval hnf in UnitRingType R R_fieldUnitMixin.
Canonical R_comUnitRingType := Eval hnf in [comUnitRingType of R].
Lemma R_field : GRing.Field.mixin_of R_unitRingType.
Proof. by []. Qed.
Canonical R_idomainType := Eval hnf in IdomainType R (FieldIdomainMixin R_field).
Canonical R_fieldType := Eval hnf in FieldType R R_field.
