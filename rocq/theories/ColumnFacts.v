(** Shapes of the parameters handed to the constructor of Gaussians. *)
From Coq Require Import String List Reals Arith Lia.
Import ListNotations.
From Verif Require Export GaussModel.
From Verif Require Import BaseFacts.
Local Open Scope string_scope.
Local Open Scope nat_scope.
Local Open Scope list_scope.

Lemma column_row n f : n <> 1 -> make_column_vector (Mat 1 n f) = Ok (Mat n 1 (fun i _ => f 0 i)).
Proof.
  intros N. unfold make_column_vector. cbn [nr nc]. replace (1 <? 1) with false by reflexivity. cbn [andb negb py_assert bind].
  destruct (Nat.eqb_spec n 1); [contradiction|]. now rewrite Nat.mul_1_l.
Qed.
Lemma column_column n f : make_column_vector (Mat n 1 f) = Ok (Mat n 1 f).
Proof. unfold make_column_vector. cbn [nr nc]. rewrite Bool.andb_comm. reflexivity. Qed.
Lemma column_wide A : 1 < nr A -> 1 < nc A -> make_column_vector A = Err AssertionError.
Proof. intros H1 H2. apply Nat.ltb_lt in H1, H2. unfold make_column_vector. now rewrite H1, H2. Qed.
Lemma mk_row vars C n f w : n <> 1 ->
  mk_cov vars C (Mat 1 n f) w = mk_cov vars C (Mat n 1 (fun i _ => f 0 i)) w /\
  mk_can vars C (Mat 1 n f) w = mk_can vars C (Mat n 1 (fun i _ => f 0 i)) w.
Proof. intros N. unfold mk_cov, mk_can. rewrite (column_row n f N), column_column. split; reflexivity. Qed.
Lemma mk_wide vars C m w : 1 < nr m -> 1 < nc m -> (forall r, mk_cov vars C m w <> Ok r) /\ forall r, mk_can vars C m w <> Ok r.
Proof.
  intros H1 H2. unfold mk_cov, mk_can. rewrite (column_wide m H1 H2).
  destruct (raise_if (negb (nodupb vars)) ValueError); cbn [bind]; [|split; discriminate].
  destruct (make_square_matrix C); cbn [bind]; split; discriminate.
Qed.
