(** Property C163: a Gaussian may be given its mean (or h vector) as a row or as a column. *)
From Coq Require Import String List Reals.
Import ListNotations.
From Verif Require Import ColumnFacts ColumnEx.
Local Open Scope string_scope.
Local Open Scope nat_scope.
Local Open Scope list_scope.

(** A row of n numbers gives the same Gaussian (or the same error) as the column of the same numbers. *)
Theorem c163_row vars C n f w : n <> 1 ->
  mk_cov vars C (Mat 1 n f) w = mk_cov vars C (Mat n 1 (fun i _ => f 0 i)) w /\
  mk_can vars C (Mat 1 n f) w = mk_can vars C (Mat n 1 (fun i _ => f 0 i)) w.
Proof. exact (mk_row vars C n f w). Qed.
Print Assumptions c163_row.
(** A matrix with several rows and several columns is refused. *)
Theorem c163_wide vars C m w : 1 < nr m -> 1 < nc m -> (forall r, mk_cov vars C m w <> Ok r) /\ forall r, mk_can vars C m w <> Ok r.
Proof. exact (mk_wide vars C m w). Qed.
Print Assumptions c163_wide.
Example c163_nonvacuous : (exists r, mk_cov ["a"; "b"] (meye 2) (Mat 1 2 (fun _ j => INR j)) (Fin 0) = Ok r /\
    exists C m, ga_cov r = Some (C, m, Fin 0) /\ nr m = 2 /\ nc m = 1 /\ ent m 1 0 = 1%R) /\ 1 < nr (meye 2) /\ 1 < nc (meye 2).
Proof. exact column_ex. Qed.
