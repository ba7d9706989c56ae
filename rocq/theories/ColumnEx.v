(** An example of a Gaussian made from a row. *)
From Coq Require Import String List Reals Lia.
Import ListNotations.
From Verif Require Import ColumnFacts.
Local Open Scope string_scope.
Local Open Scope nat_scope.
Local Open Scope list_scope.
Lemma column_ex : (exists r, mk_cov ["a"; "b"] (meye 2) (Mat 1 2 (fun _ j => INR j)) (Fin 0) = Ok r /\
    exists C m, ga_cov r = Some (C, m, Fin 0) /\ nr m = 2 /\ nc m = 1 /\ ent m 1 0 = 1%R) /\ 1 < nr (meye 2) /\ 1 < nc (meye 2).
Proof.
  split; [|split; cbn; lia]. eexists. split; [reflexivity|]. do 2 eexists. cbn [ga_cov]. split; [reflexivity|]. repeat split.
Qed.
