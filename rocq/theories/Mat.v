(** Two-dimensional numpy arrays of floats and the numpy.linalg functions used by
    veroku/factors/gaussian.py.  An array is a number of rows, a number of columns and a
    function giving its entries; only entries inside the shape mean anything.
    Simplifications: entries are exact real numbers (no rounding, infinities or NaN inside
    arrays); [np.linalg.inv] and [np.linalg.det] are the exact inverse and determinant (of
    Mathematical Components), so a matrix counts as singular exactly when its determinant is 0. *)
From Verif Require Export LogVal.
From Verif Require Import Rfield.
From mathcomp Require Import all_ssreflect ssralg matrix.

Record mat := Mat { nr : nat; nc : nat; ent : nat -> nat -> R }.

(** The entries as a Mathematical Components matrix and back. *)
Definition mx_of (n m : nat) (A : mat) : 'M[R]_(n, m) := \matrix_(i < n, j < m) ent A i j.
Definition of_mx {n m : nat} (M : 'M[R]_(n, m)) : mat :=
  Mat n m (fun i j => match insub i : option 'I_n, insub j : option 'I_m with
                      | Some i', Some j' => M i' j'
                      | _, _ => R0
                      end).
Definition mdet (A : mat) : R := determinant (mx_of (nr A) (nr A) A).
Definition minv (A : mat) : mat := of_mx (invmx (mx_of (nr A) (nr A) A)).

(** [np.linalg.det], [np.linalg.inv]: LinAlgError for a non-square array; inv also for a
    singular one. *)
Definition np_det (A : mat) : res R :=
  if Nat.eqb (nr A) (nc A) then Ok (mdet A) else Err LinAlgError.
Definition np_inv (A : mat) : res mat :=
  if Nat.eqb (nr A) (nc A) then
    if Req_b (mdet A) R0 then Err LinAlgError else Ok (minv A)
  else Err LinAlgError.
