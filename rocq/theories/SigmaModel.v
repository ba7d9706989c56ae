(** Model of veroku/factors/_sigma_points.py.  Simplification: [np.cov] of an array with one
    row is an array without axes; here it is the 1 by 1 array (the only caller with a joint
    array always has at least two rows when the transform returns at least one). *)
From Verif Require Export GaussModel.

(** [np.concatenate] of two arrays along axis 1 and along axis 0: ValueError when the other
    axis differs. *)
Definition hcat (A B : mat) : res mat :=
  if Nat.eqb (nr A) (nr B)
  then Ok (Mat (nr A) (nc A + nc B) (fun i j => if Nat.ltb j (nc A) then ent A i j else ent B i (j - nc A)))
  else Err ValueError.
Definition vcat (A B : mat) : res mat :=
  if Nat.eqb (nc A) (nc B)
  then Ok (Mat (nr A + nr B) (nc A) (fun i j => if Nat.ltb i (nr A) then ent A i j else ent B (i - nr A) j))
  else Err ValueError.

(** [np.linalg.cholesky]: the lower triangular factor, computed column by column from the
    lower triangle; LinAlgError when a pivot is not positive or the array is not square. *)
Fixpoint chol_fn (n : nat) (A : nat -> nat -> R) : option (nat -> nat -> R) :=
  match n with
  | 0 => Some (fun _ _ => 0%R)
  | S n' =>
      if Rlt_b 0 (A 0 0) then
        match chol_fn n' (fun i j => (A (S i) (S j) - A (S i) 0%nat * A (S j) 0%nat / A 0%nat 0%nat)%R) with
        | Some L => Some (fun i j => match i, j with
                                     | 0, 0 => sqrt (A 0 0)
                                     | S i', 0 => (A (S i') 0%nat / sqrt (A 0%nat 0%nat))%R
                                     | 0, S _ => 0%R
                                     | S i', S j' => L i' j'
                                     end)
        | None => None
        end
      else None
  end.
Definition np_cholesky (A : mat) : res mat :=
  if Nat.eqb (nr A) (nc A) then
    match chol_fn (nr A) (ent A) with Some L => Ok (Mat (nr A) (nr A) L) | None => Err LinAlgError end
  else Err LinAlgError.

(** _sigma_points.py:9-25 get_sigma_points_array (the argument after the call comes first). *)
Definition sigma_array (m L : mat) : res mat :=
  let k := sqrt (INR (nr L) + 1 / 2) in
  let* neg := msub m (mscal k L) in
  let* pos := madd m (mscal k L) in
  let* a := hcat neg m in
  hcat a pos.
Definition get_sigma_points_array (f : gauss) : res (gauss * mat) :=
  let* r := get_cov f in
  let '(C, m, _) := snd r in
  let* L := np_cholesky C in
  let* a := sigma_array m L in
  Ok (fst r, a).

(** _sigma_points.py:28-37 sigma_point_array_to_gaussian_params: [np.mean] over axis 1 and
    [np.cov(.., bias=1)]. *)
Definition mean_cols (X : mat) : mat := Mat (nr X) 1 (fun i _ => (rsum (nc X) (fun k => ent X i k) / INR (nc X))%R).
Definition cov_bias (X : mat) : mat :=
  Mat (nr X) (nr X) (fun i j =>
    (rsum (nc X) (fun k => (ent X i k - ent (mean_cols X) i 0) * (ent X j k - ent (mean_cols X) j 0)) / INR (nc X))%R).
Definition array_to_params (X : mat) : mat * mat := (cov_bias X, mean_cols X).
(** _sigma_points.py:40-48 sigma_points_to_gaussian_params. *)
Definition points_to_params (l : list mat) : res (mat * mat) :=
  match l with
  | [] => Err ValueError
  | x :: xs => let* X := foldM hcat xs x in Ok (array_to_params X)
  end.
(** _sigma_points.py:51-64 sigma_points_array_to_joint_params. *)
Definition joint_params (X : mat) (transform : mat -> list string -> res mat) (names : list string) : res (mat * mat) :=
  let* T := transform X names in
  let* J := vcat X T in
  Ok (array_to_params J).
