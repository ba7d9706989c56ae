(** Further numpy operations on two-dimensional arrays (see Mat.v). *)
From Verif Require Export Mat.
#[global] Set Bullet Behavior "Strict Subproofs".
#[global] Open Scope R_scope.
#[global] Open Scope nat_scope.

(** The sum of [f 0 .. f (n-1)]. *)
Definition rsum (n : nat) (f : nat -> R) : R := Rsum (map f (seq 0 n)).

(** [A @ B]: ValueError unless the inner dimensions agree. *)
Definition mmul0 (A B : mat) : mat :=
  Mat (nr A) (nc B) (fun i j => rsum (nc A) (fun k => (ent A i k * ent B k j)%R)).
Definition mmul (A B : mat) : res mat :=
  if Nat.eqb (nc A) (nr B) then Ok (mmul0 A B) else Err ValueError.
(** [A.T], [c * A]. *)
Definition mtr (A : mat) : mat := Mat (nc A) (nr A) (fun i j => ent A j i).
Definition mscal (c : R) (A : mat) : mat := Mat (nr A) (nc A) (fun i j => (c * ent A i j)%R).
(** [A + B], [A - B] with the broadcasting rule of numpy (an axis of length one is
    repeated); ValueError when the shapes do not fit. *)
Definition bdim (m n : nat) : res nat :=
  if Nat.eqb m n then Ok m else if Nat.eqb m 1 then Ok n else if Nat.eqb n 1 then Ok m else Err ValueError.
Definition bix (d i : nat) : nat := if Nat.eqb d 1 then 0 else i.
Definition mzip (op : R -> R -> R) (A B : mat) : res mat :=
  let* r := bdim (nr A) (nr B) in
  let* c := bdim (nc A) (nc B) in
  Ok (Mat r c (fun i j => op (ent A (bix (nr A) i) (bix (nc A) j)) (ent B (bix (nr B) i) (bix (nc B) j)))).
Definition madd := mzip Rplus.
Definition msub := mzip Rminus.
(** [A[np.ix_(rows, cols)]]: IndexError when an index is out of range. *)
Definition mix (A : mat) (rows cols : list nat) : res mat :=
  if forallb (fun i => Nat.ltb i (nr A)) rows && forallb (fun j => Nat.ltb j (nc A)) cols then
    Ok (Mat (length rows) (length cols) (fun i j => ent A (nth i rows 0) (nth j cols 0)))
  else Err IndexError.
(** [np.zeros([n, m])], [np.eye(n)]. *)
Definition mzeros (n m : nat) : mat := Mat n m (fun _ _ => 0%R).
Definition meye (n : nat) : mat := Mat n n (fun i j => if Nat.eqb i j then 1%R else 0%R).
(** A column vector from a list. *)
Definition mcol (l : list R) : mat := Mat (length l) 1 (fun i _ => nth i l 0%R).

(** Two arrays are the same array: same shape, same entries. *)
Definition meq (A B : mat) : Prop :=
  nr A = nr B /\ nc A = nc B /\ forall i j, i < nr A -> j < nc A -> ent A i j = ent B i j.
