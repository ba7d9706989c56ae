(** Floating point values of the tables: exact extended reals with the IEEE-754 rules for
    infinities and NaN.  Simplification: finite arithmetic is exact (Coq's R), there is no
    rounding, overflow or underflow. *)
From Coq Require Export Reals Lra.
From Verif Require Export Base.
#[global] Open Scope nat_scope.

Inductive val := NInf | Fin (r : R) | PInf | NaN.

Definition Req_b (x y : R) : bool := if Req_EM_T x y then true else false.
Definition Rlt_b (x y : R) : bool := if Rlt_dec x y then true else false.
Definition Rle_b (x y : R) : bool := if Rle_dec x y then true else false.

(** [x + y], [-x], [x - y], [x * y] on floats. *)
Definition vadd (x y : val) : val :=
  match x, y with
  | NaN, _ | _, NaN => NaN
  | NInf, PInf | PInf, NInf => NaN
  | NInf, _ | _, NInf => NInf
  | PInf, _ | _, PInf => PInf
  | Fin a, Fin b => Fin (a + b)
  end.
Definition vopp (x : val) : val :=
  match x with NInf => PInf | PInf => NInf | NaN => NaN | Fin a => Fin (- a) end.
Definition vsub (x y : val) : val := vadd x (vopp y).
Definition vmul_inf (pos : bool) (a : R) : val :=
  if Req_b a 0 then NaN else if Rlt_b 0 a then (if pos then PInf else NInf)
  else (if pos then NInf else PInf).
Definition vmul (x y : val) : val :=
  match x, y with
  | NaN, _ | _, NaN => NaN
  | Fin a, Fin b => Fin (a * b)
  | Fin a, PInf | PInf, Fin a => vmul_inf true a
  | Fin a, NInf | NInf, Fin a => vmul_inf false a
  | PInf, PInf | NInf, NInf => PInf
  | PInf, NInf | NInf, PInf => NInf
  end.

(** Python [==], [!=], [<], [<=] on floats (every comparison with NaN is False, so [!=] is
    True). *)
Definition veqb (x y : val) : bool :=
  match x, y with
  | NInf, NInf | PInf, PInf => true
  | Fin a, Fin b => Req_b a b
  | _, _ => false
  end.
Definition vneb (x y : val) : bool := negb (veqb x y).
Definition vltb (x y : val) : bool :=
  match x, y with
  | NaN, _ | _, NaN => false
  | NInf, NInf => false
  | NInf, _ => true
  | Fin _, NInf => false
  | Fin a, Fin b => Rlt_b a b
  | Fin _, PInf => true
  | PInf, _ => false
  end.
Definition vleb (x y : val) : bool := vltb x y || veqb x y.

(** [np.exp] and [np.log]; the log of a negative number is NaN (with a warning). *)
Definition vexp (x : val) : val :=
  match x with NInf => Fin 0 | Fin a => Fin (exp a) | PInf => PInf | NaN => NaN end.
Definition rlog (p : R) : val :=
  if Rlt_b 0 p then Fin (ln p) else if Req_b p 0 then NInf else NaN.

(** [np.sum] of a list of floats. *)
Definition vsum (l : list val) : val := fold_left vadd l (Fin 0).

(** [scipy.special.logsumexp] over a list: ValueError on an empty list (numpy's maximum of
    an empty array); otherwise log of the sum of exponentials with IEEE special values. *)
Definition is_nan (x : val) : bool := match x with NaN => true | _ => false end.
Definition is_pinf (x : val) : bool := match x with PInf => true | _ => false end.
(** The potential (probability) that a finite or -inf log value stands for. *)
Definition pot (x : val) : R := match x with Fin a => exp a | _ => 0%R end.
Definition Rsum (l : list R) : R := fold_right Rplus 0%R l.
Definition lse (l : list val) : val :=
  if existsb is_nan l then NaN
  else if existsb is_pinf l then PInf
  else rlog (Rsum (map pot l)).
Definition logsumexp (l : list val) : res val :=
  match l with [] => Err ValueError | _ => Ok (lse l) end.

(** [np.isclose(a, b, rtol, atol)]: |a-b| <= atol + rtol*|b| for finite values, equality
    for infinities, False with NaN. *)
Definition visclose (a b : val) (rtol atol : R) : bool :=
  match a, b with
  | Fin x, Fin y => Rle_b (Rabs (x - y)) (atol + rtol * Rabs y)
  | _, _ => veqb a b
  end.

(** A log value that stands for a finite probability weight. *)
Definition is_lp (x : val) : Prop := match x with NInf | Fin _ => True | _ => False end.
