(** Conversion of constructor arguments: make_scalar, make_column_vector, list_to_square_matrix,
    make_square_matrix, the base class constructor and the Gaussian constructor on Python objects. *)
From Coq Require Import String Ascii.
From Verif Require Export GaussModel.
Local Open Scope nat_scope.
Local Open Scope list_scope.

(** Python objects that can be passed as parameters.  [PNum]: an int, float, bool or numpy.float64
    (the instances of (int, float)).  [PNpInt]: a numpy integer, which is no instance of int.
    [PArr]: an array with its shape and its entries in row-major order; the flag says whether the
    entries are integers.  [PNone]: an object without length that numpy reads as one entry. *)
Inductive pyobj :=
  | PNum (x : val) | PNpInt (x : val) | PList (l : list pyobj) | PTuple (l : list pyobj)
  | PArr (isint : bool) (shape : list nat) (data : list val) | PStr (s : string) | PNone.
Definition is_number (x : pyobj) : bool := match x with PNum _ => true | _ => false end.

(** The shape and the entries of [np.array(obj)]; [None] stands for an entry that is no number.
    Simplifications: nested sequences of unequal shapes raise ValueError (as from numpy 1.24 on);
    numbers next to strings stay numbers. *)
Fixpoint np_shape (x : pyobj) : option (list nat) :=
  let seq := fix seq (l : list pyobj) : option (option (list nat)) :=
    match l with
    | [] => Some None
    | y :: r => match np_shape y, seq r with
                | Some s, Some None => Some (Some s)
                | Some s, Some (Some t) => if eqb s t then Some (Some s) else None
                | _, _ => None
                end
    end in
  match x with
  | PArr _ s _ => Some s
  | PList l | PTuple l => match seq l with Some None => Some [0] | Some (Some s) => Some (length l :: s) | None => None end
  | _ => Some []
  end.
Fixpoint np_data (x : pyobj) : list (option val) :=
  match x with
  | PNum v | PNpInt v => [Some v]
  | PArr _ _ d => map Some d
  | PList l | PTuple l => flat_map np_data l
  | PStr _ | PNone => [None]
  end.
Definition ndarr : Type := (list nat * list (option val))%type.
Definition np_array (x : pyobj) : res ndarr := match np_shape x with Some s => Ok (s, np_data x) | None => Err ValueError end.
(** [len(obj)] and [obj[0]]. *)
Definition py_len (x : pyobj) : res nat :=
  match x with
  | PList l | PTuple l => Ok (length l)
  | PStr s => Ok (String.length s)
  | PArr _ (n :: _) _ => Ok n
  | _ => Err TypeError
  end.
Definition py_first (x : pyobj) : res pyobj :=
  match x with
  | PList (y :: _) | PTuple (y :: _) => Ok y
  | PStr (String c _) => Ok (PStr (String c EmptyString))
  | PArr b (S _ :: []) (v :: _) => Ok (if b then PNpInt v else PNum v)
  | PArr b (S _ :: s) d => Ok (PArr b s (firstn (fold_right Nat.mul 1 s) d))
  | PList [] | PTuple [] | PStr EmptyString | PArr _ _ _ => Err IndexError
  | _ => Err TypeError
  end.

(** _factor_utils.py:77-94 make_scalar; [np.ndarray.min] of an array without entries: ValueError. *)
Definition vmin (x y : val) : val := match x, y with NaN, _ | _, NaN => NaN | _, _ => if vltb y x then y else x end.
Definition make_scalar (x : pyobj) : res pyobj :=
  match x with
  | PArr b s d =>
      let* n := py_len x in
      let* _ := raise_if (negb (Nat.eqb n 1)) ValueError in
      match d with [] => Err ValueError | v :: r => Ok (let m := fold_left vmin r v in if b then PNpInt m else PNum m) end
  | PList l =>
      let* _ := raise_if (negb (Nat.eqb (length l) 1)) ValueError in
      match l with y :: _ => Ok y | [] => Err IndexError end
  | PNum _ => Ok x
  | _ => Err TypeError
  end.

(** _factor_utils.py:97-113 make_column_vector: the entries of the column. *)
Definition to_column (x : pyobj) : res (list (option val)) :=
  match x with
  | PArr _ s d =>
      let* _ := py_assert (negb (Nat.ltb 1 (length s) && forallb (Nat.ltb 1) s)) in Ok (np_data x)
  | _ => let* a := np_array x in Ok (snd a)
  end.

(** _factor_utils.py:117-146 list_to_square_matrix. *)
Definition check_square (a : ndarr) : res ndarr :=
  match fst a with
  | n :: m :: r => let* _ := raise_if (negb (Nat.eqb n m) || Nat.ltb 0 (length r)) ValueError in Ok a
  | _ => Err IndexError
  end.
Definition list_to_square (l : list pyobj) : res ndarr :=
  match l with
  | [] => Err ValueError
  | [x] =>
      if is_number x then check_square ([1; 1], np_data x) else
      let* n := py_len x in
      let* _ := raise_if (negb (Nat.eqb n 1)) ValueError in
      let* y := py_first x in
      if is_number y then let* a := np_array (PList l) in check_square a
      else Err UnboundLocalError (* 143: matrix is not assigned *)
  | _ =>
      let* _ := mapM (fun x => match x with
                               | PList r => raise_if (negb (Nat.eqb (length r) (length l))) ValueError
                               | _ => Err ValueError
                               end) l in
      let* a := np_array (PList l) in check_square a
  end.
(** _factor_utils.py:149-166 make_square_matrix. *)
Definition to_square (x : pyobj) : res ndarr :=
  match x with
  | PNum v => Ok ([1; 1], [Some v])
  | PList l => list_to_square l
  | PArr _ s d =>
      let* _ := raise_if (negb (Nat.eqb (length s) 2)) ValueError in
      let* _ := py_assert (match s with n :: m :: _ => Nat.eqb n m | _ => false end) in
      Ok (s, map Some d)
  | _ => Err ValueError
  end.

(** _factor.py:18-29 Factor.__init__: the names and the dimension. *)
Inductive pynames := NStr (s : string) | NList (l : list string).
Fixpoint chars (s : string) : list string := match s with EmptyString => [] | String c r => String c EmptyString :: chars r end.
Definition factor_init (vs : pynames) : res (list string * nat) :=
  let l := match vs with NStr s => chars s | NList l => l end in
  let* _ := raise_if (negb (nodupb l)) ValueError in
  Ok (match vs with NStr s => [s] | NList l => l end, length l).

(** gaussian.py:139-206 Gaussian.__init__.  Simplifications: the matrices of the model have real
    entries and the weights are numbers, so an entry that is no finite number is read as 0 and a
    weight that is no number as NaN; the theorems are about finite entries and numbers. *)
Definition entry0 (x : option val) : R := match x with Some (Fin r) => r | _ => 0%R end.
Definition square_of (a : ndarr) : mat :=
  let n := match fst a with n :: _ => n | [] => 0 end in
  Mat n n (fun i j => entry0 (nth (i * n + j) (snd a) None)).
Definition column_of (d : list (option val)) : mat := Mat (length d) 1 (fun i _ => entry0 (nth i d None)).
Definition number_of (x : pyobj) : val := match x with PNum v | PNpInt v => v | _ => NaN end.
Definition is_none {A} (x : option A) : bool := match x with None => true | Some _ => false end.
Definition gaussian_init (vs : option pynames) (cov mean w prec h g : option pyobj) : res gauss :=
  match vs with
  | None => Err ValueError
  | Some vs =>
      let* nd := factor_init vs in
      let '(names, dim) := nd in
      if is_none prec && is_none h && is_none g then
        match cov, mean, w with
        | Some cov, Some mean, Some w =>
            let* C := to_square cov in
            let* m := to_column mean in
            let* _ := py_assert (Nat.eqb (nr (square_of C)) dim) in
            let* _ := py_assert (Nat.eqb (length m) dim) in
            let* w := make_scalar w in
            Ok {| ga_vars := names; ga_vac := false; ga_can := None; ga_cov := Some (square_of C, column_of m, number_of w) |}
        | _, _, _ => Err ValueError
        end
      else
        match prec, h, g with
        | Some prec, Some h, Some g =>
            let* K := to_square prec in
            let* v := to_column h in
            let* _ := py_assert (Nat.eqb (nr (square_of K)) dim) in
            let* _ := py_assert (Nat.eqb (length v) dim) in
            let* g := make_scalar g in
            Ok {| ga_vars := names; ga_vac := prec_vacuous (square_of K); ga_can := Some (square_of K, column_of v, number_of g); ga_cov := None |}
        | _, _, _ => Err ValueError
        end
  end.
