(** The numpy operations used by veroku/factors/categorical.py.  An array is a shape and a
    function from index tuples to elements; only index tuples inside the shape mean anything.
    Simplification: memory layout and dtypes are abstracted, a numpy scalar is a 0-d array. *)
From Coq Require Import ZArith.
From Verif Require Export LogVal.

Record tensor (A : Type) := { tshape : list nat; tget : list nat -> A }.
Arguments Build_tensor {A} _ _.
Arguments tshape {A} _.
Arguments tget {A} _ _.

Definition ndim {A} (t : tensor A) : nat := length (tshape t).
(** All index tuples in C (row major) order: [np.ndindex(shape)]. *)
Definition tindices {A} (t : tensor A) : list (list nat) := assignments (tshape t).
(** The elements in C order ([t.ravel()]). *)
Definition telems {A} (t : tensor A) : list A := map (tget t) (tindices t).
Definition tmap {A B} (f : A -> B) (t : tensor A) : tensor B :=
  {| tshape := tshape t; tget := fun i => f (tget t i) |}.
(** [np.zeros(shape)], [np.ones(shape) * c]. *)
Definition tconst {A} (shape : list nat) (c : A) : tensor A := {| tshape := shape; tget := fun _ => c |}.

(** The position of [i] in [l] (used on lists known to contain it). *)
Definition posn {A} {E : EqDec A} (i : A) (l : list A) : nat :=
  match index_opt i l with Some k => k | None => 0 end.

(** [t.transpose(axes)] (numpy manual: axis j of the result is axis axes[j] of [t];
    ValueError unless [axes] is a permutation of the axes). *)
Definition transpose {A} (t : tensor A) (axes : list nat) : res (tensor A) :=
  if Nat.eqb (length axes) (ndim t) && nodupb axes && forallb (fun a => Nat.ltb a (ndim t)) axes then
    Ok {| tshape := map (fun a => nth a (tshape t) 0) axes;
          tget := fun idx => tget t (map (fun i => nth (posn i axes) idx 0) (seq 0 (ndim t))) |}
  else Err ValueError.

(** [np.expand_dims(t, axis=axes)]: new axes of length one at the positions [axes] of the
    result.  The callers only pass distinct in-range positions, so numpy's axis errors are
    not modelled. *)
Fixpoint expand_from {A} (pos n : nat) (axes : list nat) (one : A) (l : list A) : list A :=
  match n with
  | 0 => []
  | S n' => if mem pos axes then one :: expand_from (S pos) n' axes one l
            else match l with
                 | x :: l' => x :: expand_from (S pos) n' axes one l'
                 | [] => []
                 end
  end.
Fixpoint drop_from {A} (pos : nat) (axes : list nat) (l : list A) : list A :=
  match l with
  | [] => []
  | x :: l' => if mem pos axes then drop_from (S pos) axes l' else x :: drop_from (S pos) axes l'
  end.
Definition expand_dims {A} (t : tensor A) (axes : list nat) : tensor A :=
  {| tshape := expand_from 0 (length axes + ndim t) axes 1 (tshape t);
     tget := fun idx => tget t (drop_from 0 axes idx) |}.

(** Broadcasting (numpy manual): shapes are aligned at the last axis; two lengths are
    compatible when they are equal or one of them is 1; ValueError otherwise. *)
Definition pad_shape (n : nat) (s : list nat) : list nat := repeat 1 (n - length s) ++ s.
Fixpoint bshape (s1 s2 : list nat) : res (list nat) :=
  match s1, s2 with
  | [], [] => Ok []
  | a :: s1', b :: s2' =>
      let* r := bshape s1' s2' in
      if Nat.eqb a b then Ok (a :: r)
      else if Nat.eqb a 1 then Ok (b :: r)
      else if Nat.eqb b 1 then Ok (a :: r)
      else Err ValueError
  | _, _ => Err ValueError
  end.
Definition broadcast_shapes (s1 s2 : list nat) : res (list nat) :=
  let n := Nat.max (length s1) (length s2) in bshape (pad_shape n s1) (pad_shape n s2).
(** The element of an operand of shape [s] used at index [idx] of the broadcast result. *)
Definition bindex (s idx : list nat) : list nat :=
  map (fun ni => if Nat.eqb (fst ni) 1 then 0 else snd ni)
      (combine s (skipn (length idx - length s) idx)).
(** A binary ufunc with broadcasting. *)
Definition tbin {A B C} (f : A -> B -> C) (a : tensor A) (b : tensor B) : res (tensor C) :=
  let* s := broadcast_shapes (tshape a) (tshape b) in
  Ok {| tshape := s;
        tget := fun idx => f (tget a (bindex (tshape a) idx)) (tget b (bindex (tshape b) idx)) |}.

Fixpoint replace_nth {A} (l : list A) (i : nat) (x : A) : list A :=
  match l, i with
  | [], _ => []
  | _ :: l', 0 => x :: l'
  | y :: l', S j => y :: replace_nth l' j x
  end.
(** [scipy.special.logsumexp(t, axis)] with the axis kept with length one, as
    [np.apply_over_axes] does; ValueError for an axis of length zero (numpy's maximum of an
    empty sequence). *)
Definition lse_axis (t : tensor val) (axis : nat) : res (tensor val) :=
  let n := nth axis (tshape t) 0 in
  if Nat.eqb n 0 then Err ValueError
  else Ok {| tshape := replace_nth (tshape t) axis 1;
             tget := fun idx => lse (map (fun i => tget t (replace_nth idx axis i)) (seq 0 n)) |}.
(** [np.apply_over_axes(special.logsumexp, t, axes)]. *)
Definition lse_axes (t : tensor val) (axes : list nat) : res (tensor val) := foldM lse_axis axes t.

(** [np.squeeze(t)]: every axis of length one is removed. *)
Fixpoint unsqueeze (s idx : list nat) : list nat :=
  match s with
  | [] => []
  | n :: s' => if Nat.eqb n 1 then 0 :: unsqueeze s' idx
               else match idx with i :: idx' => i :: unsqueeze s' idx' | [] => [] end
  end.
Definition squeeze {A} (t : tensor A) : tensor A :=
  {| tshape := filter (fun n => negb (Nat.eqb n 1)) (tshape t);
     tget := fun idx => tget t (unsqueeze (tshape t) idx) |}.

(** Basic indexing [t[(x1, ..., xn)]] with one entry per axis, each an integer or
    [slice(None)]; a negative integer counts from the end; IndexError out of bounds. *)
Definition norm_index (n : nat) (i : Z) : res nat :=
  let i' := (if i <? 0 then i + Z.of_nat n else i)%Z in
  if ((0 <=? i') && (i' <? Z.of_nat n))%Z then Ok (Z.to_nat i') else Err IndexError.
Fixpoint norm_indices (s : list nat) (sel : list (option Z)) : res (list (option nat)) :=
  match s, sel with
  | [], [] => Ok []
  | n :: s', None :: sel' => let* r := norm_indices s' sel' in Ok (None :: r)
  | n :: s', Some i :: sel' =>
      let* k := norm_index n i in let* r := norm_indices s' sel' in Ok (Some k :: r)
  | _, _ => Err IndexError
  end.
Fixpoint fill_index (sel : list (option nat)) (idx : list nat) : list nat :=
  match sel with
  | [] => []
  | Some k :: sel' => k :: fill_index sel' idx
  | None :: sel' => match idx with i :: idx' => i :: fill_index sel' idx' | [] => [] end
  end.
Fixpoint kept_shape (s : list nat) (sel : list (option nat)) : list nat :=
  match s, sel with
  | n :: s', None :: sel' => n :: kept_shape s' sel'
  | _ :: s', Some _ :: sel' => kept_shape s' sel'
  | _, _ => []
  end.
Definition tindex {A} (t : tensor A) (sel : list (option Z)) : res (tensor A) :=
  let* k := norm_indices (tshape t) sel in
  Ok {| tshape := kept_shape (tshape t) k; tget := fun idx => tget t (fill_index k idx) |}.

(** [t[key] = x] for a tuple of non-negative ints: IndexError when a position is out of
    bounds or there are too many; a shorter tuple writes the whole sub-array. *)
Definition tset {A} (t : tensor A) (key : list nat) (x : A) : res (tensor A) :=
  if Nat.leb (length key) (ndim t) &&
     forallb (fun ni => Nat.ltb (snd ni) (fst ni)) (combine (tshape t) key) then
    Ok {| tshape := tshape t;
          tget := fun idx => if eqb (firstn (length key) idx) key then x else tget t idx |}
  else Err IndexError.
(** [t[np.where(mask)] = x]: the positions come from an array that may have more axes. *)
Definition tset_where {A} (t : tensor A) (mask : tensor bool) (x : A) : res (tensor A) :=
  let sel := filter (tget mask) (tindices mask) in
  match sel with
  | [] => Ok t
  | _ =>
      if Nat.eqb (ndim mask) 0 then Err IndexError
      else foldM (fun t k => tset t k x) sel t
  end.

(** [t.argmax()] as a position in C order (first maximum; a NaN counts as the maximum),
    ValueError when there is no element; together with [unravel_index] this is the index
    tuple of the first maximal element. *)
Definition vgt (x y : val) : bool := vltb y x || (is_nan x && negb (is_nan y)).
Definition targmax (t : tensor val) : res (list nat) :=
  match tindices t with
  | [] => Err ValueError
  | i :: rest => Ok (fold_left (fun best j => if vgt (tget t j) (tget t best) then j else best) rest i)
  end.
