(** Base definitions shared by all model files: Python exceptions as values, insertion
    ordered dictionaries, list helpers.  Nothing here is specific to veroku; the
    definitions model the built-in Python operations named in the comments. *)
From Coq Require Export String Ascii.
From Coq Require Export List Arith Lia Bool Permutation.
Export ListNotations.
#[global] Open Scope list_scope.
#[global] Open Scope nat_scope.

(** Python exception classes raised by the modelled code. *)
Inductive exn :=
  | ValueError | KeyError | IndexError | AssertionError | TypeError
  | NotImplementedError | AttributeError | UnboundLocalError
  | InconsistentAssignmentNamesError | LinAlgError | Warning | PyException.

(** The outcome of a Python call: a value or a raised exception. *)
Inductive res (A : Type) : Type :=
  | Ok : A -> res A
  | Err : exn -> res A.
Arguments Ok {A} a.
Arguments Err {A} e.

Definition bind {A B} (m : res A) (k : A -> res B) : res B :=
  match m with Ok a => k a | Err e => Err e end.
Notation "'let*' x := m 'in' k" := (bind m (fun x => k))
  (at level 200, x pattern, m at level 100, k at level 200, right associativity).

(** Python [assert c] and [if c: raise e]. *)
Definition py_assert (c : bool) : res unit := if c then Ok tt else Err AssertionError.
Definition raise_if (c : bool) (e : exn) : res unit := if c then Err e else Ok tt.

(** A Python list comprehension [[f(x) for x in l]] whose body may raise. *)
Fixpoint mapM {A B} (f : A -> res B) (l : list A) : res (list B) :=
  match l with
  | [] => Ok []
  | x :: xs => let* y := f x in let* ys := mapM f xs in Ok (y :: ys)
  end.

(** A Python [for] loop that updates one accumulator and may raise. *)
Fixpoint foldM {A S} (f : S -> A -> res S) (l : list A) (s : S) : res S :=
  match l with
  | [] => Ok s
  | x :: xs => let* s' := f s x in foldM f xs s'
  end.

(** Decidable equality (used for dictionary keys and set membership). *)
Class EqDec (A : Type) := eq_dec : forall x y : A, {x = y} + {x <> y}.
#[global] Instance eqdec_nat : EqDec nat := Nat.eq_dec.
#[global] Instance eqdec_string : EqDec string := string_dec.
#[global] Instance eqdec_list {A} {E : EqDec A} : EqDec (list A) := list_eq_dec eq_dec.
#[global] Instance eqdec_prod {A B} {E : EqDec A} {F : EqDec B} : EqDec (A * B).
Proof. unfold EqDec; intros; decide equality; apply eq_dec. Defined.

Definition eqb {A} {E : EqDec A} (x y : A) : bool := if eq_dec x y then true else false.

(** [x in l]. *)
Fixpoint mem {A} {E : EqDec A} (x : A) (l : list A) : bool :=
  match l with [] => false | y :: ys => if eq_dec x y then true else mem x ys end.

(** [set(l) <= set(m)], [set(l) == set(m)], [set(l) < set(m)]. *)
Definition subsetb {A} {E : EqDec A} (l m : list A) : bool := forallb (fun x => mem x m) l.
Definition seteqb {A} {E : EqDec A} (l m : list A) : bool := subsetb l m && subsetb m l.
Definition strict_subsetb {A} {E : EqDec A} (l m : list A) : bool :=
  subsetb l m && negb (subsetb m l).

(** The elements of [set(l)], listed in order of first occurrence.  The real iteration
    order of a Python set is given by an oracle applied on top of this. *)
Fixpoint dedup {A} {E : EqDec A} (l : list A) : list A :=
  match l with
  | [] => []
  | x :: xs => x :: filter (fun y => negb (eqb x y)) (dedup xs)
  end.

(** [set(l) - set(m)] and [set(l).intersection(set(m))] as element lists. *)
Definition set_diff {A} {E : EqDec A} (l m : list A) : list A :=
  filter (fun x => negb (mem x m)) (dedup l).
Definition set_inter {A} {E : EqDec A} (l m : list A) : list A :=
  filter (fun x => mem x m) (dedup l).

(** [len(set(l)) == len(l)]: no duplicates. *)
Definition nodupb {A} {E : EqDec A} (l : list A) : bool :=
  Nat.eqb (length (dedup l)) (length l).

(** [l.index(x)]: the first position of [x]; ValueError when absent. *)
Fixpoint index_opt {A} {E : EqDec A} (x : A) (l : list A) : option nat :=
  match l with
  | [] => None
  | y :: ys => if eq_dec x y then Some 0 else option_map S (index_opt x ys)
  end.
Definition py_index {A} {E : EqDec A} (l : list A) (x : A) : res nat :=
  match index_opt x l with Some i => Ok i | None => Err ValueError end.

(** [l[i]] for a non-negative index: IndexError when out of range. *)
Definition py_nth {A} (l : list A) (i : nat) : res A :=
  match nth_error l i with Some x => Ok x | None => Err IndexError end.

(** [l[i] = x]: IndexError when out of range. *)
Fixpoint list_set {A} (l : list A) (i : nat) (x : A) : res (list A) :=
  match l, i with
  | [], _ => Err IndexError
  | _ :: ys, 0 => Ok (x :: ys)
  | y :: ys, S j => let* zs := list_set ys j x in Ok (y :: zs)
  end.

(** Insertion ordered dictionaries (Python >= 3.7). *)
Notation dict K V := (list (K * V)) (only parsing).

Fixpoint dget {K V} {E : EqDec K} (d : dict K V) (k : K) : option V :=
  match d with
  | [] => None
  | (k', v) :: d' => if eq_dec k k' then Some v else dget d' k
  end.

(** [d[k] = v]: keeps the position of an existing key, appends a new one. *)
Fixpoint dset {K V} {E : EqDec K} (d : dict K V) (k : K) (v : V) : dict K V :=
  match d with
  | [] => [(k, v)]
  | (k', v') :: d' => if eq_dec k k' then (k', v) :: d' else (k', v') :: dset d' k v
  end.

Definition dkeys {K V} (d : dict K V) : list K := map fst d.
Definition dvals {K V} (d : dict K V) : list V := map snd d.
Definition dmem {K V} {E : EqDec K} (d : dict K V) (k : K) : bool :=
  match dget d k with Some _ => true | None => false end.
(** [d[k]] with KeyError when absent; [d.get(k, default)]. *)
Definition dget_r {K V} {E : EqDec K} (d : dict K V) (k : K) : res V :=
  match dget d k with Some v => Ok v | None => Err KeyError end.
Definition dget_or {K V} {E : EqDec K} (d : dict K V) (k : K) (v0 : V) : V :=
  match dget d k with Some v => v | None => v0 end.
(** [dict(pairs)] / dict comprehension: later pairs overwrite earlier ones. *)
Definition dict_of {K V} {E : EqDec K} (l : list (K * V)) : dict K V :=
  fold_left (fun d kv => dset d (fst kv) (snd kv)) l [].
(** [del d[k]]: KeyError when absent. *)
Fixpoint ddel {K V} {E : EqDec K} (d : dict K V) (k : K) : res (dict K V) :=
  match d with
  | [] => Err KeyError
  | (k', v') :: d' =>
      if eq_dec k k' then Ok d' else let* r := ddel d' k in Ok ((k', v') :: r)
  end.

(** [itertools.product( *ls )] in lexicographic order. *)
Fixpoint product {A} (ls : list (list A)) : list (list A) :=
  match ls with
  | [] => [[]]
  | l :: ls' => flat_map (fun x => map (cons x) (product ls')) l
  end.
(** [itertools.product( *[range(c) for c in cards] )]. *)
Definition assignments (cards : list nat) : list (list nat) :=
  product (map (seq 0) cards).

(** Python [sorted] on a list of strings (code point order), as insertion sort. *)
Fixpoint sinsert (x : string) (l : list string) : list string :=
  match l with
  | [] => [x]
  | y :: ys => if String.leb x y then x :: l else y :: sinsert x ys
  end.
Definition ssort (l : list string) : list string := fold_right sinsert [] l.

(** Stable [sorted(l, key=key, reverse=True)] for a comparison [lt] on keys: descending
    keys, and elements with equal keys keep their original relative order (an element is
    inserted into the sorted remainder of the list, before everything not larger). *)
Fixpoint insert_desc {A K} (lt : K -> K -> bool) (key : A -> K) (x : A) (l : list A) : list A :=
  match l with
  | [] => [x]
  | y :: ys => if lt (key x) (key y) then y :: insert_desc lt key x ys else x :: l
  end.
Definition sort_desc {A K} (lt : K -> K -> bool) (key : A -> K) (l : list A) : list A :=
  fold_right (insert_desc lt key) [] l.

(** The unspecified iteration order of Python sets.  [so] orders sets of variable names,
    [ko] orders sets of assignments (table keys).  Theorems quantify over all oracles
    satisfying [oracle_ok]. *)
Record oracle := { so : list string -> list string; ko : list (list nat) -> list (list nat) }.
Definition oracle_ok (o : oracle) : Prop :=
  (forall l, NoDup l -> Permutation l (so o l)) /\ (forall l, NoDup l -> Permutation l (ko o l)).
