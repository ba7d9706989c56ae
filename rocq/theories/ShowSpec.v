(** Reading a printed table: its lines, and the cells of a line with the screen column each one
    starts at (tab stops every eight columns). *)
From Coq Require Import Sorted.
From Verif Require Export ShowModel DenseSpec.
Local Open Scope nat_scope.
Local Open Scope string_scope.
Local Open Scope list_scope.

Definition is_tab (c : Ascii.ascii) : bool := Nat.eqb (Ascii.nat_of_ascii c) 9.
Definition is_newline (c : Ascii.ascii) : bool := Nat.eqb (Ascii.nat_of_ascii c) 10.
Fixpoint lines_from (cur : string) (s : string) : list string :=
  match s with
  | EmptyString => [cur]
  | String c s' => if is_newline c then cur :: lines_from "" s' else lines_from (String.append cur (String c "")) s'
  end.
Definition lines (s : string) : list string := lines_from "" s.
Definition flush (start : nat) (cur : string) : list (nat * string) := match cur with EmptyString => [] | _ => [(start, cur)] end.
Fixpoint cells_from (col start : nat) (cur : string) (s : string) : list (nat * string) :=
  match s with
  | EmptyString => flush start cur
  | String c s' =>
      if is_tab c then let next := 8 * (col / 8 + 1) in flush start cur ++ cells_from next next "" s'
      else cells_from (S col) start (String.append cur (String c "")) s'
  end.
Definition cells (line : string) : list (nat * string) := cells_from 0 0 "" line.

(** A text without tabs and line breaks that is not empty. *)
Fixpoint no_breaks (s : string) : Prop :=
  match s with EmptyString => True | String c s' => is_tab c = false /\ is_newline c = false /\ no_breaks s' end.
Definition plain (s : string) : Prop := s <> "" /\ no_breaks s.

(** All assignments of a dense factor, each once, in lexicographic order. *)
Definition listed (f : dense) (es : list (string -> nat)) : Prop :=
  Forall (d_in_range f) es /\ StronglySorted lex_lt (map (fun e => map e (dvars f)) es) /\
  (forall e, d_in_range f e -> In (map e (dvars f)) (map (fun e' => map e' (dvars f)) es)).
(** The name the factor gives to the value [i] of the variable [v]. *)
Definition name_of (f : dense) (v : string) (i : nat) (a : aname) : Prop :=
  exists ns, dget (dnames f) v = Some ns /\ nth_error ns i = Some a.
