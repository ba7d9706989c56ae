(** Data frames and printed tables of the table classes.  A pandas data frame is modelled as its
    column names with its rows of cells, or, where columns are set one by one, as named columns.
    Simplifications: the index and the types of the columns are left out; the text of a number,
    [f'{value:.4f}'], is given by a function [fmt]. *)
From Verif Require Export ArrModel.
From Verif Require Import GraphModel.
Local Open Scope nat_scope.
Local Open Scope string_scope.
Local Open Scope list_scope.

Inductive cell := CNum (v : val) | CName (a : aname) | CKey (k : list nat) | CNone.
Record frame := { fr_cols : list string; fr_rows : list (list cell) }.

(** [pd.DataFrame(data=rows, columns=cols)] for a list of rows. *)
Definition mk_frame (rows : list (list cell)) (cols : list string) : res frame :=
  let* _ := match rows with
            | [] => Ok tt
            | _ => raise_if (negb (Nat.eqb (list_max (map (@length cell) rows)) (length cols))) ValueError
            end in
  Ok {| fr_cols := cols; fr_rows := rows |}.

(** categorical.py:553-575 get_df.  In the branch for named assignments the flag itself is
    overwritten with the list of names, which counts as False when it is empty (570-571). *)
Definition row_names (f : dense) (k : list nat) : res (list aname) :=
  mapM (fun vx => let* ns := dget_r (dnames f) (fst vx) in py_nth ns (snd vx)) (combine (dvars f) k).
Definition df_step (f : dense) (st : bool * list (list cell)) (row : list nat * val) : res (bool * list (list cell)) :=
  let '(named, data) := st in
  if negb named then Ok (named, data ++ [map (fun i => CNum (Fin (INR i))) (fst row) ++ [CNum (snd row)]])
  else let* ns := row_names f (fst row) in
       Ok (negb (Nat.eqb (length ns) 0), data ++ [map CName ns ++ [CNum (snd row)]]).
Definition d_get_df (f : dense) (named : bool) : res frame :=
  let* st := foldM (df_step f) (d_dense_array f) (named, []) in
  mk_frame (snd st) (dvars f ++ ["prob"]).

(** sparse_categorical.py:855-869 _to_df.  Columns are set one by one; [drop] removes the column
    of keys (KeyError cannot happen there), 863 is a KeyError for an empty table, which has no
    columns.  866: a number of columns other than the number of variables is a ValueError. *)
Definition key_cell (k : list nat) (j : nat) : cell :=
  match nth_error k j with Some i => CNum (Fin (INR i)) | None => CNone end.
Definition s_to_df (f : sparse) : res frame :=
  let keys := map fst (stbl f) in
  let* df0 := match stbl f with
              | [] => Err KeyError
              | _ => Ok [("assignment", map CKey keys); ("log_prob", map (fun kv => CNum (snd kv)) (stbl f))]
              end in
  let width := list_max (map (@length nat) keys) in
  let* _ := raise_if (negb (Nat.eqb width (length (svars f)))) ValueError in
  let df1 := fold_left (fun df vj => dset df (fst vj) (map (fun k => key_cell k (snd vj)) keys)) (combine (svars f) (seq 0 width)) df0 in
  let* df2 := ddel df1 "assignment" in
  let cols := filter (fun c => negb (eqb c "log_prob")) (dkeys df2) ++ ["log_prob"] in
  let* cs := mapM (dget_r df2) cols in
  Ok {| fr_cols := cols; fr_rows := map (fun i => map (fun c => nth i c CNone) cs) (seq 0 (length keys)) |}.

(** _factor_utils.py:358-367 tabs_to_cover_string and 370-383 space_assignments_and_probs. *)
Definition tab : string := String (Ascii.ascii_of_nat 9) "".
Definition newline : string := String (Ascii.ascii_of_nat 10) "".
Definition tabs_to_cover (s : string) : nat := String.length s / 8 + 1.
Definition times (s : string) (n : nat) : string := String.concat "" (repeat s n).
Definition space_line (k : list nat) (value : string) (spacings : list string) : string :=
  String.concat "" (map (fun cs => String.append (fst cs) (snd cs)) (combine (map dec_string k ++ [value]) spacings)).

(** categorical.py:533-551 and sparse_categorical.py:876-892 __repr__. *)
Definition header (vars : list string) : string := String.append (String.concat tab vars) (String.append tab (String.append "prob" newline)).
Definition spacings (vars : list string) : list string := map (fun v => times tab (tabs_to_cover v)) vars ++ [newline].
Definition table_text (fmt : val -> string) (vars : list string) (rows : list (list nat * val)) : string :=
  String.append (header vars) (String.concat "" (map (fun r => space_line (fst r) (fmt (vexp (snd r))) (spacings vars)) rows)).
Definition d_repr (fmt : val -> string) (f : dense) : string :=
  table_text fmt (dvars f) (map (fun i => (i, tget (dtens f) i)) (tindices (dtens f))).
Definition s_repr (fmt : val -> string) (f : sparse) : string := table_text fmt (svars f) (stbl f).
