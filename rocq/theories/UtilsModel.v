(** Model of the helpers of veroku/factors/_factor_utils.py used by the Gaussian factors and
    the templates.  Not modelled: plotting (plot_2d, see PlotModel.v), printing helpers. *)
From Verif Require Export MatOps.

(** 208-214 and 277-283: the variables of the result. *)
Definition new_vars (va vb : list string) : list string :=
  if subsetb vb va then va
  else if subsetb va vb then vb
  else ssort (dedup (vb ++ va)).

(** 218-226: the entry of a matrix for a pair of names, 0.0 when one of them is missing
    ([list.index] is the first position). *)
Definition named_entry (A : mat) (vs : list string) (u v : string) : R :=
  match index_opt u vs, index_opt v vs with
  | Some i, Some j => ent A i j
  | _, _ => 0%R
  end.

(** _factor_utils.py:169-229 indexed_square_matrix_operation. *)
Definition indexed_square_matrix_operation (A B : mat) (va vb : list string) (op : R -> R -> R)
  : res (mat * list string) :=
  let* _ := py_assert (Nat.eqb (nr A) (nc A)) in
  let* _ := py_assert (Nat.eqb (nr B) (nc B)) in
  let* _ := py_assert (Nat.eqb (length va) (nr A)) in
  let* _ := py_assert (Nat.eqb (length vb) (nr B)) in
  let nv := new_vars va vb in
  let n := length nv in
  Ok (Mat n n (fun i j => let u := nth i nv ""%string in let v := nth j nv ""%string in
                          op (named_entry A va u v) (named_entry B vb u v)), nv).

(** 285-292: the entry of a column vector for a name. *)
Definition named_coord (A : mat) (vs : list string) (u : string) : R :=
  match index_opt u vs with Some i => ent A i 0 | None => 0%R end.

(** _factor_utils.py:232-293 indexed_column_vector_operation. *)
Definition indexed_column_vector_operation (A B : mat) (va vb : list string) (op : R -> R -> R)
  : res (mat * list string) :=
  let* _ := py_assert (Nat.eqb (nc A) 1) in
  let* _ := py_assert (Nat.eqb (nc B) 1) in
  let* _ := py_assert (Nat.eqb (length va) (nr A)) in
  let* _ := py_assert (Nat.eqb (length vb) (nr B)) in
  let nv := new_vars va vb in
  Ok (Mat (length nv) 1 (fun i _ => let u := nth i nv ""%string in
                                    op (named_coord A va u) (named_coord B vb u)), nv).

(** _factor_utils.py:61-74 remove_duplicate_values (numbers; IndexError on an empty list).
    The flag loop over [unique_values] is [existsb]. *)
Definition is_dup (tol : R) (uniq : list R) (x : R) : bool :=
  existsb (fun u => Rle_b (Rabs (u - x)) tol) uniq.
Definition remove_duplicate_values (l : list R) (tol : R) : res (list R) :=
  let* x0 := py_nth l 0 in
  Ok (fold_left (fun uniq x => if is_dup tol uniq x then uniq else uniq ++ [x]) l [x0]).

(** [str.format( **d )], with the values of [d] already converted to strings.  A field is
    a name between braces, doubled braces are literal braces.
    Simplifications: conversions, format specifications, attribute and index lookups and
    nested fields (a field name containing one of ! : . [ or an opening brace) are outside
    the model and give [NotImplementedError]. *)
Definition fmt_special (c : ascii) : bool :=
  (Ascii.eqb c "!" || Ascii.eqb c ":" || Ascii.eqb c "." || Ascii.eqb c "[" || Ascii.eqb c "{")%char.
Definition is_digit (c : ascii) : bool :=
  let n := nat_of_ascii c in Nat.leb 48 n && Nat.leb n 57.
Definition lookup_field (d : dict string string) (name : string) : res string :=
  if forallb is_digit (list_ascii_of_string name) then Err IndexError else dget_r d name.
(** [fld]: the characters of the field being read (reversed), if any. *)
Fixpoint fmt (d : dict string string) (fld : option (list ascii)) (s : list ascii) : res (list ascii) :=
  match fld, s with
  | None, [] => Ok []
  | Some _, [] => Err ValueError
  | None, c :: s' =>
      if Ascii.eqb c "{" then
        match s' with
        | c' :: s'' => if Ascii.eqb c' "{" then let* r := fmt d None s'' in Ok ("{"%char :: r)
                       else fmt d (Some []) s'
        | [] => Err ValueError
        end
      else if Ascii.eqb c "}" then
        match s' with
        | c' :: s'' => if Ascii.eqb c' "}" then let* r := fmt d None s'' in Ok ("}"%char :: r)
                       else Err ValueError
        | [] => Err ValueError
        end
      else let* r := fmt d None s' in Ok (c :: r)
  | Some name, c :: s' =>
      if Ascii.eqb c "}" then
        let* v := lookup_field d (string_of_list_ascii (rev name)) in
        let* r := fmt d None s' in Ok (list_ascii_of_string v ++ r)
      else if fmt_special c then Err NotImplementedError
      else fmt d (Some (c :: name)) s'
  end.
Definition str_format (t : string) (d : dict string string) : res string :=
  let* r := fmt d None (list_ascii_of_string t) in Ok (string_of_list_ascii r).

(** _factor_utils.py:17-33 format_list_elements. *)
Definition format_list_elements (l : list string) (d : dict string string) : res (list string) :=
  mapM (fun t => str_format t d) l.

(** _factor_template.py:12-35 FactorTemplate.__init__ and 37-55 formattable. *)
Record template := {
  t_vars : option (list string); t_conditioning : option (list string); t_conditional : option (list string) }.
Definition mk_template (vars conditioning conditional : option (list string)) : res template :=
  match conditioning, conditional with
  | None, None => Ok {| t_vars := vars; t_conditioning := None; t_conditional := None |}
  | Some a, Some b => Ok {| t_vars := None; t_conditioning := Some a; t_conditional := Some b |}
  | _, _ => Err ValueError
  end.
(** Iterating over None raises TypeError (a template built without any names). *)
Definition fmt_opt (l : option (list string)) (d : dict string string) : res (list string) :=
  match l with Some l => format_list_elements l d | None => Err TypeError end.
Definition formattable (t : template) (d : dict string string) : res bool :=
  let r := match t_vars t with
           | Some l => let* _ := format_list_elements l d in Ok true
           | None => let* _ := fmt_opt (t_conditioning t) d in
                     let* _ := fmt_opt (t_conditional t) d in Ok true
           end in
  match r with Err KeyError => Ok false | _ => r end.
