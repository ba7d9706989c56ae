(** Model of the template classes of categorical.py (606-668 CategoricalTemplate) and
    sparse_categorical.py (923-990 SparseCategoricalTemplate).  Tables are immutable values, so
    the copies made by the constructors have no counterpart. *)
From Verif Require Export DenseModel SparseModel UtilsModel.

(** categorical.py:60-146 and _factor.py:18-29: the constructor with every argument optional and
    no assignment names ([len] and [set] of None raise TypeError).  A tensor takes precedence over
    a table of probabilities. *)
Definition categorical_init (vars : option (list string)) (cards : option (list nat))
    (probs : option (dict (list nat) R)) (logt : option (tensor val)) : res dense :=
  match vars with
  | None => Err TypeError
  | Some vs =>
      match logt with
      | Some t => mk_dense vs cards t None
      | None =>
          let* _ := raise_if (negb (nodupb vs)) ValueError in
          match cards, probs with
          | Some c, Some p => mk_dense_probs vs c p None
          | _, _ => Err ValueError
          end
      end
  end.

(** categorical.py:612-645 CategoricalTemplate.__init__. *)
Record ctemplate := {
  ct_names : template; ct_cards : option (list nat);
  ct_probs : option (dict (list nat) R); ct_log : option (tensor val) }.
Definition mk_ctemplate (vars : option (list string)) (cards : option (list nat))
    (probs : option (dict (list nat) R)) (logt : option (tensor val)) : res ctemplate :=
  let* t := mk_template vars None None in
  Ok {| ct_names := t; ct_cards := cards; ct_probs := probs; ct_log := logt |}.
(** categorical.py:647-665 make_factor. *)
Definition ct_make_factor (t : ctemplate) (format_dict : option (dict string string))
    (var_names : option (list string)) : res dense :=
  let* names := match format_dict with
                | Some d => let* _ := py_assert (match var_names with None => true | _ => false end) in
                            let* l := fmt_opt (t_vars (ct_names t)) d in Ok (Some l)
                | None => Ok var_names
                end in
  categorical_init names (ct_cards t) (ct_probs t) (ct_log t).

(** sparse_categorical.py:380-425 and _factor.py:18-29: the constructor for a table of
    probabilities and the default log probability. *)
Definition sparse_init (vars : option (list string)) (cards : list nat) (p : dict key R) : res sparse :=
  match vars with None => Err TypeError | Some vs => mk_sparse_probs vs cards p NInf end.

(** sparse_categorical.py:932-962 SparseCategoricalTemplate.__init__. *)
Record stemplate := { st_names : template; st_cards : list nat; st_probs : dict key R }.
Definition mk_stemplate (p : dict key R) (cards : list nat) (vars : option (list string)) : res stemplate :=
  let* t := mk_template vars None None in
  Ok {| st_names := t; st_cards := cards; st_probs := p |}.
(** sparse_categorical.py:964-990 make_factor. *)
Definition st_make_factor (t : stemplate) (format_dict : option (dict string string))
    (var_names : option (list string)) : res sparse :=
  let* _ := raise_if (match t_vars (st_names t), var_names with None, None => true | _, _ => false end) ValueError in
  let* names := match format_dict with
                | Some d => let* _ := py_assert (match var_names with None => true | _ => false end) in
                            let* l := fmt_opt (t_vars (st_names t)) d in Ok (Some l)
                | None => Ok var_names
                end in
  sparse_init names (st_cards t) (st_probs t).
