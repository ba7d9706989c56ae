(** C130-C132: data frames and printed tables of the table classes. *)
From Coq Require Import Sorted.
From Verif Require Import ShowEx DenseExamples GraphModel.
Local Open Scope nat_scope.
Local Open Scope string_scope.
Local Open Scope list_scope.

(** C130: the frame of a dense table has one row per assignment, in lexicographic order, with the
    values (or their names) and the potential. *)
Theorem c130_values f : wf_dense f -> exists es, listed f es /\ (~ In "prob" (dvars f) -> NoDup (dvars f ++ ["prob"])) /\
  d_get_df f false = Ok {| fr_cols := dvars f ++ ["prob"];
                           fr_rows := map (fun e => map (fun v => CNum (Fin (INR (e v)))) (dvars f) ++ [CNum (Fin (dpot f e))]) es |}.
Proof. exact (get_df_values f). Qed.
Print Assumptions c130_values.
Example c130_values_ex : wf_dense ed_ab /\ ~ In "prob" (dvars ed_ab).
Proof. split; [exact ed_ab_wf|]. cbn. intuition congruence. Qed.

(** Partial: rows carry different names when the names of every variable are distinct. *)
Theorem c130_named_partial f : wf_dense f -> exists es rows, listed f es /\
  d_get_df f true = Ok {| fr_cols := dvars f ++ ["prob"]; fr_rows := rows |} /\
  Forall2 (fun e r => exists names, Forall2 (fun v a => name_of f v (e v) a) (dvars f) names /\ r = map CName names ++ [CNum (Fin (dpot f e))]) es rows /\
  ((forall v ns, dget (dnames f) v = Some ns -> NoDup ns) -> NoDup (map (@removelast cell) rows)).
Proof. exact (get_df_names f). Qed.
Print Assumptions c130_named_partial.
Example c130_named_ex : wf_dense ed_ab /\ forall v ns, dget (dnames ed_ab) v = Some ns -> NoDup ns.
Proof. split; [exact ed_ab_wf|exact ed_ab_names]. Qed.

(** The constructor counts distinct names only, so a longer list with repeated names passes. *)
Theorem c130_names_refuted : exists vars t names f fr, mk_dense vars None t (Some names) = Ok f /\ wf_dense f /\ d_get_df f true = Ok fr /\ ~ NoDup (map (@removelast cell) (fr_rows fr)).
Proof. exact names_repeat. Qed.
Print Assumptions c130_names_refuted.
Theorem c130_columns_refuted : exists f fr, wf_dense f /\ d_get_df f false = Ok fr /\ ~ NoDup (fr_cols fr).
Proof. exact columns_repeat. Qed.
Print Assumptions c130_columns_refuted.

(** C131: the frame of a sparse table holds the stored entries in their order, and no more is lost
    than the cardinalities and the default.
    Partial: not for an empty table or variables called like the columns. *)
Theorem c131_rows_partial f : wf_struct f -> stbl f <> [] -> ~ In "assignment" (svars f) -> ~ In "log_prob" (svars f) ->
  s_to_df f = Ok {| fr_cols := svars f ++ ["log_prob"];
                    fr_rows := map (fun kv => map (fun i => CNum (Fin (INR i))) (fst kv) ++ [CNum (snd kv)]) (stbl f) |}.
Proof. exact (to_df_rows f). Qed.
Print Assumptions c131_rows_partial.
Example c131_rows_ex : wf_struct es_ab /\ stbl es_ab <> [] /\ ~ In "assignment" (svars es_ab) /\ ~ In "log_prob" (svars es_ab).
Proof. split; [exact es_ab_wf|]. split; [discriminate|]. split; cbn; intuition congruence. Qed.

Theorem c131_lossless_partial f g : wf_struct f -> wf_struct g -> stbl f <> [] -> stbl g <> [] -> ~ In "assignment" (svars f ++ svars g) -> ~ In "log_prob" (svars f ++ svars g) ->
  s_to_df f = s_to_df g -> svars f = svars g /\ stbl f = stbl g.
Proof. exact (to_df_lossless f g). Qed.
Print Assumptions c131_lossless_partial.
Example c131_lossless_ex : wf_struct es_ab /\ stbl es_ab <> [] /\ ~ In "assignment" (svars es_ab ++ svars es_ab) /\ ~ In "log_prob" (svars es_ab ++ svars es_ab) /\ s_to_df es_ab = s_to_df es_ab.
Proof. split; [exact es_ab_wf|]. split; [discriminate|]. split; [|split; [|reflexivity]]; cbn; intuition congruence. Qed.

(** A variable called log_prob replaces the values, one called assignment disappears, and an empty
    table is an error. *)
Theorem c131_log_prob_refuted : exists f g d, wf_sparse f /\ wf_sparse g /\ svars f = svars g /\ stbl f <> [] /\ stbl f <> stbl g /\ s_to_df f = Ok d /\ s_to_df g = Ok d.
Proof. exact log_prob_lost. Qed.
Print Assumptions c131_log_prob_refuted.
Theorem c131_assignment_refuted : exists f g d, wf_sparse f /\ wf_sparse g /\ svars f = svars g /\ stbl f <> [] /\ sval f <> sval g /\ s_to_df f = Ok d /\ s_to_df g = Ok d.
Proof. exact assignment_lost. Qed.
Print Assumptions c131_assignment_refuted.
Theorem c131_empty_refuted : exists f, wf_sparse f /\ mk_sparse (svars f) (scards f) (stbl f) (sdef f) = Ok f /\ s_to_df f = Err KeyError.
Proof. exact empty_raises. Qed.
Print Assumptions c131_empty_refuted.

(** C132: on a screen with a tab stop every eight columns, the cells of a printed table stand under
    the names of their columns, one line per assignment.
    Partial: tables with variables, names without tabs and line breaks, values of at most seven
    digits. *)
Theorem c132_dense_partial fmt f : wf_dense f -> dvars f <> [] -> Forall plain (dvars f) -> (forall v, plain (fmt v)) -> (forall v c, d_has_card f v c -> c <= 10 ^ 7) ->
  exists es cols head body, listed f es /\ length cols = S (length (dvars f)) /\ StronglySorted lt cols /\
    lines (d_repr fmt f) = head :: body ++ [""] /\ cells head = combine cols (dvars f ++ ["prob"]) /\
    Forall2 (fun line e => cells line = combine cols (map (fun v => dec_string (e v)) (dvars f) ++ [fmt (Fin (dpot f e))])) body es.
Proof. exact (d_repr_aligned fmt f). Qed.
Print Assumptions c132_dense_partial.
Example c132_dense_ex : wf_dense ed_ab /\ dvars ed_ab <> [] /\ Forall plain (dvars ed_ab) /\ (forall v, plain (short v)) /\ forall v c, d_has_card ed_ab v c -> c <= 10 ^ 7.
Proof. split; [exact ed_ab_wf|]. split; [discriminate|]. split; [exact ed_ab_plain|]. split; [exact short_plain|exact ed_ab_cards]. Qed.

Theorem c132_sparse_partial fmt f : wf_sparse f -> svars f <> [] -> Forall plain (svars f) -> (forall v, plain (fmt v)) -> (forall v c, has_card f v c -> c <= 10 ^ 7) ->
  exists cols head body, length cols = S (length (svars f)) /\ StronglySorted lt cols /\
    lines (s_repr fmt f) = head :: body ++ [""] /\ cells head = combine cols (svars f ++ ["prob"]) /\
    Forall2 (fun line kv => cells line = combine cols (map dec_string (fst kv) ++ [fmt (Fin (pot (snd kv)))])) body (stbl f).
Proof. exact (s_repr_aligned fmt f). Qed.
Print Assumptions c132_sparse_partial.
Example c132_sparse_ex : wf_sparse es_ab /\ svars es_ab <> [] /\ Forall plain (svars es_ab) /\ (forall v, plain (short v)) /\ forall v c, has_card es_ab v c -> c <= 10 ^ 7.
Proof. split; [exact es_ab_wf|]. split; [discriminate|]. split; [exact es_ab_plain|]. split; [exact short_plain|exact es_ab_cards]. Qed.

(** A value of eight digits pushes the rest of its line to the right, and the header of a table
    without variables starts with a tab that its row does not have. *)
Theorem c132_wide_refuted : exists f, wf_sparse f /\ svars f <> [] /\ Forall plain (svars f) /\ forall fmt, (forall v, plain (fmt v)) ->
  exists head row, lines (s_repr fmt f) = [head; row; ""] /\ cells head = [(0, "a"); (8, "prob")] /\ cells row = [(0, "10000000"); (16, fmt (Fin 1))].
Proof. exact wide_shifts. Qed.
Print Assumptions c132_wide_refuted.
Theorem c132_scalar_refuted fmt : (forall v, plain (fmt v)) -> exists f head row, wf_dense f /\
  lines (d_repr fmt f) = [head; row; ""] /\ cells head = [(8, "prob")] /\ cells row = [(0, fmt (Fin 1))].
Proof. exact (scalar_shifts fmt). Qed.
Print Assumptions c132_scalar_refuted.
Example c132_scalar_ex : forall v, plain (short v).
Proof. exact short_plain. Qed.
