(** Properties C54 and C55: the helper functions of _factor_utils.py and the name templates. *)
From Verif Require Import UtilsFacts2.

(** C54: entries are combined by name, missing entries count as zero, the result is labelled
    by the union of the names without repetition. *)
Theorem c54_indexed_matrix A B va vb op : NoDup va -> NoDup vb ->
  nr A = length va -> nc A = length va -> nr B = length vb -> nc B = length vb ->
  exists r nv, indexed_square_matrix_operation A B va vb op = Ok (r, nv) /\
    nr r = length nv /\ nc r = length nv /\ NoDup nv /\ (forall v, In v nv <-> In v va \/ In v vb) /\
    (forall i j u v x y, nth_error nv i = Some u -> nth_error nv j = Some v ->
       labelled A va u v x -> labelled B vb u v y -> ent r i j = op x y).
Proof. exact (ix_square_spec A B va vb op). Qed.
Print Assumptions c54_indexed_matrix.
Theorem c54_indexed_vector A B va vb op : NoDup va -> NoDup vb ->
  nr A = length va -> nc A = 1 -> nr B = length vb -> nc B = 1 ->
  exists r nv, indexed_column_vector_operation A B va vb op = Ok (r, nv) /\
    nr r = length nv /\ nc r = 1 /\ NoDup nv /\ (forall v, In v nv <-> In v va \/ In v vb) /\
    (forall i u x y, nth_error nv i = Some u -> labelled1 A va u x -> labelled1 B vb u y -> ent r i 0 = op x y).
Proof. exact (ix_column_spec A B va vb op). Qed.
Print Assumptions c54_indexed_vector.
(** The order of the names: the first list if it contains the second, else the second if it
    contains the first, else sorted; the same for matrices and vectors. *)
Theorem c54_name_order A B va vb op r nv : indexed_square_matrix_operation A B va vb op = Ok (r, nv) ->
  (incl vb va -> nv = va) /\ (~ incl vb va -> incl va vb -> nv = vb) /\
  (~ incl vb va -> ~ incl va vb -> sorted_names nv).
Proof. exact (ix_order A B va vb op r nv). Qed.
Print Assumptions c54_name_order.
Theorem c54_same_names A B h k va vb op op' r nv r' nv' :
  indexed_square_matrix_operation A B va vb op = Ok (r, nv) ->
  indexed_column_vector_operation h k va vb op' = Ok (r', nv') -> nv = nv'.
Proof. exact (ix_same_names A B h k va vb op op' r nv r' nv'). Qed.
Print Assumptions c54_same_names.
(** Shapes that do not fit the names are rejected. *)
Theorem c54_bad_shapes A B va vb op :
  (nr A <> nc A \/ nr B <> nc B \/ length va <> nr A \/ length vb <> nr B ->
   indexed_square_matrix_operation A B va vb op = Err AssertionError) /\
  (nc A <> 1 \/ nc B <> 1 \/ length va <> nr A \/ length vb <> nr B ->
   indexed_column_vector_operation A B va vb op = Err AssertionError).
Proof. exact (conj (ix_square_bad A B va vb op) (ix_column_bad A B va vb op)). Qed.
Print Assumptions c54_bad_shapes.
Example c54_nonvacuous : exists r nv,
  indexed_square_matrix_operation ix_c ix_b ["b"; "a"]%string ["c"; "b"]%string Rminus = Ok (r, nv) /\
  nv = ["a"; "b"; "c"]%string /\ ent r 0 1 = INR 2 /\ ent r 0 2 = 0%R /\ ent r 1 1 = (INR 1 - INR 33)%R.
Proof. exact ix_example. Qed.

(** C55: the observed variables among the given ones, in the given order, with their values. *)
Theorem c55_subset_evidence V (ev : dict string V) vars vrs vals : subset_evidence ev vars = (vrs, vals) ->
  NoDup vrs /\ sublist vrs vars /\ (forall v, In v vrs <-> In v vars /\ In v (dkeys ev)) /\
  length vals = length vrs /\ (forall i v, nth_error vrs i = Some v -> nth_error vals i = dget ev v).
Proof. exact (subset_evidence_spec ev vars vrs vals). Qed.
Print Assumptions c55_subset_evidence.
Example c55_nonvacuous_evidence :
  subset_evidence [("x", 5); ("a", 1); ("b", 2)]%string ["b"; "c"; "a"]%string = (["b"; "a"]%string, [2; 1]).
Proof. reflexivity. Qed.
(** Values are kept once, in order of first occurrence. *)
Theorem c55_remove_duplicates x l : remove_duplicate_values (x :: l) 0 = Ok (first_occurrences (x :: l)).
Proof. exact (remove_dups_zero x l). Qed.
Print Assumptions c55_remove_duplicates.
(** With a tolerance: kept values are farther apart than the tolerance, and every value has a
    kept value within the tolerance. *)
Theorem c55_remove_close_values x l tol : (0 <= tol)%R ->
  exists r, remove_duplicate_values (x :: l) tol = Ok r /\ sublist r (x :: l) /\ nth_error r 0 = Some x /\ spread tol r /\
    (forall y, In y (x :: l) -> exists z, In z r /\ (Rabs (z - y) <= tol)%R).
Proof. exact (remove_dups_spec x l tol). Qed.
Print Assumptions c55_remove_close_values.
(** The list must not be empty. *)
Theorem c55_remove_duplicates_empty tol : remove_duplicate_values [] tol = Err IndexError.
Proof. exact (remove_dups_empty tol). Qed.
Print Assumptions c55_remove_duplicates_empty.
Example c55_nonvacuous_duplicates : first_occurrences [2; 1; 2; 3; 1]%R = [2; 1; 3]%R.
Proof.
  unfold first_occurrences. cbn. repeat (destruct (Req_EM_T _ _); try lra). reflexivity.
Qed.
(** Every template is filled in; a missing name gives KeyError. *)
Theorem c55_format_list d pss : Forall (Forall piece_ok) pss ->
  (forall r, format_list_elements (map write pss) d = Ok r <->
             Forall2 (fun ps t => template_text d ps = Some t) pss r) /\
  ((exists ps, In ps pss /\ template_text d ps = None) -> format_list_elements (map write pss) d = Err KeyError).
Proof. exact (format_list_spec d pss). Qed.
Print Assumptions c55_format_list.
Theorem c55_formattable d pss : Forall (Forall piece_ok) pss -> forall t,
  mk_template (Some (map write pss)) None None = Ok t ->
  formattable t d = Ok true /\ (forall ps, In ps pss -> template_text d ps <> None) \/
  formattable t d = Ok false /\ (exists ps, In ps pss /\ template_text d ps = None).
Proof. exact (formattable_spec d pss). Qed.
Print Assumptions c55_formattable.
Theorem c55_formattable_conditional d vs pss qss : Forall (Forall piece_ok) pss -> Forall (Forall piece_ok) qss ->
  exists t, mk_template vs (Some (map write pss)) (Some (map write qss)) = Ok t /\
    t_vars t = None /\ t_conditioning t = Some (map write pss) /\ t_conditional t = Some (map write qss) /\
    (formattable t d = Ok true /\ (forall ps, In ps pss \/ In ps qss -> template_text d ps <> None) \/
     formattable t d = Ok false /\ (exists ps, (In ps pss \/ In ps qss) /\ template_text d ps = None)).
Proof. exact (formattable_conditional d vs pss qss). Qed.
Print Assumptions c55_formattable_conditional.
Theorem c55_template_one_sided vs l : mk_template vs (Some l) None = Err ValueError /\ mk_template vs None (Some l) = Err ValueError.
Proof. exact (template_one_sided vs l). Qed.
Print Assumptions c55_template_one_sided.
Example c55_nonvacuous_format :
  map write [[Lit ["a"; "_"]%char; Fld "i"]; [Fld "i"; Lit ["{"]%char; Fld "t"]] = ["a_{i}"; "{i}{{{t}"]%string /\
  Forall (Forall piece_ok) [[Lit ["a"; "_"]%char; Fld "i"]; [Fld "i"; Lit ["{"]%char; Fld "t"]] /\
  format_list_elements ["a_{i}"; "{i}{{{t}"]%string [("t", "7"); ("i", "0")]%string = Ok ["a_0"; "0{7"]%string /\
  format_list_elements ["a_{i}"; "{j}"]%string [("i", "0")]%string = Err KeyError.
Proof.
  split; [reflexivity|]. split; [|split; reflexivity].
  assert (H : forall n c, list_ascii_of_string n = [c] -> ~ (48 <= nat_of_ascii c <= 57) ->
              ~ In c ["!"; ":"; "."; "["; "{"; "}"]%char -> field_name n).
  { intros n c E H1 H2. unfold field_name. rewrite E. split; [exists c; split; [now left|exact H1]|].
    intros c' [<-|[]]. exact H2. }
  assert (Hi : field_name "i").
  { apply (H "i"%string "i"%char); [reflexivity|cbn; lia|cbn; intuition discriminate]. }
  assert (Ht : field_name "t").
  { apply (H "t"%string "t"%char); [reflexivity|cbn; lia|cbn; intuition discriminate]. }
  apply Forall_cons; [|apply Forall_cons; [|apply Forall_nil]].
  - apply Forall_cons; [exact I|]. apply Forall_cons; [exact Hi|apply Forall_nil].
  - apply Forall_cons; [exact Hi|]. apply Forall_cons; [exact I|]. apply Forall_cons; [exact Ht|apply Forall_nil].
Qed.
