(** Properties C104 and C105: the templates for dense and sparse tables. *)
From Verif Require Import TemplateFacts.
Local Open Scope string_scope.
Local Open Scope list_scope.
Local Open Scope nat_scope.

(** C104: a template of a tensor gives that tensor over the filled in (or given) names. *)
Theorem c104_tensor tpl cards probs w d given names : names_from tpl d given names -> NoDup names -> length (tshape w) = length names ->
  (cards = None \/ cards = Some (tshape w)) -> (forall k, is_lp (tget w k)) ->
  exists t f, mk_ctemplate (Some tpl) cards probs (Some w) = Ok t /\ ct_make_factor t d given = Ok f /\ wf_dense f /\ dvars f = names /\
    (forall v c, d_has_card f v c <-> In (v, c) (combine names (tshape w))) /\ (forall e, dval f e = tget w (map e names)).
Proof. exact (ct_tensor tpl cards probs w d given names). Qed.
Print Assumptions c104_tensor.
(** A template of a table of probabilities: listed assignments have their value, all others zero. *)
Theorem c104_probs tpl cards p d given names : names_from tpl d given names -> NoDup names -> length cards = length names -> NoDup (dkeys p) ->
  (forall k x, In (k, x) p -> Forall2 (fun i c => i < c) k cards /\ (0 <= x)%R) ->
  exists t f, mk_ctemplate (Some tpl) (Some cards) (Some p) None = Ok t /\ ct_make_factor t d given = Ok f /\ wf_dense f /\ dvars f = names /\
    (forall v c, d_has_card f v c <-> In (v, c) (combine names cards)) /\
    (forall k x e, In (k, x) p -> map e names = k -> dpot f e = x) /\
    (forall e, d_in_range f e -> ~ In (map e names) (dkeys p) -> dpot f e = 0%R).
Proof. exact (ct_probs_spec tpl cards p d given names). Qed.
Print Assumptions c104_probs.
(** Two factors of one template are the same function up to the names. *)
Theorem c104_renamed tpl cards probs w d1 d2 g1 g2 n1 n2 t f1 f2 : mk_ctemplate (Some tpl) cards probs (Some w) = Ok t ->
  names_from tpl d1 g1 n1 -> names_from tpl d2 g2 n2 -> ct_make_factor t d1 g1 = Ok f1 -> ct_make_factor t d2 g2 = Ok f2 ->
  dvars f1 = n1 /\ dvars f2 = n2 /\ dtens f1 = dtens f2 /\ forall e1 e2, map e1 n1 = map e2 n2 -> dval f1 e1 = dval f2 e2.
Proof. exact (ct_renamed tpl cards probs w d1 d2 g1 g2 n1 n2 t f1 f2). Qed.
Print Assumptions c104_renamed.
(** What is rejected: a dictionary together with names, neither, a missing placeholder, repeated
    names, and a template with neither a tensor nor a complete table. *)
Theorem c104_errors tpl cards probs logt t : mk_ctemplate (Some tpl) cards probs logt = Ok t ->
  (forall d l, ct_make_factor t (Some d) (Some l) = Err AssertionError) /\ ct_make_factor t None None = Err TypeError /\
  (forall d e, format_list_elements tpl d = Err e -> ct_make_factor t (Some d) None = Err e) /\
  (forall d given names, names_from tpl d given names -> ~ NoDup names -> ct_make_factor t d given = Err ValueError) /\
  (forall d given names, names_from tpl d given names -> logt = None -> cards = None \/ probs = None -> ct_make_factor t d given = Err ValueError).
Proof. exact (ct_errors tpl cards probs logt t). Qed.
Print Assumptions c104_errors.

(** C105: the sparse template; it agrees with the dense template of the same table. *)
Theorem c105_probs tpl cards p d given names : names_from tpl d given names -> NoDup names -> length cards = length names -> NoDup (dkeys p) ->
  (forall k x, In (k, x) p -> Forall2 (fun i c => i < c) k cards /\ (0 <= x)%R) ->
  exists t f, mk_stemplate p cards (Some tpl) = Ok t /\ st_make_factor t d given = Ok f /\ wf_sparse f /\ zero_default f /\ svars f = names /\
    (forall v c, has_card f v c <-> In (v, c) (combine names cards)) /\
    (forall k x e, In (k, x) p -> map e names = k -> spot f e = x) /\
    (forall e, ~ In (map e names) (dkeys p) -> spot f e = 0%R) /\
    (exists t' f', mk_ctemplate (Some tpl) (Some cards) (Some p) None = Ok t' /\ ct_make_factor t' d given = Ok f' /\ represent f f').
Proof. exact (st_probs_spec tpl cards p d given names). Qed.
Print Assumptions c105_probs.
Theorem c105_errors tpl cards p t : mk_stemplate p cards (Some tpl) = Ok t ->
  (forall d l, st_make_factor t (Some d) (Some l) = Err AssertionError) /\ st_make_factor t None None = Err TypeError /\
  (forall d e, format_list_elements tpl d = Err e -> st_make_factor t (Some d) None = Err e) /\
  (forall d given names, names_from tpl d given names -> ~ NoDup names \/ length cards <> length names -> st_make_factor t d given = Err ValueError).
Proof. exact (st_errors tpl cards p t). Qed.
Print Assumptions c105_errors.
Theorem c105_no_templates cards p t : mk_stemplate p cards None = Ok t ->
  (forall d, st_make_factor t d None = Err ValueError) /\ (forall d l, st_make_factor t (Some d) (Some l) = Err AssertionError) /\
  (forall l, st_make_factor t None (Some l) = mk_sparse_probs l cards p NInf).
Proof. exact (st_no_templates cards p t). Qed.
Print Assumptions c105_no_templates.

(** The hypotheses are met: two placeholders filled in, names given, a missing placeholder, two
    templates filled in with the same name, a table with two entries. *)
Example c104_c105_example : names_from ["a_{i}"; "b_{i}"] (Some [("i", "7")]) None ["a_7"; "b_7"] /\ names_from ["a_{i}"; "b_{i}"] None (Some ["x"; "y"]) ["x"; "y"] /\
  NoDup ["a_7"; "b_7"] /\ format_list_elements ["a_{i}"; "b_{i}"] [("j", "7")] = Err KeyError /\
  names_from ["a_{i}"; "a_{j}"] (Some [("i", "7"); ("j", "7")]) None ["a_7"; "a_7"] /\
  NoDup (dkeys [([0; 1], 1%R); ([1; 2], 0%R)]) /\
  (forall k x, In (k, x) [([0; 1], 1%R); ([1; 2], 0%R)] -> Forall2 (fun i c => i < c) k [2; 3] /\ (0 <= x)%R).
Proof. exact tpl_example. Qed.
