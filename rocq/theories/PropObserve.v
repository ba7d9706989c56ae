(** Property C168: observations one after the other, for the alias [observe] of the base class. *)
From Coq Require Import String List Reals ZArith.
Import ListNotations.
From Verif Require Import ObserveFacts ObserveEx ElimFacts SparseExamples DenseExamples GaussExamples.
Local Open Scope string_scope.
Local Open Scope nat_scope.
Local Open Scope list_scope.

(** Observing some variables of a sparse table and then others never fails on an assignment of
    non-zero potential; it gives the function of observing all of them at once, in any order. *)
Theorem c168_sparse o card f vs ws us e0 : oracle_ok o -> sgood card f -> NoDup (vs ++ ws) -> NoDup us -> incl (vs ++ ws) (svars f) ->
  (forall v, In v us <-> In v vs \/ In v ws) -> spot f e0 <> 0%R ->
  exists a b r, observe s_reduce f vs (map e0 vs) = Ok a /\ observe s_reduce a ws (map e0 ws) = Ok b /\ observe s_reduce f us (map e0 us) = Ok r /\
    (forall v, In v (svars b) <-> In v (svars f) /\ ~ In v us) /\ (forall v, In v (svars r) <-> In v (svars f) /\ ~ In v us) /\
    (forall e, spot b e = spot r e) /\ forall e, (forall v, In v us -> e v = e0 v) -> spot b e = spot f e.
Proof. intros O. exact (observe_steps _ card _ spot (sparse_lawful card o O) f vs ws us e0). Qed.
Print Assumptions c168_sparse.
Example c168_sparse_nonvacuous : oracle_ok id_oracle /\ exists card e0, sgood card SparseExamples.ex_ab /\ NoDup ["a"; "b"] /\
  incl (["a"] ++ ["b"]) (svars SparseExamples.ex_ab) /\ spot SparseExamples.ex_ab e0 <> 0%R.
Proof. exact observe_sparse_ex. Qed.
(** The same for dense tables: any values in range, zeros included; here the tables are equal
    entry for entry, with the same order of variables. *)
Theorem c168_dense f vs ws us (e0 : env) : wf_dense f -> NoDup (vs ++ ws) -> NoDup us -> (forall v, In v us <-> In v vs \/ In v ws) ->
  (forall v c, In v us -> d_has_card f v c -> e0 v < c) ->
  exists a b r, observe d_reduce f vs (map Z.of_nat (map e0 vs)) = Ok a /\ observe d_reduce a ws (map Z.of_nat (map e0 ws)) = Ok b /\
    observe d_reduce f us (map Z.of_nat (map e0 us)) = Ok r /\
    dvars b = dvars r /\ (forall v, In v (dvars r) <-> In v (dvars f) /\ ~ In v us) /\
    (forall v c, d_has_card b v c <-> d_has_card r v c) /\ (forall e, dval b e = dval r e) /\
    forall e, (forall v, In v us -> e v = e0 v) -> dval b e = dval f e.
Proof. exact (dense_steps f vs ws us e0). Qed.
Print Assumptions c168_dense.
Example c168_dense_nonvacuous : wf_dense ed_abc /\ NoDup (["c"] ++ ["a"]) /\ (forall v c, In v ["a"; "c"] -> d_has_card ed_abc v c -> 1 < c) /\ In "b" (dvars ed_abc).
Proof. exact observe_dense_ex. Qed.
(** The same for Gaussians, as long as one variable is left (C41). *)
Theorem c168_gaussian f vs ws us (e0 : string -> R) : wf_gauss f -> sym_prec f -> NoDup (vs ++ ws) -> NoDup us -> incl (vs ++ ws) (ga_vars f) ->
  (forall v, In v us <-> In v vs \/ In v ws) -> (exists v, In v (ga_vars f) /\ ~ In v us) ->
  exists a b r, observe g_reduce f vs (map e0 vs) = Ok a /\ observe g_reduce a ws (map e0 ws) = Ok b /\ observe g_reduce f us (map e0 us) = Ok r /\
    (forall v, In v (ga_vars b) <-> In v (ga_vars f) /\ ~ In v us) /\ (forall v, In v (ga_vars r) <-> In v (ga_vars f) /\ ~ In v us) /\
    (forall e, lp b e = lp r e) /\ forall e, (forall v, In v us -> e v = e0 v) -> lp b e = lp f e.
Proof. exact (gauss_steps f vs ws us e0). Qed.
Print Assumptions c168_gaussian.
Example c168_gaussian_nonvacuous : exists f, wf_gauss f /\ sym_prec f /\ NoDup (["c"] ++ ["a"]) /\ incl (["c"] ++ ["a"]) (ga_vars f) /\ In "b" (ga_vars f).
Proof. exact observe_gauss_ex. Qed.
