(** Property C167: laws of local computation for dense tables; elimination of variables. *)
From Coq Require Import String List Reals.
Import ListNotations.
From Verif Require Import ElimFacts DenseLaws DenseZero DenseZeroLaws DenseGraphEx SumFacts ElimDense.
Local Open Scope string_scope.
Local Open Scope nat_scope.
Local Open Scope list_scope.

(** Summing out in two steps is summing out at once, if the variables are listed in the order of
    the table (for other orders see C99). *)
Theorem c167_steps o card nm f xs ys : zgood card nm f -> (filter (fun v => mem v xs) (dvars f) = xs) -> (filter (fun v => mem v ys) xs = ys) ->
  exists a b r, d_marginalize o f xs true = Ok a /\ d_marginalize o a ys true = Ok b /\ d_marginalize o f ys true = Ok r /\
    dvars b = ys /\ dvars r = ys /\ forall e, (forall v, In v ys -> e v < card v) -> dpot b e = dpot r e.
Proof. exact (dense_steps card nm o f xs ys). Qed.
Print Assumptions c167_steps.
(** Evidence before or after a product, wherever all steps succeed. *)
Theorem c167_evidence_product card nm a b vs (e0 : env) p q : zgood card nm a -> zgood card nm b -> NoDup vs -> incl vs (dvars a ++ dvars b) ->
  d_multiply a b = Ok p -> d_reduce p vs (map Z.of_nat (map e0 vs)) = Ok q ->
  forall a' b' r, d_reduce a (filter (fun v => mem v (dvars a)) vs) (map Z.of_nat (map e0 (filter (fun v => mem v (dvars a)) vs))) = Ok a' ->
    d_reduce b (filter (fun v => mem v (dvars b)) vs) (map Z.of_nat (map e0 (filter (fun v => mem v (dvars b)) vs))) = Ok b' ->
    d_multiply a' b' = Ok r ->
    (forall v, In v (dvars q) <-> In v (dvars r)) /\ forall e, (forall v, In v (dvars q) -> e v < card v) -> dpot q e = dpot r e.
Proof. exact (dense_evidence_product card nm a b vs e0 p q). Qed.
Print Assumptions c167_evidence_product.
Example c167_laws_nonvacuous : zgood dx_card dx_nm (dx ["a"; "b"]) /\ zgood dx_card dx_nm (dx ["b"; "c"]) /\
  (filter (fun v => mem v ["a"; "b"]) (dvars (dx ["a"; "b"])) = ["a"; "b"]) /\ (filter (fun v => mem v ["b"]) ["a"; "b"] = ["b"]) /\
  exists p q a' b' r, d_multiply (dx ["a"; "b"]) (dx ["b"; "c"]) = Ok p /\ d_reduce p ["b"] (map Z.of_nat [1]) = Ok q /\
    d_reduce (dx ["a"; "b"]) ["b"] (map Z.of_nat [1]) = Ok a' /\ d_reduce (dx ["b"; "c"]) ["b"] (map Z.of_nat [1]) = Ok b' /\ d_multiply a' b' = Ok r.
Proof. exact elim_dense_laws_ex. Qed.
(** Multiplying the dense tables that mention a variable and summing it out, one variable
    after the other in any order, never fails and gives tables whose product is the marginal
    of the product of all tables. Entries may be zero. *)
Theorem c167_elimination o card nm fs vs : NoDup vs -> (forall f, In f fs -> zgood card nm f) ->
  exists rs, eliminate_all (dense_ops o) fs vs = Ok rs /\ (forall f, In f rs -> zgood card nm f) /\
  (forall w, (exists f, In f rs /\ In w (dvars f)) <-> (exists f, In f fs /\ In w (dvars f)) /\ ~ In w vs) /\
  forall done, NoDup done -> (forall v, In v done <-> In v vs /\ exists f, In f fs /\ In v (dvars f)) ->
    forall e, (forall f v, In f fs -> In v (dvars f) -> ~ In v vs -> e v < card v) ->
    Rprod (map (fun f => dpot f e) rs) = sum_over card done (fun e => Rprod (map (fun f => dpot f e) fs)) e.
Proof. exact (dense_elimination card nm o fs vs). Qed.
Print Assumptions c167_elimination.
(** So the order of elimination does not matter. *)
Theorem c167_order o card nm fs vs ws r1 r2 : NoDup vs -> NoDup ws -> (forall v, In v vs <-> In v ws) -> (forall f, In f fs -> zgood card nm f) ->
  eliminate_all (dense_ops o) fs vs = Ok r1 -> eliminate_all (dense_ops o) fs ws = Ok r2 ->
  (forall w, (exists f, In f r1 /\ In w (dvars f)) <-> (exists f, In f r2 /\ In w (dvars f))) /\
  forall e, (forall f v, In f fs -> In v (dvars f) -> ~ In v vs -> e v < card v) ->
    Rprod (map (fun f => dpot f e) r1) = Rprod (map (fun f => dpot f e) r2).
Proof. exact (dense_order card nm o fs vs ws r1 r2). Qed.
Print Assumptions c167_order.
Example c167_nonvacuous : (forall f, In f dx_chain -> zgood dx_card dx_nm f) /\ dx_chain <> [] /\ NoDup ["b"; "a"].
Proof. exact elim_dense_ex. Qed.
