(** Properties C161-C162: laws of local computation for sparse tables; elimination of variables. *)
From Coq Require Import String List Reals.
Import ListNotations.
From Verif Require Import ElimFacts ElimGauss SparseExamples ElimEx ElimGaussEx GaussExamples SparseExamples.
Local Open Scope string_scope.
Local Open Scope nat_scope.
Local Open Scope list_scope.

(** Summing out in two steps is summing out at once. *)
Theorem c161_steps o card f xs ys : oracle_ok o -> sgood card f -> NoDup xs -> NoDup ys -> incl xs (svars f) -> incl ys xs ->
  exists a b r, s_marginalize o f xs true = Ok a /\ s_marginalize o a ys true = Ok b /\ s_marginalize o f ys true = Ok r /\
    (forall v, In v (svars b) <-> In v (svars r)) /\ forall e, spot b e = spot r e.
Proof. intros O. exact (marg_steps _ card _ spot (sparse_lawful card o O) f xs ys). Qed.
Print Assumptions c161_steps.
(** A table that has none of the summed variables can be multiplied in before or after. *)
Theorem c161_product o card a b vs : oracle_ok o -> sgood card a -> sgood card b -> NoDup vs -> incl (svars b) vs -> incl vs (svars a ++ svars b) ->
  exists p q m r, s_multiply o a b = Ok p /\ s_marginalize o p vs true = Ok q /\
    s_marginalize o a (filter (fun v => mem v (svars a)) vs) true = Ok m /\ s_multiply o m b = Ok r /\
    (forall v, In v (svars q) <-> In v (svars r)) /\ forall e, spot q e = spot r e.
Proof. intros O. exact (marg_product _ card _ spot (sparse_lawful card o O) a b vs). Qed.
Print Assumptions c161_product.
(** Evidence before or after a product, and before or after a marginal, wherever all steps succeed (C08). *)
Theorem c161_evidence_product o card a b vs e0 p q : oracle_ok o -> sgood card a -> sgood card b -> NoDup vs -> incl vs (svars a ++ svars b) ->
  s_multiply o a b = Ok p -> s_reduce p vs (map e0 vs) = Ok q ->
  forall a' b' r, s_reduce a (filter (fun v => mem v (svars a)) vs) (map e0 (filter (fun v => mem v (svars a)) vs)) = Ok a' ->
    s_reduce b (filter (fun v => mem v (svars b)) vs) (map e0 (filter (fun v => mem v (svars b)) vs)) = Ok b' ->
    s_multiply o a' b' = Ok r ->
    (forall v, In v (svars q) <-> In v (svars r)) /\ forall e, spot q e = spot r e.
Proof. intros O. exact (reduce_product _ card _ spot (sparse_lawful card o O) a b vs e0 p q). Qed.
Print Assumptions c161_evidence_product.
Theorem c161_evidence_marginal o card f ks vs e0 m q : oracle_ok o -> sgood card f -> NoDup ks -> NoDup vs -> incl ks (svars f) -> incl vs ks ->
  s_marginalize o f ks true = Ok m -> s_reduce m vs (map e0 vs) = Ok q ->
  forall g r, s_reduce f vs (map e0 vs) = Ok g -> s_marginalize o g (filter (fun v => negb (mem v vs)) ks) true = Ok r ->
  (forall v, In v (svars q) <-> In v (svars r)) /\ forall e, spot q e = spot r e.
Proof. intros O. exact (reduce_marg _ card _ spot (sparse_lawful card o O) f ks vs e0 m q). Qed.
Print Assumptions c161_evidence_marginal.
(** Multiplying the tables that mention a variable and summing it out, one variable after the
    other in any order, never fails and gives tables whose product is the marginal of the
    product of all tables. *)
Theorem c161_elimination o card fs vs : oracle_ok o -> NoDup vs -> (forall f, In f fs -> sgood card f) ->
  exists rs, eliminate_all (sparse_ops o) fs vs = Ok rs /\ (forall f, In f rs -> sgood card f) /\
  (forall w, (exists f, In f rs /\ In w (svars f)) <-> (exists f, In f fs /\ In w (svars f)) /\ ~ In w vs) /\
  forall done, NoDup done -> (forall v, In v done <-> In v vs /\ exists f, In f fs /\ In v (svars f)) ->
    forall e, Rprod (map (fun f => spot f e) rs) = sum_over card done (fun e => Rprod (map (fun f => spot f e) fs)) e.
Proof. intros O N G. exact (eliminate_all_spec _ card _ spot (sparse_lawful card o O) vs fs N G). Qed.
Print Assumptions c161_elimination.
(** So the order of elimination does not matter. *)
Theorem c161_order o card fs vs ws r1 r2 : oracle_ok o -> NoDup vs -> NoDup ws -> (forall v, In v vs <-> In v ws) -> (forall f, In f fs -> sgood card f) ->
  eliminate_all (sparse_ops o) fs vs = Ok r1 -> eliminate_all (sparse_ops o) fs ws = Ok r2 ->
  (forall w, (exists f, In f r1 /\ In w (svars f)) <-> (exists f, In f r2 /\ In w (svars f))) /\
  forall e, Rprod (map (fun f => spot f e) r1) = Rprod (map (fun f => spot f e) r2).
Proof. intros O. exact (eliminate_order _ card _ spot (sparse_lawful card o O) fs vs ws r1 r2). Qed.
Print Assumptions c161_order.
Example c161_nonvacuous : oracle_ok id_oracle /\ exists card, sgood card ex_ab /\ sgood card ex_bc /\
  (exists p, s_reduce ex_ab ["a"] [0] = Ok p) /\ eliminate_all (sparse_ops id_oracle) [ex_ab; ex_bc] ["a"; "b"] <> Ok [ex_ab; ex_bc].
Proof. exact elim_ex. Qed.

(** The same program on Gaussians: the product of the results is the integral of the product
    of all factors over the eliminated variables, in whatever order they are integrated. *)
Theorem c162_elimination o fs vs : oracle_ok o -> NoDup vs -> (forall f, In f fs -> solid f /\ plain f) ->
  exists rs, eliminate_all (gauss_ops o) fs vs = Ok rs /\ (forall f, In f rs -> solid f /\ plain f) /\
  (forall w, (exists f, In f rs /\ In w (ga_vars f)) <-> (exists f, In f fs /\ In w (ga_vars f)) /\ ~ In w vs) /\
  forall done, NoDup done -> (forall v, In v done <-> In v vs /\ exists f, In f fs /\ In v (ga_vars f)) ->
    forall e, iint done (fun e => Rprod (map (fun f => gval f e) fs)) e (Rprod (map (fun f => gval f e) rs)).
Proof. intros O N G. exact (geliminate_all_spec o O vs fs N G). Qed.
Print Assumptions c162_elimination.
Theorem c162_order o fs vs ws r1 r2 : oracle_ok o -> NoDup vs -> NoDup ws -> (forall v, In v vs <-> In v ws) -> (forall f, In f fs -> solid f /\ plain f) ->
  eliminate_all (gauss_ops o) fs vs = Ok r1 -> eliminate_all (gauss_ops o) fs ws = Ok r2 ->
  (forall w, (exists f, In f r1 /\ In w (ga_vars f)) <-> (exists f, In f r2 /\ In w (ga_vars f))) /\
  forall e, Rprod (map (fun f => gval f e) r1) = Rprod (map (fun f => gval f e) r2).
Proof. intros O. exact (geliminate_order o O fs vs ws r1 r2). Qed.
Print Assumptions c162_order.
Example c162_nonvacuous : (exists o, oracle_ok o) /\ (forall f, In f [GaussExamples.ex_ab; el_cd] -> solid f /\ plain f) /\ NoDup ["b"; "a"] /\
  (forall v, In v ["b"; "a"] <-> In v ["b"; "a"] /\ exists f, In f [GaussExamples.ex_ab; el_cd] /\ In v (ga_vars f)).
Proof. exact gelim_ex. Qed.
