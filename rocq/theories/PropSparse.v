(** Property theorems for SparseCategorical (C01 - C14).  Only statements: the proofs are in
    SparseProofs*.v, the concrete factors of the examples in SparseExamples.v.  The vocabulary
    of the statements is in TableSpec.v. *)
From Verif Require Import SparseExamples.
Local Open Scope string_scope.
Local Open Scope nat_scope.

(** ** C01 *)
Theorem c01_sparse_product_pointwise : forall (o : oracle) (a b : sparse),
  oracle_ok o -> wf_sparse a -> wf_sparse b -> zero_default a -> zero_default b -> cards_agree a b ->
  exists r, s_multiply o a b = Ok r /\ wf_sparse r /\ zero_default r /\
    (forall v, In v (svars r) <-> In v (svars a) \/ In v (svars b)) /\
    (forall v c, has_card r v c <-> has_card a v c \/ has_card b v c) /\
    (forall e, spot r e = (spot a e * spot b e)%R).
Proof. exact multiply_spec. Qed.
Print Assumptions c01_sparse_product_pointwise.
Example c01_nonvacuous : oracle_ok rev_oracle /\ wf_sparse ex_ab /\ wf_sparse ex_bc /\
  zero_default ex_ab /\ zero_default ex_bc /\ cards_agree ex_ab ex_bc.
Proof. repeat (split; [auto using rev_oracle_ok, ex_ab_wf, ex_bc_wf; reflexivity|]). exact ex_ab_bc_agree. Qed.

(** ** C02: false for scopes that differ, true for factors over the same variables. *)
Theorem c02_sparse_product_default_refuted : exists a b,
  wf_sparse a /\ wf_sparse b /\ sdef a = sdef b /\ is_lp (sdef a) /\ cards_agree a b /\
  forall o, oracle_ok o ->
  exists r e, s_multiply o a b = Ok r /\ in_range r e /\ spot r e <> (spot a e * spot b e)%R.
Proof. exact multiply_default_refuted_lemma. Qed.
Print Assumptions c02_sparse_product_default_refuted.
(** Missing for the full claim: scopes that are not equal as sets (there the claim is false),
    and empty tables. *)
Theorem c02_sparse_product_default_partial : forall (o : oracle) (a b : sparse),
  oracle_ok o -> wf_sparse a -> wf_sparse b -> cards_agree a b ->
  sdef a = sdef b -> is_lp (sdef a) ->
  (forall v, In v (svars a) <-> In v (svars b)) -> stbl a <> [] -> stbl b <> [] ->
  exists r, s_multiply o a b = Ok r /\ wf_sparse r /\
    (forall v, In v (svars r) <-> In v (svars a)) /\
    (forall e, spot r e = (spot a e * spot b e)%R).
Proof. exact multiply_default_same_scope. Qed.
Print Assumptions c02_sparse_product_default_partial.
Example c02_nonvacuous : wf_sparse ex_ab_fin /\ wf_sparse ex_ba_fin /\ cards_agree ex_ab_fin ex_ba_fin /\
  sdef ex_ab_fin = sdef ex_ba_fin /\ is_lp (sdef ex_ab_fin) /\
  (forall v, In v (svars ex_ab_fin) <-> In v (svars ex_ba_fin)) /\ stbl ex_ab_fin <> [] /\ stbl ex_ba_fin <> [].
Proof.
  split; [exact ex_ab_fin_wf|]. split; [exact ex_ba_fin_wf|]. split; [exact ex_ab_ba_fin_agree|].
  split; [reflexivity|]. split; [exact I|]. split; [cbn; tauto|]. split; discriminate.
Qed.

(** ** C03: a multiplication history is a binary tree over the factors (any order, any
    grouping, any set iteration order at each step). *)
Theorem c03_sparse_product_order_irrelevant : forall t1 t2 : mul_tree,
  oracles_ok t1 -> oracles_ok t2 -> Permutation (leaves t1) (leaves t2) ->
  (forall f, In f (leaves t1) -> wf_sparse f /\ zero_default f) ->
  (forall f g, In f (leaves t1) -> In g (leaves t1) -> cards_agree f g) ->
  exists r1 r2, mul_eval t1 = Ok r1 /\ mul_eval t2 = Ok r2 /\
    (forall v c, has_card r1 v c <-> has_card r2 v c) /\
    (forall v, In v (svars r1) <-> In v (svars r2)) /\
    (forall e, spot r1 e = spot r2 e).
Proof. exact mul_tree_order. Qed.
Print Assumptions c03_sparse_product_order_irrelevant.
Example c03_nonvacuous :
  let t1 := MNode id_oracle (MNode rev_oracle (MLeaf ex_ab) (MLeaf ex_bc)) (MLeaf ex_c) in
  let t2 := MNode rev_oracle (MLeaf ex_ab) (MNode id_oracle (MLeaf ex_c) (MLeaf ex_bc)) in
  oracles_ok t1 /\ oracles_ok t2 /\ Permutation (leaves t1) (leaves t2) /\
  (forall f, In f (leaves t1) -> wf_sparse f /\ zero_default f) /\
  (forall f g, In f (leaves t1) -> In g (leaves t1) -> cards_agree f g).
Proof.
  cbn. split; [auto using id_oracle_ok, rev_oracle_ok|]. split; [auto using id_oracle_ok, rev_oracle_ok|].
  split; [repeat constructor|]. split.
  - intros f [<-|[<-|[<-|[]]]]; split; auto using ex_ab_wf, ex_bc_wf, ex_c_wf; reflexivity.
  - intros f g [<-|[<-|[<-|[]]]] [<-|[<-|[<-|[]]]]; solve_agree.
Qed.

(** ** C04: holds when the scopes share a variable; without a shared variable the code raises
    TypeError. *)
Theorem c04_sparse_divide_refuted : exists a b,
  wf_sparse a /\ wf_sparse b /\ sdef a = sdef b /\ sdef a <> NaN /\ cards_agree a b /\
  forall o, oracle_ok o -> s_divide o a b = Err TypeError.
Proof. exact divide_refuted_lemma. Qed.
Print Assumptions c04_sparse_divide_refuted.
(** Missing for the full claim: factors without a shared variable. *)
Theorem c04_sparse_divide_pointwise_partial : forall (o : oracle) (a b : sparse),
  oracle_ok o -> wf_struct a -> wf_struct b -> cards_agree a b ->
  sdef a = sdef b -> sdef a <> NaN -> (exists v, In v (svars a) /\ In v (svars b)) ->
  exists r, s_divide o a b = Ok r /\ wf_struct r /\ sdef r = vsub (sdef a) (sdef a) /\
    (forall v, In v (svars r) <-> In v (svars a) \/ In v (svars b)) /\
    (forall v c, has_card r v c <-> has_card a v c \/ has_card b v c) /\
    (forall e, in_range a e -> in_range b e -> sval r e = vsub (sval a e) (sval b e)).
Proof. exact divide_spec. Qed.
Print Assumptions c04_sparse_divide_pointwise_partial.
Example c04_nonvacuous : wf_struct ex_ab /\ wf_struct ex_bc /\ cards_agree ex_ab ex_bc /\
  sdef ex_ab = sdef ex_bc /\ sdef ex_ab <> NaN /\ (exists v, In v (svars ex_ab) /\ In v (svars ex_bc)).
Proof.
  split; [exact ex_ab_wf|]. split; [exact ex_bc_wf|]. split; [exact ex_ab_bc_agree|].
  split; [reflexivity|]. split; [discriminate|]. exists "b". cbn. tauto.
Qed.
(** The failing case in general. *)
Theorem c04_sparse_divide_disjoint_fails : forall (o : oracle) (a b : sparse),
  oracle_ok o -> wf_struct a -> wf_struct b -> sdef a = sdef b -> sdef a <> NaN ->
  (forall v, In v (svars a) -> ~ In v (svars b)) -> s_divide o a b = Err TypeError.
Proof. exact divide_disjoint. Qed.
Print Assumptions c04_sparse_divide_disjoint_fails.

(** ** C05: false; no quotient of zero-default factors can be multiplied at all. *)
Theorem c05_sparse_quotient_usable_refuted : exists a b c,
  wf_sparse a /\ wf_sparse b /\ wf_sparse c /\ zero_default a /\ zero_default b /\ zero_default c /\
  cards_agree a b /\ cards_agree a c /\ cards_agree b c /\
  forall o o', oracle_ok o -> oracle_ok o' ->
  exists q, s_divide o a b = Ok q /\ s_multiply o' q c = Err NotImplementedError.
Proof. exact quotient_refuted_lemma. Qed.
Print Assumptions c05_sparse_quotient_usable_refuted.
Theorem c05_sparse_quotient_never_usable : forall (o o' : oracle) (a b c q : sparse),
  oracle_ok o -> oracle_ok o' -> wf_struct a -> wf_struct b -> wf_struct c ->
  zero_default a -> zero_default b -> cards_agree a b -> cards_agree a c -> cards_agree b c ->
  (exists v, In v (svars a) /\ In v (svars b)) ->
  s_divide o a b = Ok q -> s_multiply o' q c = Err NotImplementedError.
Proof. exact quotient_unusable. Qed.
Print Assumptions c05_sparse_quotient_never_usable.

(** ** C06 *)
Theorem c06_sparse_cancel_undoes_multiply : forall (o o' : oracle) (a b : sparse),
  oracle_ok o -> oracle_ok o' -> wf_sparse a -> wf_sparse b -> zero_default a -> zero_default b ->
  cards_agree a b ->
  exists p q, s_multiply o a b = Ok p /\ s_cancel o' p b = Ok q /\ wf_sparse q /\ zero_default q /\
    (forall v, In v (svars q) <-> In v (svars a) \/ In v (svars b)) /\
    (forall v c, has_card q v c <-> has_card a v c \/ has_card b v c) /\
    (forall e, spot b e <> 0%R -> spot q e = spot a e) /\
    (forall e, spot b e = 0%R -> spot q e = 0%R).
Proof. exact cancel_multiply. Qed.
Print Assumptions c06_sparse_cancel_undoes_multiply.
(** The same for cancelling any factor whose zeros are zeros of the first. *)
Theorem c06_sparse_cancel_pointwise : forall (o : oracle) (a b : sparse),
  oracle_ok o -> wf_sparse a -> wf_sparse b -> zero_default a -> zero_default b -> cards_agree a b ->
  incl (svars b) (svars a) -> (forall e, spot b e = 0%R -> spot a e = 0%R) ->
  exists q, s_cancel o a b = Ok q /\ wf_sparse q /\ zero_default q /\
    (forall v, In v (svars q) <-> In v (svars a)) /\
    (forall v c, has_card q v c <-> has_card a v c) /\
    (forall e, spot q e = (if Req_EM_T (spot b e) 0 then 0 else spot a e / spot b e)%R).
Proof. exact cancel_spec. Qed.
Print Assumptions c06_sparse_cancel_pointwise.
(** 0/0 is the only division by zero that is hidden: x/0 is infinite. *)
Theorem c06_sparse_cancel_pole : forall (o : oracle) (a b : sparse),
  oracle_ok o -> wf_sparse a -> wf_sparse b -> zero_default a -> zero_default b -> cards_agree a b ->
  incl (svars b) (svars a) ->
  exists q, s_cancel o a b = Ok q /\
    forall e, spot a e <> 0%R -> spot b e = 0%R -> stbl b <> [] -> sval q e = PInf.
Proof. exact cancel_pole. Qed.
Print Assumptions c06_sparse_cancel_pole.
Example c06_nonvacuous : oracle_ok id_oracle /\ oracle_ok rev_oracle /\ wf_sparse ex_ab /\ wf_sparse ex_bc /\
  zero_default ex_ab /\ zero_default ex_bc /\ cards_agree ex_ab ex_bc.
Proof.
  split; [exact id_oracle_ok|]. split; [exact rev_oracle_ok|]. split; [exact ex_ab_wf|].
  split; [exact ex_bc_wf|]. split; [reflexivity|]. split; [reflexivity|]. exact ex_ab_bc_agree.
Qed.

Example c06_nonvacuous_pole : wf_sparse ex_b /\ cards_agree ex_ab ex_b /\ incl (svars ex_b) (svars ex_ab) /\
  stbl ex_b <> [] /\ exists e, spot ex_ab e <> 0%R /\ spot ex_b e = 0%R.
Proof.
  split; [exact ex_b_wf|]. split; [exact ex_ab_b_agree|]. split; [intros v [<-|[]]; cbn; tauto|].
  split; [discriminate|exact ex_ab_b_pole].
Qed.

(** ** C07 *)
Theorem c07_sparse_marginal_keep : forall (o : oracle) (f : sparse) (vrs : list string),
  wf_sparse f -> zero_default f -> NoDup vrs -> incl vrs (svars f) ->
  exists r, s_marginalize o f vrs true = Ok r /\ wf_sparse r /\ zero_default r /\ svars r = vrs /\
    (forall v c, has_card r v c <-> In v vrs /\ has_card f v c) /\
    (forall removed e, NoDup removed ->
       (forall v, In v removed <-> In v (svars f) /\ ~ In v vrs) ->
       spot r e = sum_over (card_of f) removed (spot f) e) /\
    weight_of r = weight_of f.
Proof. exact marg_keep_spec. Qed.
Print Assumptions c07_sparse_marginal_keep.
Theorem c07_sparse_marginal_remove : forall (o : oracle) (f : sparse) (vrs : list string),
  oracle_ok o -> wf_sparse f -> zero_default f ->
  exists r, s_marginalize o f vrs false = Ok r /\ wf_sparse r /\ zero_default r /\
    (forall v, In v (svars r) <-> In v (svars f) /\ ~ In v vrs) /\
    (forall v c, has_card r v c <-> has_card f v c /\ ~ In v vrs) /\
    (forall removed e, NoDup removed ->
       (forall v, In v removed <-> In v (svars f) /\ In v vrs) ->
       spot r e = sum_over (card_of f) removed (spot f) e) /\
    weight_of r = weight_of f.
Proof. exact marg_remove_spec. Qed.
Print Assumptions c07_sparse_marginal_remove.
(** The [weight] property of the API is that total weight. *)
Theorem c07_sparse_weight_property : forall f : sparse, wf_sparse f -> zero_default f -> stbl f <> [] ->
  s_weight f = Ok (Fin (weight_of f)).
Proof. exact weight_property. Qed.
Print Assumptions c07_sparse_weight_property.
Example c07_nonvacuous : wf_sparse ex_ab /\ zero_default ex_ab /\ NoDup ["b"] /\ incl ["b"] (svars ex_ab) /\
  stbl ex_ab <> [].
Proof.
  split; [exact ex_ab_wf|]. split; [reflexivity|]. split; [repeat constructor; cbn; tauto|].
  split; [intros v [<-|[]]; cbn; tauto|discriminate].
Qed.

(** ** C08: false for observations that match no stored entry. *)
Theorem c08_sparse_reduce_refuted : exists f vrs values,
  wf_sparse f /\ zero_default f /\ NoDup vrs /\ incl vrs (svars f) /\
  (exists e, in_range f e /\ map e vrs = values) /\ s_reduce f vrs values = Err KeyError.
Proof. exact reduce_refuted_lemma. Qed.
Print Assumptions c08_sparse_reduce_refuted.
(** Missing for the full claim: observations that match no stored entry. *)
Theorem c08_sparse_reduce_partial : forall (f : sparse) (vrs : list string) (values : list nat),
  wf_sparse f -> zero_default f -> NoDup vrs -> incl vrs (svars f) ->
  (exists e0 v, In (map e0 (svars f), v) (stbl f) /\ map e0 vrs = values) ->
  exists r, s_reduce f vrs values = Ok r /\ wf_sparse r /\ zero_default r /\
    svars r = filter (fun v => negb (mem v vrs)) (svars f) /\
    (forall v c, has_card r v c <-> has_card f v c /\ ~ In v vrs) /\
    (forall e, map e vrs = values -> spot r e = spot f e).
Proof. exact reduce_env_spec. Qed.
Print Assumptions c08_sparse_reduce_partial.
Theorem c08_sparse_reduce_missing_fails : forall (f : sparse) (vrs : list string) (values : list nat),
  wf_struct f -> NoDup vrs -> incl vrs (svars f) -> length values = length vrs ->
  ~ (exists e0 v, In (map e0 (svars f), v) (stbl f) /\ map e0 vrs = values) ->
  s_reduce f vrs values = Err KeyError.
Proof. exact reduce_env_missing. Qed.
Print Assumptions c08_sparse_reduce_missing_fails.
Example c08_nonvacuous : wf_sparse ex_abc /\ zero_default ex_abc /\ NoDup ["c"; "a"] /\
  incl ["c"; "a"] (svars ex_abc) /\
  (exists e0 v, In (map e0 (svars ex_abc), v) (stbl ex_abc) /\ map e0 ["c"; "a"] = [1; 0]).
Proof.
  split; [exact ex_abc_wf|]. split; [reflexivity|]. split; [repeat constructor; cbn; intuition discriminate|].
  split; [intros v [<-|[<-|[]]]; cbn; tauto|].
  exists cyc, (Fin 1). split; [left; reflexivity|reflexivity].
Qed.

(** ** C09: false in general. *)
Theorem c09_sparse_potential_refuted : exists f vrs e,
  wf_sparse f /\ zero_default f /\ Permutation (svars f) vrs /\ in_range f e /\
  (exists x, s_potential f vrs (map e vrs) = Ok (Fin x) /\ x <> spot f e).
Proof. exact potential_refuted_lemma. Qed.
Print Assumptions c09_sparse_potential_refuted.
Theorem c09_sparse_potential_missing_refuted : exists f e,
  wf_sparse f /\ zero_default f /\ in_range f e /\
  s_potential f (svars f) (map e (svars f)) = Err KeyError.
Proof. exact potential_missing_lemma. Qed.
Print Assumptions c09_sparse_potential_missing_refuted.
(** Missing for the full claim: assignments that are not stored and orderings that are not
    their own inverse (3-cycles and the like). *)
Theorem c09_sparse_potential_partial : forall (f : sparse) (vrs : list string) (e : string -> nat),
  wf_sparse f -> zero_default f -> Permutation (svars f) vrs ->
  (forall i v, nth_error vrs i = Some v ->
     exists j w, nth_error (svars f) j = Some v /\ nth_error vrs j = Some w /\
                 nth_error (svars f) i = Some w) ->
  In (map e (svars f)) (dkeys (stbl f)) ->
  s_potential f vrs (map e vrs) = Ok (Fin (spot f e)).
Proof. exact potential_spec. Qed.
Print Assumptions c09_sparse_potential_partial.
Example c09_nonvacuous : wf_sparse ex_abc /\ zero_default ex_abc /\
  Permutation (svars ex_abc) ["c"; "b"; "a"] /\
  (forall i v, nth_error ["c"; "b"; "a"] i = Some v ->
     exists j w, nth_error (svars ex_abc) j = Some v /\ nth_error ["c"; "b"; "a"] j = Some w /\
                 nth_error (svars ex_abc) i = Some w) /\
  In (map cyc (svars ex_abc)) (dkeys (stbl ex_abc)).
Proof.
  split; [exact ex_abc_wf|]. split; [reflexivity|]. split; [apply (Permutation_rev ["a"; "b"; "c"])|].
  split; [|cbn; tauto].
  intros [|[|[|i]]] v H; cbn in H; try (destruct i; discriminate); injection H as <-.
  - exists 2, "a". repeat split.
  - exists 1, "b". repeat split.
  - exists 0, "c". repeat split.
Qed.

(** ** C10 *)
Theorem c10_sparse_normalize : forall f : sparse, wf_sparse f -> zero_default f -> (0 < weight_of f)%R ->
  exists r c, s_normalize f = Ok r /\ wf_sparse r /\ zero_default r /\
    svars r = svars f /\ scards r = scards f /\ (0 < c)%R /\
    (forall e, spot r e = (c * spot f e)%R) /\ weight_of r = 1%R.
Proof. exact normalize_weight. Qed.
Print Assumptions c10_sparse_normalize.
Example c10_nonvacuous : wf_sparse ex_ab /\ zero_default ex_ab /\ (0 < weight_of ex_ab)%R.
Proof. split; [exact ex_ab_wf|]. split; [reflexivity|exact ex_ab_pos]. Qed.

(** ** C11: holds for factors with at least one variable. *)
Theorem c11_sparse_kl_refuted : exists p q,
  wf_sparse p /\ wf_sparse q /\ zero_default p /\ zero_default q /\
  Permutation (svars p) (svars q) /\ cards_agree p q /\ (0 < weight_of p)%R /\ (0 < weight_of q)%R /\
  forall o, oracle_ok o -> s_kl_divergence o p q true = Err TypeError.
Proof. exact kl_refuted_lemma. Qed.
Print Assumptions c11_sparse_kl_refuted.
(** Missing for the full claim: factors without variables. *)
Theorem c11_sparse_kl_partial : forall (o : oracle) (p q : sparse),
  oracle_ok o -> wf_sparse p -> wf_sparse q -> zero_default p -> zero_default q ->
  Permutation (svars p) (svars q) -> cards_agree p q -> svars p <> [] ->
  (0 < weight_of p)%R -> (0 < weight_of q)%R ->
  exists d, s_kl_divergence o p q true = Ok d /\
    ((exists e, in_range p e /\ 0 < spot p e /\ spot q e = 0)%R -> d = PInf) /\
    (~ (exists e, in_range p e /\ 0 < spot p e /\ spot q e = 0)%R ->
       d = Fin (kl_of p q) /\ (0 <= kl_of p q)%R) /\
    (d = Fin 0 <-> forall e, in_range p e -> (spot p e / weight_of p = spot q e / weight_of q)%R).
Proof. exact kl_spec. Qed.
Print Assumptions c11_sparse_kl_partial.
Example c11_nonvacuous : wf_sparse ex_ab /\ wf_sparse ex_ba /\ zero_default ex_ab /\ zero_default ex_ba /\
  Permutation (svars ex_ab) (svars ex_ba) /\ cards_agree ex_ab ex_ba /\ svars ex_ab <> [] /\
  (0 < weight_of ex_ab)%R /\ (0 < weight_of ex_ba)%R.
Proof.
  split; [exact ex_ab_wf|]. split; [exact ex_ba_wf|]. split; [reflexivity|]. split; [reflexivity|].
  split; [apply perm_swap|]. split; [exact ex_ab_ba_agree|]. split; [discriminate|].
  split; [exact ex_ab_pos|exact ex_ba_pos].
Qed.

(** ** C12: holds for factors with at least one variable. *)
Theorem c12_sparse_vacuous_refuted : exists f, wf_sparse f /\ zero_default f /\ (0 < weight_of f)%R /\
  forall o, oracle_ok o -> s_distance_from_vacuous o f = Err TypeError.
Proof. exact vacuous_refuted_lemma. Qed.
Print Assumptions c12_sparse_vacuous_refuted.
(** Missing for the full claim: factors without variables. *)
Theorem c12_sparse_vacuous_partial : forall (o : oracle) (f : sparse),
  oracle_ok o -> wf_sparse f -> zero_default f -> svars f <> [] -> (0 < weight_of f)%R ->
  let D := sum_over (card_of f) (svars f)
             (fun e => kl_term (spot f e / weight_of f) (1 / INR (n_assignments f)))%R (fun _ => 0) in
  s_distance_from_vacuous o f = Ok (Fin D) /\ (0 <= D)%R /\
  (D = 0%R <-> forall e e', in_range f e -> in_range f e' -> spot f e = spot f e').
Proof. exact vacuous_spec. Qed.
Print Assumptions c12_sparse_vacuous_partial.
Example c12_nonvacuous : oracle_ok rev_oracle /\ wf_sparse ex_ab /\ zero_default ex_ab /\ svars ex_ab <> [] /\
  (0 < weight_of ex_ab)%R.
Proof.
  split; [exact rev_oracle_ok|]. split; [exact ex_ab_wf|]. split; [reflexivity|]. split; [discriminate|exact ex_ab_pos].
Qed.

(** ** C13 *)
Theorem c13_sparse_reorder : forall (f : sparse) (order : list string),
  wf_sparse f -> zero_default f -> Permutation (svars f) order ->
  exists r, s_reorder f order = Ok r /\ wf_sparse r /\ zero_default r /\ svars r = order /\
    (forall v c, has_card r v c <-> has_card f v c) /\ (forall e, sval r e = sval f e).
Proof. exact reorder_spec. Qed.
Print Assumptions c13_sparse_reorder.
Theorem c13_sparse_equals_reorder : forall (f : sparse) (order : list string) (r : sparse) (rtol atol : R),
  wf_sparse f -> zero_default f -> Permutation (svars f) order -> (0 <= rtol)%R -> (0 <= atol)%R ->
  s_reorder f order = Ok r ->
  s_equals f r rtol atol = Ok true /\ s_equals r f rtol atol = Ok true.
Proof. exact equals_reorder. Qed.
Print Assumptions c13_sparse_equals_reorder.
Theorem c13_sparse_equals_symmetric : forall (f g : sparse) (rtol atol : R),
  wf_sparse f -> wf_sparse g -> zero_default f -> zero_default g ->
  s_equals f g rtol atol = s_equals g f rtol atol.
Proof. exact equals_sym. Qed.
Print Assumptions c13_sparse_equals_symmetric.
(** What a positive answer means. *)
Theorem c13_sparse_equals_meaning : forall (f g : sparse) (rtol atol : R),
  wf_sparse f -> wf_sparse g -> zero_default f -> zero_default g ->
  (s_equals f g rtol atol = Ok true <->
   (forall v, In v (svars f) <-> In v (svars g)) /\
   forall e, visclose (sval g e) (sval f e) rtol atol = true /\
             visclose (sval f e) (sval g e) rtol atol = true).
Proof. exact equals_meaning. Qed.
Print Assumptions c13_sparse_equals_meaning.
(** Symmetry fails for factors with a common finite default. *)
Theorem c13_sparse_equals_default_refuted : exists f g rtol atol,
  wf_sparse f /\ wf_sparse g /\ sdef f = sdef g /\ is_lp (sdef f) /\ (0 <= rtol)%R /\ (0 <= atol)%R /\
  s_equals f g rtol atol = Ok false /\ s_equals g f rtol atol = Ok true.
Proof. exact equals_asym_lemma. Qed.
Print Assumptions c13_sparse_equals_default_refuted.
Example c13_nonvacuous : wf_sparse ex_abc /\ zero_default ex_abc /\ Permutation (svars ex_abc) ["b"; "a"; "c"] /\
  exists r, s_reorder ex_abc ["b"; "a"; "c"] = Ok r.
Proof.
  split; [exact ex_abc_wf|]. split; [reflexivity|]. split; [apply perm_swap|]. eexists. reflexivity.
Qed.

(** ** C14 *)
Theorem c14_sparse_argmax : forall f : sparse, wf_sparse f -> zero_default f -> stbl f <> [] ->
  exists k, s_argmax f = Ok k /\ length k = length (svars f) /\
    (forall e, map e (svars f) = k -> in_range f e /\ forall e', (spot f e' <= spot f e)%R).
Proof. exact argmax_env_spec. Qed.
Print Assumptions c14_sparse_argmax.
Example c14_nonvacuous : wf_sparse ex_ab /\ zero_default ex_ab /\ stbl ex_ab <> [].
Proof. split; [exact ex_ab_wf|]. split; [reflexivity|discriminate]. Qed.
