(** Operators between factors and messages as objects (_factor.py, _cluster.py). *)
From Verif Require GaussFacts GaussExamples.
From Verif Require Import OperFacts.
Local Open Scope string_scope.
Local Open Scope list_scope.

(** C140, full statement: the operators times, division, equal and different between factors of
    one class do what multiply, divide and equals do.  False for division, which always raises: the
    class has the Python 2 method only. *)
Theorem c140_division_refuted : exists a b r, wf_dense a /\ wf_dense b /\ d_divide a b = Ok r /\ operate dense_methods Over a b = Err TypeError.
Proof. exact over_refuted. Qed.
Print Assumptions c140_division_refuted.
Theorem c140_division_error F (M : methods F) a b : operate M Over a b = Err TypeError.
Proof. exact (over_fails M a b). Qed.
Print Assumptions c140_division_error.
Theorem c140_sparse_product_partial o a b : oracle_ok o -> wf_sparse a -> wf_sparse b -> zero_default a -> zero_default b -> cards_agree a b ->
  exists r, operate (sparse_methods o) Times a b = Ok (AFac r) /\ absorb (sparse_methods o) a b = Ok r /\ wf_sparse r /\
    (forall v, In v (svars r) <-> In v (svars a) \/ In v (svars b)) /\ forall e, spot r e = (spot a e * spot b e)%R.
Proof. exact (times_sparse o a b). Qed.
Print Assumptions c140_sparse_product_partial.
Theorem c140_dense_product_partial a b : wf_dense a -> wf_dense b -> d_cards_agree a b -> names_agree a b ->
  exists r, operate dense_methods Times a b = Ok (AFac r) /\ absorb dense_methods a b = Ok r /\ wf_dense r /\
    (forall v, In v (dvars r) <-> In v (dvars a) \/ In v (dvars b)) /\ forall e, d_in_range r e -> dpot r e = (dpot a e * dpot b e)%R.
Proof. exact (times_dense a b). Qed.
Print Assumptions c140_dense_product_partial.
Theorem c140_gaussian_product_partial a b : GaussFacts.wf_gauss a -> GaussFacts.wf_gauss b ->
  exists r, operate gauss_methods Times a b = Ok (AFac r) /\ absorb gauss_methods a b = Ok r /\ GaussFacts.wf_gauss r /\
    (forall v, In v (ga_vars r) <-> In v (ga_vars a) \/ In v (ga_vars b)) /\
    forall e, exists l1 l2, log_potential a (map e (ga_vars a)) None = Ok l1 /\ log_potential b (map e (ga_vars b)) None = Ok l2 /\ log_potential r (map e (ga_vars r)) None = Ok (vadd l1 l2).
Proof. exact (times_gauss a b). Qed.
Print Assumptions c140_gaussian_product_partial.
Theorem c140_sparse_equal_partial o a b : wf_sparse a -> wf_sparse b -> zero_default a -> zero_default b ->
  exists r, operate (sparse_methods o) Same a b = Ok (ABool r) /\ operate (sparse_methods o) Differ a b = Ok (ABool (negb r)) /\
    (r = true <-> (forall v, In v (svars a) <-> In v (svars b)) /\ forall e, visclose (sval b e) (sval a e) (1 / 10000)%R (1 / 10000)%R = true /\ visclose (sval a e) (sval b e) (1 / 10000)%R (1 / 10000)%R = true).
Proof. exact (same_sparse o a b). Qed.
Print Assumptions c140_sparse_equal_partial.
Theorem c140_dense_equal_partial a b : wf_dense a -> wf_dense b -> d_cards_agree a b ->
  exists r, operate dense_methods Same a b = Ok (ABool r) /\ operate dense_methods Differ a b = Ok (ABool (negb r)) /\
    (r = true <-> (forall v, In v (dvars a) <-> In v (dvars b)) /\ forall e, d_in_range a e -> visclose (dval a e) (dval b e) (1 / 10000)%R (1 / 10000)%R = true).
Proof. exact (same_dense a b). Qed.
Print Assumptions c140_dense_equal_partial.
Example c140_nonvacuous : oracle_ok id_oracle /\ wf_sparse ex_ab /\ wf_sparse ex_bc /\ zero_default ex_ab /\ zero_default ex_bc /\ cards_agree ex_ab ex_bc /\
  wf_dense ed_ab /\ wf_dense ed_bc /\ d_cards_agree ed_ab ed_bc /\ names_agree ed_ab ed_bc /\ GaussFacts.wf_gauss GaussExamples.ex_ab /\ GaussFacts.wf_gauss GaussExamples.ex_bc.
Proof.
  split; [exact id_oracle_ok|]. split; [exact ex_ab_wf|]. split; [exact ex_bc_wf|]. split; [reflexivity|]. split; [reflexivity|]. split; [exact ex_ab_bc_agree|].
  split; [exact ed_ab_wf|]. split; [exact ed_bc_wf|]. split; [exact ed_ab_bc_cards|]. split; [exact ed_ab_bc_names|]. split; [exact GaussExamples.wf_ab|exact GaussExamples.wf_bc].
Qed.

(** C141: messages are equal if and only if they have the same sender, the same receiver and factors
    that are close at every assignment; a copy is equal to the original. *)
Theorem c141_sparse_messages m n rtol atol : wf_sparse (m_fac m) -> wf_sparse (m_fac n) -> zero_default (m_fac m) -> zero_default (m_fac n) ->
  exists r, m_equals s_equals m n rtol atol = Ok r /\ m_equals s_equals n m rtol atol = Ok r /\
    (r = true <-> m_snd m = m_snd n /\ m_rcv m = m_rcv n /\ (forall v, In v (svars (m_fac m)) <-> In v (svars (m_fac n))) /\
      forall e, visclose (sval (m_fac n) e) (sval (m_fac m) e) rtol atol = true /\ visclose (sval (m_fac m) e) (sval (m_fac n) e) rtol atol = true).
Proof. exact (m_equals_sparse m n rtol atol). Qed.
Print Assumptions c141_sparse_messages.
Theorem c141_sparse_copy m rtol atol : wf_sparse (m_fac m) -> zero_default (m_fac m) -> (0 <= rtol)%R -> (0 <= atol)%R ->
  m_copy s_copy m = Ok m /\ m_equals s_equals m m rtol atol = Ok true.
Proof. exact (m_copy_sparse m rtol atol). Qed.
Print Assumptions c141_sparse_copy.
Theorem c141_dense_messages m n rtol atol : wf_dense (m_fac m) -> wf_dense (m_fac n) -> d_cards_agree (m_fac m) (m_fac n) ->
  exists r, m_equals d_equals m n rtol atol = Ok r /\
    (r = true <-> m_snd m = m_snd n /\ m_rcv m = m_rcv n /\ (forall v, In v (dvars (m_fac m)) <-> In v (dvars (m_fac n))) /\
      forall e, d_in_range (m_fac m) e -> visclose (dval (m_fac m) e) (dval (m_fac n) e) rtol atol = true).
Proof. exact (m_equals_dense m n rtol atol). Qed.
Print Assumptions c141_dense_messages.
Theorem c141_dense_copy m rtol atol : wf_dense (m_fac m) -> (0 <= rtol)%R -> (0 <= atol)%R ->
  exists n, m_copy d_copy m = Ok n /\ m_snd n = m_snd m /\ m_rcv n = m_rcv m /\ (forall e, dval (m_fac n) e = dval (m_fac m) e) /\ m_equals d_equals m n rtol atol = Ok true.
Proof. exact (m_copy_dense m rtol atol). Qed.
Print Assumptions c141_dense_copy.
Example c141_nonvacuous : exists (m n : msg sparse) (d : msg dense), wf_sparse (m_fac m) /\ wf_sparse (m_fac n) /\ zero_default (m_fac m) /\ zero_default (m_fac n) /\
  m_snd m = "a" /\ m_rcv m = "b" /\ m_snd n = "b" /\ wf_dense (m_fac d).
Proof.
  exists {| m_fac := ex_ab; m_snd := "a"; m_rcv := "b" |}, {| m_fac := ex_bc; m_snd := "b"; m_rcv := "a" |}, {| m_fac := ed_ab; m_snd := "a"; m_rcv := "b" |}. cbn.
  split; [exact ex_ab_wf|]. split; [exact ex_bc_wf|]. do 2 (split; [reflexivity|]). do 3 (split; [reflexivity|]). exact ed_ab_wf.
Qed.
