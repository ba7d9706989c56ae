(** Properties C164-C165: divergence from a factor that is not normalised; bad covariances. *)
From Coq Require Import String List Reals Permutation.
Import ListNotations.
From Verif Require Import KlRaw KlRawEx SparseExamples DenseExamples.
Local Open Scope string_scope.
Local Open Scope nat_scope.
Local Open Scope list_scope.

(** With normalize_factor=False the divergence is the sum of p log(p/q) with q as it stands. A
    negative sum is reported as zero down to -1e-4 and raises ValueError below. *)
Theorem c164_sparse o p q : oracle_ok o -> wf_sparse p -> wf_sparse q -> zero_default p -> zero_default q ->
  Permutation (svars p) (svars q) -> cards_agree p q -> svars p <> [] -> (0 < weight_of p)%R ->
  let r := s_kl_divergence o p q false in
  let D := sum_over (card_of p) (svars p) (fun e => kl_term (spot p e / weight_of p) (spot q e))%R (fun _ => 0) in
  ((exists e, in_range p e /\ 0 < spot p e /\ spot q e = 0)%R -> r = Ok PInf) /\
  (~ (exists e, in_range p e /\ 0 < spot p e /\ spot q e = 0)%R ->
    (0 <= D -> r = Ok (Fin D))%R /\ (- (1 / 10000) <= D < 0 -> r = Ok (Fin 0))%R /\ (D < - (1 / 10000) -> r = Err ValueError)%R).
Proof. exact (kl_raw_spec o p q). Qed.
Print Assumptions c164_sparse.
Example c164_nonvacuous : oracle_ok id_oracle /\ wf_sparse kr_p /\ wf_sparse kr_q /\ zero_default kr_p /\ zero_default kr_q /\
  Permutation (svars kr_p) (svars kr_q) /\ cards_agree kr_p kr_q /\ svars kr_p <> [] /\ (0 < weight_of kr_p)%R /\
  ~ (exists e, in_range kr_p e /\ 0 < spot kr_p e /\ spot kr_q e = 0)%R /\ s_kl_divergence id_oracle kr_p kr_q false = Err ValueError.
Proof. exact kr_ex. Qed.
Theorem c164_dense p q : wf_dense p -> wf_dense q -> Permutation (dvars p) (dvars q) -> d_cards_agree p q ->
  names_agree p q -> (0 < d_weight_of p)%R ->
  let r := d_kl_divergence p q false in
  let D := sum_over (d_card_of p) (dvars p) (fun e => kl_term (dpot p e / d_weight_of p) (dpot q e))%R (fun _ => 0) in
  ((exists e, d_in_range p e /\ 0 < dpot p e /\ dpot q e = 0)%R -> r = Ok PInf) /\
  (~ (exists e, d_in_range p e /\ 0 < dpot p e /\ dpot q e = 0)%R ->
    (0 <= D -> r = Ok (Fin D))%R /\ (- (1 / 10000) <= D < 0 -> r = Ok (Fin 0))%R /\ (D < - (1 / 10000) -> r = Err ValueError)%R).
Proof. exact (d_kl_raw_spec p q). Qed.
Print Assumptions c164_dense.
Example c164_dense_nonvacuous : wf_dense ed_ab /\ wf_dense ed_ba /\ Permutation (dvars ed_ab) (dvars ed_ba) /\
  d_cards_agree ed_ab ed_ba /\ names_agree ed_ab ed_ba /\ (0 < d_weight_of ed_ab)%R.
Proof.
  split; [exact ed_ab_wf|]. split; [exact ed_ba_wf|]. split; [constructor|].
  split; [exact ed_ab_ba_cards|]. split; [exact ed_ab_ba_names|exact ed_ab_pos].
Qed.

(** The canonical form of a Gaussian whose covariance has a negative determinant raises Warning
    (the logarithm of a negative number); a singular covariance raises LinAlgError. *)
Theorem c165_bad_covariance f C m w : ga_can f = None -> ga_cov f = Some (C, m, w) ->
  nr C = length (ga_vars f) -> nc C = length (ga_vars f) -> nr m = length (ga_vars f) -> nc m = 1 ->
  ((mdet C < 0)%R -> get_can f = Err Warning) /\ (mdet C = 0%R -> get_can f = Err LinAlgError).
Proof. intros N E H1 H2 H3 H4. exact (cov_negative f C m w N E (conj H1 (conj H2 (conj H3 H4)))). Qed.
Print Assumptions c165_bad_covariance.
Example c165_nonvacuous : shaped 1 (Mat 1 1 (fun _ _ => (-1)%R), Mat 1 1 (fun _ _ => 0%R), Fin 0) /\
  (mdet (Mat 1 1 (fun _ _ => (-1)%R)) < 0)%R /\ mdet (Mat 1 1 (fun _ _ => 0%R)) = 0%R.
Proof. exact kr_cov_ex. Qed.
