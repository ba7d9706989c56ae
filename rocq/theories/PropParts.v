(** Properties C159 and C160: helpers of the Gaussian and of the sparse table. *)
From Coq Require Import String List Permutation.
Import ListNotations.
From Verif Require Import PartsFacts PartsBoth GaussFacts GaussEq GaussExamples MixFacts MixExamples IntMarg IntFull SparseExamples.
Local Open Scope string_scope.
Local Open Scope nat_scope.
Local Open Scope list_scope.

(** C159: make_std_gaussian gives the density of independent standard normal variables. *)
Theorem c159_standard vars : NoDup vars -> vars <> [] -> exists f, make_std_gaussian vars = Ok f /\ solid f /\ ga_vars f = vars /\
  get_weight f = Ok (Fin 1) /\
  forall e, lp f e = Ok (Fin (- (1 / 2) * ln ((2 * PI) ^ length vars) - / 2 * Rsum (map (fun v => e v * e v) vars)))%R.
Proof. exact (std_spec vars). Qed.
Print Assumptions c159_standard.
Theorem c159_standard_error vars : (vars = [] -> make_std_gaussian vars = Err AssertionError) /\ (~ NoDup vars -> make_std_gaussian vars = Err ValueError).
Proof. split; [intros ->; exact std_empty|exact (std_duplicates vars)]. Qed.
Print Assumptions c159_standard_error.
(** _invert gives the reciprocal: its product with the factor is one everywhere. *)
Theorem c159_inverse f K h g : wf_gauss f -> ga_can f = Some (K, h, Fin g) -> exists r, g_invert f = Ok r /\ ga_vars r = ga_vars f /\ wf_gauss r /\ ga_cov r = None /\
  (forall e, exists x, lp f e = Ok (Fin x) /\ lp r e = Ok (Fin (- x))) /\
  exists p, g_multiply f r = Ok p /\ (forall v, In v (ga_vars p) <-> In v (ga_vars f)) /\ forall e, lp p e = Ok (Fin 0).
Proof. exact (invert_spec f K h g). Qed.
Print Assumptions c159_inverse.
Theorem c159_inverse_error f : ga_can f = None -> g_invert f = Err AssertionError.
Proof. exact (invert_cov f). Qed.
Print Assumptions c159_inverse_error.
(** get_weight is the integral over all variables. *)
Theorem c159_weight f ys : solid f -> plain f -> Permutation ys (ga_vars f) -> exists x, get_weight f = Ok (Fin x) /\ forall e, iint ys (gval f) e x.
Proof. exact (gauss_weight_spec f ys). Qed.
Print Assumptions c159_weight.
Example c159_witness : NoDup ["a"; "b"] /\ wf_gauss GaussExamples.ex_ab /\ ga_can GaussExamples.ex_ab = Some (exK, exh, Fin 0) /\
  solid GaussExamples.ex_ab /\ plain GaussExamples.ex_ab /\ ga_can GaussExamples.ex_bc = None.
Proof. split; [apply nd2; discriminate|]. split; [exact wf_ab|]. split; [reflexivity|]. destruct ex_ab_int as (_ & S & P & _). split; [exact S|]. split; [exact P|reflexivity]. Qed.

(** C160: the constructor of a sparse table accepts distinct variables with one cardinality each
    and keeps the table as given; anything else is a ValueError. *)
Theorem c160_constructor vars cards t d f : mk_sparse vars cards t d = Ok f <->
  NoDup vars /\ length cards = length vars /\ svars f = vars /\ scards f = cards /\ stbl f = t /\ sdef f = d.
Proof. exact (mk_sparse_iff vars cards t d f). Qed.
Print Assumptions c160_constructor.
Theorem c160_constructor_error vars cards t d : ~ NoDup vars \/ length cards <> length vars -> mk_sparse vars cards t d = Err ValueError.
Proof. exact (mk_sparse_error vars cards t d). Qed.
Print Assumptions c160_constructor_error.
(** A table of probabilities gives the factor with these values. *)
Theorem c160_probabilities vars cards (p : dict (list nat) R) d f : (forall k x, In (k, x) p -> 0 <= x)%R -> mk_sparse_probs vars cards p d = Ok f ->
  svars f = vars /\ scards f = cards /\ sdef f = d /\ forall e, spot f e = match dget p (map e vars) with Some x => x | None => pot d end.
Proof. exact (probs_made vars cards p d f). Qed.
Print Assumptions c160_probabilities.
(** _is_dense: every assignment is stored. *)
Theorem c160_dense f : wf_struct f -> (s_is_dense f = true <-> forall e, in_range f e -> dget (stbl f) (map e (svars f)) <> None).
Proof. exact (dense_iff f). Qed.
Print Assumptions c160_dense.
(** _make_dense stores all assignments and changes no value; a dense table stays as it is. *)
Theorem c160_make_dense f : wf_struct f -> exists g, s_make_dense f = Ok g /\ wf_struct g /\ svars g = svars f /\ scards g = scards f /\ sdef g = sdef f /\
  s_is_dense g = true /\ (forall e, sval g e = sval f e) /\ (s_is_dense f = true -> g = f).
Proof. exact (make_dense_spec f). Qed.
Print Assumptions c160_make_dense.
(** A binary operation with the rule "both" (no method uses it) computes the result for every
    assignment at which one of the tables is not the default.  False for different scopes: outer
    assignments of one table are used for the other, so the result has assignments of the wrong
    length and lacks right ones. *)
Theorem c160_both_refuted : exists r, apply_binop id_oracle both_a both_ab either RuleBoth = Ok r /\ svars r = ["b"; "a"] /\
  dget (stbl r) [0] = Some (Fin 1) /\ dget (stbl r) [1; 1; 0] = Some (Fin 1) /\ dget (stbl r) [0; 0] = None /\
  either (sval both_a (fun _ => 0)) (sval both_ab (fun _ => 0)) = Fin 1.
Proof. exact both_ex. Qed.
Print Assumptions c160_both_refuted.
(** On tables with the same variables the rule is right, for every operation. *)
Theorem c160_both_partial o a b f :
  oracle_ok o -> wf_struct a -> wf_struct b -> cards_agree a b ->
  veqb (sdef a) (sdef b) = true -> (forall v, In v (svars a) <-> In v (svars b)) -> svars a <> [] ->
  exists r, apply_binop o a b f RuleBoth = Ok r /\ (forall v, In v (svars r) <-> In v (svars a)) /\
    sdef r = f (sdef a) (sdef b) /\ (forall k x, In (k, x) (stbl r) -> length k = length (svars r)) /\
    forall e, sval r e = f (sval a e) (sval b e).
Proof. exact (binop_both o a b f). Qed.
Print Assumptions c160_both_partial.
Example c160_witness : wf_struct both_ab /\ s_is_dense both_ab = false /\ (exists f, mk_sparse_probs ["a"] [2] [([0], 1%R); ([1], 0%R)] NInf = Ok f) /\
  oracle_ok id_oracle /\ veqb (sdef both_ab) (sdef both_ab) = true /\ svars both_ab <> [].
Proof. destruct parts_ex as (W & D & E). split; [exact W|]. split; [exact D|]. split; [exact E|]. split; [exact id_oracle_ok|]. split; [reflexivity|discriminate]. Qed.
