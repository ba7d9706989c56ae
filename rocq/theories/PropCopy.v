(** Property C166: a copy of a factor is the same factor. *)
From Coq Require Import String List Reals.
Import ListNotations.
From Verif Require Import FactTabModel FactSparseModel CopyTab CopyFacts MixExamples NlgExamples3 SparseExamples DenseExamples GaussExamples.
Local Open Scope string_scope.
Local Open Scope list_scope.

Theorem c166_sparse f : wf_struct f -> s_copy f = Ok f.
Proof. exact (sparse_copy f). Qed.
Print Assumptions c166_sparse.
Theorem c166_dense f : wf_dense f -> exists c, d_copy f = Ok c /\ wf_dense c /\ dvars c = dvars f /\ dtens c = dtens f /\
  (forall v, In v (dvars f) -> dget (dnames c) v = dget (dnames f) v) /\ forall e, dval c e = dval f e.
Proof. exact (dense_copy f). Qed.
Print Assumptions c166_dense.
(** The parameters of both forms are kept; the vacuous flag is not copied but taken anew (C79
    shows where this matters). *)
Theorem c166_gaussian f : wf_gauss f -> exists c, g_copy f = Ok c /\ wf_gauss c /\ ga_vars c = ga_vars f /\ ga_can c = ga_can f /\ ga_cov c = ga_cov f /\
  ga_vac c = match ga_cov f, ga_can f with None, Some (K, _, _) => prec_vacuous K | _, _ => false end /\ forall e, lp c e = lp f e.
Proof. exact (gauss_copy f). Qed.
Print Assumptions c166_gaussian.
Theorem c166_mixture a : wf_mix a -> exists c, mix_copy a = Ok c /\ wf_mix c /\ gm_vars c = gm_vars a /\
  Forall2 (fun x y => ga_vars y = ga_vars x /\ ga_can y = ga_can x /\ ga_cov y = ga_cov x) (gm_comps a) (gm_comps c) /\
  forall e, mixpot c e = mixpot a e /\ mixlp c e = mixlp a e.
Proof. exact (mix_copy_spec a). Qed.
Print Assumptions c166_mixture.
Theorem c166_factorised o a : oracle_ok o -> (forall f, In f (fg_factors a) -> wf_gauss f) -> exists c, fg_copy o a = Ok c /\
  Forall2 (fun x y => ga_vars y = ga_vars x /\ ga_can y = ga_can x /\ ga_cov y = ga_cov x /\ forall e, lp y e = lp x e) (fg_factors a) (fg_factors c) /\
  NoDup (fg_vars c) /\ forall v, In v (fg_vars c) <-> exists f, In f (fg_factors a) /\ In v (ga_vars f).
Proof. exact (fg_copy_spec o a). Qed.
Print Assumptions c166_factorised.
Theorem c166_factorised_sparse o a : oracle_ok o -> (forall g, In g (fz_factors a) -> wf_struct g) ->
  exists c, fz_copy o a = Ok c /\ fz_factors c = fz_factors a /\ NoDup (fz_vars c) /\ forall v, In v (fz_vars c) <-> exists f, In f (fz_factors a) /\ In v (svars f).
Proof. exact (fz_copy_spec o a). Qed.
Print Assumptions c166_factorised_sparse.
Theorem c166_factorised_dense o a : oracle_ok o -> (forall g, In g (ft_factors a) -> wf_dense g) ->
  exists c, ft_copy o a = Ok c /\ Forall2 (fun x y => dvars y = dvars x /\ dtens y = dtens x /\ forall e, dval y e = dval x e) (ft_factors a) (ft_factors c) /\
    NoDup (ft_vars c) /\ forall v, In v (ft_vars c) <-> exists f, In f (ft_factors a) /\ In v (dvars f).
Proof. exact (ft_copy_spec o a). Qed.
Print Assumptions c166_factorised_dense.
Theorem c166_nonlinear f : nl_wf f -> exists c, nl_copy f = Ok c /\ nl_wf c /\ nl_cing c = nl_cing f /\ nl_cal c = nl_cal f /\ nl_T c = nl_T f /\ nl_Q c = nl_Q f /\
  nl_w c = nl_w f /\ nl_ev c = nl_ev f /\ (forall e, lp (nl_joint c) e = lp (nl_joint f) e) /\ opt_params (nl_upd f) (nl_upd c) /\ opt_params (nl_cond f) (nl_cond c).
Proof. exact (nl_copy_full f). Qed.
Print Assumptions c166_nonlinear.
Example c166_nonvacuous : wf_struct SparseExamples.ex_ab /\ wf_dense ed_ab /\ wf_gauss GaussExamples.ex_ab /\ wf_mix mix_ab /\ (exists o, oracle_ok o) /\
  exists f c u, mk_nlg ["x1"; "x2"] ["y"] exT (meye 1) (Fin 2) None (Some u) (Some c) [] = Ok f /\ nl_wf f.
Proof. exact copy_ex. Qed.
