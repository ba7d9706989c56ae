(** Drawing samples: Gaussian.sample, GaussianMixture.sample, the two sample functions of
    nonlinear_gaussian.py, make_random_gaussian and the parts of _factor_utils they use.
    The random numbers are arguments: the array that [np.random.normal] or [np.random.uniform]
    returns and the list of indices that [np.random.choice] returns. *)
From Verif Require Export NlgModel.

(** gaussian.py:633-647 sample (the object afterwards comes first); [Z i t] is the entry of the
    array of standard normal numbers, one row per variable and one column per sample. *)
Definition g_sample (f : gauss) (num : nat) (Z : nat -> nat -> R) : res (gauss * mat) :=
  let z := Mat (length (ga_vars f)) num Z in
  let* f' := update_covform f in
  match ga_cov f' with
  | Some (C, m, _) =>
      let* L := np_cholesky C in
      let* a := mmul L z in
      let* s := madd a m in
      Ok (f', s)
  | None => Err LinAlgError (* cholesky(None); the conversion above always sets the covariance *)
  end.

(** [np.concatenate] of a list of arrays along axis 1 and along axis 0: ValueError for the
    empty list. *)
Definition concat1 (l : list mat) : res mat := match l with [] => Err ValueError | x :: xs => foldM hcat xs x end.
Definition concat0 (l : list mat) : res mat := match l with [] => Err ValueError | x :: xs => foldM vcat xs x end.

(** gaussian_mixture.py:306-316 _get_weights and 367-370 the probabilities that
    [np.random.choice] receives: ValueError when they contain NaN (a sum that is zero, infinite or
    NaN makes one of the quotients NaN). *)
Definition mix_get_weights (a : gmix) : res (list val) := mapM get_weight (gm_comps a).
Definition choice_probs (ws : list val) : res (list R) :=
  match vsum ws with
  | Fin s => if Req_b s 0 then Err ValueError
             else mapM (fun w => match w with Fin x => Ok (x / s)%R | _ => Err ValueError end) ws
  | _ => Err ValueError
  end.
Definition mix_probs (a : gmix) : res (list R) := let* ws := mix_get_weights a in choice_probs ws.
(** gaussian_mixture.py:358-375 sample.  [pick] is what [np.random.choice] returns for the
    probabilities, [Zs t] the numbers drawn for the [t]-th sample.  Simplification: the
    components keep the covariance form that computing the weights has given them; the result
    does not depend on that. *)
Definition mix_sample (a : gmix) (pick : list nat) (Zs : nat -> nat -> nat -> R) : res mat :=
  let* _ := mix_probs a in
  let* cols := mapM (fun tk => let* c := py_nth (gm_comps a) (snd tk) in
                               let* r := g_sample c 1 (Zs (fst tk)) in Ok (snd r))
                    (combine (seq 0 (length pick)) pick) in
  concat1 cols.

(** nonlinear_gaussian.py:441-452 sample (the object afterwards comes first). *)
Definition nl_sample (o : oracle) (f : nlg) (num : nat) (Z : nat -> nat -> R) : res (nlg * mat) :=
  let* f' := nl_recompute o f in
  let* r := g_sample (nl_joint f') num Z in
  Ok (set_joint f' (fst r), snd r).
(** nonlinear_gaussian.py:617-633 sample of the mixture: [np.concatenate] along axis 0. *)
Definition nm_sample (o : oracle) (a : nlgm) (num : nat) (Zs : nat -> nat -> nat -> R) : res mat :=
  let* l := mapM (fun tf : nat * nlg => let* r := nl_sample o (snd tf) num (Zs (fst tf)) in Ok (snd r))
                 (combine (seq 0 (length (nm_nlgs a))) (nm_nlgs a)) in
  concat0 l.
(** nonlinear_gaussian.py:520-524 normalize of the mixture. *)
Definition nm_normalize (a : nlgm) : res nlgm := Err NotImplementedError.

(** gaussian.py:28-52 make_random_gaussian; [U] and [V] are the entries of the two arrays of
    uniform numbers.  The defaults of the ranges matter only for the numbers drawn. *)
Definition make_random_gaussian (vars : list string) (U V : nat -> nat -> R) : res gauss :=
  let* _ := py_assert (Nat.ltb 0 (length vars)) in
  let n := length vars in
  mk_cov vars (Mat n n (fun i j => (U i j * ent (meye n) i j)%R)) (Mat n 1 V) (Fin 0).
