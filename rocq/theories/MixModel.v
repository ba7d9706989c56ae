(** Model of veroku/factors/experimental/gaussian_mixture.py and of Gaussian._split_gaussian
    (gaussian.py:1019-1041).  Simplifications: the components are Gaussian objects as in
    GaussModel.v; two different mixtures share no component (the constructor copies them).
    The approximate divisions by several components with cancel_method 1 and 2, argmax
    (numerical optimisation) and from_sklearn_gmm are in MixOptModel.v.  Not modelled: sampling,
    printing and plotting (see PlotModel.v). *)
From Verif Require Export GaussModel.

(** The object: [_var_names] and [components] ([num_components] is their number; every
    construction in the class itself leaves [cancel_method] at 0). *)
Record gmix := { gm_vars : list string; gm_comps : list gauss }.

(** gaussian_mixture.py:44-68 the constructor. *)
Definition mk_mix (factors : list gauss) : res gmix :=
  match factors with
  | [] => Err AssertionError
  | f :: _ =>
      let* cs := mapM g_copy factors in
      if forallb (fun c => eqb (ga_vars f) (ga_vars c)) cs
      then Ok {| gm_vars := ga_vars f; gm_comps := cs |} else Err ValueError
  end.

Definition set_nth {A : Type} (l : list A) (i : nat) (x : A) : list A := firstn i l ++ x :: skipn (S i) l.

(** gaussian_mixture.py:91-114 equals, for an argument that is a mixture: the answer and the
    components of both objects afterwards.  The given tolerances are not passed on.  The inner
    loop has no break. *)
Definition mix_eq_inner (fi : gauss) (js : list nat) (bs : list gauss) : res (bool * gauss * list gauss) :=
  foldM (fun st j => let '(found, fi, bs) := st in
           let* bj := py_nth bs j in
           let* e := g_equals fi bj default_tol default_tol in
           let '(b, fi', bj') := e in
           Ok (found || b, fi', set_nth bs j bj')) js (false, fi, bs).
Fixpoint mix_eq_outer (n : nat) (is : list nat) (sa sb : list gauss) : res (bool * list gauss * list gauss) :=
  match is with
  | [] => Ok (true, sa, sb)
  | i :: is' =>
      let* fi := py_nth sa i in
      let* r := mix_eq_inner fi (seq i (n - i)) sb in
      let '(found, fi', sb') := r in
      let sa' := set_nth sa i fi' in
      if (found : bool) then mix_eq_outer n is' sa' sb' else Ok (false, sa', sb')
  end.
Definition mix_equals (a b : gmix) (rtol atol : R) : res (bool * list gauss * list gauss) :=
  if negb (Nat.eqb (length (gm_comps b)) (length (gm_comps a))) then Ok (false, gm_comps a, gm_comps b) else
  mix_eq_outer (length (gm_comps a)) (seq 0 (length (gm_comps a))) (gm_comps a) (gm_comps b).

(** gaussian_mixture.py:127-137 copy. *)
Definition mix_copy (a : gmix) : res gmix := let* cs := mapM g_copy (gm_comps a) in mk_mix cs.

(** gaussian_mixture.py:139-158 multiply. *)
Definition mix_multiply_gauss (a : gmix) (f : gauss) : res gmix :=
  let* cs := mapM (fun c => g_multiply c f) (gm_comps a) in mk_mix cs.
Definition mix_multiply (a b : gmix) : res gmix :=
  let* rows := mapM (fun ca => mapM (fun cb => g_multiply ca cb) (gm_comps b)) (gm_comps a) in
  mk_mix (concat rows).

(** gaussian_mixture.py:436-462 moment_match_to_single_gaussian.  The weights are numbers: the
    model stops (PyException) where numpy would go on with infinite or NaN parameters, that is
    when a weight or the sum of the weights is not finite or the sum is zero. *)
Definition real_weight (w : val) : res R := match vexp w with Fin x => Ok x | _ => Err PyException end.
Definition mix_moment_match (a : gmix) : res gauss :=
  let n := length (gm_vars a) in
  let* ps := mapM (fun c => let* r := get_cov c in Ok (snd r)) (gm_comps a) in
  let* ws := mapM (fun p : mat * mat * val => real_weight (snd p)) ps in
  let* new_mean := foldM (fun acc (wp : R * (mat * mat * val)) =>
                            madd acc (mscal (fst wp) (snd (fst (snd wp))))) (combine ws ps) (mzeros n 1) in
  let* lsw := logsumexp (map (fun p : mat * mat * val => snd p) ps) in
  let* sw := real_weight lsw in
  let* _ := raise_if (Req_b sw 0) PyException in
  let m' := mscal (/ sw) new_mean in
  let* new_cov := foldM (fun acc (wp : R * (mat * mat * val)) =>
                           let '(w, (C, m, _)) := wp in
                           let* d := msub m m' in
                           let* dd := mmul d (mtr d) in
                           let* s := madd (mscal w C) (mscal w dd) in
                           madd acc s) (combine ws ps) (mzeros n n) in
  match gm_comps a with
  | [] => Err IndexError
  | c :: _ => mk_cov (ga_vars c) (mscal (/ sw) new_cov) m' lsw
  end.

(** gaussian_mixture.py:160-187 divide with cancel_method 0. *)
Definition mix_divide_gauss (a : gmix) (f : gauss) : res gmix :=
  let* cs := mapM (fun c => g_divide c f) (gm_comps a) in mk_mix cs.
Definition mix_divide (a b : gmix) : res gmix :=
  match gm_comps b with
  | [f] => mix_divide_gauss a f
  | _ => let* f := mix_moment_match b in mix_divide_gauss a f
  end.

(** gaussian_mixture.py:189-203 reduce and 205-219 marginalize. *)
Definition mix_reduce (a : gmix) (vrs : list string) (values : list R) : res gmix :=
  let* cs := mapM (fun c => g_reduce c vrs values) (gm_comps a) in mk_mix cs.
Definition mix_marginalize (o : oracle) (a : gmix) (vrs : list string) (keep : bool) : res gmix :=
  let* cs := mapM (fun c => g_marginalize o c vrs keep) (gm_comps a) in mk_mix cs.

(** gaussian_mixture.py:242-255 log_potential and 257-269 potential. *)
Definition mix_log_potential (a : gmix) (x : list R) (vrs : option (list string)) : res val :=
  let* ls := mapM (fun c => log_potential c x vrs) (gm_comps a) in logsumexp ls.
Definition mix_potential (a : gmix) (x : list R) : res val :=
  foldM (fun acc c => let* p := potential c x in Ok (vadd acc p)) (gm_comps a) (Fin 0).

(** gaussian_mixture.py:318-325 get_log_weight. *)
Definition mix_get_log_weight (a : gmix) : res val :=
  let* ws := mapM get_log_weight (gm_comps a) in logsumexp ws.
(** gaussian_mixture.py:327-340 normalize (computing the weights leaves the components with
    their covariance form). *)
Definition mix_normalize (a : gmix) : res gmix :=
  let* rs := mapM get_cov (gm_comps a) in
  let* lw := logsumexp (map (fun r : gauss * (mat * mat * val) => snd (snd r)) rs) in
  let* cs := mapM (fun r : gauss * (mat * mat * val) =>
                     let* c := g_copy (fst r) in Ok (add_log_weight c (vmul (Fin (-1)) lw))) rs in
  mk_mix cs.
(** gaussian_mixture.py:342-356 is_vacuous. *)
Definition mix_is_vacuous (a : gmix) : bool := forallb ga_vac (gm_comps a).

(** gaussian.py:1019-1041 _split_gaussian.  [np.sqrt] of a negative variance is NaN; the model
    stops there (PyException). *)
Definition split_gaussian (f : gauss) : res gmix :=
  if negb (Nat.eqb (length (ga_vars f)) 1) then Err NotImplementedError else
  let* r := get_cov f in
  let '(C, m, _) := snd r in
  let* _ := raise_if (Rlt_b (ent C 0 0) 0) PyException in
  let sd := Mat (nr C) (nc C) (fun i j => sqrt (ent C i j)) in
  let* m1 := msub m sd in
  let* m3 := madd m sd in
  let cov := mscal (1 / 3) C in
  let w := rlog (1 / 3) in
  let* g1 := mk_cov (ga_vars f) cov m1 w in
  let* g2 := mk_cov (ga_vars f) cov m w in
  let* g3 := mk_cov (ga_vars f) cov m3 w in
  mk_mix [g1; g2; g3].
