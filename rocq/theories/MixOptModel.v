(** Model of the parts of veroku/factors/experimental/gaussian_mixture.py that use numerical
    optimisation: argmax, _argmin, the divisions with cancel_method 1 and 2, and of
    from_sklearn_gmm.  scipy.optimize.minimize and numdifftools.Hessian are quantified
    functions: [opt f x0] is the end point of the search and its success flag, [hess f x] the
    matrix of second derivatives; both may raise (scipy from 1.11 on rejects
    the column vector the code passes as start; earlier versions flatten it).  Converting a
    component on the way (get_mean) adds the covariance form; log_potential prefers the
    canonical form, which stays, so the conversion is not threaded through. *)
From Verif Require Export MixModel.
Local Open Scope R_scope.

Notation objective := (list R -> res val) (only parsing).
Notation optimiser := ((list R -> res val) -> list R -> res (list R * bool)) (only parsing).
Notation hessian := ((list R -> res val) -> list R -> res mat) (only parsing).

(** 70-89 from_sklearn_gmm for lists of means, covariances and weights. *)
Definition from_sklearn (params : list (list R * mat * R)) (vars : list string) : res gmix :=
  let* cs := mapM (fun p : list R * mat * R => let '(m, C, w) := p in mk_cov vars C (mcol m) (rlog w)) params in
  mk_mix cs.

(** 471-489 and 502-517: the loop over the components shared by argmax and _argmin: start at each
    mean, keep the first best end point of a successful search.  The state: the best value, its
    point (None at first) and the success flag. *)
Definition start_of (c : gauss) : res (list R) :=
  let* r := get_cov c in
  let m := snd (fst (snd r)) in Ok (map (fun i => ent m i 0) (seq 0 (nr m))).
Definition search (opt : optimiser) (f : objective) (better : val -> val -> bool) (a : gmix)
    (init : val) : res (val * option (list R) * bool) :=
  foldM (fun (st : val * option (list R) * bool) c =>
           let '(best, arg, ok) := st in
           let* x0 := start_of c in
           let* r := opt f x0 in
           if (snd r : bool) then
             let* p := mix_potential a (fst r) in
             if better p best then Ok (p, Some (fst r), true) else Ok (best, arg, true)
           else Ok st) (gm_comps a) (init, None, false).
(** 464-492 argmax (PyException stands for OptimizationFailedError). *)
Definition mix_argmax (opt : optimiser) (a : gmix) : res (option (list R)) :=
  let* st := search opt (fun x => let* l := mix_log_potential a x None in Ok (vmul (Fin (-1)) l))
               (fun p q => vltb q p) a NInf in
  let '(_, arg, ok) := st in
  if (ok : bool) then Ok arg else Err PyException.
(** 494-520 _argmin (PyException stands for the plain Exception). *)
Definition mix_argmin (opt : optimiser) (a : gmix) : res (option (list R)) :=
  let* st := search opt (mix_potential a) (fun p q => vltb p q) a PInf in
  let '(_, arg, ok) := st in
  if (ok : bool) then Ok arg else Err PyException.

(** _factor_utils.py:61-74 remove_duplicate_values for points: comparing arrays with several
    elements in an [if] raises ValueError. *)
Definition close_points (tol : R) (u x : list R) : res bool :=
  match u, x with [a], [b] => Ok (Rle_b (Rabs (a - b)) tol) | _, _ => Err ValueError end.
Definition remove_duplicate_points (l : list (list R)) (tol : R) : res (list (list R)) :=
  let* x0 := py_nth l 0 in
  foldM (fun uniq x =>
           let* b := foldM (fun b u => let* c := close_points tol u x in Ok (b || c)%bool) uniq false in
           Ok (if (b : bool) then uniq else uniq ++ [x])%list) l [x0].

(** 573-616 _get_inverse_gaussians.  [inverse_gaussian_mixtures] is emptied in every round of the
    loop, so only the last mixture remains.  A missing end point (None) is no start for the next
    search. *)
Definition inverse_gaussians (opt : optimiser) (a b : gmix) : res (list gmix * list (list R)) :=
  let* st := foldM (fun (st : list gmix * list (list R)) ga =>
                      let* inv := mapM (fun gb => g_divide gb ga) (gm_comps b) in
                      let* m := mk_mix inv in
                      let* loc := mix_argmin opt m in
                      match loc with
                      | Some x => Ok ([m], snd st ++ [x])%list
                      | None => Err PyException
                      end) (gm_comps a) ([], []) in
  let* modes := foldM (fun modes x0 =>
                         let* r := opt (fun x => let* la := mix_log_potential a x None in
                                                 let* lb := mix_log_potential b x None in
                                                 Ok (vmul (Fin (-1)) (vsub la lb))) x0 in
                         Ok (if (snd r : bool) then modes ++ [fst r] else modes)%list) (snd st) [] in
  let* uniq := remove_duplicate_points modes (1 / 1000) in
  Ok (fst st, uniq).
(** 618-650 _gm_division_m1.  [inv_gm] is a mixture whose components are mixtures: its log
    potential is the logsumexp of theirs. *)
Definition nested_log_potential (ms : list gmix) (x : list R) : res val :=
  let* ls := mapM (fun m => mix_log_potential m x None) ms in logsumexp ls.
Definition m1_component (hess : hessian) (inv : objective) (vars : list string) (z : list R) : res gauss :=
  let* K := hess inv z in
  let m := mcol z in
  let* h := mmul K m in
  let* utku := quad m K in
  let* d := np_det (mscal (/ (2 * PI)) K) in
  let* l := inv z in
  let lw := vmul (vmul (Fin (- (1 / 2))) (rlog d)) l in
  let g := vadd (vsub lw (Fin (1 / 2 * utku))) (vhalf (rlog d)) in
  mk_can vars K h g.
Definition mix_division_m1 (opt : optimiser) (hess : hessian) (a b : gmix) : res gmix :=
  let* r := inverse_gaussians opt a b in
  let* ms := mapM mix_copy (fst r) in
  let* cs := mapM (m1_component hess (nested_log_potential ms) (gm_vars a)) (snd r) in
  mk_mix cs.

(** Complex numbers (cmath): the logarithm is the principal one, on the negative axis the
    argument is pi (signed zeros are not modelled). *)
Definition cplx := (R * R)%type.
Definition c_add (z w : cplx) : cplx := (fst z + fst w, snd z + snd w).
Definition c_sub (z w : cplx) : cplx := (fst z - fst w, snd z - snd w).
Definition c_mul (z w : cplx) : cplx := (fst z * fst w - snd z * snd w, fst z * snd w + snd z * fst w).
Definition c_div (z w : cplx) : cplx :=
  let d := fst w * fst w + snd w * snd w in
  ((fst z * fst w + snd z * snd w) / d, (snd z * fst w - fst z * snd w) / d).
Definition c_real (x : R) : cplx := (x, 0).
Definition c_mod (z : cplx) : R := sqrt (fst z * fst z + snd z * snd z).
Definition c_arg (z : cplx) : R :=
  let '(x, y) := z in
  if Rlt_b 0 x then atan (y / x)
  else if Rlt_b x 0 then (if Rlt_b y 0 then atan (y / x) - PI else atan (y / x) + PI)
  else if Rlt_b 0 y then PI / 2 else if Rlt_b y 0 then - (PI / 2) else 0.
Definition c_exp (z : cplx) : cplx := (exp (fst z) * cos (snd z), exp (fst z) * sin (snd z)).
Definition c_log (z : cplx) : cplx := (ln (c_mod z), c_arg z).
Definition c_is0 (z : cplx) : bool := Req_b (fst z) 0 && Req_b (snd z) 0.

(** gaussian.py:421-445 _get_complex_weight, for one variable and canonical parameters (prec, h, g). *)
Definition complex_weight (K h : R) (g : val) : res cplx :=
  if Req_b K 0 then Err LinAlgError else
  match g with
  | Fin g =>
      let m := / K * h in
      let l := c_log (c_real (2 * PI * / K)) in
      Ok (c_exp (c_add (c_real (g + 1 / 2 * (m * K * m))) (c_mul (c_real (1 / 2)) l)))
  | _ => Err PyException
  end.
(** gaussian_mixture.py:522-571 _moment_match_complex_gaussian and
    _complex_cov_form_to_real_canform, for one variable (more variables need complex matrices and
    are outside the model: NotImplementedError).  Dividing by a sum of weights that is zero gives
    NaN parameters; the model stops there (PyException). *)
Definition complex_params (c : gauss) : res (cplx * cplx * cplx) :=
  let* r := get_can c in
  let '(K, h, g) := snd r in
  let* w := complex_weight (ent K 0 0) (ent h 0 0) g in
  Ok (w, c_real (/ ent K 0 0 * ent h 0 0), c_real (/ ent K 0 0)).
Definition moment_match_complex (a : gmix) : res gauss :=
  if negb (Nat.eqb (length (gm_vars a)) 1) then Err NotImplementedError else
  let* ps := mapM complex_params (gm_comps a) in
  let sum := fold_left (fun acc (p : cplx * cplx * cplx) => c_add acc (fst (fst p))) ps (c_real 0) in
  if c_is0 sum then Err PyException else
  let mean := c_div (fold_left (fun acc (p : cplx * cplx * cplx) => c_add acc (c_mul (fst (fst p)) (snd (fst p)))) ps (c_real 0)) sum in
  let cov := c_div (fold_left (fun acc (p : cplx * cplx * cplx) =>
                      let '(w, m, c) := p in
                      let d := c_sub m mean in
                      c_add acc (c_add (c_mul w c) (c_mul w (c_mul d d)))) ps (c_real 0)) sum in
  let lw := c_log sum in
  if c_is0 cov then Err LinAlgError else
  let prec := c_div (c_real 1) cov in
  let h := c_mul prec mean in
  let utku := c_mul (c_mul mean prec) mean in
  let ldet := c_log (c_mul (c_real (2 * PI)) cov) in
  let g := c_mod (c_sub (c_sub lw (c_mul (c_real (1 / 2)) utku)) (c_mul (c_real (1 / 2)) ldet)) in
  mk_can (gm_vars a) (Mat 1 1 (fun _ _ => fst prec)) (Mat 1 1 (fun _ _ => fst h)) (Fin g).
(** 652-692 _gm_division_m2 (the test of the precision only prints). *)
Definition mix_division_m2 (a b : gmix) : res gmix :=
  let* cs := mapM (fun ga =>
                     let* inv := mapM (fun gb => g_divide gb ga) (gm_comps b) in
                     let* m := mk_mix inv in
                     let* f := moment_match_complex m in
                     g_invert f) (gm_comps a) in
  mk_mix cs.
(** 160-187 divide by a mixture, for the given cancel_method of the numerator. *)
Definition mix_divide_method (opt : optimiser) (hess : hessian) (cancel_method : nat) (a b : gmix) : res gmix :=
  match gm_comps b with
  | [f] => mix_divide_gauss a f
  | _ => match cancel_method with
         | O => mix_divide a b
         | S O => mix_division_m1 opt hess a b
         | S (S O) => mix_division_m2 a b
         | _ => Err UnboundLocalError
         end
  end.
