(** Model of veroku/factors/gaussian.py.  Simplifications: parameters are exact real arrays
    (Mat.v), the scalars g and log_weight are floats that may be infinite or NaN (LogVal.v);
    the accepted argument types are arrays, column vectors and scalars (lists and plain numbers
    are converted by numpy first); complex intermediate values are not modelled (only
    kl_divergence uses one, see there).  Not modelled: random factors, sampling, printing and
    plotting (see PlotModel.v). *)
From Coq Require Import ClassicalEpsilon.
From Verif Require Export UtilsModel.

(** The object: [_var_names], [_is_vacuous], the canonical parameters (prec, h_vec, g_val)
    when [canform] is set and the covariance parameters (cov, mean, log_weight) when [covform]
    is set. *)
Record gauss := {
  ga_vars : list string; ga_vac : bool;
  ga_can : option (mat * mat * val); ga_cov : option (mat * mat * val) }.

(** _factor_utils.py:51-58 is_pos_def: [np.all(np.linalg.eigvals(matrix) > 0)].  a + ib is an
    eigenvalue when A(u + iv) = (a + ib)(u + iv) for some vector u + iv that is not zero; numpy
    orders complex numbers by real part, then by imaginary part. *)
Definition mvec (A : mat) (u : nat -> R) (i : nat) : R := rsum (nc A) (fun j => (ent A i j * u j)%R).
Definition eigenvalue (A : mat) (a b : R) : Prop := exists u v : nat -> R,
  (exists i, i < nr A /\ (u i <> 0 \/ v i <> 0)%R) /\
  forall i, i < nr A -> mvec A u i = (a * u i - b * v i)%R /\ mvec A v i = (a * v i + b * u i)%R.
Definition is_pos_def (A : mat) : bool :=
  if excluded_middle_informative
       (forall a b, eigenvalue A a b -> (0 < a \/ (a = 0 /\ 0 < b))%R) then true else false.

(** [np.allclose(A, 0.0)] with the default tolerances (|x| <= 1e-8). *)
Definition allclose_zero (A : mat) : bool :=
  forallb (fun i => forallb (fun j => Rle_b (Rabs (ent A i j)) (1 / 100000000)) (seq 0 (nc A))) (seq 0 (nr A)).
(** gaussian.py:762-778 is_vacuous, as called by the constructor (the flag is still False). *)
Definition prec_vacuous (K : mat) : bool := allclose_zero K && negb (is_pos_def K).

(** _factor_utils.py:97-113 make_column_vector for an array with two axes: assertion error if
    both axes are longer than one; otherwise the elements in order as one column. *)
Definition make_column_vector (A : mat) : res mat :=
  let* _ := py_assert (negb (Nat.ltb 1 (nr A) && Nat.ltb 1 (nc A))) in
  Ok (if Nat.eqb (nc A) 1 then A else Mat (nr A * nc A) 1 (fun i _ => ent A 0 i)).
(** _factor_utils.py:149-166 make_square_matrix for an array with two axes. *)
Definition make_square_matrix (A : mat) : res mat :=
  let* _ := py_assert (Nat.eqb (nr A) (nc A)) in Ok A.

(** gaussian.py:139-206 Gaussian.__init__ with covariance and with canonical parameters
    (_factor.py:18-29: ValueError for duplicate names). *)
Definition mk_cov (vars : list string) (C m : mat) (w : val) : res gauss :=
  let* _ := raise_if (negb (nodupb vars)) ValueError in
  let* C' := make_square_matrix C in
  let* m' := make_column_vector m in
  let* _ := py_assert (Nat.eqb (nr C') (length vars)) in
  let* _ := py_assert (Nat.eqb (nr m') (length vars)) in
  Ok {| ga_vars := vars; ga_vac := false; ga_can := None; ga_cov := Some (C', m', w) |}.
Definition mk_can (vars : list string) (K h : mat) (g : val) : res gauss :=
  let* _ := raise_if (negb (nodupb vars)) ValueError in
  let* K' := make_square_matrix K in
  let* h' := make_column_vector h in
  let* _ := py_assert (Nat.eqb (nr K') (length vars)) in
  let* _ := py_assert (Nat.eqb (nr h') (length vars)) in
  Ok {| ga_vars := vars; ga_vac := prec_vacuous K'; ga_can := Some (K', h', g); ga_cov := None |}.

(** gaussian.py:208-226 make_vacuous. *)
Definition make_vacuous (vars : list string) (g : val) : res gauss :=
  let n := length vars in mk_can vars (mzeros n n) (mzeros n 1) g.

(** [x.T @ A @ x] for a column vector: a 1x1 array, read as a number. *)
Definition quad (x A : mat) : res R :=
  let* a := mmul (mtr x) A in let* b := mmul a x in Ok (ent b 0 0).
(** [np.linalg.det(2.0 * np.pi * A)]. *)
Definition det_2pi (A : mat) : res R := np_det (mscal (2 * PI) A).
(** _factor_utils.py:344-355 log: a negative number raises Warning. *)
Definition utils_log (x : R) : res val := if Rlt_b x 0 then Err Warning else Ok (rlog x).
Definition vhalf (x : val) : val := vmul (Fin (1 / 2)) x.

(** gaussian.py:550-565 _update_canform (the object afterwards). *)
Definition update_canform (f : gauss) : res gauss :=
  match ga_can f with
  | Some _ => Ok f
  | None =>
      match ga_cov f with
      | None => Err AssertionError
      | Some (C, m, w) =>
          let* K := np_inv C in
          let* h := mmul K m in
          let* utku := quad m K in
          let* d := det_2pi C in
          let* l := utils_log d in
          let g := vsub (vsub w (Fin (1 / 2 * utku))) (vhalf l) in
          Ok {| ga_vars := ga_vars f; ga_vac := ga_vac f; ga_can := Some (K, h, g); ga_cov := ga_cov f |}
      end
  end.
(** gaussian.py:567-583 _update_covform. *)
Definition update_covform (f : gauss) : res gauss :=
  if ga_vac f then Err PyException else
  match ga_cov f with
  | Some _ => Ok f
  | None =>
      match ga_can f with
      | None => Err AssertionError
      | Some (K, h, g) =>
          let* C := np_inv K in
          let* m := mmul C h in
          let* utku := quad m K in
          let* d := det_2pi C in
          let w := vadd (vadd g (Fin (1 / 2 * utku))) (vhalf (rlog d)) in
          Ok {| ga_vars := ga_vars f; ga_vac := ga_vac f; ga_can := ga_can f; ga_cov := Some (C, m, w) |}
      end
  end.
(** gaussian.py:325-357 get_prec, get_h, get_g and 374-406 get_cov, get_mean, get_log_weight: convert if
    necessary and return copies (the object after the call comes first). *)
Definition get_can (f : gauss) : res (gauss * (mat * mat * val)) :=
  let* f' := update_canform f in
  match ga_can f' with Some p => Ok (f', p) | None => Err AssertionError end.
Definition get_cov (f : gauss) : res (gauss * (mat * mat * val)) :=
  let* f' := update_covform f in
  match ga_cov f' with Some p => Ok (f', p) | None => Err AssertionError end.

(** gaussian.py:829-854 log_potential; [x] has one value per variable, in the order of [vrs] if
    given, otherwise in the order of the factor. *)
Definition align_point (vars : list string) (x : list R) (vrs : option (list string)) : res (list R) :=
  match vrs with
  | None => Ok x
  | Some vs =>
      let* _ := py_assert (seteqb vs vars) in
      let* _ := py_assert (Nat.eqb (length x) (length vars)) in
      mapM (fun v => let* i := py_index vs v in py_nth x i) vars
  end.
Definition cov_log_potential (C m : mat) (w : val) (x : mat) : res val :=
  let* d := det_2pi C in
  let log_norm := vsub w (vhalf (rlog d)) in
  let* K := np_inv C in
  let* mx := msub m x in
  let* q := quad mx K in
  Ok (vadd log_norm (Fin (- (1 / 2) * q))).
Definition can_log_potential (K h : mat) (g : val) (x : mat) : res val :=
  let* q := quad x K in
  let* l := mmul (mtr x) h in
  Ok (vadd (Fin (- (1 / 2) * q + ent l 0 0)) g).
Definition log_potential (f : gauss) (x : list R) (vrs : option (list string)) : res val :=
  let* y := align_point (ga_vars f) x vrs in
  let xv := mcol y in
  let* a := match ga_cov f with
            | Some (C, m, w) => let* r := cov_log_potential C m w xv in Ok (Some r)
            | None => Ok None
            end in
  let* b := match ga_can f with
            | Some (K, h, g) => let* r := can_log_potential K h g xv in Ok (Some r)
            | None => Ok a
            end in
  match b with Some r => Ok r | None => Err UnboundLocalError end.
(** gaussian.py:819-827 potential. *)
Definition potential (f : gauss) (x : list R) : res val :=
  let* l := log_potential f x None in Ok (vexp l).

(** gaussian.py:605-631 _absorb_or_cancel; 585-603 multiply and divide.  The operands are
    converted to canonical form on the way (a cache, not part of the result). *)
Definition absorb_or_cancel (f1 f2 : gauss) (op : R -> R -> R) (vop : val -> val -> val) : res gauss :=
  let* r1 := get_can f1 in
  let* r2 := get_can f2 in
  let '(K1, h1, g1) := snd r1 in
  let '(K2, h2, g2) := snd r2 in
  let* kc := indexed_square_matrix_operation K1 K2 (ga_vars f1) (ga_vars f2) op in
  let g := vop g1 g2 in
  let* hc := indexed_column_vector_operation h1 h2 (ga_vars f1) (ga_vars f2) op in
  let* _ := py_assert (eqb (snd kc) (snd hc)) in
  mk_can (snd kc) (fst kc) (fst hc) g.
Definition g_multiply (f1 f2 : gauss) : res gauss := absorb_or_cancel f1 f2 Rplus vadd.
Definition g_divide (f1 f2 : gauss) : res gauss := absorb_or_cancel f1 f2 Rminus vsub.

(** gaussian.py:649-703 _get_observation_reduced_canonical_vars and reduce. *)
Definition g_reduce (f : gauss) (vrs : list string) (values : list R) : res gauss :=
  let y := mcol values in
  let* _ := py_assert (subsetb vrs (ga_vars f)) in
  let unobs := ssort (set_diff (ga_vars f) vrs) in
  let* oi := mapM (py_index (ga_vars f)) vrs in
  let* ui := mapM (py_index (ga_vars f)) unobs in
  let* r := get_can f in
  let '(K, h, g) := snd r in
  let* kh := match ui with
             | [] => Ok (mzeros 1 1, mzeros 1 1)  (* the integers 0, as make_square_matrix and make_column_vector read them *)
             | _ => let* Kxx := mix K ui ui in
                    let* Kxy := mix K ui oi in
                    let* hx := mix h ui [0] in
                    let* p := mmul Kxy y in
                    let* hr := msub hx p in
                    Ok (Kxx, hr)
             end in
  let* Kyy := mix K oi oi in
  let* hy := mix h oi [0] in
  let* a := mmul (mtr hy) y in
  let* q := quad y Kyy in
  let g' := vsub (vadd g (Fin (ent a 0 0))) (Fin (1 / 2 * q)) in
  mk_can unobs (fst kh) (snd kh) g'.

(** _factor.py:49-62 get_marginal_vars; sets are listed in the order given by the oracle. *)
Definition marginal_vars (o : oracle) (vars vrs : list string) (keep : bool) : list string :=
  if keep then vrs else so o (set_diff vars vrs).
(** gaussian.py:482-504 _canform_marginalise ([inv_prec_yy] is computed twice). *)
Definition canform_marginalise (vars : list string) (K h : mat) (g : val) (xs ys : list string) : res gauss :=
  let* xi := mapM (py_index vars) xs in
  let* yi := mapM (py_index vars) ys in
  let* Kxx := mix K xi xi in
  let* Kxy := mix K xi yi in
  let Kyx := mtr Kxy in
  let* Kyy := mix K yi yi in
  let* Iyy := np_inv Kyy in
  let* hx := mix h xi [0] in
  let* hy := mix h yi [0] in
  let* P := mmul Kxy Iyy in
  let* Sc := mmul P Kyx in
  let* K' := msub Kxx Sc in
  let* t := mmul P hy in
  let* h' := msub hx t in
  let* d := det_2pi Iyy in
  let* q := quad hy Iyy in
  let g' := vadd g (vhalf (vadd (Fin q) (rlog d))) in
  mk_can xs K' h' g'.
(** gaussian.py:506-534 marginalize. *)
Definition g_marginalize (o : oracle) (f : gauss) (vrs : list string) (keep : bool) : res gauss :=
  let xs := marginal_vars o (ga_vars f) vrs keep in
  let ys := so o (set_diff (ga_vars f) xs) in
  if ga_vac f then make_vacuous xs (Fin 0) else
  match ga_can f with
  | Some (K, h, g) => canform_marginalise (ga_vars f) K h g xs ys
  | None =>
      match ga_cov f with
      | None => Err AssertionError
      | Some (C, m, w) =>
          let* xi := mapM (py_index (ga_vars f)) xs in
          let* C' := mix C xi xi in
          let* m' := mix m xi [0] in
          mk_cov xs C' m' w
      end
  end.

(** gaussian.py:228-261 _reorder_parameters (the object afterwards).  The loops write every
    entry at its new place; [place order i] is the position whose new place is [i]. *)
Definition place (order : list nat) (i : nat) : nat :=
  match index_opt i order with Some k => k | None => 0 end.
Definition reorder_mat (order : list nat) (A : mat) : mat :=
  Mat (length order) (length order) (fun i j => ent A (place order i) (place order j)).
Definition reorder_vec (order : list nat) (v : mat) : mat :=
  Mat (length order) 1 (fun i _ => ent v (place order i) 0).
Definition reorder_params (order : list nat) (p : mat * mat * val) : mat * mat * val :=
  let '(A, v, s) := p in (reorder_mat order A, reorder_vec order v, s).
Definition g_reorder (f : gauss) (vars : list string) : res gauss :=
  if eqb vars (ga_vars f) then Ok f else
  let* _ := py_assert (seteqb vars (ga_vars f)) in
  let* order := mapM (py_index vars) (ga_vars f) in
  Ok {| ga_vars := vars; ga_vac := ga_vac f;
        ga_can := option_map (reorder_params order) (ga_can f);
        ga_cov := option_map (reorder_params order) (ga_cov f) |}.

(** gaussian.py:780-817 copy: canonical parameters alone go through the constructor, which
    recomputes the vacuous flag; otherwise the flag of the copy is False. *)
Definition g_copy (f : gauss) : res gauss :=
  match ga_cov f, ga_can f with
  | Some (C, m, w), Some p =>
      let* c := mk_cov (ga_vars f) C m w in
      Ok {| ga_vars := ga_vars c; ga_vac := ga_vac c; ga_can := Some p; ga_cov := ga_cov c |}
  | Some (C, m, w), None => mk_cov (ga_vars f) C m w
  | None, Some (K, h, g) => mk_can (ga_vars f) K h g
  | None, None => Err PyException
  end.

(** [np.allclose(A, B, rtol, atol)] for arrays of the same shape; ValueError when the shapes do
    not fit (broadcasting cannot occur: both have one row per variable of the same set). *)
Definition allclose (A B : mat) (rtol atol : R) : res bool :=
  if Nat.eqb (nr A) (nr B) && Nat.eqb (nc A) (nc B) then
    Ok (forallb (fun i => forallb (fun j => visclose (Fin (ent A i j)) (Fin (ent B i j)) rtol atol) (seq 0 (nc A)))
          (seq 0 (nr A)))
  else Err ValueError.
(** gaussian.py:263-274 _canform_equals: the answer and the argument after the call. *)
Definition canform_equals (p : mat * mat * val) (vars : list string) (f2 : gauss) (rtol atol : R)
  : res (bool * gauss) :=
  let '(K, h, g) := p in
  let* r1 := get_can f2 in
  if negb (visclose g (snd (snd r1)) rtol atol) then Ok (false, fst r1) else
  let* f2' := g_reorder (fst r1) vars in
  let* r2 := get_can f2' in
  let '(K2, h2, _) := snd r2 in
  let* b1 := allclose h h2 rtol atol in
  if negb b1 then Ok (false, fst r2) else
  let* b2 := allclose K K2 rtol atol in
  Ok (b2, fst r2).
(** gaussian.py:276-288 _covform_equals. *)
Definition covform_equals (p : mat * mat * val) (vars : list string) (f2 : gauss) (rtol atol : R)
  : res (bool * gauss) :=
  let '(C, m, w) := p in
  let* r1 := get_cov f2 in
  if negb (visclose (vexp w) (vexp (snd (snd r1))) rtol atol) then Ok (false, fst r1) else
  let* f2' := g_reorder (fst r1) vars in
  let* r2 := get_cov f2' in
  let '(C2, m2, _) := snd r2 in
  let* b1 := allclose m m2 rtol atol in
  if negb b1 then Ok (false, fst r2) else
  let* b2 := allclose C C2 rtol atol in
  Ok (b2, fst r2).
(** gaussian.py:290-323 equals: the answer and both objects after the call. *)
Definition g_equals (f1 f2 : gauss) (rtol atol : R) : res (bool * gauss * gauss) :=
  if negb (seteqb (ga_vars f1) (ga_vars f2)) then Ok (false, f1, f2) else
  let* c := g_copy f2 in
  let* c' := if eqb (ga_vars f1) (ga_vars f2) then Ok c else g_reorder c (ga_vars f1) in
  if ga_vac c' && ga_vac f1 then Ok (true, f1, f2) else
  match ga_can f1 with
  | Some p => let* r := canform_equals p (ga_vars f1) f2 rtol atol in Ok (fst r, f1, snd r)
  | None =>
      let* f1' := update_covform f1 in
      match ga_cov f1' with
      | Some p => let* r := covform_equals p (ga_vars f1) f2 rtol atol in Ok (fst r, f1', snd r)
      | None => Ok (true, f1', f2)
      end
  end.
(** _constants.py:5-6 the default tolerances. *)
Definition default_tol : R := 1 / 10000.

(** gaussian.py:408-419 normalize. *)
Definition g_normalize (f : gauss) : res gauss :=
  let* c := g_copy f in
  let* c' := update_covform c in
  match ga_cov c' with
  | Some (C, m, _) => Ok {| ga_vars := ga_vars c'; ga_vac := ga_vac c'; ga_can := None; ga_cov := Some (C, m, Fin 0) |}
  | None => Err AssertionError
  end.
(** gaussian.py:461-471 _add_log_weight (the object afterwards). *)
Definition add_log_weight (f : gauss) (x : val) : gauss :=
  let add := option_map (fun p : mat * mat * val => let '(A, v, s) := p in (A, v, vadd s x)) in
  {| ga_vars := ga_vars f; ga_vac := ga_vac f; ga_can := add (ga_can f); ga_cov := add (ga_cov f) |}.
(** gaussian.py:447-459 _invert. *)
Definition g_invert (f : gauss) : res gauss :=
  match ga_can f with
  | None => Err AssertionError
  | Some _ =>
      let* c := g_copy f in
      match ga_can f with
      | Some (K, h, g) =>
          Ok {| ga_vars := ga_vars c; ga_vac := ga_vac c;
                ga_can := Some (mscal (-1) K, mscal (-1) h, vmul (Fin (-1)) g); ga_cov := None |}
      | None => Err AssertionError
      end
  end.
(** gaussian.py:473-480 get_weight and 398-406 get_log_weight. *)
Definition get_log_weight (f : gauss) : res val := let* r := get_cov f in Ok (snd (snd r)).
Definition get_weight (f : gauss) : res val := let* w := get_log_weight f in Ok (vexp w).

(** gaussian.py:705-716 distance_from_vacuous. *)
Definition g_distance_from_vacuous (f : gauss) : val := if ga_vac f then Fin 0 else PInf.
(** gaussian.py:718-760 kl_divergence with normalize_factor=True.  [np.abs] of the possibly
    complex result: for a negative quotient of determinants cmath.log is ln|x| + i pi, so the
    absolute value is that of the complex number. *)
Definition mtrace (A : mat) : R := rsum (nr A) (fun i => ent A i i).
Definition g_kl_divergence (f1 f2 : gauss) : res (val * gauss * gauss) :=
  if negb (Nat.eqb (length (ga_vars f1)) (length (ga_vars f2))) then Err ValueError else
  if ga_vac f1 && ga_vac f2 then Ok (Fin 0, f1, f2) else
  if ga_vac f1 || ga_vac f2 then Ok (PInf, f1, f2) else
  let* e := g_equals f1 f2 default_tol default_tol in
  let '(b, f1', f2') := e in
  if (b : bool) then Ok (Fin 0, f1', f2') else
  let* n1 := g_normalize f1' in
  let* n2 := g_normalize f2' in
  let* q := get_can n2 in
  let* p := get_can n1 in
  let '(iq, _, _) := snd q in
  let '(ip, _, _) := snd p in
  let* cp := get_cov (fst p) in
  let* cq := get_cov (fst q) in
  let '(Cp, mp, _) := snd cp in
  let '(_, mq, _) := snd cq in
  let* dq := np_det iq in
  let* dp := np_det ip in
  let* _ := py_assert (negb (Req_b dq 0)) in
  let* t := mmul iq Cp in
  let* dm := msub mp mq in
  let* mah := quad dm iq in
  let x := (dp / dq)%R in
  let rest := (1 / 2 * mtrace t + 1 / 2 * mah - 1 / 2 * INR (length (ga_vars f1)))%R in
  let kld := if Rlt_b 0 x then Fin (Rabs (1 / 2 * ln x + rest))
             else Fin (sqrt (Rsqr (1 / 2 * ln (Rabs x) + rest) + Rsqr (1 / 2 * PI))) in
  Ok (kld, f1', f2').

(** gaussian.py:55-69 make_std_gaussian. *)
Definition make_std_gaussian (vars : list string) : res gauss :=
  let* _ := py_assert (Nat.ltb 0 (length vars)) in
  let n := length vars in mk_cov vars (meye n) (mzeros n 1) (Fin 0).

(** gaussian.py:1068-1085 GaussianTemplate.make_factor: the flag is always set. *)
Definition g_template_factor (K h : mat) (g : val) (vars : list string) : res gauss :=
  let* f := mk_can vars K h g in
  Ok {| ga_vars := ga_vars f; ga_vac := true; ga_can := ga_can f; ga_cov := ga_cov f |}.
