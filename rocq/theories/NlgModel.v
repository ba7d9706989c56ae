(** Model of veroku/factors/experimental/nonlinear_gaussian.py.  Simplifications: as in
    GaussModel.v and SigmaModel.v; the transform is any function from an array and the names of
    its rows to an array with two axes or an exception (deepcopy of it is itself); converting the
    conditional update factor to canonical form during a product is a cache and not part of the
    state; operands are Gaussians, Gaussian mixtures and nonlinear Gaussians.
    Not modelled: sampling, printing, plotting (see PlotModel.v). *)
From Verif Require Export LinModel MixModel.

(** The object. *)
Record nlg := {
  nl_cing : list string; nl_cal : list string; nl_T : mat -> list string -> res mat; nl_Q : mat; nl_w : val;
  nl_joint : gauss; nl_upd : option gauss; nl_cond : option gauss; nl_ev : dict string R }.
Definition nl_vars (f : nlg) : list string := nl_cing f ++ nl_cal f.
Definition opt_copy (g : option gauss) : res (option gauss) :=
  match g with Some g => let* c := g_copy g in Ok (Some c) | None => Ok None end.

(** 38-92 __init__. *)
Definition mk_nlg (cing cal : list string) (T : mat -> list string -> res mat) (Q : mat) (w : val)
    (joint upd cond : option gauss) (ev : dict string R) : res nlg :=
  let* _ := raise_if (negb (Nat.eqb (length (set_inter cing cal)) 0)) ValueError in
  let* _ := raise_if (negb (nodupb (cing ++ cal))) ValueError in
  let* _ := raise_if (negb (Nat.eqb (nr Q) (length cal))) ValueError in
  let* Q' := make_square_matrix Q in
  let* cond' := opt_copy cond in
  let* upd' := opt_copy upd in
  let* joint' := match joint with Some j => g_copy j | None => make_vacuous (cing ++ cal) (Fin 0) end in
  Ok {| nl_cing := cing; nl_cal := cal; nl_T := T; nl_Q := Q'; nl_w := w;
        nl_joint := joint'; nl_upd := upd'; nl_cond := cond'; nl_ev := ev |}.
(** 127-145 copy. *)
Definition nl_copy (f : nlg) : res nlg :=
  mk_nlg (nl_cing f) (nl_cal f) (nl_T f) (nl_Q f) (nl_w f) (Some (nl_joint f)) (nl_upd f) (nl_cond f) (nl_ev f).
Definition set_joint (f : nlg) (j : gauss) : nlg :=
  {| nl_cing := nl_cing f; nl_cal := nl_cal f; nl_T := nl_T f; nl_Q := nl_Q f; nl_w := nl_w f;
     nl_joint := j; nl_upd := nl_upd f; nl_cond := nl_cond f; nl_ev := nl_ev f |}.
Definition set_upd (f : nlg) (u : gauss) : nlg :=
  {| nl_cing := nl_cing f; nl_cal := nl_cal f; nl_T := nl_T f; nl_Q := nl_Q f; nl_w := nl_w f;
     nl_joint := nl_joint f; nl_upd := Some u; nl_cond := nl_cond f; nl_ev := nl_ev f |}.
Definition set_cond (f : nlg) (c : gauss) : nlg :=
  {| nl_cing := nl_cing f; nl_cal := nl_cal f; nl_T := nl_T f; nl_Q := nl_Q f; nl_w := nl_w f;
     nl_joint := nl_joint f; nl_upd := nl_upd f; nl_cond := Some c; nl_ev := nl_ev f |}.
Definition set_ev (f : nlg) (ev : dict string R) : nlg :=
  {| nl_cing := nl_cing f; nl_cal := nl_cal f; nl_T := nl_T f; nl_Q := nl_Q f; nl_w := nl_w f;
     nl_joint := nl_joint f; nl_upd := nl_upd f; nl_cond := nl_cond f; nl_ev := ev |}.
(** 212-218 add_log_weight. *)
Definition nl_add_log_weight (f : nlg) (x : val) : nlg :=
  {| nl_cing := nl_cing f; nl_cal := nl_cal f; nl_T := nl_T f; nl_Q := nl_Q f; nl_w := vadd (nl_w f) x;
     nl_joint := nl_joint f; nl_upd := nl_upd f; nl_cond := nl_cond f; nl_ev := nl_ev f |}.

(** 220-308 _recompute_joint (the object afterwards).
    258-265 the conditioning factor with its observed variables set to their values. *)
Definition cond_reduced (o : oracle) (c : gauss) (ev : dict string R) : res gauss :=
  let* c0 := g_copy c in
  let vrs := so o (set_inter (dkeys ev) (ga_vars c0)) in
  let* values := mapM (dget_r ev) vrs in
  if Nat.ltb 0 (length vrs) then g_reduce c0 vrs values else Ok c0.
(** 270-277 the observed values as further rows above the sigma points. *)
Definition extend_points (X : mat) (values : list R) : res mat :=
  if Nat.ltb 0 (length values) then vcat (Mat (length values) (nc X) (fun i _ => nth i values 0%R)) X else Ok X.
(** 290-291 [A[k:, k:]] and [A[k:, :]]. *)
Definition drop_both (A : mat) (k : nat) : mat := Mat (nr A - k) (nc A - k) (fun i j => ent A (k + i) (k + j)).
Definition drop_rows (A : mat) (k : nat) : mat := Mat (nr A - k) (nc A) (fun i j => ent A (k + i) j).
(** 285-286: [np.cov] of one row has no axes, so that [.shape[0]] raises IndexError. *)
Definition check_rows (C m : mat) (n : nat) : res unit :=
  let* _ := py_assert (Nat.eqb (nr m) n) in
  let* _ := raise_if (Nat.eqb (nr m) 1) IndexError in
  py_assert (Nat.eqb (nr C) n).
Definition nl_recompute (o : oracle) (f : nlg) : res nlg :=
  let obs := dkeys (nl_ev f) in
  let cing_obs := filter (fun v => mem v (nl_cing f)) obs in
  let* cing_values := mapM (dget_r (nl_ev f)) cing_obs in
  let cal_obs := filter (fun v => mem v (nl_cal f)) obs in
  let* cal_values := mapM (dget_r (nl_ev f)) cal_obs in
  let cvars := match nl_cond f with Some c => ga_vars c | None => [] end in
  if negb (seteqb (cvars ++ cing_obs) (nl_cing f)) then
    let* j := make_vacuous (nl_vars f) (Fin 0) in Ok (set_joint f j)
  else
    match nl_cond f with
    | None => Err UnboundLocalError  (* 274 and 277 read the unassigned name conditioning_factor *)
    | Some c =>
        let* c1 := cond_reduced o c (nl_ev f) in
        let* s := get_sigma_points_array c1 in
        let c2 := fst s in
        let* X := extend_points (snd s) cing_values in
        let* p := joint_params X (nl_T f) (cing_obs ++ ga_vars c2) in
        let* _ := check_rows (fst p) (snd p) (length (nl_vars f)) in
        let nov := length cing_obs in
        let joint_cov := drop_both (fst p) nov in
        let joint_mean := drop_rows (snd p) nov in
        let* cn := indexed_square_matrix_operation joint_cov (nl_Q f) (ga_vars c2 ++ nl_cal f) (nl_cal f) Rplus in
        let* w := match ga_cov c2 with Some (_, _, w) => Ok (vadd (nl_w f) w) | None => Err TypeError end in
        let* j := mk_cov (snd cn) (fst cn) joint_mean w in
        let* j1 := match nl_upd f with Some u => g_multiply j u | None => Ok j end in
        let* j2 := if Nat.ltb 0 (length cal_obs) then g_reduce j1 cal_obs cal_values else Ok j1 in
        Ok (set_joint f j2)
    end.

(** 147-156 joint_distribution; 158-210 the getters (the object after the call comes first);
    310-318 normalize. *)
Definition nl_joint_distribution (o : oracle) (f : nlg) : res gauss :=
  let* c := nl_copy f in let* c' := nl_recompute o c in Ok (nl_joint c').
Definition nl_get_can (o : oracle) (f : nlg) : res (nlg * (mat * mat * val)) :=
  let* f' := nl_recompute o f in
  let* r := get_can (nl_joint f') in Ok (set_joint f' (fst r), snd r).
Definition nl_get_cov (o : oracle) (f : nlg) : res (nlg * (mat * mat * val)) :=
  let* f' := nl_recompute o f in
  let* r := get_cov (nl_joint f') in Ok (set_joint f' (fst r), snd r).
Definition nl_normalize (o : oracle) (f : nlg) : res gauss :=
  let* j := nl_joint_distribution o f in g_normalize j.
(** 95-104 equals, for a Gaussian argument: the joint last computed is compared. *)
Definition nl_equals (f : nlg) (g : gauss) (rtol atol : R) : res (bool * nlg * gauss) :=
  let* r := g_equals (nl_joint f) g rtol atol in
  let '(b, j, g') := r in Ok (b, set_joint f j, g').
(** 106-125 distance_from_vacuous and kl_divergence. *)
Definition nl_distance_from_vacuous (f : nlg) : res val := Err NotImplementedError.
Definition nl_kl_divergence (f : nlg) (g : gauss) : res val := Err NotImplementedError.

(** 335-363 multiply for a Gaussian. *)
Definition nl_multiply_gauss (f : nlg) (g : gauss) : res nlg :=
  let* c := nl_copy f in
  if ga_vac g then Ok c else
  if subsetb (ga_vars g) (nl_cal c) then
    let* u := match nl_upd c with None => g_copy g | Some u => g_multiply u g end in Ok (set_upd c u)
  else if subsetb (ga_vars g) (nl_cing c) then
    let* u := match nl_cond c with None => g_copy g | Some u => g_multiply u g end in Ok (set_cond c u)
  else Err ValueError.
(** 365-394 divide by a Gaussian; a quotient without an update factor reads [None.divide]. *)
Definition nl_divide_gauss (o : oracle) (f : nlg) (g : gauss) : res nlg :=
  let* c := nl_copy f in
  if ga_vac g then Ok c else
  let* c' := if subsetb (ga_vars g) (nl_cal c) then
               match nl_upd c with
               | None => Err AttributeError
               | Some u => let* q := g_divide u g in Ok (set_upd c q)
               end
             else if subsetb (ga_vars g) (nl_cing c) then
               match nl_cond c with
               | None => Err NotImplementedError
               | Some u => let* q := g_divide u g in Ok (set_cond c q)
               end
             else Err ValueError in
  nl_recompute o c'.
(** 396-409 reduce. *)
Definition dupdate (d e : dict string R) : dict string R := fold_left (fun d kv => dset d (fst kv) (snd kv)) e d.
Definition nl_reduce (f : nlg) (vrs : list string) (values : list R) : res nlg :=
  let* c := nl_copy f in
  Ok (set_ev c (dupdate (nl_ev c) (dict_of (combine vrs values)))).
(** 411-439 marginalize. *)
Definition nl_marginalize (o : oracle) (f : nlg) (vrs : list string) (keep : bool) : res gauss :=
  let xs := marginal_vars o (nl_vars f) vrs keep in
  let* _ := py_assert (subsetb xs (nl_vars f)) in
  let* c := nl_copy f in
  let* c' := nl_recompute o c in
  let rest := g_marginalize o (nl_joint c') xs true in
  if ga_vac (nl_joint c') then
    let second :=
      if subsetb xs (nl_cal c') then
        match nl_upd c' with
        | Some u => if subsetb xs (ga_vars u) then
                      let* m := g_marginalize o u xs true in Ok (add_log_weight m (nl_w f))
                    else rest
        | None => rest
        end
      else make_vacuous xs (Fin 0) in
    if subsetb xs (nl_cing c') then
      match nl_cond c' with
      | Some u => if subsetb xs (ga_vars u) then g_marginalize o u xs true else second
      | None => second
      end
    else second
  else rest.

(** * NonLinearGaussianMixture (490-649) *)
Record nlgm := { nm_vars : list string; nm_nlgs : list nlg; nm_split : bool }.
(** 495-518 __init__ with a list of nonlinear Gaussians. *)
Definition mk_nlgm (factors : list nlg) (split : bool) : res nlgm :=
  match factors with
  | [] => Err ValueError
  | f0 :: _ =>
      let* _ := raise_if (negb (nodupb (nl_vars f0))) ValueError in
      let* cs := mapM (fun f => let* _ := raise_if (negb (seteqb (nl_vars f0) (nl_vars f))) ValueError in nl_copy f) factors in
      Ok {| nm_vars := nl_vars f0; nm_nlgs := cs; nm_split := split |}
  end.
(** 526-533 copy: the flag takes its default value. *)
Definition nm_copy (a : nlgm) : res nlgm := mk_nlgm (nm_nlgs a) true.
(** 535-540 joint_distribution. *)
Definition nm_joint_distribution (o : oracle) (a : nlgm) : res gmix :=
  let* js := mapM (nl_joint_distribution o) (nm_nlgs a) in mk_mix js.
Inductive nl_arg := AGauss (g : gauss) | AMix (m : gmix) | ANlg (f : nlg).
(** 542-567 multiply.  For a Gaussian the class itself is put into the list and its [copy] called
    without an object: TypeError. *)
Definition nm_multiply (a : nlgm) (x : nl_arg) : res nlgm :=
  let* m := match x with AMix m => Ok m | AGauss _ => Err TypeError | ANlg _ => Err NotImplementedError end in
  let* m' := if nm_split a && Nat.eqb (length (gm_vars m)) 1 && Nat.eqb (length (gm_comps m)) 1 then
               match gm_comps m with c :: _ => split_gaussian c | [] => Ok m end
             else Ok m in
  let* fs := mapM (fun g => mapM (fun f => nl_multiply_gauss f g) (nm_nlgs a)) (gm_comps m') in
  mk_nlgm (concat fs) true.
(** 569-587 divide. *)
Definition nm_divide (o : oracle) (a : nlgm) (x : nl_arg) : res nlgm :=
  let* g := match x with AGauss g => Ok g | AMix m => mix_moment_match m | ANlg _ => Err NotImplementedError end in
  let* fs := mapM (fun f => nl_divide_gauss o f g) (nm_nlgs a) in
  mk_nlgm fs true.
(** 589-601 reduce. *)
Definition nm_reduce (a : nlgm) (vrs : list string) (values : list R) : res nlgm :=
  let* fs := mapM (fun f => nl_reduce f vrs values) (nm_nlgs a) in mk_nlgm fs true.
(** 603-615 marginalize: the marginals are Gaussians, which the constructor refuses. *)
Definition nm_marginalize (o : oracle) (a : nlgm) (vrs : list string) (keep : bool) : res nlgm :=
  let* gs := mapM (fun f => nl_marginalize o f vrs keep) (nm_nlgs a) in
  match gs with [] => Err ValueError | _ => Err TypeError end.

(** 320-339 multiply, any operand. *)
Definition nl_multiply (f : nlg) (x : nl_arg) : res (nlg + nlgm) :=
  match x with
  | AMix m => let* fs := mapM (nl_multiply_gauss f) (gm_comps m) in
              let* r := mk_nlgm fs true in Ok (inr r)
  | ANlg _ => let* _ := nl_copy f in Err NotImplementedError
  | AGauss g => let* r := nl_multiply_gauss f g in Ok (inl r)
  end.
(** 365-374 divide, any operand: mixtures and nonlinear Gaussians have no [_is_vacuous]. *)
Definition nl_divide (o : oracle) (f : nlg) (x : nl_arg) : res nlg :=
  match x with
  | AGauss g => nl_divide_gauss o f g
  | _ => let* _ := nl_copy f in Err AttributeError
  end.

(** 652-709 NonLinearGaussianTemplate: __init__ and make_factor; without names [set(None)] raises
    TypeError.  Given conditional names are ignored when there is a dictionary. *)
Record nltemplate := { nt_names : template; nt_T : mat -> list string -> res mat; nt_Q : mat }.
Definition mk_nltemplate (cing cal : list string) (T : mat -> list string -> res mat) (Q : mat) : res nltemplate :=
  let* t := mk_template None (Some cing) (Some cal) in Ok {| nt_names := t; nt_T := T; nt_Q := Q |}.
Definition nt_make_factor (t : nltemplate) (d : option (dict string string)) (cing cal : option (list string)) : res nlg :=
  match d with
  | Some d =>
      let* _ := py_assert (match cing with None => true | _ => false end) in
      let* a := fmt_opt (t_conditioning (nt_names t)) d in
      let* b := fmt_opt (t_conditional (nt_names t)) d in
      mk_nlg a b (nt_T t) (nt_Q t) (Fin 0) None None None []
  | None =>
      match cing, cal with
      | Some a, Some b => mk_nlg a b (nt_T t) (nt_Q t) (Fin 0) None None None []
      | _, _ => Err TypeError
      end
  end.
