(** Model of the linear Gaussian constructors and the Gaussian templates of
    veroku/factors/gaussian.py (simplifications as in GaussModel.v). *)
From Verif Require Export SigmaModel.

(** gaussian.py:72-110 make_linear_gaussian.  [np.block] of two rows of two arrays is
    [vcat (hcat ..) (hcat ..)]; the two slice updates write the first [x_dim] rows (and columns);
    np.log(1.0) is 0. *)
Definition sub_top (A B : mat) (n : nat) : mat :=
  Mat (nr A) (nc A) (fun i j => if Nat.ltb i n && Nat.ltb j n then (ent A i j - ent B i j)%R else ent A i j).
Definition sub_head (v u : mat) (n : nat) : mat :=
  Mat (nr v) (nc v) (fun i j => if Nat.ltb i n then (ent v i j - ent u i j)%R else ent v i j).
Definition make_linear_gaussian (a_mat n_mat : mat) (conditioning conditional : list string) : res gauss :=
  let x_dim := length conditioning in
  let cov_xx := meye x_dim in
  let* prec_xx := np_inv cov_xx in
  let u_x := mzeros x_dim 1 in
  let* h_x := mmul prec_xx u_x in
  let* uh := mmul (mtr u_x) h_x in
  let* dx := det_2pi cov_xx in
  let g_x := vsub (Fin (- (1 / 2) * ent uh 0 0 + 0)) (vhalf (rlog dx)) in
  let* cat := mmul cov_xx (mtr a_mat) in
  let* ac := mmul a_mat cov_xx in
  let* aca := mmul ac (mtr a_mat) in
  let* cyy := madd aca n_mat in
  let* top := hcat cov_xx cat in
  let* bottom := hcat ac cyy in
  let* cov := vcat top bottom in
  let* prec_joint := np_inv cov in
  let prec_cpd := sub_top prec_joint prec_xx x_dim in
  let* au := mmul (mtr a_mat) u_x in
  let* mean_joint := vcat u_x au in
  let* hj := mmul prec_joint mean_joint in
  let h_cpd := sub_head hj h_x x_dim in
  let* utkux := quad mean_joint prec_joint in
  let* d := det_2pi cov in
  let g_joint := vsub (Fin (1 / 2 * utkux + 0)) (vhalf (rlog d)) in
  let g_cpd := vsub g_joint g_x in
  mk_can (conditioning ++ conditional) prec_cpd h_cpd g_cpd.

(** gaussian.py:1045-1066 GaussianTemplate.__init__ (the parameters are kept, not copied) and
    1068-1085 make_factor: TypeError if the template has no names to format, ValueError from the
    constructor if there are no names at all.  The result is always flagged vacuous. *)
Record gtemplate := { gt_prec : mat; gt_h : mat; gt_g : val; gt_names : template }.
Definition mk_gtemplate (K h : mat) (g : val) (names : list string) : res gtemplate :=
  let* t := mk_template (Some names) None None in
  Ok {| gt_prec := K; gt_h := h; gt_g := g; gt_names := t |}.
Definition gt_make_factor (t : gtemplate) (format_dict : option (dict string string)) (var_names : option (list string)) : res gauss :=
  let* names := match format_dict with
                | Some d => let* _ := py_assert (match var_names with None => true | _ => false end) in
                            let* l := fmt_opt (t_vars (gt_names t)) d in Ok (Some l)
                | None => Ok var_names
                end in
  match names with
  | Some vars => g_template_factor (gt_prec t) (gt_h t) (gt_g t) vars
  | None => Err ValueError
  end.

(** gaussian.py:113-131 make_linear_gaussian_cpd_template: the constant term is replaced by 0. *)
Definition make_linear_gaussian_cpd_template (a_mat n_mat : mat) (conditioning conditional : list string) : res gtemplate :=
  let* _ := py_assert (Nat.eqb (length conditioning) (nr a_mat)) in
  let* _ := py_assert (Nat.eqb (nr n_mat) (nr a_mat)) in
  let* f := make_linear_gaussian a_mat n_mat conditioning conditional in
  let* r := get_can f in
  let '(K, h, _) := snd r in
  mk_gtemplate K h (Fin 0) (conditioning ++ conditional).
