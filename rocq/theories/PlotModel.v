(** Model of the plots: gaussian.py:950-1017, gaussian_mixture.py:377-426 and 694-740,
    nonlinear_gaussian.py:481-487 and 635-641, categorical.py:577-604, cluster_graph.py:275-310 and
    _factor_utils.py:296-326.  A picture is the data handed to matplotlib.  Simplifications:
    colours, sizes, titles and the layout are left out; where numpy takes the square root of a
    negative number and goes on with NaN limits the model stops (PyException). *)
From Verif Require Export NlgModel ShowModel.
Local Open Scope nat_scope.
Local Open Scope string_scope.
Local Open Scope list_scope.
Local Open Scope R_scope.

(** [plt.plot(xs, ys)]; [plt.contourf(x_mesh, y_mesh, z_mesh)] with the labels of the axes. *)
Inductive drawing :=
  | Curve (xs : list R) (ys : list val)
  | Contour (x_mesh y_mesh : list (list R)) (z_mesh : list (list val)) (xlabel ylabel : string).

(** [np.linspace(a, b, n)] and [np.sqrt]. *)
Definition linspace (a b : R) (n : nat) : list R :=
  map (fun i => a + INR i * ((b - a) / INR (n - 1))) (seq 0 n).
Definition np_sqrt (x : R) : res R := if Rlt_b x 0 then Err PyException else Ok (sqrt x).
(** Python's [min] and [max] of a list of numbers. *)
Definition py_min (l : list R) : res R := match l with [] => Err ValueError | x :: t => Ok (fold_left Rmin t x) end.
Definition py_max (l : list R) : res R := match l with [] => Err ValueError | x :: t => Ok (fold_left Rmax t x) end.

(** _factor_utils.py:296-326 plot_2d: 312 [np.meshgrid], 313 the points row by row, 318 [reshape]. *)
Fixpoint chunks {A : Type} (rows cols : nat) (l : list A) : list (list A) :=
  match rows with O => [] | S r => firstn cols l :: chunks r cols (skipn cols l) end.
Definition plot_2d (func : list R -> res val) (xlim ylim : R * R) (xlabel ylabel : string) : res drawing :=
  let x_space := linspace (fst xlim) (snd xlim) 100 in
  let y_space := linspace (fst ylim) (snd ylim) 100 in
  let x_mesh := map (fun _ => x_space) y_space in
  let y_mesh := map (fun y => map (fun _ => y) x_space) y_space in
  let* z := mapM (fun p : R * R => func [fst p; snd p]) (combine (concat x_mesh) (concat y_mesh)) in
  Ok (Contour x_mesh y_mesh (chunks (length y_space) (length x_space) z) xlabel ylabel).

(** The interval of three standard deviations around entry [i] of the mean. *)
Definition three_sigma (C m : mat) (i : nat) : res (R * R) :=
  let* s := np_sqrt (ent C i i) in Ok (ent m i 0 - 3 * s, ent m i 0 + 3 * s).

(** gaussian.py:950-961 _get_limits_for_2d_plot, on a copy. *)
Definition g_limits_2d (f : gauss) : res ((R * R) * (R * R)) :=
  let* c := g_copy f in
  let* r := get_cov c in
  let '(C, m, _) := snd r in
  let* x := three_sigma C m 0 in
  let* y := three_sigma C m 1 in
  Ok (x, y).
(** gaussian.py:964-983 _plot_2d: the automatic limits are computed in any case. *)
Definition g_plot_2d (f : gauss) (log : bool) (xlim ylim : option (R * R)) : res drawing :=
  let* d := g_limits_2d f in
  let xl := match xlim with Some l => l | None => fst d end in
  let yl := match ylim with Some l => l | None => snd d end in
  let* xlabel := py_nth (ga_vars f) 0 in
  let* ylabel := py_nth (ga_vars f) 1 in
  if (log : bool) then plot_2d (fun x => log_potential f x None) xl yl xlabel ylabel
  else plot_2d (potential f) xl yl xlabel ylabel.
(** gaussian.py:984-1017 plot: the object afterwards and the picture. *)
Definition g_values (f : gauss) (log : bool) (xs : list R) : res (list val) :=
  mapM (fun x => if (log : bool) then log_potential f [x] None else potential f [x]) xs.
Definition g_plot (f : gauss) (log : bool) (xlim ylim : option (R * R)) : res (gauss * list drawing) :=
  match length (ga_vars f) with
  | 1%nat =>
      let* fl := match xlim with
                 | Some l => Ok (f, l)
                 | None => let* r := get_cov f in
                           let '(C, m, _) := snd r in
                           let* l := three_sigma C m 0 in Ok (fst r, l)
                 end in
      let '(f', l) := fl in
      let xs := linspace (fst l) (snd l) 200 in
      let* ys := g_values f' log xs in
      Ok (f', [Curve xs ys])
  | 2%nat => let* d := g_plot_2d f log xlim ylim in Ok (f, [d])
  | _ => Err NotImplementedError
  end.

(** gaussian_mixture.py:377-392 _get_sensible_xlim and 694-716 _get_limits_for_2d_plot: the
    components afterwards (with their covariance form) and the limits of coordinate [i]. *)
Definition mix_intervals (ps : list (mat * mat * val)) (i : nat) : res (R * R) :=
  let* ls := mapM (fun p : mat * mat * val => let '(C, m, _) := p in three_sigma C m i) ps in
  let* lo := py_min (map fst ls) in
  let* hi := py_max (map snd ls) in
  Ok (lo, hi).
Definition mix_after (a : gmix) (rs : list (gauss * (mat * mat * val))) : gmix :=
  {| gm_vars := gm_vars a; gm_comps := map fst rs |}.
Definition mix_xlim (a : gmix) : res (gmix * (R * R)) :=
  let* rs := mapM get_cov (gm_comps a) in
  let* l := mix_intervals (map snd rs) 0 in
  Ok (mix_after a rs, l).
Definition mix_limits_2d (a : gmix) : res (gmix * ((R * R) * (R * R))) :=
  let* rs := mapM get_cov (gm_comps a) in
  let* x := mix_intervals (map snd rs) 0 in
  let* y := mix_intervals (map snd rs) 1 in
  Ok (mix_after a rs, (x, y)).
(** gaussian_mixture.py:718-740 _plot_2d. *)
Definition mix_plot_2d (a : gmix) (log : bool) (xlim ylim : option (R * R)) : res (gmix * drawing) :=
  let* al := match xlim, ylim with
             | Some x, Some y => Ok (a, (x, y))
             | _, _ => mix_limits_2d a
             end in
  let '(a', (xl, yl)) := al in
  let* xlabel := py_nth (gm_vars a) 0 in
  let* ylabel := py_nth (gm_vars a) 1 in
  let* d := if (log : bool) then plot_2d (fun x => mix_log_potential a' x None) xl yl xlabel ylabel
            else plot_2d (mix_potential a') xl yl xlabel ylabel in
  Ok (a', d).
(** gaussian_mixture.py:394-426 plot. *)
Definition add_all (xs ys : list val) : list val := map (fun p => vadd (fst p) (snd p)) (combine xs ys).
Definition mix_plot (a : gmix) (log : bool) (xlim ylim : option (R * R)) (individual : bool) : res (gmix * list drawing) :=
  match length (gm_vars a) with
  | 1%nat =>
      let* al := match xlim with Some l => Ok (a, l) | None => mix_xlim a end in
      let '(a', l) := al in
      let xs := linspace (fst l) (snd l) 200 in
      let* st := foldM (fun (st : list val * list drawing) c =>
                          let* potx := g_values c log xs in
                          Ok (add_all (fst st) potx, snd st ++ (if (individual : bool) then [Curve xs potx] else [])))
                       (gm_comps a') (repeat (Fin 0) 200, []) in
      Ok (a', snd st ++ [Curve xs (fst st)])
  | 2%nat => let* r := mix_plot_2d a log xlim ylim in Ok (fst r, [snd r])
  | _ => Err NotImplementedError
  end.

(** nonlinear_gaussian.py:481-487 plot: the joint distribution is recomputed on a copy, the
    stored one is plotted; 635-641 plot of a mixture. *)
Definition nl_plot (o : oracle) (f : nlg) : res (nlg * list drawing) :=
  let* c := nl_copy f in
  let* _ := nl_recompute o c in
  let* r := g_plot (nl_joint f) false None None in
  Ok (set_joint f (fst r), snd r).
Definition nm_plot (o : oracle) (a : nlgm) : res (list drawing) :=
  let* js := mapM (nl_joint_distribution o) (nm_nlgs a) in
  let* m := mk_mix js in
  let* r := mix_plot m false None None false in
  Ok (snd r).

(** categorical.py:577-604 plot: one horizontal bar for each row of the data frame, with its
    label and its length.  [", ".join] takes texts only (TypeError otherwise); names that are
    floating-point numbers are outside the model of the names.  Simplification: the table has a
    variable and an assignment, and none of its variables is called prob. *)
Definition cell_text (c : cell) : res string := match c with CName (AStr s) => Ok s | _ => Err TypeError end.
Definition row_label (cells : list cell) : res string :=
  let* ts := mapM cell_text cells in Ok (String.concat ", " ts).
Definition d_plot (f : dense) : res (list (string * cell)) :=
  let* df := d_get_df f true in
  let n := length (dvars f) in
  mapM (fun row => let* l := row_label (firstn n row) in
                   let* y := py_nth row n in Ok (l, y)) (fr_rows df).

(** cluster_graph.py:275-310 plot_message_convergence: the curve, the points of it that are drawn
    again as infinite, and whether the legend for infinity is shown.  [ds] is
    [sync_message_passing_max_distances]. *)
Definition vlog (x : val) : val := match x with Fin r => rlog r | NInf => NaN | x => x end.
Definition doubled {A : Type} (l : list A) : list A := flat_map (fun x => [x; x]) l.
Definition py_vmax (l : list val) : res val :=
  match l with [] => Err ValueError | x :: t => Ok (fold_left (fun acc y => if vltb acc y then y else acc) t x) end.
Record conv_plot := { cp_xs : list R; cp_ys : list val; cp_marked : list bool; cp_legend : bool }.
Definition plot_convergence (ds : list val) (log : bool) : res conv_plot :=
  let ds := doubled (if (log : bool) then map vlog ds else ds) in
  let iterations := map (fun i => INR i / 2) (seq 0 (length ds)) in
  let non_inf := filter (fun d => vneb d PInf) ds in
  let* max_non_inf := py_vmax non_inf in
  let new_inf := vmul max_non_inf (Fin (3 / 2)) in
  let replaced := map (fun v => if vneb v PInf then v else new_inf) ds in
  Ok {| cp_xs := iterations; cp_ys := replaced; cp_marked := map (fun v => negb (vneb v new_inf)) replaced;
        cp_legend := negb (Nat.eqb (length non_inf) (length ds)) |}.
