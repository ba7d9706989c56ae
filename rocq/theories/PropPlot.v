(** Theorems for C142 to C147: graphs of Gaussian mixtures, and what the plotting functions draw. *)
From Coq Require Import Reals List String Bool Lia Lra.
From Verif Require Import PlotEx MixGraph.
From Verif Require Import IntKL2.
From Verif Require Import ShowSpec ShowEx DenseExamples DenseFacts SparseExamples GraphTree.
Import ListNotations.
Open Scope string_scope.
Open Scope R_scope.

(** C142: a cluster graph of Gaussian mixtures. As soon as two clusters share a variable that is not observed, the
    graph cannot be built: the first message needs the distance of a mixture from a vacuous mixture. *)
Theorem c142_mixture_graph_refuted : exists o (a b : gmix), oracle_ok o /\ solid_mix a /\ solid_mix b /\
  gm_vars a = ["a"; "b"] /\ gm_vars b = ["b"; "c"] /\ mk_graph (mix_ops o) o [a; b] None [] = Err NotImplementedError.
Proof.
  exists id_oracle, (mgx ["a"; "b"]), (mgx ["b"; "c"]). split; [exact SparseExamples.id_oracle_ok|]. split; [apply mgx_solid; discriminate|].
  split; [apply mgx_solid; discriminate|]. split; [reflexivity|]. split; [reflexivity|]. exact mgx_fails.
Qed.
Print Assumptions c142_mixture_graph_refuted.
Theorem c142_no_messages o factors ev special g : oracle_ok o -> mk_graph (mix_ops o) o factors ev special = Ok g ->
  g_paths g = [] /\ forall v i j, ~ In v (all_evidence ev special) -> in_scope (mix_ops o) g v i -> in_scope (mix_ops o) g v j -> i = j.
Proof. exact (mix_graph_alone o factors ev special g). Qed.
Print Assumptions c142_no_messages.
Theorem c142_separate_clusters_partial o factors ev special g tol n : oracle_ok o -> mk_graph (mix_ops o) o factors ev special = Ok g -> length (g_cl g) <> 1%nat ->
  exists g', process_graph (mix_ops o) tol n g = Ok g' /\ g_cl g' = g_cl g /\ g_passed g' = 0%nat /\ g_dists g' = [].
Proof. exact (mix_graph_idle o factors ev special g tol n). Qed.
Print Assumptions c142_separate_clusters_partial.
Example c142_nonvacuous : exists o (a b : gmix) g, oracle_ok o /\ solid_mix a /\ solid_mix b /\ mk_graph (mix_ops o) o [a; b] None [] = Ok g /\ length (g_cl g) = 2%nat.
Proof.
  destruct mgx_separate as (g & E & L). exists id_oracle, (mgx ["a"; "b"]), (mgx ["c"; "d"]), g. split; [exact SparseExamples.id_oracle_ok|].
  split; [apply mgx_solid; discriminate|]. split; [apply mgx_solid; discriminate|]. split; [exact E|exact L].
Qed.

(** C143: curves of one variable. *)
Theorem c143_gaussian_curve f log xlim ylim v : ga_vars f = [v] -> wf_gauss f -> (xlim = None -> solid f) ->
  exists f' xs ys lo hi, g_plot f log xlim ylim = Ok (f', [Curve xs ys]) /\ same_fun f f' /\
    samples (fun x => if log then log_potential f [x] None else potential f [x]) lo hi 200 xs ys /\
    match xlim with
    | Some l => l = (lo, hi)
    | None => exists C m w, get_cov f = Ok (f', (C, m, w)) /\ 0 < ent C 0 0 /\
                lo = ent m 0 0 - 3 * sqrt (ent C 0 0) /\ hi = ent m 0 0 + 3 * sqrt (ent C 0 0)
    end.
Proof. exact (gauss_curve f log xlim ylim v). Qed.
Print Assumptions c143_gaussian_curve.
Theorem c143_mixture_curve_partial a xlim ylim individual v : gm_vars a = [v] -> wf_mix a -> (xlim = None -> solid_mix a) ->
  exists a' cs xs ys lo hi, mix_plot a false xlim ylim individual = Ok (a', (cs ++ [Curve xs ys])%list) /\
    gm_vars a' = gm_vars a /\ Forall2 same_fun (gm_comps a) (gm_comps a') /\
    samples (fun x => mix_potential a [x]) lo hi 200 xs ys /\
    (if individual then Forall2 (fun c d => exists ys', d = Curve xs ys' /\ samples (fun x => potential c [x]) lo hi 200 xs ys') (gm_comps a) cs else cs = []) /\
    match xlim with Some l => l = (lo, hi) | None => covers (gm_comps a) 0 (lo, hi) end.
Proof. exact (mix_curve a false xlim ylim individual v). Qed.
Print Assumptions c143_mixture_curve_partial.
(** The curve drawn with [log=True] is the sum of the logarithms, not the logarithm of the sum. *)
Theorem c143_mixture_log_refuted : exists a a' xs ys i, solid_mix a /\ mix_plot a true None None false = Ok (a', [Curve xs ys]) /\ (i < 200)%nat /\
  mix_log_potential a [nth i xs 0] None <> Ok (nth i ys NaN).
Proof. exact mix_log_curve_refuted. Qed.
Print Assumptions c143_mixture_log_refuted.
Theorem c143_mixture_log_one_partial a c xlim ylim individual v : gm_comps a = [c] -> gm_vars a = [v] -> wf_mix a -> IntMarg.plain c -> (xlim = None -> solid_mix a) ->
  exists a' cs xs ys lo hi, mix_plot a true xlim ylim individual = Ok (a', (cs ++ [Curve xs ys])%list) /\ samples (fun x => mix_log_potential a [x] None) lo hi 200 xs ys.
Proof. exact (mix_log_curve_one a c xlim ylim individual v). Qed.
Print Assumptions c143_mixture_log_one_partial.
Example c143_nonvacuous : exists f a c, ga_vars f = ["x"] /\ wf_gauss f /\ solid f /\ gm_vars a = ["x"] /\ wf_mix a /\ solid_mix a /\ gm_comps a = [c] /\ IntMarg.plain c.
Proof.
  pose proof ex_can_solid as S. exists ex_can, {| gm_vars := ["x"]; gm_comps := [ex_can] |}, ex_can.
  assert (M : solid_mix {| gm_vars := ["x"]; gm_comps := [ex_can] |}) by (split; [discriminate|]; intros c [<-|[]]; split; [exact S|reflexivity]).
  split; [reflexivity|]. split; [exact (proj1 S)|]. split; [exact S|]. split; [reflexivity|]. split; [exact (solid_mix_wf _ M)|]. split; [exact M|]. split; [reflexivity|].
  exact ex_can_plain.
Qed.

(** C144: contours of two variables; other numbers of variables are refused. *)
Theorem c144_gaussian_contour f log xlim ylim vx vy : ga_vars f = [vx; vy] -> solid f ->
  exists f' p xm ym zm xl yl, g_plot f log xlim ylim = Ok (f, [Contour xm ym zm vx vy]) /\
    mesh_of (fun x y => if log then log_potential f [x; y] None else potential f [x; y]) xl yl 100 xm ym zm /\
    get_cov f = Ok (f', p) /\
    match xlim with Some l => xl = l | None => three_sigma_of p 0 xl end /\
    match ylim with Some l => yl = l | None => three_sigma_of p 1 yl end.
Proof. exact (gauss_contour f log xlim ylim vx vy). Qed.
Print Assumptions c144_gaussian_contour.
Theorem c144_gaussian_other f log xlim ylim : length (ga_vars f) <> 1%nat -> length (ga_vars f) <> 2%nat -> g_plot f log xlim ylim = Err NotImplementedError.
Proof. exact (gauss_other f log xlim ylim). Qed.
Print Assumptions c144_gaussian_other.
Theorem c144_mixture_contour_partial a log xlim ylim individual vx vy : gm_vars a = [vx; vy] -> wf_mix a -> (xlim = None \/ ylim = None -> solid_mix a) ->
  exists a' xm ym zm xl yl, mix_plot a log xlim ylim individual = Ok (a', [Contour xm ym zm vx vy]) /\
    gm_vars a' = gm_vars a /\ Forall2 same_fun (gm_comps a) (gm_comps a') /\
    mesh_of (fun x y => if log then mix_log_potential a [x; y] None else mix_potential a [x; y]) xl yl 100 xm ym zm /\
    match xlim, ylim with
    | Some lx, Some ly => xl = lx /\ yl = ly
    | _, _ => covers (gm_comps a) 0 xl /\ covers (gm_comps a) 1 yl
    end.
Proof. exact (mix_contour a log xlim ylim individual vx vy). Qed.
Print Assumptions c144_mixture_contour_partial.
(** Limits given for one axis of a mixture are ignored. *)
Theorem c144_mixture_limits_refuted : exists a l l' r, solid_mix a /\ l <> l' /\ mix_plot a false (Some l) None false = Ok r /\ mix_plot a false (Some l') None false = Ok r.
Proof. exact mix_limits_refuted. Qed.
Print Assumptions c144_mixture_limits_refuted.
Theorem c144_mixture_other a log xlim ylim individual : length (gm_vars a) <> 1%nat -> length (gm_vars a) <> 2%nat -> mix_plot a log xlim ylim individual = Err NotImplementedError.
Proof. exact (mix_other a log xlim ylim individual). Qed.
Print Assumptions c144_mixture_other.
Example c144_nonvacuous : exists f a g, ga_vars f = ["x"; "y"] /\ solid f /\ gm_vars a = ["x"; "y"] /\ wf_mix a /\ solid_mix a /\ length (gm_comps a) = 2%nat /\ length (ga_vars g) = 3%nat.
Proof.
  exists (stdg ["x"; "y"] [0; 1] 0), ex_pair, (stdg ["x"; "y"; "z"] [0; 1; 2] 0). split; [reflexivity|]. split; [apply stdg_solid, nd_xy|]. split; [reflexivity|].
  split; [exact (solid_mix_wf _ ex_pair_solid)|]. split; [exact ex_pair_solid|]. split; reflexivity.
Qed.

(** C145: the contour of a nonlinear Gaussian. The joint distribution is computed and then dropped: what is drawn is
    the attribute left by earlier calls, and for a new factor the call fails. *)
Theorem c145_joint_contour_refuted : exists o f j d e, oracle_ok o /\ nl_joint_distribution o f = Ok j /\ solid j /\ g_plot j false None None = Ok (j, [d]) /\ nl_plot o f = Err e.
Proof. exact nl_plot_refuted. Qed.
Print Assumptions c145_joint_contour_refuted.
Theorem c145_new_factor o cing cal T Q w upd cond ev f : mk_nlg cing cal T Q w None upd cond ev = Ok f -> exists e, nl_plot o f = Err e.
Proof. exact (nl_plot_fresh o cing cal T Q w upd cond ev f). Qed.
Print Assumptions c145_new_factor.
Theorem c145_joint_contour_partial o f j vx vy : nl_joint_distribution o f = Ok j -> same_fun j (nl_joint f) -> wf_gauss j -> ga_vars (nl_joint f) = [vx; vy] -> ga_vars j = [vx; vy] -> solid (nl_joint f) ->
  exists f' xm ym zm xl yl g p, nl_plot o f = Ok (f', [Contour xm ym zm vx vy]) /\ mesh_of (fun x y => potential j [x; y]) xl yl 100 xm ym zm /\
    get_cov (nl_joint f) = Ok (g, p) /\ three_sigma_of p 0 xl /\ three_sigma_of p 1 yl.
Proof. exact (nl_plot_current o f j vx vy). Qed.
Print Assumptions c145_joint_contour_partial.
Theorem c145_mixture_contour o a js vx vy : mapM (nl_joint_distribution o) (nm_nlgs a) = Ok js -> js <> [] -> (forall j, In j js -> solid j /\ ga_vars j = [vx; vy]) ->
  exists xm ym zm xl yl, nm_plot o a = Ok [Contour xm ym zm vx vy] /\
    mesh_of (fun x y => foldM (fun acc j => let* p := potential j [x; y] in Ok (vadd acc p)) js (Fin 0)) xl yl 100 xm ym zm /\ covers js 0 xl /\ covers js 1 yl.
Proof. exact (nm_plot_contour o a js vx vy). Qed.
Print Assumptions c145_mixture_contour.
Example c145_mixture_nonvacuous : exists o a js vx vy, oracle_ok o /\ mapM (nl_joint_distribution o) (nm_nlgs a) = Ok js /\ length js = 2%nat /\ js <> [] /\ (forall j, In j js -> solid j /\ ga_vars j = [vx; vy]).
Proof. exact nm_plot_instance. Qed.
Example c145_nonvacuous : exists o f j vx vy, oracle_ok o /\ nl_joint_distribution o f = Ok j /\ same_fun j (nl_joint f) /\ wf_gauss j /\ ga_vars (nl_joint f) = [vx; vy] /\ ga_vars j = [vx; vy] /\ solid (nl_joint f).
Proof. exact nl_plot_instance. Qed.

(** C146: the convergence of the messages. *)
Theorem c146_convergence_partial ds log m : largest (shown log ds) m -> 0 < m ->
  exists p, plot_convergence ds log = Ok p /\ length (cp_xs p) = (2 * length ds)%nat /\ length (cp_ys p) = (2 * length ds)%nat /\
    (forall k j d, (k < length ds)%nat -> (j < 2)%nat -> nth k (shown log ds) NaN = d ->
       nth (2 * k + j) (cp_xs p) 0 = INR k + INR j / 2 /\
       (nth (2 * k + j) (cp_marked p) false = true <-> d = PInf) /\
       (d <> PInf -> nth (2 * k + j) (cp_ys p) NaN = d) /\
       (d = PInf -> exists h, nth (2 * k + j) (cp_ys p) NaN = Fin h /\ m < h)) /\
    (cp_legend p = true <-> In PInf (shown log ds)).
Proof. exact (convergence_plot ds log m). Qed.
Print Assumptions c146_convergence_partial.
(** A distance of zero is marked as infinite if no distance is positive. *)
Theorem c146_zero_refuted : exists p, plot_convergence [PInf; Fin 0] false = Ok p /\ nth 2 (cp_marked p) false = true /\ nth 2 (cp_ys p) NaN = Fin 0.
Proof. exact convergence_zero. Qed.
Print Assumptions c146_zero_refuted.
(** With [log=True] an infinite distance can be drawn below a finite one. *)
Theorem c146_low_refuted : exists ds p h, plot_convergence ds true = Ok p /\ ds = [PInf; Fin (exp (-1))] /\ nth 0 (cp_ys p) NaN = Fin h /\ nth 2 (cp_ys p) NaN = Fin (-1) /\ h < -1.
Proof. exact convergence_low. Qed.
Print Assumptions c146_low_refuted.
Theorem c146_none ds log : (forall d, In d ds -> d = PInf) -> plot_convergence ds log = Err ValueError.
Proof. exact (convergence_none ds log). Qed.
Print Assumptions c146_none.
Example c146_nonvacuous : largest (shown false [PInf; Fin 2; Fin 1]) 2 /\ 0 < 2 /\ (forall d, In d [PInf; PInf] -> d = PInf).
Proof.
  split; [split; [right; now left|]|].
  - intros d [<-|[<-|[<-|[]]]]; [now left|right; right; exists 2; split; [reflexivity|lra]|right; right; exists 1; split; [reflexivity|lra]].
  - split; [lra|]. intros d [<-|[<-|[]]]; reflexivity.
Qed.

(** C147: the bars of a table. *)
Theorem c147_bars_partial f : wf_dense f -> (forall v ns a, dget (dnames f) v = Some ns -> In a ns -> exists s, a = AStr s) ->
  exists es bars, listed f es /\ d_plot f = Ok bars /\
    Forall2 (fun e b => exists names, Forall2 (fun v s => name_of f v (e v) (AStr s)) (dvars f) names /\
                        b = (String.concat ", " names, CNum (Fin (dpot f e)))) es bars.
Proof. exact (bars_ok f). Qed.
Print Assumptions c147_bars_partial.
(** Without names for the values, which are then numbers, no bar is drawn. *)
Theorem c147_bars_refuted : exists f e, wf_dense f /\ d_in_range f e /\ d_plot f = Err TypeError.
Proof. exact bars_refuted. Qed.
Print Assumptions c147_bars_refuted.
Theorem c147_default_names f e : wf_dense f -> d_in_range f e -> dvars f <> [] -> dnames f = names_default (dvars f) (dcards f) -> d_plot f = Err TypeError.
Proof. exact (bars_default f e). Qed.
Print Assumptions c147_default_names.
Example c147_nonvacuous : exists f g, wf_dense f /\ (forall v ns a, dget (dnames f) v = Some ns -> In a ns -> exists s, a = AStr s) /\ dvars f = ["a"] /\
  wf_dense g /\ d_in_range g (fun _ => 0%nat) /\ dvars g <> [] /\ dnames g = names_default (dvars g) (dcards g).
Proof.
  exists twice, ed_ab. split; [exact twice_wf|]. split.
  - intros v ns a H Ha. apply dget_In in H. destruct H as [H|[]]. injection H as <- <-. destruct Ha as [<-|[<-|[<-|[]]]]; eauto.
  - split; [reflexivity|]. split; [exact ed_ab_wf|]. split; [|split; [discriminate|reflexivity]].
    intros v c Hc. unfold d_has_card in Hc. cbn in Hc. destruct Hc as [E|[E|[]]]; injection E as <- <-; lia.
Qed.
