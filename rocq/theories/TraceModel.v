(** The record that a cluster graph keeps of its message passing: the information gains of every
    message path, the messages passed (debug mode) and what is shown of them.
    cluster_graph.py:163-173, 248-273, 437-477, 499-554.

    GraphModel.v leaves these lists out because nothing else reads them.  Here they are carried
    beside the graph: [t_hist] holds information_gains_with_iters of every path of [g_paths], in
    the same positions, and [t_msgs] is passed_messages. *)
From Verif Require Export GraphModel.
From Coq Require Import Reals String List.
Import ListNotations.
Local Open Scope string_scope.
Local Open Scope list_scope.

Record traced (F V : Type) := { t_g : cgraph F V; t_hist : list (list val); t_msgs : list (msg F) }.
Arguments t_g {F V} _.
Arguments t_hist {F V} _.
Arguments t_msgs {F V} _.

(** cluster_graph.py:512-517 and 534: the constructor of a path records its first gain.  The graph is
    built with one path after another and none of them is changed on the way (215-228). *)
Definition t_new {F V} (g : cgraph F V) : traced F V :=
  {| t_g := g; t_hist := map (fun p => [p_gain p]) (g_paths g); t_msgs := [] |}.

(** cluster_graph.py:519-534 update_next_information_gain and 536-542 recompute_next_message. *)
Definition t_recompute_at {F V} (ops : fops F V) (cls : list (cluster F V)) (s : list (path F) * list (list val)) (k : nat)
  : res (list (path F) * list (list val)) :=
  let* p := py_nth (fst s) k in
  let* p' := recompute ops cls p in
  let* ps := list_set (fst s) k p' in
  let* h := py_nth (snd s) k in
  let* hs := list_set (snd s) k (h ++ [p_gain p']) in
  Ok (ps, hs).

(** cluster_graph.py:544-554 pass_next_message. *)
Definition t_pass {F V} (ops : fops F V) (t : traced F V) (k : nat) : res (traced F V) :=
  let g := t_g t in
  let* p := py_nth (g_paths g) k in
  let* cr := py_nth (g_cl g) (p_rcv p) in
  let* cr' := receive_message ops cr (p_next p) in
  let* cls := list_set (g_cl g) (p_rcv p) cr' in
  let p1 := {| p_snd := p_snd p; p_rcv := p_rcv p; p_prev := Some (p_next p); p_next := p_next p;
               p_gain := Fin 0 |} in
  let* ps1 := list_set (g_paths g) k p1 in
  let* h := py_nth (t_hist t) k in
  let* hs1 := list_set (t_hist t) k (h ++ [Fin 0]) in
  let* s := foldM (t_recompute_at ops cls) (cl_out cr') (ps1, hs1) in
  Ok {| t_g := {| g_cl := cls; g_paths := fst s; g_order := g_order g; g_spec := g_spec g;
                  g_passed := g_passed g; g_dists := g_dists g |};
        t_hist := snd s; t_msgs := t_msgs t |}.

(** cluster_graph.py:445-462: one iteration of the loop of process_graph; [debug] is self.debug. *)
Definition t_iter {F V} (ops : fops F V) (debug : bool) (t : traced F V) : res (traced F V * val) :=
  let* k := py_nth (g_order (t_g t)) 0 in
  let* p := py_nth (g_paths (t_g t)) k in
  let msgs := if debug then t_msgs t ++ [p_next p] else t_msgs t in
  let* t1 := t_pass ops {| t_g := t_g t; t_hist := t_hist t; t_msgs := msgs |} k in
  let g1 := t_g t1 in
  let g2 := sort_paths {| g_cl := g_cl g1; g_paths := g_paths g1; g_order := g_order g1;
                          g_spec := g_spec g1; g_passed := S (g_passed g1); g_dists := g_dists g1 |} in
  let* k' := py_nth (g_order g2) 0 in
  let* p' := py_nth (g_paths g2) k' in
  Ok ({| t_g := {| g_cl := g_cl g2; g_paths := g_paths g2; g_order := g_order g2; g_spec := g_spec g2;
                   g_passed := g_passed g2; g_dists := g_dists g2 ++ [p_gain p'] |};
         t_hist := t_hist t1; t_msgs := t_msgs t1 |}, p_gain p').
Fixpoint t_loop {F V} (ops : fops F V) (debug : bool) (tol : R) (n : nat) (t : traced F V) : res (traced F V) :=
  match n with
  | 0 => Ok t
  | S n' =>
      let* r := t_iter ops debug t in
      if vleb (snd r) (Fin tol) then Ok (fst r) else t_loop ops debug tol n' (fst r)
  end.
(** cluster_graph.py:417-473 process_graph. *)
Definition t_process {F V} (ops : fops F V) (debug : bool) (tol : R) (max_iter : nat) (t : traced F V) : res (traced F V) :=
  let g := reset_dists (t_g t) in
  match g_cl g with
  | [c] =>
      let* g' := process_graph ops tol max_iter (t_g t) in
      Ok {| t_g := g'; t_hist := t_hist t; t_msgs := t_msgs t |}
  | _ => t_loop ops debug tol (max_iter * length (g_order g)) {| t_g := sort_paths g; t_hist := t_hist t; t_msgs := t_msgs t |}
  end.

(** cluster_graph.py:248-273 plot_next_messages_info_gain: the curves in the order of
    graph_message_paths; point i of a curve is drawn at x = i.  The second list is the legend. *)
Definition path_label {F V} (g : cgraph F V) (k : nat) : res string :=
  let* p := py_nth (g_paths g) k in
  let* cs := py_nth (g_cl g) (p_snd p) in
  let* cr := py_nth (g_cl g) (p_rcv p) in
  Ok (String.append (cl_id cs) (String.append "->" (cl_id cr))).
Definition plot_info_gain {F V} (t : traced F V) (legend_on : bool) : res (list (list val) * option (list string)) :=
  let* curves := mapM (fun k => py_nth (t_hist t) k) (g_order (t_g t)) in
  if legend_on then (let* legend := mapM (path_label (t_g t)) (g_order (t_g t)) in Ok (curves, Some legend))
  else Ok (curves, None).

(** cluster_graph.py:475-480 _last_passed_message_factors: [None] has no attribute [factor]. *)
Definition last_passed {F V} (g : cgraph F V) : res (list F) :=
  mapM (fun k => let* p := py_nth (g_paths g) k in
                 match p_prev p with Some m => Ok (m_fac m) | None => Err AttributeError end) (g_order g).
