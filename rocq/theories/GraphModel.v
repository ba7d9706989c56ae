(** Model of veroku/cluster_graph.py (graph construction), generic in the factor class.
    Not modelled: progress bars, printing, the graphviz drawing, the animation, plotting (see AnimModel.v, PlotModel.v). *)
From Coq Require Import DecimalString.
From Verif Require Export LogVal.

(** The operations of a factor class that the cluster graph uses (_factor.py:11-231, abstract
    methods implemented by each class).  Simplifications: factors are immutable values, so
    [copy()] and [joint_distribution] return the factor itself; [marginalize] is only called
    with keep=True. *)
Record fops (F V : Type) := {
  f_vars : F -> list string;                       (* var_names *)
  f_mul : F -> F -> res F;                         (* multiply *)
  f_cancel : F -> F -> res F;                      (* cancel *)
  f_marg : F -> list string -> res F;              (* marginalize(vrs, keep=True) *)
  f_reduce : F -> list string -> list V -> res F;  (* reduce *)
  f_dist : F -> res val;                           (* distance_from_vacuous *)
  f_kl : F -> F -> res val }.                      (* kl_divergence *)
Arguments f_vars {F V} _ _.
Arguments f_mul {F V} _ _ _.
Arguments f_cancel {F V} _ _ _.
Arguments f_marg {F V} _ _ _.
Arguments f_reduce {F V} _ _ _ _.
Arguments f_dist {F V} _ _.
Arguments f_kl {F V} _ _ _.

(** _factor_utils.py:36-48 get_subset_evidence. *)
Definition subset_evidence {V} (ev : dict string V) (vars : list string) : list string * list V :=
  let d := dict_of (flat_map (fun v => match dget ev v with Some x => [(v, x)] | None => [] end) vars) in
  (dkeys d, dvals d).

(** cluster_graph.py:52-69 _evidence_reduce_factors. *)
Definition evidence_reduce {F V} (ops : fops F V) (factors : list F) (ev : option (dict string V))
  : res (list F) :=
  mapM (fun f =>
          match ev with
          | None => Ok f
          | Some d =>
              let '(vrs, values) := subset_evidence d (f_vars ops f) in
              if Nat.ltb 0 (length vrs) then f_reduce ops f vrs values else Ok f
          end) factors.

(** cluster_graph.py:72-107 _absorb_subset_factors.  State: the mask, the lists of absorbed
    positions (factors_absorbtion_dict) and the result list.  [enum l] is [enumerate(l)]. *)
Definition enum {A} (l : list A) : list (nat * A) := combine (seq 0 (length l)) l.
(** [mask[i] = 1] (in range by construction). *)
Definition mark (mask : list bool) (i : nat) : list bool :=
  match list_set mask i true with Ok m => m | Err _ => mask end.
Definition marked (mask : list bool) (i : nat) : bool := nth i mask false.
Record absorb_state (F : Type) := { ab_mask : list bool; ab_dict : dict nat (list nat); ab_final : list F }.
Arguments ab_mask {F} _.
Arguments ab_dict {F} _.
Arguments ab_final {F} _.

(** 90-96: the inner loop; state: the growing product, the positions absorbed so far, the mask. *)
Definition absorb_inner {F V} (ops : fops F V) (i : nat) (s : F * list nat * list bool) (jf : nat * F)
  : res (F * list nat * list bool) :=
  let '(prod, taken, mask) := s in
  let '(j, fj) := jf in
  if negb (Nat.eqb i j) && negb (marked mask j) &&
     strict_subsetb (f_vars ops fj) (f_vars ops prod) then
    let* p := f_mul ops prod fj in Ok (p, taken ++ [j], mark (mark mask j) i)
  else Ok s.
(** 87-99: the first outer loop. *)
Definition absorb_outer {F V} (ops : fops F V) (factors : list F) (s : absorb_state F) (if_ : nat * F)
  : res (absorb_state F) :=
  let '(i, fi) := if_ in
  if marked (ab_mask s) i then Ok s else
  let* r := foldM (absorb_inner ops i) (enum factors) (fi, [], ab_mask s) in
  let '(prod, taken, mask) := r in
  Ok {| ab_mask := mask; ab_dict := ab_dict s ++ [(i, taken)];
        ab_final := if marked mask i then ab_final s ++ [prod] else ab_final s |}.
(** 100-103: the second outer loop. *)
Definition absorb_rest {F} (s : absorb_state F) (if_ : nat * F) : absorb_state F :=
  let '(i, fi) := if_ in
  if marked (ab_mask s) i then s
  else {| ab_mask := mark (ab_mask s) i; ab_dict := ab_dict s; ab_final := ab_final s ++ [fi] |}.
Definition absorb_subsets {F V} (ops : fops F V) (factors : list F) : res (list F) :=
  let* s := foldM (absorb_outer ops factors) (enum factors)
              {| ab_mask := repeat false (length factors); ab_dict := []; ab_final := [] |} in
  let s' := fold_left absorb_rest (enum factors) s in
  let* _ := py_assert (forallb (fun b => b) (ab_mask s')) in
  Ok (ab_final s').

(** _cluster.py:33 and cluster_graph.py:151: the identifier f"c{i}#" + ",".join(var_names). *)
Definition dec_string (n : nat) : string := NilEmpty.string_of_uint (Nat.to_uint n).
Definition cluster_id (i : nat) (vars : list string) : string :=
  String.append (String.append "c" (String.append (dec_string i) "#")) (String.concat "," vars).

(** ** networkx undirected graphs, as far as used: insertion ordered adjacency. *)
Definition nxgraph := (dict nat (list nat)).
(** Graph.add_node / add_edge (networkx/classes/graph.py). *)
Definition nx_add_node (g : nxgraph) (u : nat) : nxgraph := if dmem g u then g else dset g u [].
Definition nx_link (g : nxgraph) (u v : nat) : nxgraph :=
  let l := dget_or g u [] in dset g u (if mem v l then l else l ++ [v]).
Definition nx_add_edge (g : nxgraph) (u v : nat) : nxgraph :=
  nx_link (nx_link (nx_add_node (nx_add_node g u) v) u v) v u.
(** Graph.edges(): every edge once, from its first seen end. *)
Fixpoint nx_edges_from (seen : list nat) (g : nxgraph) : list (nat * nat) :=
  match g with
  | [] => []
  | (u, nbrs) :: g' =>
      map (fun v => (u, v)) (filter (fun v => negb (mem v seen)) nbrs) ++ nx_edges_from (u :: seen) g'
  end.
Definition nx_edges (g : nxgraph) : list (nat * nat) := nx_edges_from [] g.
(** nx.minimum_spanning_tree (Kruskal, networkx/algorithms/tree/mst.py): all weights are 1, so
    the stable sort by weight keeps the order of the edges; the union-find structure is a map
    from nodes to component labels. *)
Definition kruskal_step (s : (nat -> nat) * list (nat * nat)) (e : nat * nat) : (nat -> nat) * list (nat * nat) :=
  let '(comp, acc) := s in
  let '(u, v) := e in
  if Nat.eqb (comp u) (comp v) then s
  else (fun w => if Nat.eqb (comp w) (comp u) then comp v else comp w, acc ++ [(u, v)]).
Definition nx_mst (g : nxgraph) : nxgraph :=
  let '(_, es) := fold_left kruskal_step (nx_edges g) (fun w => w, []) in
  fold_left (fun t e => nx_add_edge t (fst e) (snd e)) es (fold_left nx_add_node (dkeys g) []).

(** ** Sepsets, from the list of cluster scopes.  [sc i] is [clusters[i].var_names]. *)
Definition sc (scopes : list (list string)) (i : nat) : list string := nth i scopes [].
(** [for i in range(n): for j in range(i + 1, n)]. *)
Definition pairs (n : nat) : list (nat * nat) :=
  flat_map (fun i => map (fun j => (i, j)) (seq (S i) (n - S i))) (seq 0 n).
(** cluster_graph.py:175-189 _set_non_rip_sepsets_dict (as a function of the pair). *)
Definition non_rip (scopes : list (list string)) (ev : list string) (i j : nat) : list string :=
  set_diff (set_inter (sc scopes j) (sc scopes i)) ev.
(** cluster_graph.py:312-323 _get_unique_vars. *)
Definition unique_vars (o : oracle) (scopes : list (list string)) : list string :=
  so o (dedup (concat scopes)).
(** cluster_graph.py:325-341 _get_vars_min_spanning_trees: the graph of one variable (the code
    fills the graphs of all variables in the same double loop; they are independent). *)
Definition var_graph (scopes : list (list string)) (ev : list string) (v : string) : nxgraph :=
  fold_left (fun g e => if mem v (non_rip scopes ev (fst e) (snd e)) then nx_add_edge g (fst e) (snd e) else g)
            (pairs (length scopes)) [].
(** cluster_graph.py:343-360 _get_running_intersection_sepsets. *)
Definition rip_sepsets (o : oracle) (scopes : list (list string)) (ev : list string)
  : dict (nat * nat) (list string) :=
  fold_left (fun d v =>
               fold_left (fun d e =>
                            match dget d e with
                            | Some l => dset d e (l ++ [v])
                            | None => dset d e [v]
                            end) (nx_edges (nx_mst (var_graph scopes ev v))) d)
            (unique_vars o scopes) [].

(** ** Clusters, messages, paths. *)
(** _cluster.py:167-286 (the uuid is not modelled). *)
Record msg (F : Type) := { m_fac : F; m_snd : string; m_rcv : string }.
Arguments m_fac {F} _.
Arguments m_snd {F} _.
Arguments m_rcv {F} _.
(** _cluster.py:23-38.  Objects are referred to by their position; [_neighbour_references] is
    never read and not modelled; the special evidence is always set by the graph
    (cluster_graph.py:159-166). *)
Record cluster (F V : Type) := {
  cl_fac : F; cl_id : string;
  cl_seps : dict string (list string);   (* _neighbour_sepsets *)
  cl_recv : dict string F;               (* _received_message_factors *)
  cl_out : list nat;                     (* _outward_message_paths *)
  cl_spec : dict string V }.             (* _special_evidence *)
Arguments cl_fac {F V} _.
Arguments cl_id {F V} _.
Arguments cl_seps {F V} _.
Arguments cl_recv {F V} _.
Arguments cl_out {F V} _.
Arguments cl_spec {F V} _.
(** cluster_graph.py:499-517 (information_gains_with_iters is write-only and not modelled). *)
Record path (F : Type) := {
  p_snd : nat; p_rcv : nat; p_prev : option (msg F); p_next : msg F; p_gain : val }.
Arguments p_snd {F} _.
Arguments p_rcv {F} _.
Arguments p_prev {F} _.
Arguments p_next {F} _.
Arguments p_gain {F} _.
(** cluster_graph.py:117-173.  [g_order] is the deque graph_message_paths (positions in
    [g_paths]). *)
Record cgraph (F V : Type) := {
  g_cl : list (cluster F V); g_paths : list (path F); g_order : list nat;
  g_spec : dict string V; g_passed : nat; g_dists : list val }.
Arguments g_cl {F V} _.
Arguments g_paths {F V} _.
Arguments g_order {F V} _.
Arguments g_spec {F V} _.
Arguments g_passed {F V} _.
Arguments g_dists {F V} _.

(** _cluster.py:56-67 add_neighbour. *)
Definition add_neighbour {F V} (c : cluster F V) (other : string) (sepset : list string) : res (cluster F V) :=
  let* _ := py_assert (Nat.ltb 0 (length sepset)) in
  Ok {| cl_fac := cl_fac c; cl_id := cl_id c; cl_seps := dset (cl_seps c) other sepset;
        cl_recv := cl_recv c; cl_out := cl_out c; cl_spec := cl_spec c |}.
(** _cluster.py:70-76 add_outward_message_path. *)
Definition add_out {F V} (c : cluster F V) (p : nat) : cluster F V :=
  {| cl_fac := cl_fac c; cl_id := cl_id c; cl_seps := cl_seps c; cl_recv := cl_recv c;
     cl_out := cl_out c ++ [p]; cl_spec := cl_spec c |}.

(** _cluster.py:78-101 make_message. *)
Definition make_message {F V} (ops : fops F V) (c : cluster F V) (nid : string) : res (msg F) :=
  let* sepset := dget_r (cl_seps c) nid in
  let* f1 := f_reduce ops (cl_fac c) (dkeys (cl_spec c)) (dvals (cl_spec c)) in
  let* f2 := f_marg ops f1 sepset in
  let* f3 := match dget (cl_recv c) nid with Some prev => f_cancel ops f2 prev | None => Ok f2 end in
  Ok {| m_fac := f3; m_snd := cl_id c; m_rcv := nid |}.

(** _cluster.py:103-119 receive_message. *)
Definition receive_message {F V} (ops : fops F V) (c : cluster F V) (m : msg F) : res (cluster F V) :=
  let* _ := py_assert (eqb (m_rcv m) (cl_id c)) in
  let* f1 := f_mul ops (cl_fac c) (m_fac m) in
  let* f2 := match dget (cl_recv c) (m_snd m) with Some prev => f_cancel ops f1 prev | None => Ok f1 end in
  Ok {| cl_fac := f2; cl_id := cl_id c; cl_seps := cl_seps c;
        cl_recv := dset (cl_recv c) (m_snd m) (m_fac m); cl_out := cl_out c; cl_spec := cl_spec c |}.

(** cluster_graph.py:519-534 update_next_information_gain. *)
Definition info_gain {F V} (ops : fops F V) (prev : option (msg F)) (next : msg F) : res val :=
  match prev with
  | None => f_dist ops (m_fac next)
  | Some m => f_kl ops (m_fac m) (m_fac next)
  end.

(** cluster_graph.py:504-517: a new path between clusters [i] and [j]. *)
Definition new_path {F V} (ops : fops F V) (ci cj : cluster F V) (i j : nat) : res (path F) :=
  let* m := make_message ops ci (cl_id cj) in
  let* gain := info_gain ops None m in
  Ok {| p_snd := i; p_rcv := j; p_prev := None; p_next := m; p_gain := gain |}.

(** cluster_graph.py:215-228: the body of the double loop of _build_graph. *)
Definition link_pair {F V} (ops : fops F V) (seps : dict (nat * nat) (list string)) (g : cgraph F V)
    (ij : nat * nat) : res (cgraph F V) :=
  let '(i, j) := ij in
  match dget seps (i, j) with
  | None => Ok g
  | Some sepset =>
      let* _ := py_assert (Nat.ltb 0 (length sepset)) in
      let* ci := py_nth (g_cl g) i in
      let* cj := py_nth (g_cl g) j in
      let* ci1 := add_neighbour ci (cl_id cj) sepset in
      let* cj1 := add_neighbour cj (cl_id ci) sepset in
      let* pij := new_path ops ci1 cj1 i j in
      let* pji := new_path ops cj1 ci1 j i in
      let k := length (g_paths g) in
      let* l1 := list_set (g_cl g) i (add_out ci1 k) in
      let* l2 := list_set l1 j (add_out cj1 (S k)) in
      Ok {| g_cl := l2; g_paths := g_paths g ++ [pij; pji]; g_order := g_order g ++ [k; S k];
            g_spec := g_spec g; g_passed := g_passed g; g_dists := g_dists g |}
  end.

(** cluster_graph.py:150-166: the clusters, with the special evidence of their scope. *)
Definition new_cluster {F V} (ops : fops F V) (special : dict string V) (if_ : nat * F) : cluster F V :=
  let vars := f_vars ops (snd if_) in
  let '(vrs, values) := subset_evidence special vars in
  {| cl_fac := snd if_; cl_id := cluster_id (fst if_) vars; cl_seps := []; cl_recv := [];
     cl_out := []; cl_spec := dict_of (combine vrs values) |}.

(** cluster_graph.py:191-237 _build_graph. *)
Definition build_graph {F V} (ops : fops F V) (o : oracle) (clusters : list (cluster F V))
    (special : dict string V) (ev : list string) : res (cgraph F V) :=
  let* _ := raise_if (negb (nodupb (map cl_id clusters))) ValueError in
  let scopes := map (fun c => f_vars ops (cl_fac c)) clusters in
  let seps := rip_sepsets o scopes ev in
  foldM (link_pair ops seps) (pairs (length clusters))
    {| g_cl := clusters; g_paths := []; g_order := []; g_spec := special; g_passed := 0; g_dists := [] |}.

(** cluster_graph.py:143-146 all_evidence_vars. *)
Definition all_evidence {V} (ev : option (dict string V)) (special : dict string V) : list string :=
  dkeys special ++ match ev with Some d => dkeys d | None => [] end.

(** cluster_graph.py:117-173 ClusterGraph.__init__ ([special_evidence=None] is the empty
    dictionary). *)
Definition mk_graph {F V} (ops : fops F V) (o : oracle) (factors : list F) (ev : option (dict string V))
    (special : dict string V) : res (cgraph F V) :=
  let* reduced := evidence_reduce ops factors ev in
  let* final := absorb_subsets ops reduced in
  build_graph ops o (map (new_cluster ops special) (enum final)) special (all_evidence ev special).

(** ** Message passing *)
(** cluster_graph.py:536-542 recompute_next_message. *)
Definition recompute {F V} (ops : fops F V) (cls : list (cluster F V)) (p : path F) : res (path F) :=
  let* cs := py_nth cls (p_snd p) in
  let* cr := py_nth cls (p_rcv p) in
  let* m := make_message ops cs (cl_id cr) in
  let* gain := info_gain ops (p_prev p) m in
  Ok {| p_snd := p_snd p; p_rcv := p_rcv p; p_prev := p_prev p; p_next := m; p_gain := gain |}.
Definition recompute_at {F V} (ops : fops F V) (cls : list (cluster F V)) (ps : list (path F)) (k : nat)
  : res (list (path F)) :=
  let* p := py_nth ps k in
  let* p' := recompute ops cls p in
  list_set ps k p'.

(** cluster_graph.py:544-554 pass_next_message on the path at position [k]. *)
Definition pass_path {F V} (ops : fops F V) (g : cgraph F V) (k : nat) : res (cgraph F V) :=
  let* p := py_nth (g_paths g) k in
  let* cr := py_nth (g_cl g) (p_rcv p) in
  let* cr' := receive_message ops cr (p_next p) in
  let* cls := list_set (g_cl g) (p_rcv p) cr' in
  let p1 := {| p_snd := p_snd p; p_rcv := p_rcv p; p_prev := Some (p_next p); p_next := p_next p;
               p_gain := Fin 0 |} in
  let* ps1 := list_set (g_paths g) k p1 in
  let* ps2 := foldM (recompute_at ops cls) (cl_out cr') ps1 in
  Ok {| g_cl := cls; g_paths := ps2; g_order := g_order g; g_spec := g_spec g;
        g_passed := g_passed g; g_dists := g_dists g |}.

(** cluster_graph.py:442, 445-447: sort the deque by decreasing gain.  NaN gains (not
    comparable) are outside the model of [sorted]. *)
Definition gain_of {F} (ps : list (path F)) (k : nat) : val :=
  match nth_error ps k with Some p => p_gain p | None => NaN end.
Definition sort_paths {F V} (g : cgraph F V) : cgraph F V :=
  {| g_cl := g_cl g; g_paths := g_paths g;
     g_order := sort_desc vltb (gain_of (g_paths g)) (g_order g);
     g_spec := g_spec g; g_passed := g_passed g; g_dists := g_dists g |}.

(** cluster_graph.py:449-473: one iteration, then the loop. *)
Definition process_step {F V} (ops : fops F V) (g : cgraph F V) : res (cgraph F V * val) :=
  let* k := py_nth (g_order g) 0 in
  let* g1 := pass_path ops g k in
  let g2 := sort_paths {| g_cl := g_cl g1; g_paths := g_paths g1; g_order := g_order g1;
                          g_spec := g_spec g1; g_passed := S (g_passed g1); g_dists := g_dists g1 |} in
  let* k' := py_nth (g_order g2) 0 in
  let* p' := py_nth (g_paths g2) k' in
  Ok ({| g_cl := g_cl g2; g_paths := g_paths g2; g_order := g_order g2; g_spec := g_spec g2;
         g_passed := g_passed g2; g_dists := g_dists g2 ++ [p_gain p'] |}, p_gain p').
Fixpoint process_loop {F V} (ops : fops F V) (tol : R) (n : nat) (g : cgraph F V) : res (cgraph F V) :=
  match n with
  | 0 => Ok g
  | S n' =>
      let* r := process_step ops g in
      if vleb (snd r) (Fin tol) then Ok (fst r) else process_loop ops tol n' (fst r)
  end.
(** [self.sync_message_passing_max_distances = []] (430). *)
Definition reset_dists {F V} (g : cgraph F V) : cgraph F V :=
  {| g_cl := g_cl g; g_paths := g_paths g; g_order := g_order g; g_spec := g_spec g;
     g_passed := g_passed g; g_dists := [] |}.
(** cluster_graph.py:417-473 process_graph ([max_iter] a natural number; a negative one acts
    like 0). *)
Definition process_graph {F V} (ops : fops F V) (tol : R) (max_iter : nat) (g : cgraph F V) : res (cgraph F V) :=
  let g := reset_dists g in
  match g_cl g with
  | [c] =>
      match g_spec g with
      | [] => Ok g
      | _ =>
          let* f := f_reduce ops (cl_fac c) (dkeys (g_spec g)) (dvals (g_spec g)) in
          Ok {| g_cl := [{| cl_fac := f; cl_id := cl_id c; cl_seps := cl_seps c; cl_recv := cl_recv c;
                            cl_out := cl_out c; cl_spec := cl_spec c |}];
                g_paths := g_paths g; g_order := g_order g; g_spec := g_spec g;
                g_passed := g_passed g; g_dists := g_dists g |}
      end
  | _ => process_loop ops tol (max_iter * length (g_order g)) (sort_paths g)
  end.

(** cluster_graph.py:378-394 get_marginal. *)
Definition get_marginal {F V} (ops : fops F V) (g : cgraph F V) (vrs : list string) : res F :=
  match find (fun c => subsetb vrs (f_vars ops (cl_fac c))) (g_cl g) with
  | None => Err ValueError
  | Some c =>
      let '(evs, vals) := subset_evidence (g_spec g) (f_vars ops (cl_fac c)) in
      let* f := if Nat.ltb 0 (length evs) then f_reduce ops (cl_fac c) evs vals else Ok (cl_fac c) in
      f_marg ops f vrs
  end.

(** cluster_graph.py:475-480 _last_passed_message_factors: None has no attribute [factor]. *)
Definition last_messages {F V} (g : cgraph F V) : res (list F) :=
  mapM (fun k => let* p := py_nth (g_paths g) k in
                 match p_prev p with Some m => Ok (m_fac m) | None => Err AttributeError end) (g_order g).
(** cluster_graph.py:396-415 get_posterior_joint. *)
Definition get_joint {F V} (ops : fops F V) (g : cgraph F V) : res F :=
  match g_cl g with
  | [] => Err IndexError
  | c :: cs =>
      let* prod := foldM (fun acc c => f_mul ops acc (cl_fac c)) cs (cl_fac c) in
      let* ms := last_messages g in
      match ms with
      | [] => let* _ := py_assert (Nat.eqb (g_passed g) 0) in Ok prod
      | m :: ms' => let* mp := foldM (fun acc m => f_mul ops acc m) ms' m in f_cancel ops prod mp
      end
  end.

(** cluster_graph.py:32-49 _sort_almost_sorted on a sequence of at least two elements
    (IndexError otherwise). *)
Definition sort_almost_sorted {A K} (lt : K -> K -> bool) (key : A -> K) (l : list A) : res (list A) :=
  match l with
  | x :: y :: rest =>
      let l1 := if lt (key x) (key y) then (y :: rest) ++ [x] else l in
      match rev l1 with
      | a :: b :: _ => if negb (lt (key b) (key a)) then Ok l1 else Ok (sort_desc lt key l1)
      | _ => Err IndexError
      end
  | _ => Err IndexError
  end.
