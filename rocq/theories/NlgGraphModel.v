(** Cluster graphs over Gaussians and nonlinear Gaussians: the methods that cluster_graph.py and
    _cluster.py call on factors of veroku/factors/gaussian.py and
    veroku/factors/experimental/nonlinear_gaussian.py, by class of the operands.
    Simplifications: as in GaussLaws.v (gauss_ops) and NlgModel.v; the joint distribution that a
    nonlinear Gaussian operand caches when a Gaussian reads its parameters is not kept. *)
From Verif Require Export NlgModel GraphModel GaussLaws.

Inductive nfac := FG (g : gauss) | FN (f : nlg).
Definition nf_vars (x : nfac) : list string := match x with FG g => ga_vars g | FN f => nl_vars f end.
(** gaussian.py:605-634 _absorb_or_cancel reads get_prec, get_h and get_g of the operand together
    with its var_names (nonlinear_gaussian.py:158-189): the operand as seen by a Gaussian. *)
Definition nl_seen (o : oracle) (f : nlg) : res gauss :=
  let* r := nl_get_can o f in
  Ok {| ga_vars := nl_vars f; ga_vac := false; ga_can := Some (snd r); ga_cov := None |}.
(** gaussian.py:585-593, nonlinear_gaussian.py:320-363 multiply. *)
Definition nf_mul (o : oracle) (x y : nfac) : res nfac :=
  match x, y with
  | FG a, FG b => let* r := g_multiply a b in Ok (FG r)
  | FG a, FN b => let* b' := nl_seen o b in let* r := g_multiply a b' in Ok (FG r)
  | FN a, FG b => let* r := nl_multiply_gauss a b in Ok (FN r)
  | FN a, FN _ => let* _ := nl_copy a in Err NotImplementedError
  end.
(** _factor.py:76-90 cancel is divide: gaussian.py:595-603, nonlinear_gaussian.py:365-394. *)
Definition nf_cancel (o : oracle) (x y : nfac) : res nfac :=
  match x, y with
  | FG a, FG b => let* r := g_divide a b in Ok (FG r)
  | FG a, FN b => let* b' := nl_seen o b in let* r := g_divide a b' in Ok (FG r)
  | FN a, FG b => let* r := nl_divide_gauss o a b in Ok (FN r)
  | FN a, FN _ => let* _ := nl_copy a in Err AttributeError
  end.
(** gaussian.py:506-534, nonlinear_gaussian.py:411-439 marginalize with keep=True: a Gaussian. *)
Definition nf_marg (o : oracle) (x : nfac) (vs : list string) : res nfac :=
  match x with
  | FG a => let* r := g_marginalize o a vs true in Ok (FG r)
  | FN f => let* r := nl_marginalize o f vs true in Ok (FG r)
  end.
(** gaussian.py:670-703, nonlinear_gaussian.py:396-409 reduce. *)
Definition nf_reduce (x : nfac) (vs : list string) (values : list R) : res nfac :=
  match x with
  | FG a => let* r := g_reduce a vs values in Ok (FG r)
  | FN f => let* r := nl_reduce f vs values in Ok (FN r)
  end.
(** gaussian.py:705-760, nonlinear_gaussian.py:106-125.  A Gaussian asked for its divergence from a
    nonlinear Gaussian compares the dimensions and reads [_is_vacuous], which that class lacks;
    messages are Gaussians, so that this case does not occur in a graph. *)
Definition nf_dist (x : nfac) : res val :=
  match x with FG a => Ok (g_distance_from_vacuous a) | FN f => nl_distance_from_vacuous f end.
Definition nf_kl (x y : nfac) : res val :=
  match x, y with
  | FG a, FG b => let* r := g_kl_divergence a b in Ok (fst (fst r))
  | FG a, FN b => let* _ := raise_if (negb (Nat.eqb (length (ga_vars a)) (length (nl_vars b)))) ValueError in Err AttributeError
  | FN _, _ => Err NotImplementedError
  end.
Definition nfac_ops (o : oracle) : fops nfac R :=
  {| f_vars := nf_vars; f_mul := nf_mul o; f_cancel := nf_cancel o; f_marg := nf_marg o;
     f_reduce := nf_reduce; f_dist := nf_dist; f_kl := nf_kl |}.

(** One message between two clusters: _cluster.py:78-101 make_message at the sender, as
    cluster_graph.py:536-542 recompute_next_message calls it, followed by _cluster.py:103-119
    receive_message at the receiver, as cluster_graph.py:544-548 pass_next_message calls it. *)
Definition send {F V} (ops : fops F V) (c d : cluster F V) : res (cluster F V) :=
  let* m := make_message ops c (cl_id d) in receive_message ops d m.
(** The clusters below a cluster of a tree: the first child, what is below it, the other children. *)
Inductive forest (F V : Type) := FNil | FCons (d : cluster F V) (kids sibs : forest F V).
Arguments FNil {F V}.
Arguments FCons {F V} _ _ _.
(** Messages over every edge of a tree, depth first: down an edge, through what is below it, and up
    again, one child after the other.  Not modelled here: the gains by which
    cluster_graph.py:417-473 process_graph picks the next message. *)
Fixpoint visit {F V} (ops : fops F V) (p : cluster F V) (t : forest F V) : res (cluster F V * forest F V) :=
  match t with
  | FNil => Ok (p, FNil)
  | FCons d k s =>
      let* d1 := send ops p d in
      let* r := visit ops d1 k in
      let* p2 := send ops (fst r) p in
      let* q := visit ops p2 s in
      Ok (fst q, FCons (fst r) (snd r) (snd q))
  end.
(** Messages in one direction along a chain of clusters: the forward pass of a filter. *)
Fixpoint forward {F V} (ops : fops F V) (p : cluster F V) (ds : list (cluster F V)) : res (cluster F V) :=
  match ds with
  | [] => Ok p
  | d :: ds => let* d1 := send ops p d in forward ops d1 ds
  end.
