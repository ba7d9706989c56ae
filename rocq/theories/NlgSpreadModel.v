(** Messages away from the root of a tree of clusters, once more: what cluster_graph.py:417-473
    process_graph sends when the changes that came up from later branches travel down again.
    Simplifications: as in NlgGraphModel.v. *)
From Verif Require Export NlgGraphModel.
(** A message over every edge, away from the root (each is [send]: _cluster.py:78-119). *)
Fixpoint resend {F V} (ops : fops F V) (p : cluster F V) (t : forest F V) : res (forest F V) :=
  match t with
  | FNil => Ok FNil
  | FCons d k s =>
      let* d1 := send ops p d in
      let* k1 := resend ops d1 k in
      let* s1 := resend ops p s in
      Ok (FCons d1 k1 s1)
  end.
(** One message over one edge of a tree, in either direction.  The path leads from the root to the
    edge: [true] goes down into the first child, [false] passes over it. *)
Fixpoint stir {F V} (ops : fops F V) (path : list bool) (up : bool) (p : cluster F V) (t : forest F V) : res (cluster F V * forest F V) :=
  match t with
  | FNil => Ok (p, FNil)
  | FCons d k s =>
      match path with
      | [] => if up then let* p1 := send ops d p in Ok (p1, FCons d k s) else let* d1 := send ops p d in Ok (p, FCons d1 k s)
      | true :: path => let* r := stir ops path up d k in Ok (p, FCons (fst r) (snd r) s)
      | false :: path => let* r := stir ops path up p s in Ok (fst r, FCons d k (snd r))
      end
  end.
(** Messages over any edges, one after the other. *)
Definition stirs {F V} (ops : fops F V) (l : list (list bool * bool)) (p : cluster F V) (t : forest F V) : res (cluster F V * forest F V) :=
  foldM (fun pt m => stir ops (fst m) (snd m) (fst pt) (snd pt)) l (p, t).
