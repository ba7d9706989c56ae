(** The joint distribution of a graph of Gaussian and nonlinear Gaussian clusters. *)
From Verif Require Export NlgSpreadModel.
Local Open Scope list_scope.
(** _factor.py:189-194 and nonlinear_gaussian.py:147-156 joint_distribution: a Gaussian. *)
Definition nf_joint (o : oracle) (x : nfac) : res nfac :=
  match x with
  | FG g => let* j := g_copy g in Ok (FG j)
  | FN f => let* j := nl_joint_distribution o f in Ok (FG j)
  end.
(** cluster_graph.py:396-415 get_posterior_joint.  The arguments are the clusters and, in the order of
    the message paths, the factors last sent (475-480 _last_passed_message_factors), which are those
    the receivers have stored (_cluster.py:119).  Simplification: the counter of messages that is
    compared with 0 if no message was sent is left out. *)
Definition posterior (o : oracle) (cls : list (cluster nfac R)) (ms : list nfac) : res nfac :=
  match cls with
  | [] => Err IndexError
  | c :: cs =>
      let* j := nf_joint o (cl_fac c) in
      let* prod := foldM (fun acc c => let* j := nf_joint o (cl_fac c) in nf_mul o acc j) cs j in
      match ms with
      | [] => Ok prod
      | m :: ms => let* mp := foldM (nf_mul o) ms m in nf_cancel o prod mp
      end
  end.
