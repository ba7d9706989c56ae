(** Properties C156 to C158: what factors and messages print, and clusters without neighbours. *)
From Coq Require Import String List.
Import ListNotations.
From Verif Require Import DisplayEx GaussFacts GaussExamples GaussEq MixFacts MixExamples NlgJoint NlgExamples NlgExamples2 NlgExamples3 SparseModel SparseExamples.
Local Open Scope string_scope.
Local Open Scope list_scope.

(** C156: repr of a Gaussian prints the parameters of both forms, and either of them describes the
    factor.  That is false: repr of a vacuous Gaussian raises, since the covariance form is always
    printed and the canonical form, the only one it has, never. *)
Theorem c156_repr_refuted : exists f, make_vacuous ["a"] (Fin 0) = Ok f /\ wf_gauss f /\ g_repr f = Err PyException /\ exists t, g_show f = Ok t.
Proof. exact repr_vacuous_ex. Qed.
Print Assumptions c156_repr_refuted.
Theorem c156_vacuous_error f K h g : wf_gauss f -> ga_cov f = None -> ga_can f = Some (K, h, g) -> prec_vacuous K = true -> g_repr f = Err PyException.
Proof. exact (repr_vacuous f K h g). Qed.
Print Assumptions c156_vacuous_error.
Theorem c156_singular_error f K h g : wf_gauss f -> ga_cov f = None -> ga_can f = Some (K, h, g) -> prec_vacuous K = false -> mdet K = 0%R ->
  g_repr f = Err LinAlgError.
Proof. exact (repr_singular f K h g). Qed.
Print Assumptions c156_singular_error.
(** Partial: for factors with a positive definite matrix the two forms printed are parameters of the
    factor itself: the factors made of them have its values everywhere. *)
Theorem c156_repr_partial f : solid f -> exists K h g C m w fk fc,
  g_repr f = Ok [INames "vars" (ga_vars f); IArr "prec" K; IArr "h" h; INum "g" g; IFlag "is_vacuous" false;
                 IArr "cov" C; IArr "mean" m; INum "log_weight" w] /\
  mk_can (ga_vars f) K h g = Ok fk /\ mk_cov (ga_vars f) C m w = Ok fc /\
  forall e, lp fk e = lp f e /\ lp fc e = lp f e.
Proof. exact (repr_solid f). Qed.
Print Assumptions c156_repr_partial.
(** show prints the forms that are stored as they are stored, and nothing else. *)
Theorem c156_show f : wf_gauss f -> exists flag,
  g_show f = Ok (INames "vars" (ga_vars f) ::
    match ga_cov f with Some (C, m, w) => [IArr "cov" C; IArr "mean" m; INum "log_weight" w] | None => [] end ++
    match ga_can f with Some (K, h, g) => [IArr "prec" K; IArr "h" h; INum "g" g; IFlag "is_vacuous" flag] | None => [] end) /\
  (ga_cov f <> None -> flag = false) /\ (ga_cov f = None -> forall K h g, ga_can f = Some (K, h, g) -> flag = prec_vacuous K).
Proof. exact (show_explicit f). Qed.
Print Assumptions c156_show.
(** show_vis draws the covariance matrix and the mean, labelled with the variables, and leaves the
    function the object stands for as it is; of a vacuous factor nothing is drawn. *)
Theorem c156_show_vis f : solid f -> exists f' C m w,
  g_show_vis f = Ok (f', {| vi_heat := C; vi_rows := ga_vars f; vi_cols := ga_vars f; vi_bars := m; vi_ticks := ga_vars f |}) /\
  same_fun f f' /\ ga_vars f' = ga_vars f /\ nr C = length (ga_vars f) /\ nc C = length (ga_vars f) /\ nr m = length (ga_vars f) /\
  forall e, lp f e = cov_log_potential C m w (mcol (map e (ga_vars f))).
Proof. exact (show_vis_solid f). Qed.
Print Assumptions c156_show_vis.
Theorem c156_show_vis_error f : ga_vac f = true -> g_show_vis f = Err PyException.
Proof. exact (show_vis_vacuous f). Qed.
Print Assumptions c156_show_vis_error.
Example c156_witness : solid GaussExamples.ex_ab /\ wf_gauss GaussExamples.ex_ab /\ length (ga_vars GaussExamples.ex_ab) = 2%nat.
Proof. split; [exact ex_ab_solid|]. split; [exact wf_ab|reflexivity]. Qed.
Example c156_vacuous_witness : exists f, make_vacuous ["a"] (Fin 0) = Ok f /\ wf_gauss f /\ ga_vac f = true /\ ga_cov f = None /\
  ga_can f = Some (mzeros 1 1, mzeros 1 1, Fin 0) /\ prec_vacuous (mzeros 1 1) = true.
Proof. exact (vac_wf "a" (Fin 0)). Qed.
Example c156_singular_witness : wf_gauss flat /\ ga_cov flat = None /\ exists K h g, ga_can flat = Some (K, h, g) /\ prec_vacuous K = false /\ mdet K = 0%R.
Proof. exact flat_singular. Qed.

(** C157: show of a mixture prints the components in order, each after its number and the number of
    components, and does not fail. *)
Theorem c157_mixture a : (forall c, In c (gm_comps a) -> wf_gauss c) -> exists parts, mix_show a = Ok (concat parts) /\ length parts = length (gm_comps a) /\
  forall i c t, nth_error (gm_comps a) i = Some c -> g_show c = Ok t -> nth_error parts i = Some (IPart i (length (gm_comps a)) :: t).
Proof. exact (mix_show_parts a). Qed.
Print Assumptions c157_mixture.
(** show of a nonlinear Gaussian prints the joint distribution recomputed from what the object knows
    now, whichever joint it held before; the object keeps that joint, and the answers of the other
    methods stay the same. *)
Theorem c157_nonlinear o f A b c : oracle_ok o -> nl_good A b c f -> exists j j' tj tu tc, nl_joint_distribution o f = Ok j /\ wf_gauss j' /\
  nl_show o f = Ok (set_joint f j', [IText "Non-linear Gaussian"; INames "conditioning variables:" (nl_cing f); INames "conditional variables:" (nl_cal f);
           IArr "noise covariance" (nl_Q f); IText "joint_distribution"] ++ tj ++
          [IText "conditional update distribution"] ++ tu ++ [IText "conditioning distribution"] ++ tc) /\
  g_show j' = Ok tj /\ g_show c = Ok tc /\
  match nl_upd f with Some u => g_show u = Ok tu | None => tu = [IText "vacuous"] end /\
  (forall v, In v (ga_vars j') <-> In v (ga_vars j)) /\ (forall e, obeys (nl_ev f) e -> lp j' e = lp j e) /\
  nl_joint_distribution o (set_joint f j') = Ok j /\ forall vrs keep, nl_marginalize o (set_joint f j') vrs keep = nl_marginalize o f vrs keep.
Proof. exact (nl_show_full o f A b c). Qed.
Print Assumptions c157_nonlinear.
Theorem c157_nonlinear_stale o f j f' t : nl_show o f = Ok (f', t) -> nl_show o (set_joint f j) = Ok (f', t).
Proof. exact (nl_show_stale o f j f' t). Qed.
Print Assumptions c157_nonlinear_stale.
(** Different messages print differently.  False if an id may hold a line break. *)
Theorem c157_message_refuted {F} (rep : F -> res string) (f : F) r : rep f = Ok r -> exists m m' t, m_snd m <> m_snd m' /\ m_rcv m <> m_rcv m' /\
  m_fac m = f /\ m_fac m' = f /\ msg_repr rep m = Ok t /\ msg_repr rep m' = Ok t.
Proof. exact (msg_repr_refuted rep f r). Qed.
Print Assumptions c157_message_refuted.
(** Partial: for ids without line breaks. *)
Theorem c157_message_partial {F} (rep : F -> res string) (m m' : msg F) t :
  ~ In (Ascii.ascii_of_nat 10) (list_ascii_of_string (m_snd m)) -> ~ In (Ascii.ascii_of_nat 10) (list_ascii_of_string (m_snd m')) ->
  ~ In (Ascii.ascii_of_nat 10) (list_ascii_of_string (m_rcv m)) -> ~ In (Ascii.ascii_of_nat 10) (list_ascii_of_string (m_rcv m')) ->
  msg_repr rep m = Ok t -> msg_repr rep m' = Ok t ->
  m_snd m = m_snd m' /\ m_rcv m = m_rcv m' /\ rep (m_fac m) = rep (m_fac m').
Proof. exact (msg_repr_inj rep m m' t). Qed.
Print Assumptions c157_message_partial.
Theorem c157_message_content {F} (rep : F -> res string) (m : msg F) r : rep (m_fac m) = Ok r ->
  exists t, msg_repr rep m = Ok t /\ String.prefix (String.append "sender_id: " (m_snd m)) t = true /\
    (exists p, t = String.append p r) /\ exists p q, t = String.append p (String.append "receiver_id: " (String.append (m_rcv m) q)).
Proof. exact (msg_repr_content rep m r). Qed.
Print Assumptions c157_message_content.
Example c157_mixture_witness : exists m, mk_mix [exu; exg] = Ok m /\ (forall c, In c (gm_comps m) -> wf_gauss c) /\ length (gm_comps m) = 2%nat.
Proof. destruct ex_mix as (m & E & _ & _ & S & L). exists m. split; [exact E|]. split; [intros c Hc; exact (proj1 (S c Hc))|exact L]. Qed.
Example c157_nonlinear_witness : exists o A b f, oracle_ok o /\ nl_good A b exc f /\ nl_ev f = [("x1", 5%R)] /\ nl_upd f = Some exu.
Proof. destruct made_instance as (o & A & b & f & j & H1 & H2 & _ & _ & _ & H3 & H4 & _). exists o, A, b, f. auto. Qed.
Example c157_message_witness : exists (m : msg sparse) t, ~ In (Ascii.ascii_of_nat 10) (list_ascii_of_string (m_snd m)) /\
  ~ In (Ascii.ascii_of_nat 10) (list_ascii_of_string (m_rcv m)) /\ msg_repr (fun f => Ok (String.concat "," (svars f))) m = Ok t.
Proof. exact msg_repr_ex. Qed.

(** C158: a cluster whose neighbours have been removed has none, and no message for any cluster. *)
Theorem c158_none {F V} (ops : fops F V) (c : cluster F V) nid : neighbour_ids (remove_all_neighbours c) = [] /\
  get_sepset (remove_all_neighbours c) nid = Err KeyError /\ make_message ops (remove_all_neighbours c) nid = Err KeyError.
Proof. exact (removed_none ops c nid). Qed.
Print Assumptions c158_none.
(** The removal is complete: a neighbour that is added afterwards is treated as one that has sent
    nothing yet.  False: the messages received are kept and still divided out. *)
Theorem c158_fresh_refuted : exists c c' m1 m2, receive_message (sparse_ops id_oracle) (one_cluster []) from_n = Ok c /\
  add_neighbour (remove_all_neighbours c) "n" ["a"] = Ok c' /\ make_message (sparse_ops id_oracle) c' "n" = Ok m1 /\
  make_message (sparse_ops id_oracle) (forget c') "n" = Ok m2 /\ dget (stbl (m_fac m1)) [0] = Some (Fin 1) /\ dget (stbl (m_fac m2)) [0] = Some (Fin 2).
Proof. exact again_ex. Qed.
Print Assumptions c158_fresh_refuted.
(** Partial: adding a neighbour again with its sepset gives back the message it would have got. *)
Theorem c158_again_partial {F V} (ops : fops F V) (c : cluster F V) nid s : dget (cl_seps c) nid = Some s -> s <> [] ->
  exists c', add_neighbour (remove_all_neighbours c) nid s = Ok c' /\ neighbour_ids c' = [nid] /\ get_sepset c' nid = Ok s /\
    cl_recv c' = cl_recv c /\ cl_fac c' = cl_fac c /\ make_message ops c' nid = make_message ops c nid.
Proof. exact (removed_again ops c nid s). Qed.
Print Assumptions c158_again_partial.
Example c158_witness : exists c, receive_message (sparse_ops id_oracle) (one_cluster []) from_n = Ok c /\ dget (cl_seps c) "n" = Some ["a"].
Proof. destruct again_ex as (c & _ & _ & _ & E & _). exists c. split; [exact E|]. revert E. cbv - [Rplus Rminus exp ln IZR Rmax Ropp]. intros [= <-]. reflexivity. Qed.
