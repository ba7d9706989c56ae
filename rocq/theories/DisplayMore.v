(** Mixtures, nonlinear Gaussians, messages and clusters without neighbours. *)
From Coq Require Import String List Lia Lra.
Import ListNotations.
From Verif Require Export DisplayFacts.
From Verif Require Import GaussFacts GaussOps GaussEq BaseFacts GraphFacts GaussExamples.
Local Open Scope string_scope.
Local Open Scope nat_scope.
Local Open Scope list_scope.

(** * Mixtures *)
Definition shown (f : gauss) : list item := INames "vars" (ga_vars f) ::
    match ga_cov f with Some p => cov_text p | None => [] end ++
    match ga_can f with Some p => can_text p (match ga_cov f with Some _ => false | None => prec_vacuous (fst (fst p)) end) | None => [] end.
Lemma shows_ok {A} (sh : A -> res (list item)) (t : A -> list item) xs : (forall x, In x xs -> sh x = Ok (t x)) ->
  shows sh xs = Ok (concat (map (fun ix => IPart (fst ix) (length xs) :: t (snd ix)) (combine (seq 0 (length xs)) xs))).
Proof.
  intros H. unfold shows. set (n := length xs). assert (X : forall l k, (forall x, In x l -> sh x = Ok (t x)) ->
    mapM (fun ix => let* l := sh (snd ix) in Ok (IPart (fst ix) n :: l)) (combine (seq k (length l)) l) =
    Ok (map (fun ix => IPart (fst ix) n :: t (snd ix)) (combine (seq k (length l)) l))).
  { induction l as [|x l IH]; intros k Hl; [reflexivity|]. cbn [length seq combine mapM map fst snd]. rewrite (Hl x (or_introl eq_refl)). cbn [bind].
    rewrite IH by (intros; apply Hl; now right). reflexivity. }
  unfold n at 2. rewrite (X xs 0 H). reflexivity.
Qed.
Theorem mix_show_ok a : (forall c, In c (gm_comps a) -> wf_gauss c) ->
  mix_show a = Ok (concat (map (fun ix => IPart (fst ix) (length (gm_comps a)) :: shown (snd ix)) (combine (seq 0 (length (gm_comps a))) (gm_comps a)))).
Proof. intros H. apply shows_ok. intros c Hc. exact (show_stored c (H c Hc)). Qed.

Lemma show_explicit f : wf_gauss f -> exists flag,
  g_show f = Ok (INames "vars" (ga_vars f) ::
    match ga_cov f with Some (C, m, w) => [IArr "cov" C; IArr "mean" m; INum "log_weight" w] | None => [] end ++
    match ga_can f with Some (K, h, g) => [IArr "prec" K; IArr "h" h; INum "g" g; IFlag "is_vacuous" flag] | None => [] end) /\
  (ga_cov f <> None -> flag = false) /\ (ga_cov f = None -> forall K h g, ga_can f = Some (K, h, g) -> flag = prec_vacuous K).
Proof.
  intros W. exists (match ga_cov f with Some _ => false | None => match ga_can f with Some (K, _, _) => prec_vacuous K | None => false end end).
  split; [rewrite (show_stored f W); destruct (ga_cov f) as [[[C m] w]|], (ga_can f) as [[[K h] g]|]; reflexivity|].
  split; [destruct (ga_cov f); congruence|]. intros -> K h g ->. reflexivity.
Qed.
Theorem mix_show_parts a : (forall c, In c (gm_comps a) -> wf_gauss c) -> exists parts, mix_show a = Ok (concat parts) /\ length parts = length (gm_comps a) /\
  forall i c t, nth_error (gm_comps a) i = Some c -> g_show c = Ok t -> nth_error parts i = Some (IPart i (length (gm_comps a)) :: t).
Proof.
  intros H. eexists. split; [exact (mix_show_ok a H)|]. split; [rewrite map_length, combine_length, seq_length; lia|].
  intros i c t Hi Hs. rewrite nth_error_map. assert (E : nth_error (combine (seq 0 (length (gm_comps a))) (gm_comps a)) i = Some (i, c)).
  { assert (X : forall l k i, nth_error l i = Some c -> nth_error (combine (seq k (length l)) l) i = Some (k + i, c)).
    { induction l as [|x l IH]; intros k [|j] E; try discriminate E; cbn [nth_error length seq combine] in *; [injection E as ->; now rewrite Nat.add_0_r|].
      rewrite (IH (S k) j E). now rewrite Nat.add_succ_r. }
    exact (X _ 0 i Hi). }
  rewrite E. cbn [option_map fst snd]. rewrite (show_stored c (H c (nth_error_In _ _ Hi))) in Hs. injection Hs as <-. reflexivity.
Qed.

(** * Nonlinear Gaussians *)
Lemma recompute_joint o f j : nl_recompute o (set_joint f j) = nl_recompute o f.
Proof.
  unfold nl_recompute. cbn [set_joint nl_ev nl_cing nl_cal nl_cond nl_upd nl_T nl_Q nl_w].
  change (nl_vars (set_joint f j)) with (nl_vars f). reflexivity.
Qed.
Lemma recompute_shape o f f' : nl_recompute o f = Ok f' -> f' = set_joint f (nl_joint f').
Proof.
  unfold nl_recompute. destruct (mapM _ _); [|discriminate]. cbn [bind]. destruct (mapM _ _); [|discriminate]. cbn [bind].
  destruct (negb _).
  - destruct (make_vacuous _ _); [|discriminate]. cbn [bind]. now intros [= <-].
  - destruct (nl_cond f); [|discriminate]. intros H.
    repeat (match type of H with context [bind ?x _] => destruct x; [cbn [bind] in H|discriminate H] end). injection H as <-. reflexivity.
Qed.
Definition opt_wf (g : option gauss) : Prop := match g with Some g => wf_gauss g | None => True end.
Definition opt_shown (g : option gauss) : list item := match g with Some g => shown g | None => [IText "vacuous"] end.
Lemma opt_show_ok g : opt_wf g -> opt_show g = Ok (opt_shown g).
Proof. destruct g as [g|]; [intros W; exact (show_stored g W)|reflexivity]. Qed.
Theorem nl_show_ok o f f' : nl_recompute o f = Ok f' -> wf_gauss (nl_joint f') -> opt_wf (nl_upd f) -> opt_wf (nl_cond f) ->
  nl_show o f = Ok (f', [IText "Non-linear Gaussian"; INames "conditioning variables:" (nl_cing f); INames "conditional variables:" (nl_cal f);
           IArr "noise covariance" (nl_Q f); IText "joint_distribution"] ++ shown (nl_joint f') ++
          [IText "conditional update distribution"] ++ opt_shown (nl_upd f) ++ [IText "conditioning distribution"] ++ opt_shown (nl_cond f)).
Proof.
  intros E W Wu Wc. unfold nl_show. rewrite E. cbn [bind]. rewrite (show_stored _ W). cbn [bind].
  pose proof (recompute_shape o f f' E) as Ef. assert (nl_upd f' = nl_upd f) as -> by (rewrite Ef; reflexivity). assert (nl_cond f' = nl_cond f) as -> by (rewrite Ef; reflexivity).
  rewrite (opt_show_ok _ Wu). cbn [bind]. rewrite (opt_show_ok _ Wc). reflexivity.
Qed.
Lemma nl_copy_joint f j c c' : nl_copy f = Ok c -> g_copy j = Ok c' -> nl_copy (set_joint f j) = Ok (set_joint c c').
Proof.
  unfold nl_copy. cbn [set_joint nl_cing nl_cal nl_T nl_Q nl_w nl_joint nl_upd nl_cond nl_ev]. unfold mk_nlg. intros E Ej.
  repeat (match type of E with context [bind (raise_if ?b ?e) _] => destruct (raise_if b e); [cbn [bind] in E |- *|discriminate E] end).
  destruct (make_square_matrix (nl_Q f)); [cbn [bind] in E |- *|discriminate E]. destruct (opt_copy (nl_cond f)); [cbn [bind] in E |- *|discriminate E].
  destruct (opt_copy (nl_upd f)); [cbn [bind] in E |- *|discriminate E]. destruct (g_copy (nl_joint f)); [cbn [bind] in E|discriminate E]. rewrite Ej. cbn [bind].
  injection E as <-. reflexivity.
Qed.
(** Printing replaces the stored joint distribution; the results of the other methods are as before. *)
Theorem nl_show_same o f f' t c : nl_show o f = Ok (f', t) -> wf_gauss (nl_joint f') -> nl_copy f = Ok c ->
  f' = set_joint f (nl_joint f') /\ nl_joint_distribution o f' = nl_joint_distribution o f /\
  nl_show o f' = Ok (f', t) /\ forall vrs keep, nl_marginalize o f' vrs keep = nl_marginalize o f vrs keep.
Proof.
  intros E W Ec. unfold nl_show in E. destruct (nl_recompute o f) as [f1|] eqn:ER; [|discriminate E]. cbn [bind] in E.
  destruct (g_show (nl_joint f1)) as [l1|] eqn:E1; [|discriminate E]. cbn [bind] in E. destruct (opt_show (nl_upd f1)) as [l2|] eqn:E2; [|discriminate E]. cbn [bind] in E.
  destruct (opt_show (nl_cond f1)) as [l3|] eqn:E3; [|discriminate E]. cbn [bind] in E. injection E as -> <-.
  pose proof (recompute_shape o f f' ER) as Ef. destruct (g_copy_ok (nl_joint f') W) as (cj & Ej & _).
  assert (EC : nl_copy f' = Ok (set_joint c cj)) by (rewrite Ef; apply nl_copy_joint; [exact Ec|exact Ej]).
  assert (ER' : nl_recompute o f' = Ok f') by (rewrite Ef at 1; rewrite recompute_joint; exact ER).
  split; [exact Ef|]. split; [unfold nl_joint_distribution; rewrite EC, Ec; cbn [bind]; now rewrite recompute_joint|]. split.
  - unfold nl_show. rewrite ER'. cbn [bind]. rewrite E1. cbn [bind]. rewrite E2. cbn [bind]. rewrite E3. cbn [bind]. rewrite Ef. reflexivity.
  - intros vrs keep. unfold nl_marginalize. assert (nl_vars f' = nl_vars f) as -> by (rewrite Ef; reflexivity).
    destruct (py_assert _); [|reflexivity]. cbn [bind]. rewrite EC, Ec. cbn [bind]. rewrite recompute_joint. 
    assert (nl_w f' = nl_w f) as -> by (rewrite Ef; reflexivity). reflexivity.
Qed.

Lemma nl_show_stale o f j f' t : nl_show o f = Ok (f', t) -> nl_show o (set_joint f j) = Ok (f', t).
Proof. unfold nl_show. rewrite recompute_joint. exact (fun H => H). Qed.

(** * Messages *)
Definition no_newline (s : string) : Prop := ~ In (Ascii.ascii_of_nat 10) (list_ascii_of_string s).
Lemma newline_split a b x y : no_newline a -> no_newline b -> (a ++ newline ++ x = b ++ newline ++ y)%string -> a = b /\ x = y.
Proof.
  revert b. induction a as [|c a IH]; intros b Ha Hb E.
  - destruct b as [|d b]; [cbn in E; injection E as E; now split|]. cbn in E. injection E as E1 E2. exfalso. apply Hb. left. symmetry. exact E1.
  - destruct b as [|d b]; [cbn in E; injection E as E1 E2; exfalso; apply Ha; left; exact E1|].
    cbn in E. injection E as -> E. destruct (IH b) as [-> ->]; [intros H; apply Ha; now right|intros H; apply Hb; now right|exact E|now split].
Qed.
Lemma prefix_cancel p x y : (p ++ x = p ++ y)%string -> x = y.
Proof. induction p as [|c p IH]; [exact (fun H => H)|]. cbn. intros E. injection E as E. exact (IH E). Qed.
Theorem msg_repr_inj {F} (rep : F -> res string) (m m' : msg F) t : no_newline (m_snd m) -> no_newline (m_snd m') -> no_newline (m_rcv m) -> no_newline (m_rcv m') ->
  msg_repr rep m = Ok t -> msg_repr rep m' = Ok t ->
  m_snd m = m_snd m' /\ m_rcv m = m_rcv m' /\ rep (m_fac m) = rep (m_fac m').
Proof.
  intros A A' B B' E E'. unfold msg_repr in E, E'. destruct (rep (m_fac m)) as [r|]; [|discriminate E]. destruct (rep (m_fac m')) as [r'|]; [|discriminate E'].
  cbn [bind] in E, E'. rewrite <- E' in E. injection E as E. destruct (newline_split _ _ _ _ A A' E) as [H1 H2]. injection H2 as H2.
  destruct (newline_split _ _ _ _ B B' H2) as [H3 H4]. injection H4 as H4. now rewrite H4.
Qed.
Lemma msg_repr_refuted {F} (rep : F -> res string) (f : F) r : rep f = Ok r -> exists m m' t, m_snd m <> m_snd m' /\ m_rcv m <> m_rcv m' /\
  m_fac m = f /\ m_fac m' = f /\ msg_repr rep m = Ok t /\ msg_repr rep m' = Ok t.
Proof.
  intros E. exists {| m_fac := f; m_snd := "x"; m_rcv := "y" ++ newline ++ "receiver_id: z" |}, {| m_fac := f; m_snd := "x" ++ newline ++ "receiver_id: y"; m_rcv := "z" |}.
  unfold msg_repr. cbn [m_fac m_snd m_rcv]. rewrite E. cbn [bind]. eexists. split; [discriminate|]. split; [discriminate|]. split; [reflexivity|]. split; [reflexivity|]. split; reflexivity.
Qed.
Lemma str_assoc (a b c : string) : ((a ++ b) ++ c = a ++ (b ++ c))%string.
Proof. induction a as [|x a IH]; [reflexivity|]. cbn. now rewrite IH. Qed.
Lemma prefix_app (a b : string) : String.prefix a (a ++ b) = true.
Proof. induction a as [|x a IH]; [destruct b; reflexivity|]. cbn. destruct (Ascii.ascii_dec x x); [exact IH|contradiction]. Qed.
Theorem msg_repr_content {F} (rep : F -> res string) (m : msg F) r : rep (m_fac m) = Ok r ->
  exists t, msg_repr rep m = Ok t /\ String.prefix (String.append "sender_id: " (m_snd m)) t = true /\
    (exists p, t = String.append p r) /\ exists p q, t = String.append p (String.append "receiver_id: " (String.append (m_rcv m) q)).
Proof.
  intros E. unfold msg_repr. rewrite E. cbn [bind]. eexists. split; [reflexivity|]. split; [rewrite <- str_assoc; apply prefix_app|]. split.
  - exists (("sender_id: " ++ m_snd m ++ newline ++ "receiver_id: " ++ m_rcv m ++ newline ++ "factor: " ++ newline))%string. now rewrite !str_assoc.
  - exists ("sender_id: " ++ m_snd m ++ newline)%string, (newline ++ "factor: " ++ newline ++ r)%string. now rewrite !str_assoc.
Qed.

(** * Clusters without neighbours *)
Section N.
Context {F V : Type} (ops : fops F V).
Theorem removed_none (c : cluster F V) nid : neighbour_ids (remove_all_neighbours c) = [] /\
  get_sepset (remove_all_neighbours c) nid = Err KeyError /\ make_message ops (remove_all_neighbours c) nid = Err KeyError.
Proof. repeat split. Qed.
(** A neighbour added again: the message divides out what was received before the removal. *)
Theorem removed_again (c : cluster F V) nid s : dget (cl_seps c) nid = Some s -> s <> [] ->
  exists c', add_neighbour (remove_all_neighbours c) nid s = Ok c' /\ neighbour_ids c' = [nid] /\ get_sepset c' nid = Ok s /\
    cl_recv c' = cl_recv c /\ cl_fac c' = cl_fac c /\ make_message ops c' nid = make_message ops c nid.
Proof.
  intros G Hs. unfold add_neighbour. destruct s as [|x s]; [congruence|]. cbn [length Nat.ltb Nat.leb py_assert bind]. eexists. split; [reflexivity|].
  split; [reflexivity|]. split; [|split; [reflexivity|split; [reflexivity|]]].
  - unfold get_sepset, dget_r. cbn [remove_all_neighbours cl_seps dset dget]. destruct (eq_dec nid nid); [reflexivity|contradiction].
  - unfold make_message. cbn [remove_all_neighbours cl_seps cl_recv cl_fac cl_spec cl_id].
    unfold dget_r. rewrite G. cbn [dset dget]. destruct (eq_dec nid nid); [reflexivity|contradiction].
Qed.
End N.
