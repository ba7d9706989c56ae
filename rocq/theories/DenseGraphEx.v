(** Examples and counterexamples for cluster graphs over dense tables. *)
From Verif Require Export DenseGraph3 DenseExamples GraphExamples3.
Local Open Scope string_scope.
Local Open Scope nat_scope.
Local Open Scope list_scope.

(** A positive table, given by the logarithms of its entries. *)
Definition dfn (vars : list string) (shape : list nat) (w : list nat -> R) : dense :=
  {| dvars := vars; dtens := {| tshape := shape; tget := fun k => Fin (w k) |};
     dcards := shape; dnames := names_default vars shape |}.
Definition std_names (card : string -> nat) (v : string) : list aname := map AInt (seq 0 (card v)).
Lemma dfn_good card vars w : NoDup vars -> (forall v, In v vars -> 2 <= card v) ->
  dgood card (std_names card) (dfn vars (map card vars) w).
Proof.
  intros Hn H2. pose proof (dtab_wf vars (map card vars) [] Hn (map_length _ _) (fun k v H => match H with end)) as [[W1 W2 W3 W4 W5] _].
  cbn [dtab dvars dtens dcards dnames tshape] in *.
  assert (C : forall v c, In (v, c) (combine vars (map card vars)) -> c = card v).
  { intros v c. clear. induction vars as [|x l IH]; cbn; [tauto|]. intros [E|E]; [now inversion E|auto]. }
  split.
  - split; [split; assumption|]. intros e He. exact I.
  - exact C.
  - exact H2.
  - intros v ns H. cbn [dfn dnames] in H. apply dget_In in H. unfold names_default in H.
    assert (K : NoDup (dkeys (map (fun vc : string * nat => (fst vc, map AInt (seq 0 (snd vc)))) (combine vars (map card vars))))).
    { unfold dkeys. rewrite map_map. cbn [fst]. change (map (fun x : string * nat => fst x) (combine vars (map card vars))) with (dkeys (combine vars (map card vars))).
      rewrite dkeys_combine by (now rewrite map_length). exact Hn. }
    rewrite (dict_of_NoDup _ K) in H. apply in_map_iff in H. destruct H as ([x c] & E & Hx). cbn in E. inversion E; subst.
    unfold std_names. now rewrite (C _ _ Hx).
  - intros e He. unfold dpot, dval. cbn. apply exp_pos.
Qed.

(** ** A chain of three tables with variables of different cardinalities *)
Definition dx_card (v : string) : nat := if string_dec v "b" then 3 else 2.
Definition dx (vars : list string) : dense := dfn vars (map dx_card vars) (fun k => INR (list_sum k)).
Definition dx_chain : list dense := [dx ["a"; "b"]; dx ["b"; "c"]; dx ["c"; "d"]].
Definition dx_special : dict string nat := [("d", 1)].
Definition dx_nm : string -> list aname := std_names dx_card.
Lemma dx_good vars : NoDup vars -> dgood dx_card dx_nm (dx vars).
Proof. intros H. apply dfn_good; [exact H|]. intros v _. unfold dx_card. destruct (string_dec v "b"); lia. Qed.
Ltac nodups := repeat (constructor; [cbn; intuition discriminate|]); constructor.
Lemma dx_chain_good : forall f, In f dx_chain -> dgood dx_card dx_nm f.
Proof. intros f [<-|[<-|[<-|[]]]]; apply dx_good; nodups. Qed.
Definition dx_env : env := fun v => if string_dec v "d" then 1 else 0.
Lemma dx_agrees : agrees dx_special dx_env.
Proof. intros v x H. apply dget_In in H. destruct H as [E|[]]. inversion E; subst. reflexivity. Qed.
Lemma dx_fits : fits dx_card dx_chain dx_env.
Proof. intros f w _ _. unfold dx_card, dx_env. destruct (string_dec w "d"), (string_dec w "b"); lia. Qed.
Lemma dx_narrow : narrow dx_chain (all_evidence None dx_special).
Proof.
  intros i j fi fj v w Hij Hi Hj V1 V2 W1 W2 _ _.
  destruct i as [|[|[|i]]]; cbn in Hi; try (destruct i; discriminate); injection Hi as <-;
  destruct j as [|[|[|j]]]; cbn in Hj; try (destruct j; discriminate); injection Hj as <-; try congruence;
  cbn in V1, V2, W1, W2; intuition congruence.
Qed.
Lemma dx_links g : mk_graph (dense_ops id_oracle) id_oracle dx_chain None dx_special = Ok g -> length (g_cl g) = 3 /\
  (forall i j, linked g i j <-> In (i, j) [(0, 1); (1, 0); (1, 2); (2, 1)]) /\ map cl_fac (g_cl g) = dx_chain.
Proof.
  intros H. destruct (mk_graph_made _ id_oracle dx_chain None dx_special g id_oracle_ok H) as (reduced & final & M).
  assert (Ef : final = dx_chain).
  { pose proof (mk_reduced _ _ _ _ _ _ _ _ M) as E1. pose proof (mk_final _ _ _ _ _ _ _ _ M) as E2.
    assert (reduced = dx_chain) by (cbn in E1; now inversion E1). subst reduced.
    assert (E : absorb_subsets (dense_ops id_oracle) dx_chain = Ok dx_chain) by reflexivity. congruence. }
  subst final. pose proof (mk_struct _ _ _ _ _ _ _ _ M) as ST.
  assert (Hl : length (g_cl g) = 3).
  { pose proof (made_facs _ _ _ _ _ _ _ _ M) as E. apply (f_equal (@length _)) in E. rewrite map_length in E. rewrite E. reflexivity. }
  assert (HE : forall i j, linked g i j <-> In (i, j) [(0, 1); (1, 0); (1, 2); (2, 1)]).
  { intros i j. transitivity (exists s, graph_sep id_oracle (map dvars dx_chain) (all_evidence None dx_special) i j = Some s).
    - split.
      + intros (k & p & Hp & <- & <-). exact (st_path _ _ ST k p Hp).
      + intros (s & Hs). destruct (st_edge _ _ ST i j s Hs) as (_ & _ & _ & _ & _ & k & p & HH). exists k, p. exact HH.
    - split.
      + intros (s & Hs). assert (R : i < 3 /\ j < 3).
        { destruct (st_edge _ _ ST i j s Hs) as (R1 & R2 & _). lia. }
        destruct i as [|[|[|i]]]; try lia; destruct j as [|[|[|j]]]; try lia;
          cbn; try tauto; cbv in Hs; discriminate.
      + intros I. repeat (destruct I as [I|I]; [inversion I; subst; eexists; vm_compute; reflexivity|]); destruct I. }
  split; [exact Hl|]. split; [exact HE|]. exact (made_facs _ _ _ _ _ _ _ _ M).
Qed.
Lemma dx_made : exists g, mk_graph (dense_ops id_oracle) id_oracle dx_chain None dx_special = Ok g /\
  lined g /\ tree_shaped g /\ length (g_cl g) = 3.
Proof.
  destruct (dense_graph_some dx_card dx_nm id_oracle dx_chain None dx_special dx_env id_oracle_ok dx_chain_good dx_narrow I dx_agrees dx_fits) as (g & H & H1).
  exists g. split; [exact H|]. split; [exact (one_lined _ _ _ _ _ _ g id_oracle_ok dx_chain_good H H1)|]. destruct (dx_links g H) as (Hl & HE & _).
  destruct (path3 (linked g) HE) as [P1 P2]. split; [|exact Hl]. split; [|exact P2]. unfold connected. rewrite Hl. exact P1.
Qed.
Lemma dx_swept : exists g ks g' res, mk_graph (dense_ops id_oracle) id_oracle dx_chain None dx_special = Ok g /\
  lined g /\ tree_shaped g /\ length (g_cl g) = 3 /\
  two_sweeps g ks /\ length ks = 4 /\ foldM (pass_path (dense_ops id_oracle)) ks g = Ok g' /\
  get_marginal (dense_ops id_oracle) g' ["b"] = Ok res.
Proof.
  destruct dx_made as (g & H & H1 & TR & Hl).
  destruct (dense_sweeps_run dx_card dx_nm id_oracle id_oracle_ok dx_chain None dx_special g dx_chain_good H H1 g 0 dx_env (hi_init _ _) TR I dx_agrees dx_fits
    ltac:(lia)) as (ks & g' & K1 & K2 & K3).
  assert (Hh : history (dense_ops id_oracle) g g') by (eapply (history_passes (dense_ops id_oracle)); [apply hi_init|exact K3]).
  destruct (dense_marginal_some dx_card dx_nm id_oracle id_oracle_ok dx_chain None dx_special g dx_chain_good H H1 g' "b" (dx ["a"; "b"]) dx_env Hh I dx_agrees dx_fits) as (res & Hr).
  - left; reflexivity.
  - right; left; reflexivity.
  - intros [].
  - intros [E|[]]. discriminate.
  - exists g, ks, g', res. rewrite Hl in K2. auto 12.
Qed.
(** Every path used once. *)
Lemma prev_stays_g {F V} (ops : fops F V) o factors ev special g0 : oracle_ok o ->
  mk_graph ops o factors ev special = Ok g0 -> forall ks g g', history ops g0 g -> foldM (pass_path ops) ks g = Ok g' ->
  history ops g0 g' /\ length (g_paths g') = length (g_paths g) /\ g_order g' = g_order g /\
  forall k p', nth_error (g_paths g') k = Some p' ->
    (In k ks \/ exists p, nth_error (g_paths g) k = Some p /\ p_prev p <> None) -> p_prev p' <> None.
Proof.
  intros Ho Hmk. induction ks as [|k0 ks IH]; intros g g' Hh H; cbn [foldM] in H.
  - inversion H; subst. split; [exact Hh|]. split; [reflexivity|]. split; [reflexivity|]. intros k p' Hp' [[]|(p & Hp & N)]. congruence.
  - apply bind_ok in H. destruct H as (g1 & H1 & H).
    assert (Hh1 : history ops g0 g1) by (eapply hi_pass; eauto).
    destruct (IH g1 g' Hh1 H) as (Hh' & Hl & Ho' & P). split; [exact Hh'|].
    destruct (mk_graph_made _ o factors ev special g0 Ho Hmk) as (reduced & final & M).
    destruct (history_static _ _ _ _ _ _ _ _ _ M Hh) as (SA & _).
    destruct (pass_path_passed _ g k0 g1 (struct_out _ _ (sa_struct _ _ _ SA)) H1) as (p0 & cr & cr' & PP).
    split; [rewrite Hl; apply (pa_plen _ _ _ _ _ _ _ PP)|].
    split. { rewrite Ho'. clear - H1. unfold pass_path in H1. repeat (apply bind_ok in H1; destruct H1 as (? & _ & H1)). injection H1 as <-. reflexivity. }
    intros k p' Hp' HH. apply (P k p' Hp').
    destruct (in_dec Nat.eq_dec k ks) as [I|NI]; [left; exact I|right].
    assert (Hk : k < length (g_paths g1)) by (rewrite <- Hl; apply nth_error_Some; congruence).
    destruct (nth_error (g_paths g1) k) as [p1|] eqn:E1; [|apply nth_error_Some in Hk; congruence].
    exists p1. split; [reflexivity|]. destruct (pa_paths _ _ _ _ _ _ _ PP k p1 E1) as (p2 & Hp2 & _ & _ & Epr & _).
    rewrite Epr. destruct (Nat.eq_dec k k0) as [_|NE]; [discriminate|].
    destruct HH as [[->|I]|(p & Hp & N)]; [congruence|contradiction|congruence].
Qed.

(** ** Sepsets of two variables *)
Lemma perm_filter_mono {A} (p : A -> bool) l l' : Permutation l l' -> Permutation (filter p l) (filter p l').
Proof.
  induction 1 as [|x l l' _ IH|x y l|l l' l'' _ IH1 _ IH2]; cbn; auto.
  - destruct (p x); auto.
  - destruct (p x), (p y); auto. apply perm_swap.
  - eapply perm_trans; eauto.
Qed.
(** Two tables listing the shared variables in opposite orders. *)
Definition rv_ops_scopes : list (list string) := [["a"; "b"; "c"]; ["c"; "b"; "d"]].
Lemma rv_sep o : oracle_ok o -> let d := dget (rip_sepsets o rv_ops_scopes []) (0, 1) in d = Some ["b"; "c"] \/ d = Some ["c"; "b"].
Proof.
  intros Ho d. unfold d. rewrite rip_lookup. unfold sep_vars, unique_vars.
  assert (N : NoDup (dedup (concat rv_ops_scopes))) by (cbn; nodups).
  pose proof (so_perm o _ Ho N) as P. apply (perm_filter_mono (fun v => mem (0, 1) (var_edges rv_ops_scopes [] v))) in P.
  change (filter _ (dedup (concat rv_ops_scopes))) with ["b"; "c"] in P.
  apply Permutation_length_2_inv in P. destruct P as [-> | ->]; cbn; auto.
Qed.
Definition rv (card : string -> nat) (w : list nat -> R) : list dense :=
  [dfn ["a"; "b"; "c"] (map card ["a"; "b"; "c"]) w; dfn ["c"; "b"; "d"] (map card ["c"; "b"; "d"]) w].
Definition rv_c0 (card : string -> nat) w S : cluster dense nat :=
  {| cl_fac := dfn ["a"; "b"; "c"] (map card ["a"; "b"; "c"]) w; cl_id := cluster_id 0 ["a"; "b"; "c"];
     cl_seps := [(cluster_id 1 ["c"; "b"; "d"], S)]; cl_recv := []; cl_out := []; cl_spec := [] |}.
Definition rv_c1 (card : string -> nat) w S : cluster dense nat :=
  {| cl_fac := dfn ["c"; "b"; "d"] (map card ["c"; "b"; "d"]) w; cl_id := cluster_id 1 ["c"; "b"; "d"];
     cl_seps := [(cluster_id 0 ["a"; "b"; "c"], S)]; cl_recv := []; cl_out := []; cl_spec := [] |}.
Lemma rv_graph o card w S : oracle_ok o -> dget (rip_sepsets o rv_ops_scopes []) (0, 1) = Some S -> S <> [] ->
  mk_graph (dense_ops o) o (rv card w) None [] =
  (let* pij := new_path (dense_ops o) (rv_c0 card w S) (rv_c1 card w S) 0 1 in
   let* pji := new_path (dense_ops o) (rv_c1 card w S) (rv_c0 card w S) 1 0 in
   Ok {| g_cl := [add_out (rv_c0 card w S) 0; add_out (rv_c1 card w S) 1]; g_paths := [pij; pji]; g_order := [0; 1];
         g_spec := []; g_passed := 0; g_dists := [] |}).
Proof.
  intros Ho H Hn. unfold mk_graph. change (evidence_reduce (dense_ops o) (rv card w) None) with (@Ok (list dense) (rv card w)). cbn [bind].
  change (absorb_subsets (dense_ops o) (rv card w)) with (@Ok (list dense) (rv card w)). cbn [bind].
  unfold build_graph. change (map (fun c : cluster dense nat => f_vars (dense_ops o) (cl_fac c)) (map (new_cluster (dense_ops o) []) (enum (rv card w)))) with rv_ops_scopes.
  change (all_evidence (@None (dict string nat)) []) with (@nil string).
  set (d := rip_sepsets o rv_ops_scopes []) in *. clearbody d.
  change (length (map (new_cluster (dense_ops o) []) (enum (rv card w)))) with 2. change (pairs 2) with [(0, 1)].
  change (raise_if _ ValueError) with (@Ok unit tt). cbn [bind foldM]. unfold link_pair at 1. rewrite H.
  destruct S as [|s S]; [congruence|].
  change (py_assert (Nat.ltb 0 (length (s :: S)))) with (@Ok unit tt). cbn [bind].
  match goal with |- _ = ?r => transitivity (let* g := r in Ok g); [reflexivity|] end.
  destruct (new_path (dense_ops o) (rv_c0 card w (s :: S)) (rv_c1 card w (s :: S)) 0 1) as [pij|er]; [|reflexivity]. cbn [bind].
  destruct (new_path (dense_ops o) (rv_c1 card w (s :: S)) (rv_c0 card w (s :: S)) 1 0); reflexivity.
Qed.
Definition rv_wide (v : string) : nat := if string_dec v "c" then 3 else 2.
Lemma dense_message_ok card nm o (c : cluster dense nat) nid S : dgood card nm (cl_fac c) -> cl_spec c = [] -> cl_recv c = [] ->
  dget (cl_seps c) nid = Some S -> filter (fun v => mem v S) (dvars (cl_fac c)) = S ->
  exists r g, make_message (dense_ops o) c nid = Ok {| m_fac := r; m_snd := cl_id c; m_rcv := nid |} /\
    info_gain (dense_ops o) None {| m_fac := r; m_snd := cl_id c; m_rcv := nid |} = Ok g /\
    dgood card nm r /\ dvars r = S /\
    (forall removed e, NoDup removed -> (forall v, In v removed <-> In v (dvars (cl_fac c)) /\ ~ In v S) ->
       dpt r e = sum_over card removed (dpt (cl_fac c)) e).
Proof.
  intros G Hs Hr Hd Hf. unfold make_message, dget_r. rewrite Hd, Hs, Hr. cbn [bind dkeys dvals map dget dense_ops f_reduce f_marg].
  assert (Hn : NoDup S) by (rewrite <- Hf; apply NoDup_filter, (ws_vars _ (dg_wf _ _ _ G))).
  assert (Hi : incl S (dvars (cl_fac c))) by (intros v Hv; rewrite <- Hf in Hv; apply filter_In in Hv; tauto).
  destruct (dg_some card nm (cl_fac c) G) as (e0 & He0).
  destruct (DenseLaws.reduce_some card nm (cl_fac c) [] e0 G (NoDup_nil _) (incl_nil_l _)) as (f & F1); [now apply (dpt_iff card nm)|]. cbn [map] in F1.
  rewrite F1. cbn [bind].
  assert (F2 : d_reduce (cl_fac c) [] (map Z.of_nat []) = Ok f) by exact F1.
  destruct (reduce_law card nm (cl_fac c) [] [] f G (NoDup_nil _) (incl_nil_l _) eq_refl F2) as (Gf & Vf & Pf).
  assert (E : dvars f = dvars (cl_fac c)).
  { unfold d_reduce in F1. apply bind_ok in F1. destruct F1 as (t & _ & F1). apply bind_ok in F1. destruct F1 as (ns & _ & F1).
    unfold mk_dense in F1. repeat (apply bind_ok in F1; destruct F1 as (? & _ & F1)). injection F1 as <-. cbn [dvars].
    clear. induction (dvars (cl_fac c)) as [|v l IH]; cbn; [reflexivity|]. f_equal. exact IH. }
  destruct (marg_law card nm o f S Gf Hn) as (r & H1 & H2 & _ & H4 & H5); [rewrite E; exact Hi|]. rewrite E, Hf in H1. rewrite H1. cbn [bind].
  destruct (d_vacuous_spec r (dg_wf _ _ _ H2) (dg_weight card nm r H2)) as (D1 & _).
  eexists r, _. split; [reflexivity|]. split; [unfold info_gain; cbn [m_fac dense_ops f_dist]; exact D1|].
  split; [exact H2|]. split; [now rewrite H4, E|]. intros removed e Nr Hrem. rewrite (H5 removed e Nr); [|intros v; rewrite E; apply Hrem].
  apply sum_over_ext_range. intros e' _ _. apply Pf. reflexivity.
Qed.
Lemma rv_first o card w : (forall v, 2 <= card v) -> exists p,
  new_path (dense_ops o) (rv_c0 card w ["b"; "c"]) (rv_c1 card w ["b"; "c"]) 0 1 = Ok p.
Proof.
  intros H2. unfold new_path.
  destruct (dense_message_ok card (std_names card) o (rv_c0 card w ["b"; "c"]) (cl_id (rv_c1 card w ["b"; "c"])) ["b"; "c"]) as (r & g & M1 & M2 & _);
    try reflexivity.
  - apply dfn_good; [nodups|]. intros v _. apply H2.
  - rewrite M1. cbn [bind]. rewrite M2. cbn [bind]. eauto.
Qed.
Lemma rv_raises : (forall f, In f (rv rv_wide (fun _ => 0%R)) -> dgood rv_wide (std_names rv_wide) f) /\ forall o, oracle_ok o -> mk_graph (dense_ops o) o (rv rv_wide (fun _ => 0%R)) None [] = Err AssertionError.
Proof.
  split.
  { intros f [<-|[<-|[]]]; (apply dfn_good; [nodups|]; intros v _; unfold rv_wide; destruct (string_dec v "c"); lia). }
  intros o Ho. destruct (rv_sep o Ho) as [H|H]; rewrite (rv_graph o _ _ _ Ho H) by discriminate.
  - destruct (rv_first o rv_wide (fun _ => 0%R)) as (p & Hp); [intros v; unfold rv_wide; destruct (string_dec v "c"); lia|]. rewrite Hp. reflexivity.
  - reflexivity.
Qed.
(** With equal cardinalities the message is labelled with the wrong variables. *)
Definition rv_skew (k : list nat) : R := match k with [1; 0; _] => 1%R | [_; 1; 0] => 1%R | _ => 0%R end.
Definition rv_two (_ : string) : nat := 2.
Definition rv_env : env := fun v => if string_dec v "c" then 1 else 0.
Lemma rv_good f : In f (rv rv_two rv_skew) -> dgood rv_two (std_names rv_two) f.
Proof. intros [<-|[<-|[]]]; (apply dfn_good; [nodups|intros v _; unfold rv_two; lia]). Qed.
Lemma rv_mislabelled o : oracle_ok o -> exists g k p c removed,
  mk_graph (dense_ops o) o (rv rv_two rv_skew) None [] = Ok g /\ nth_error (g_paths g) k = Some p /\
  nth_error (g_cl g) (p_snd p) = Some c /\ cl_fac c = nth (p_snd p) (rv rv_two rv_skew) (cl_fac c) /\ NoDup removed /\
  (forall v, In v removed <-> In v (dvars (cl_fac c)) /\ ~ In v (dvars (m_fac (p_next p)))) /\
  dpot (m_fac (p_next p)) rv_env <> sum_over rv_two removed (dpot (cl_fac c)) rv_env.
Proof.
  intros Ho. assert (E1 : (1 < exp 1)%R) by (rewrite <- exp_0 at 1; apply exp_increasing; lra).
  destruct (rv_sep o Ho) as [H|H]; rewrite (rv_graph o _ _ _ Ho H) by discriminate.
  - destruct (rv_first o rv_two rv_skew) as (p & Hp); [intros v; unfold rv_two; lia|]. rewrite Hp. cbn [bind].
    set (c' := {| cl_fac := dfn ["b"; "c"; "d"] [2; 2; 2] rv_skew; cl_id := cluster_id 1 ["c"; "b"; "d"];
      cl_seps := [(cluster_id 0 ["a"; "b"; "c"], ["b"; "c"])]; cl_recv := []; cl_out := []; cl_spec := [] |} : cluster dense nat).
    destruct (dense_message_ok rv_two (std_names rv_two) o c' (cluster_id 0 ["a"; "b"; "c"]) ["b"; "c"]) as (r & gn & M1 & M2 & M3 & M4 & M5); try reflexivity.
    { apply (dfn_good rv_two ["b"; "c"; "d"] rv_skew); [nodups|intros v _; unfold rv_two; lia]. }
    unfold new_path. change (make_message (dense_ops o) (rv_c1 rv_two rv_skew ["b"; "c"]) (cl_id (rv_c0 rv_two rv_skew ["b"; "c"]))) with
      (make_message (dense_ops o) c' (cluster_id 0 ["a"; "b"; "c"])).
    rewrite M1. cbn [bind]. rewrite M2. cbn [bind].
    eexists _, 1, _, (add_out (rv_c1 rv_two rv_skew ["b"; "c"]) 1), ["d"]. split; [reflexivity|]. split; [reflexivity|]. cbn [p_snd p_next m_fac].
    split; [reflexivity|]. split; [reflexivity|]. split; [nodups|]. rewrite M4. split; [cbn; intros v; split; [intros [<-|[]]; split; [tauto|intuition discriminate]|intuition congruence]|].
    assert (Ir : d_in_range r rv_env).
    { apply (dg_range rv_two (std_names rv_two)); [exact M3|]. intros v _. unfold rv_env, rv_two. destruct (string_dec v "c"); lia. }
    rewrite <- (dpt_in r rv_env (dg_wf _ _ _ M3) Ir). rewrite (M5 ["d"] rv_env).
    + cbn. rewrite exp_0. intros X. lra.
    + nodups.
    + cbn. intros v. split; [intros [<-|[]]; split; [tauto|intuition discriminate]|intuition congruence].
  - set (c' := {| cl_fac := dfn ["a"; "c"; "b"] [2; 2; 2] rv_skew; cl_id := cluster_id 0 ["a"; "b"; "c"];
      cl_seps := [(cluster_id 1 ["c"; "b"; "d"], ["c"; "b"])]; cl_recv := []; cl_out := []; cl_spec := [] |} : cluster dense nat).
    destruct (dense_message_ok rv_two (std_names rv_two) o c' (cluster_id 1 ["c"; "b"; "d"]) ["c"; "b"]) as (r & gn & M1 & M2 & M3 & M4 & M5); try reflexivity.
    { apply (dfn_good rv_two ["a"; "c"; "b"] rv_skew); [nodups|intros v _; unfold rv_two; lia]. }
    destruct (dense_message_ok rv_two (std_names rv_two) o (rv_c1 rv_two rv_skew ["c"; "b"]) (cluster_id 0 ["a"; "b"; "c"]) ["c"; "b"]) as (r1 & gn1 & N1 & N2 & _); try reflexivity.
    { apply (dfn_good rv_two ["c"; "b"; "d"] rv_skew); [nodups|intros v _; unfold rv_two; lia]. }
    unfold new_path. change (make_message (dense_ops o) (rv_c0 rv_two rv_skew ["c"; "b"]) (cl_id (rv_c1 rv_two rv_skew ["c"; "b"]))) with
      (make_message (dense_ops o) c' (cluster_id 1 ["c"; "b"; "d"])).
    change (cl_id (rv_c0 rv_two rv_skew ["c"; "b"])) with (cluster_id 0 ["a"; "b"; "c"]).
    rewrite M1. cbn [bind]. rewrite M2. cbn [bind]. rewrite N1. cbn [bind]. rewrite N2. cbn [bind].
    eexists _, 0, _, (add_out (rv_c0 rv_two rv_skew ["c"; "b"]) 0), ["a"]. split; [reflexivity|]. split; [reflexivity|]. cbn [p_snd p_next m_fac].
    split; [reflexivity|]. split; [reflexivity|]. split; [nodups|]. rewrite M4. split; [cbn; intros v; split; [intros [<-|[]]; split; [tauto|intuition discriminate]|intuition congruence]|].
    assert (Ir : d_in_range r rv_env).
    { apply (dg_range rv_two (std_names rv_two)); [exact M3|]. intros v _. unfold rv_env, rv_two. destruct (string_dec v "c"); lia. }
    rewrite <- (dpt_in r rv_env (dg_wf _ _ _ M3) Ir). rewrite (M5 ["a"] rv_env).
    + cbn. rewrite exp_0. intros X. lra.
    + nodups.
    + cbn. intros v. split; [intros [<-|[]]; split; [tauto|intuition discriminate]|intuition congruence].
Qed.
