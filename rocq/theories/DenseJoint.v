(** The posterior joint over dense tables of different cardinalities. *)
From Verif Require Export DenseZero.
Local Open Scope string_scope.
Local Open Scope nat_scope.
Local Open Scope list_scope.

Lemma mul_list a b r : d_multiply a b = Ok r ->
  dvars r = if eqb (dvars a) (dvars b) then dvars a else
    let common := set_inter (dvars a) (dvars b) in
    filter (fun v => negb (mem v common)) (dvars b) ++ filter (fun v => negb (mem v common)) (dvars a) ++
    filter (fun v => mem v common) (dvars a).
Proof.
  unfold d_multiply. intros H. apply bind_ok in H. destruct H as (u1 & _ & H). apply bind_ok in H. destruct H as (tv & Ht & H).
  apply bind_ok in H. destruct H as (u2 & _ & H). apply bind_ok in H. destruct H as (ns & _ & H).
  unfold mk_dense in H. repeat (apply bind_ok in H; destruct H as (? & _ & H)). injection H as <-. cbn [dvars].
  unfold tensor_operation in Ht. destruct (eqb (dvars a) (dvars b)) eqn:E.
  - apply bind_ok in Ht. destruct Ht as (t & _ & Ht). injection Ht as <-. reflexivity.
  - repeat (apply bind_ok in Ht; destruct Ht as (? & _ & Ht)). injection Ht as <-. reflexivity.
Qed.
Definition jt : list dense := [dx ["a"; "b"]; dx ["c"; "d"]; dx ["b"; "c"]].
Definition jt_scopes : list (list string) := [["a"; "b"]; ["c"; "d"]; ["b"; "c"]].
Lemma jt_sep o : oracle_ok o -> let d := rip_sepsets o jt_scopes [] in
  dget d (0, 1) = None /\ dget d (0, 2) = Some ["b"] /\ dget d (1, 2) = Some ["c"].
Proof.
  intros Ho. cbn zeta. rewrite !rip_lookup. unfold sep_vars, unique_vars.
  assert (N : NoDup (dedup (concat jt_scopes))) by (cbn; nodups).
  pose proof (so_perm o _ Ho N) as P.
  pose proof (perm_filter_mono (fun v => mem (0, 1) (var_edges jt_scopes [] v)) _ _ P) as P1.
  pose proof (perm_filter_mono (fun v => mem (0, 2) (var_edges jt_scopes [] v)) _ _ P) as P2.
  pose proof (perm_filter_mono (fun v => mem (1, 2) (var_edges jt_scopes [] v)) _ _ P) as P3.
  change (filter _ (dedup (concat jt_scopes))) with (@nil string) in P1.
  change (filter _ (dedup (concat jt_scopes))) with ["b"] in P2.
  change (filter _ (dedup (concat jt_scopes))) with ["c"] in P3.
  apply Permutation_nil in P1. apply Permutation_length_1_inv in P2. apply Permutation_length_1_inv in P3. rewrite P1, P2, P3. auto.
Qed.
Lemma jt_narrow : narrow jt (all_evidence None (@nil (string * nat))).
Proof.
  intros i j fi fj v w Hij Hi Hj V1 V2 W1 W2 _ _.
  destruct i as [|[|[|i]]]; cbn in Hi; try (destruct i; discriminate); injection Hi as <-;
  destruct j as [|[|[|j]]]; cbn in Hj; try (destruct j; discriminate); injection Hj as <-; try congruence;
  cbn in V1, V2, W1, W2; intuition congruence.
Qed.
Lemma jt_good f : In f jt -> dgood dx_card dx_nm f.
Proof. intros [<-|[<-|[<-|[]]]]; apply dx_good; nodups. Qed.
Lemma jt_fits : fits dx_card jt (fun _ => 0).
Proof. intros f w _ _. pose proof (dx_two w). lia. Qed.
Lemma new_path_ends (ops : fops dense nat) ci cj i j p : new_path ops ci cj i j = Ok p -> p_snd p = i /\ p_rcv p = j.
Proof.
  unfold new_path. intros H. apply bind_ok in H. destruct H as (m & _ & H). apply bind_ok in H. destruct H as (d & _ & H). injection H as <-. auto.
Qed.
Lemma jt_paths o g : oracle_ok o -> mk_graph (dense_ops o) o jt None [] = Ok g ->
  g_order g = [0; 1; 2; 3] /\ map (fun p => (p_snd p, p_rcv p)) (g_paths g) = [(0, 2); (2, 0); (1, 2); (2, 1)].
Proof.
  intros Ho H. destruct (jt_sep o Ho) as (S1 & S2 & S3). unfold mk_graph in H.
  change (evidence_reduce (dense_ops o) jt None) with (@Ok (list dense) jt) in H. cbn [bind] in H.
  change (absorb_subsets (dense_ops o) jt) with (@Ok (list dense) jt) in H. cbn [bind] in H.
  unfold build_graph in H. change (map (fun c : cluster dense nat => f_vars (dense_ops o) (cl_fac c)) (map (new_cluster (dense_ops o) []) (enum jt))) with jt_scopes in H.
  change (all_evidence (@None (dict string nat)) []) with (@nil string) in H.
  set (d := rip_sepsets o jt_scopes []) in *. clearbody d.
  change (length (map (new_cluster (dense_ops o) []) (enum jt))) with 3 in H. change (pairs 3) with [(0, 1); (0, 2); (1, 2)] in H.
  change (raise_if _ ValueError) with (@Ok unit tt) in H. cbn [bind foldM] in H.
  unfold link_pair at 1 in H. rewrite S1 in H. cbn [bind] in H.
  apply bind_ok in H. destruct H as (g1 & H1 & H).
  unfold link_pair in H1. rewrite S2 in H1.
  apply bind_ok in H1. destruct H1 as ([] & _ & H1). apply bind_ok in H1. destruct H1 as (ci & _ & H1). apply bind_ok in H1. destruct H1 as (cj & _ & H1).
  apply bind_ok in H1. destruct H1 as (ci1 & _ & H1). apply bind_ok in H1. destruct H1 as (cj1 & _ & H1).
  apply bind_ok in H1. destruct H1 as (p0 & P0 & H1). apply bind_ok in H1. destruct H1 as (p1 & P1 & H1).
  apply bind_ok in H1. destruct H1 as (l1 & _ & H1). apply bind_ok in H1. destruct H1 as (l2 & _ & H1). injection H1 as <-.
  apply bind_ok in H. destruct H as (g2 & H2 & H). injection H as <-.
  unfold link_pair in H2. rewrite S3 in H2.
  apply bind_ok in H2. destruct H2 as ([] & _ & H2). apply bind_ok in H2. destruct H2 as (di & _ & H2). apply bind_ok in H2. destruct H2 as (dj & _ & H2).
  apply bind_ok in H2. destruct H2 as (di1 & _ & H2). apply bind_ok in H2. destruct H2 as (dj1 & _ & H2).
  apply bind_ok in H2. destruct H2 as (p2 & P2 & H2). apply bind_ok in H2. destruct H2 as (p3 & P3 & H2).
  apply bind_ok in H2. destruct H2 as (l3 & _ & H2). apply bind_ok in H2. destruct H2 as (l4 & _ & H2). injection H2 as <-.
  cbn [g_order g_paths app length map].
  destruct (new_path_ends _ _ _ _ _ _ P0) as [-> ->]. destruct (new_path_ends _ _ _ _ _ _ P1) as [-> ->].
  destruct (new_path_ends _ _ _ _ _ _ P2) as [-> ->]. destruct (new_path_ends _ _ _ _ _ _ P3) as [-> ->]. auto.
Qed.
Lemma ends_stay {F V} (ops : fops F V) o factors ev special g0 : oracle_ok o ->
  mk_graph ops o factors ev special = Ok g0 -> forall ks g g', history ops g0 g -> foldM (pass_path ops) ks g = Ok g' ->
  forall k p', nth_error (g_paths g') k = Some p' -> exists p, nth_error (g_paths g) k = Some p /\ p_snd p' = p_snd p /\ p_rcv p' = p_rcv p.
Proof.
  intros Ho Hmk. induction ks as [|k0 ks IH]; intros g g' Hh H k p' Hp'; cbn [foldM] in H.
  - inversion H; subst. eauto.
  - apply bind_ok in H. destruct H as (g1 & H1 & H).
    assert (Hh1 : history ops g0 g1) by (eapply hi_pass; eauto).
    destruct (IH g1 g' Hh1 H k p' Hp') as (p1 & E1 & A1 & A2).
    destruct (mk_graph_made _ o factors ev special g0 Ho Hmk) as (reduced & final & M).
    destruct (history_static _ _ _ _ _ _ _ _ _ M Hh) as (SA & _).
    destruct (pass_path_passed _ g k0 g1 (struct_out _ _ (sa_struct _ _ _ SA)) H1) as (p0 & cr & cr' & PP).
    destruct (pa_paths _ _ _ _ _ _ _ PP k p1 E1) as (p2 & Hp2 & B1 & B2 & _). exists p2. split; [exact Hp2|]. split; congruence.
Qed.
Lemma two_orders (l : list string) x y : NoDup l -> x <> y -> (forall v, In v l <-> v = x \/ v = y) -> l = [x; y] \/ l = [y; x].
Proof.
  intros Hn Hxy H. assert (P : Permutation [x; y] l).
  { apply NoDup_Permutation; [constructor; [cbn; intros [E|[]]; congruence|constructor; [intros []|constructor]]|exact Hn|].
    intros v. rewrite H. cbn. intuition congruence. }
  apply Permutation_length_2_inv in P. destruct P; auto.
Qed.
Lemma passes_run card nm factors o g0 ks e0 : oracle_ok o -> (forall f, In f factors -> dgood card nm f) -> mk_graph (dense_ops o) o factors None [] = Ok g0 ->
  lined g0 -> agrees [] e0 -> fits card factors e0 ->
  forall g, history (dense_ops o) g0 g -> (forall k, In k ks -> k < length (g_paths g)) -> exists g', foldM (pass_path (dense_ops o)) ks g = Ok g'.
Proof.
  intros Ho G Hm H1 A1 A2. induction ks as [|k ks IH]; intros g Hh Hk; cbn [foldM]; [eauto|].
  destruct (dense_never_fails card nm o Ho factors None [] g0 G Hm H1 g e0 Hh I A1 A2) as [N _].
  destruct (N k) as (g1 & E1); [apply Hk; left; reflexivity|]. rewrite E1. cbn [bind].
  assert (F1 : foldM (pass_path (dense_ops o)) [k] g = Ok g1) by (cbn [foldM]; now rewrite E1).
  destruct (prev_stays_g _ o factors None [] g0 Ho Hm [k] g g1 Hh F1) as (Hh1 & Hl & _). apply IH; [exact Hh1|].
  intros k' Hk'. rewrite Hl. apply Hk. right; exact Hk'.
Qed.
Lemma joint_raises o : oracle_ok o -> exists g0 g, mk_graph (dense_ops o) o jt None [] = Ok g0 /\
  foldM (pass_path (dense_ops o)) [0; 1; 2; 3] g0 = Ok g /\
  (forall k p, nth_error (g_paths g) k = Some p -> p_prev p <> None) /\ get_joint (dense_ops o) g = Err ValueError.
Proof.
  intros Ho. assert (Ag : agrees [] (fun _ => 0)) by (intros v x H; discriminate).
  destruct (dense_graph_some dx_card dx_nm o jt None [] (fun _ => 0) Ho jt_good jt_narrow I Ag jt_fits) as (g0 & Hm & H0).
  pose proof (one_lined _ _ _ _ _ _ g0 Ho jt_good Hm H0) as H1.
  destruct (jt_paths o g0 Ho Hm) as (Or & Pa). exists g0.
  assert (Lp : length (g_paths g0) = 4) by (apply (f_equal (@length _)) in Pa; rewrite map_length in Pa; exact Pa).
  destruct (passes_run dx_card dx_nm jt o g0 [0; 1; 2; 3] (fun _ => 0) Ho jt_good Hm H1 Ag jt_fits g0 (hi_init _ _)) as (g & Hg).
  { rewrite Lp. cbn. intuition lia. }
  destruct (prev_stays_g _ o jt None [] g0 Ho Hm [0; 1; 2; 3] g0 g (hi_init _ _) Hg) as (Hh & Hl & Hor & Hsent).
  assert (Sent : forall k p, nth_error (g_paths g) k = Some p -> p_prev p <> None).
  { intros k p Hp. apply (Hsent k p Hp). left. assert (k < 4) by (rewrite <- Lp, <- Hl; apply nth_error_Some; congruence).
    cbn. lia. }
  exists g. split; [exact Hm|]. split; [exact Hg|]. split; [exact Sent|].
  (* the graph's clusters *)
  destruct (mk_graph_made _ o jt None [] g0 Ho Hm) as (reduced & final & M).
  assert (Ef : final = jt).
  { pose proof (mk_reduced _ _ _ _ _ _ _ _ M) as E1. pose proof (mk_final _ _ _ _ _ _ _ _ M) as E2.
    assert (reduced = jt) by (cbn in E1; now inversion E1). subst reduced.
    assert (E : absorb_subsets (dense_ops o) jt = Ok jt) by reflexivity. congruence. }
  subst final. pose proof (made_facs _ _ _ _ _ _ _ _ M) as Fc.
  assert (Lc : length (g_cl g) = 3).
  { rewrite (run_length dx_card dx_nm o Ho jt None [] g0 jt_good Hm H1 g Hh). apply (f_equal (@length _)) in Fc. rewrite map_length in Fc. exact Fc. }
  destruct (g_cl g0) as [|k0 [|k1 [|k2 [|? ?]]]] eqn:Ek; try discriminate Fc. injection Fc as Fk0 Fk1 Fk2.
  assert (Rc := run_cluster dx_card dx_nm o Ho jt None [] g0 jt_good Hm H1 g).
  destruct (g_cl g) as [|c0 [|c1 [|c2 [|? ?]]]] eqn:Ec; try discriminate Lc.
  destruct (Rc 0 c0 Hh eq_refl) as (k0' & Q0 & G0 & V0). destruct (Rc 1 c1 Hh eq_refl) as (k1' & Q1 & G1 & V1).
  destruct (Rc 2 c2 Hh eq_refl) as (k2' & Q2 & G2 & V2). rewrite Ek in Q0, Q1, Q2. cbn in Q0, Q1, Q2.
  injection Q0 as <-. injection Q1 as <-. injection Q2 as <-. rewrite Fk0 in V0. rewrite Fk1 in V1. rewrite Fk2 in V2. cbn in V0, V1, V2.
  assert (W0 : dvars (cl_fac c0) = ["a"; "b"] \/ dvars (cl_fac c0) = ["b"; "a"]).
  { apply two_orders; [apply (ws_vars _ (dg_wf _ _ _ G0))|discriminate|]. intros v. rewrite V0. intuition congruence. }
  assert (W1 : dvars (cl_fac c1) = ["c"; "d"] \/ dvars (cl_fac c1) = ["d"; "c"]).
  { apply two_orders; [apply (ws_vars _ (dg_wf _ _ _ G1))|discriminate|]. intros v. rewrite V1. intuition congruence. }
  assert (W2 : dvars (cl_fac c2) = ["b"; "c"] \/ dvars (cl_fac c2) = ["c"; "b"]).
  { apply two_orders; [apply (ws_vars _ (dg_wf _ _ _ G2))|discriminate|]. intros v. rewrite V2. intuition congruence. }
  (* the paths *)
  assert (Ge : forall k p, nth_error (g_paths g) k = Some p -> exists p0, nth_error (g_paths g0) k = Some p0 /\ p_snd p = p_snd p0 /\ p_rcv p = p_rcv p0).
  { intros k p Hp. exact (ends_stay _ o jt None [] g0 Ho Hm [0; 1; 2; 3] g0 g (hi_init _ _) Hg k p Hp). }
  destruct (g_paths g) as [|p0 [|p1 [|p2 [|p3 [|? ?]]]]] eqn:Ep; try (cbn in Hl; lia).
  assert (Me : forall k p i j s, nth_error (g_paths g) k = Some p -> nth_error [(0, 2); (2, 0); (1, 2); (2, 1)] k = Some (i, j) ->
    graph_sep o jt_scopes [] i j = Some [s] -> exists m, p_prev p = Some m /\ dgood dx_card dx_nm (m_fac m) /\ dvars (m_fac m) = [s]).
  { intros k p i j s Hp Hij Hs. rewrite Ep in Hp. specialize (Sent k p Hp). destruct (p_prev p) as [m|] eqn:Em; [|congruence].
    exists m. split; [reflexivity|]. destruct (Ge k p Hp) as (q & Hq & E1 & E2).
    destruct (run_sent dx_card dx_nm o Ho jt None [] g0 jt_good Hm H1 g k p m Hh) as (S' & HS & Gm & Vm); [rewrite Ep; exact Hp|exact Em|].
    split; [exact Gm|]. apply (map_nth_error (fun p => (p_snd p, p_rcv p))) in Hq. rewrite Pa, Hij in Hq. injection Hq as Ei Ej.
    rewrite E1, E2, <- Ei, <- Ej in HS. eapply made_edge in HS; [|exact M].
    change (graph_sep o jt_scopes [] i j = Some S') in HS. assert (S' = [s]) by congruence. subst S'.
    apply singleton_eq; [apply (ws_vars _ (dg_wf _ _ _ Gm))|exact Vm]. }
  destruct (jt_sep o Ho) as (_ & S2 & S3).
  assert (X : graph_sep o jt_scopes [] 0 2 = Some ["b"] /\ graph_sep o jt_scopes [] 2 0 = Some ["b"] /\
              graph_sep o jt_scopes [] 1 2 = Some ["c"] /\ graph_sep o jt_scopes [] 2 1 = Some ["c"]).
  { rewrite rip_lookup in S2, S3. unfold graph_sep. cbn [Nat.ltb Nat.leb]. auto. }
  destruct X as (X0 & X1 & X2 & X3). rewrite Ep in Me.
  destruct (Me 0 p0 _ _ _ eq_refl eq_refl X0) as (m0 & Y0 & Z0 & U0). destruct (Me 1 p1 _ _ _ eq_refl eq_refl X1) as (m1 & Y1 & Z1 & U1).
  destruct (Me 2 p2 _ _ _ eq_refl eq_refl X2) as (m2 & Y2 & Z2 & U2). destruct (Me 3 p3 _ _ _ eq_refl eq_refl X3) as (m3 & Y3 & Z3 & U3).
  unfold get_joint. rewrite Ec. cbn [dense_ops f_mul f_cancel foldM].
  destruct (mul_law dx_card dx_nm _ _ G0 G1) as (r1 & R1 & R2 & _). rewrite R1. cbn [bind].
  destruct (mul_law dx_card dx_nm _ _ R2 G2) as (r2 & R3 & R4 & _). rewrite R3. cbn [bind].
  unfold last_messages. rewrite Hor, Or, Ep. cbn [mapM py_nth nth_error bind]. rewrite Y0, Y1, Y2, Y3. cbn [bind foldM].
  destruct (mul_law dx_card dx_nm _ _ Z0 Z1) as (q1 & T1 & T2 & _). rewrite T1. cbn [bind].
  destruct (mul_law dx_card dx_nm _ _ T2 Z2) as (q2 & T3 & T4 & _). rewrite T3. cbn [bind].
  destruct (mul_law dx_card dx_nm _ _ T4 Z3) as (q3 & T5 & T6 & _). rewrite T5. cbn [bind].
  assert (L1 : exists x, dvars r2 = x ++ ["c"; "b"]).
  { pose proof (mul_list _ _ _ R1) as A1. pose proof (mul_list _ _ _ R3) as A2.
    destruct W0 as [W0|W0], W1 as [W1|W1], W2 as [W2|W2]; rewrite W0, W1 in A1; cbn in A1; rewrite A1, W2 in A2; cbn in A2;
      exists [nth 0 (dvars r2) ""; nth 1 (dvars r2) ""]; rewrite A2; reflexivity. }
  assert (L2 : dvars q3 = ["b"; "c"]).
  { pose proof (mul_list _ _ _ T1) as A1. pose proof (mul_list _ _ _ T3) as A2. pose proof (mul_list _ _ _ T5) as A3.
    rewrite U0, U1 in A1. cbn in A1. rewrite A1, U2 in A2. cbn in A2. rewrite A2, U3 in A3. exact A3. }
  destruct L1 as (x & L1). unfold d_cancel, tbin. rewrite (d_shape_card dx_card dx_nm r2 R4), (d_shape_card dx_card dx_nm q3 T6), L1, L2, map_app.
  assert (B : broadcast_shapes (map dx_card ["b"; "c"]) (map dx_card x ++ map dx_card ["c"; "b"]) = Err ValueError).
  { unfold broadcast_shapes. set (y := map dx_card x). rewrite app_length. change (map dx_card ["b"; "c"]) with [3; 2]. change (map dx_card ["c"; "b"]) with [2; 3]. unfold pad_shape. rewrite app_length. cbn [length].
    replace (Nat.max 2 (length y + 2)) with (length y + 2) by lia.
    replace (length y + 2 - 2) with (length y) by lia. rewrite Nat.sub_diag. cbn [repeat app].
    clearbody y. induction y as [|n y IH]; [reflexivity|]. cbn [length repeat app bshape]. rewrite IH. reflexivity. }
  rewrite B. reflexivity.
Qed.

(** Two tables of binary variables after all messages have been sent. *)
Definition sq : list dense := [dfn ["a"; "b"] (map rv_two ["a"; "b"]) (fun k => INR (list_sum k)); dfn ["b"; "c"] (map rv_two ["b"; "c"]) (fun _ => 0%R)].
Lemma sq_good f : In f sq -> dgood rv_two (std_names rv_two) f.
Proof. intros [<-|[<-|[]]]; (apply dfn_good; [nodups|intros v _; unfold rv_two; lia]). Qed.
Lemma sq_sent : exists g0 g, (forall f, In f sq -> dgood rv_two (std_names rv_two) f) /\ length sq = 2 /\
  mk_graph (dense_ops id_oracle) id_oracle sq None [] = Ok g0 /\ lined g0 /\
  history (dense_ops id_oracle) g0 g /\ (forall k p, nth_error (g_paths g) k = Some p -> p_prev p <> None).
Proof.
  assert (Nw : narrow sq (all_evidence None (@nil (string * nat)))).
  { intros i j fi fj v w Hij Hi Hj V1 V2 W1 W2 _ _.
    destruct i as [|[|i]]; cbn in Hi; try (destruct i; discriminate); injection Hi as <-;
    destruct j as [|[|j]]; cbn in Hj; try (destruct j; discriminate); injection Hj as <-; try congruence;
    cbn in V1, V2, W1, W2; intuition congruence. }
  assert (Ag : agrees [] (fun _ : string => 0)) by (intros v x H; discriminate).
  assert (Ft : fits rv_two sq (fun _ => 0)) by (intros f w _ _; unfold rv_two; lia).
  destruct (dense_graph_some rv_two (std_names rv_two) id_oracle sq None [] (fun _ => 0) id_oracle_ok sq_good Nw I Ag Ft) as (g0 & Hm & H0).
  pose proof (one_lined _ _ _ _ _ _ g0 id_oracle_ok sq_good Hm H0) as H1.
  destruct (passes_run rv_two (std_names rv_two) sq id_oracle g0 (seq 0 (length (g_paths g0))) (fun _ => 0) id_oracle_ok sq_good Hm H1 Ag Ft g0 (hi_init _ _)) as (g & Hg).
  { intros k Hk. apply in_seq in Hk. lia. }
  destruct (prev_stays_g _ id_oracle sq None [] g0 id_oracle_ok Hm _ g0 g (hi_init _ _) Hg) as (Hh & Hl & _ & Hsent).
  exists g0, g. repeat (split; [first [exact sq_good|reflexivity|exact Hm|exact H1|exact Hh]|]). intros k p Hp. apply (Hsent k p Hp). left.
  apply in_seq. assert (k < length (g_paths g)) by (apply nth_error_Some; congruence). lia.
Qed.
