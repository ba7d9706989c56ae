(** A run over dense tables that stops early with clusters that disagree: the two shared variables
    are listed in opposite orders. *)
From Verif Require Export GraphLocalEx2.
From Verif Require Import DenseGraphEx DenseZero.
Local Open Scope string_scope.
Local Open Scope nat_scope.
Local Open Scope list_scope.
Local Notation io := SparseExamples.id_oracle.

(** A message after one has been received. *)
Lemma dense_reply card nm o (c : cluster dense nat) nid S prev : dgood card nm (cl_fac c) -> cl_spec c = [] -> cl_recv c = [(nid, prev)] ->
  dgood card nm prev -> dvars prev = S -> dget (cl_seps c) nid = Some S -> filter (fun v => mem v S) (dvars (cl_fac c)) = S ->
  exists r, make_message (dense_ops o) c nid = Ok {| m_fac := r; m_snd := cl_id c; m_rcv := nid |} /\ dgood card nm r /\ (forall v, In v (dvars r) <-> In v S) /\
    (forall removed e, NoDup removed -> (forall v, In v removed <-> In v (dvars (cl_fac c)) /\ ~ In v S) ->
       dpt r e = if Req_EM_T (dpt prev e) 0 then 0%R else (sum_over card removed (dpt (cl_fac c)) e / dpt prev e)%R).
Proof.
  intros G Hs Hr Gp Vp Hd Hf. unfold make_message, dget_r. rewrite Hd, Hs, Hr. cbn [bind dkeys dvals map dense_ops f_reduce f_marg f_cancel dget]. replace (if eq_dec nid nid then Some prev else None) with (Some prev) by (destruct (eq_dec nid nid); congruence). cbn [bind].
  assert (Hn : NoDup S) by (rewrite <- Hf; apply NoDup_filter, (ws_vars _ (dg_wf _ _ _ G))).
  assert (Hi : incl S (dvars (cl_fac c))) by (intros v Hv; rewrite <- Hf in Hv; apply filter_In in Hv; tauto).
  destruct (dg_some card nm (cl_fac c) G) as (e0 & He0).
  destruct (DenseLaws.reduce_some card nm (cl_fac c) [] e0 G (NoDup_nil _) (incl_nil_l _)) as (f & F1); [now apply (dpt_iff card nm)|]. cbn [map] in F1.
  rewrite F1. cbn [bind].
  assert (F2 : d_reduce (cl_fac c) [] (map Z.of_nat []) = Ok f) by exact F1.
  destruct (reduce_law card nm (cl_fac c) [] [] f G (NoDup_nil _) (incl_nil_l _) eq_refl F2) as (Gf & Vf & Pf).
  assert (E : dvars f = dvars (cl_fac c)).
  { rewrite (reduce_vars card nm _ [] [] f G (NoDup_nil _) (incl_nil_l _) eq_refl F2). apply filter_all. reflexivity. }
  destruct (marg_law card nm o f S Gf Hn) as (r & H1 & H2 & _ & H4 & H5); [rewrite E; exact Hi|]. rewrite E, Hf in H1, H4. rewrite H1. cbn [bind].
  rewrite (cancel_divides card nm r prev [] H2 Gp) by (rewrite H4, Vp; reflexivity).
  destruct (div_law card nm r prev H2 Gp) as (q & Q1 & Q2 & Q3 & Q4); [rewrite H4, Vp; apply incl_refl|]. rewrite Q1. cbn [bind].
  exists q. split; [reflexivity|]. split; [exact Q2|]. split; [intros v; now rewrite Q3, H4|]. intros removed e Nr Hrem. rewrite Q4.
  destruct (Req_EM_T (dpt prev e) 0); [reflexivity|]. f_equal. rewrite (H5 removed e Nr); [|intros v; rewrite E; apply Hrem].
  apply sum_over_ext_range. intros e' _ _. apply Pf. reflexivity.
Qed.

Definition st_flat : list nat -> R := fun _ => 0%R.
Definition st_skew (k : list nat) : R := match k with [1; 0; _] => 1%R | _ => 0%R end.
Definition st : list dense := [dfn ["a"; "b"; "c"] [2; 2; 2] st_flat; dfn ["c"; "b"; "d"] [2; 2; 2] st_skew].
Definition st_c0 : cluster dense nat :=
  {| cl_fac := dfn ["a"; "b"; "c"] [2; 2; 2] st_flat; cl_id := cluster_id 0 ["a"; "b"; "c"];
     cl_seps := [(cluster_id 1 ["c"; "b"; "d"], ["b"; "c"])]; cl_recv := []; cl_out := []; cl_spec := [] |}.
Definition st_c1 : cluster dense nat :=
  {| cl_fac := dfn ["c"; "b"; "d"] [2; 2; 2] st_skew; cl_id := cluster_id 1 ["c"; "b"; "d"];
     cl_seps := [(cluster_id 0 ["a"; "b"; "c"], ["b"; "c"])]; cl_recv := []; cl_out := []; cl_spec := [] |}.
Lemma st_good f : In f st -> dgood rv_two (std_names rv_two) f.
Proof. intros [<-|[<-|[]]]; [apply (dfn_good rv_two ["a"; "b"; "c"])|apply (dfn_good rv_two ["c"; "b"; "d"])]; try nodups; intros v _; unfold rv_two; lia. Qed.
Lemma st_graph : mk_graph (dense_ops io) io st None [] =
  (let* pij := new_path (dense_ops io) st_c0 st_c1 0 1 in
   let* pji := new_path (dense_ops io) st_c1 st_c0 1 0 in
   Ok {| g_cl := [add_out st_c0 0; add_out st_c1 1]; g_paths := [pij; pji]; g_order := [0; 1]; g_spec := []; g_passed := 0; g_dists := [] |}).
Proof.
  unfold mk_graph. change (evidence_reduce (dense_ops io) st None) with (@Ok (list dense) st). cbn [bind].
  change (absorb_subsets (dense_ops io) st) with (@Ok (list dense) st). cbn [bind].
  unfold build_graph. change (map (fun c : cluster dense nat => f_vars (dense_ops io) (cl_fac c)) (map (new_cluster (dense_ops io) []) (enum st))) with rv_ops_scopes.
  change (all_evidence (@None (dict string nat)) []) with (@nil string).
  assert (H : dget (rip_sepsets io rv_ops_scopes []) (0, 1) = Some ["b"; "c"]) by reflexivity.
  set (d := rip_sepsets io rv_ops_scopes []) in *. clearbody d.
  change (length (map (new_cluster (dense_ops io) []) (enum st))) with 2. change (pairs 2) with [(0, 1)].
  change (raise_if _ ValueError) with (@Ok unit tt). cbn [bind foldM]. unfold link_pair at 1. rewrite H.
  change (py_assert (Nat.ltb 0 (length ["b"; "c"]))) with (@Ok unit tt). cbn [bind].
  match goal with |- _ = ?r => transitivity (let* g := r in Ok g); [reflexivity|] end.
  destruct (new_path (dense_ops io) st_c0 st_c1 0 1) as [pij|er]; [|reflexivity]. cbn [bind].
  destruct (new_path (dense_ops io) st_c1 st_c0 1 0); reflexivity.
Qed.
Lemma vltb_zero : vltb (Fin 0) (Fin 0) = false.
Proof. cbn. unfold Rlt_b. destruct (Rlt_dec 0 0); [lra|reflexivity]. Qed.
Lemma vleb_zero : vleb (Fin 0) (Fin 0) = true.
Proof. unfold vleb. rewrite vltb_zero. cbn. unfold Req_b. destruct (Req_EM_T 0 0); [reflexivity|contradiction]. Qed.
Lemma dpot_ext card nm f e e' : dgood card nm f -> (forall v, In v (dvars f) -> e v = e' v) -> dpt f e = dpt f e'.
Proof. intros G. exact (lw_ext _ _ _ _ (aligned_lawful card nm io) f e e' G). Qed.
Lemma sum_two v g e : sum_over rv_two [v] g e = (g (upd e v 0) + g (upd e v 1))%R.
Proof. cbn. lra. Qed.
Lemma sum_two2 v w g e : sum_over rv_two [v; w] g e = (g (upd (upd e v 0) w 0) + g (upd (upd e v 0) w 1) + (g (upd (upd e v 1) w 0) + g (upd (upd e v 1) w 1)))%R.
Proof. cbn. lra. Qed.
Lemma st_flat_pt e : e "a" < 2 -> e "b" < 2 -> e "c" < 2 -> dpt (dfn ["a"; "b"; "c"] [2; 2; 2] st_flat) e = 1%R.
Proof.
  intros A B C. rewrite dpt_in.
  - unfold dpot, dval. cbn. apply exp_0.
  - apply (st_good _ (or_introl eq_refl)).
  - apply (dg_range rv_two (std_names rv_two)); [exact (st_good _ (or_introl eq_refl))|]. intros v [<-|[<-|[<-|[]]]]; assumption.
Qed.
Lemma st_back_good : dgood rv_two (std_names rv_two) (dfn ["b"; "c"; "d"] [2; 2; 2] st_skew).
Proof. apply (dfn_good rv_two ["b"; "c"; "d"]); [nodups|intros v _; unfold rv_two; lia]. Qed.
Lemma const_gain f x : dgood rv_two (std_names rv_two) f -> (forall e, d_in_range f e -> dpot f e = x) -> d_distance_from_vacuous f = Ok (Fin 0).
Proof.
  intros G H. destruct (d_vacuous_spec f (dg_wf _ _ _ G) (dg_weight _ _ f G)) as (D1 & _ & D3). cbv zeta in D1, D3. rewrite D1. do 2 f_equal. apply D3.
  intros e e' R R'. now rewrite !H.
Qed.
Lemma skew_gain f e e' : dgood rv_two (std_names rv_two) f -> d_in_range f e -> d_in_range f e' -> dpot f e <> dpot f e' ->
  exists d, d_distance_from_vacuous f = Ok (Fin d) /\ (0 < d)%R.
Proof.
  intros G R R' H. destruct (d_vacuous_spec f (dg_wf _ _ _ G) (dg_weight _ _ f G)) as (D1 & D2 & D3). cbv zeta in D1, D2, D3. eexists. split; [exact D1|].
  destruct D2 as [D2|D2]; [exact D2|]. exfalso. apply H. now apply (proj1 D3 (eq_sym D2)).
Qed.
Definition st_env (b : nat) : env := fun v => if string_dec v "b" then b else 0.
Lemma st_disagree : exists g g' ci cj res,
  mk_graph (dense_ops io) io st None [] = Ok g /\ tree_shaped g /\ length (g_cl g) <> 1 /\
  process_graph (dense_ops io) 0 1 g = Ok g' /\ length (g_dists g') < 1 * length (g_order g) /\
  In ci (g_cl g') /\ In cj (g_cl g') /\ (forall w, In w (dvars (cl_fac ci)) <-> In w ["a"; "b"; "c"]) /\ (forall w, In w (dvars (cl_fac cj)) <-> In w ["c"; "b"; "d"]) /\
  ~ (exists k, (0 < k)%R /\ forall e, fits rv_two st e -> (k * sum_over rv_two ["a"; "c"] (dpot (cl_fac ci)) e = sum_over rv_two ["c"; "d"] (dpot (cl_fac cj)) e)%R) /\
  get_marginal (dense_ops io) g' ["b"] = Ok res /\
  ~ (exists k, (0 < k)%R /\ forall e, fits rv_two st e -> (k * dpot res e = sum_over rv_two ["c"; "d"] (dpot (cl_fac cj)) e)%R) /\
  ~ (exists k, (0 < k)%R /\ forall e, fits rv_two st e -> (k * dpot res e = sum_over rv_two ["a"; "c"; "d"] (fun e' => Rprod (map (fun f => dpot f e') st)) e)%R).
Proof.
  assert (E1 : (1 < exp 1)%R) by (rewrite <- exp_0 at 1; apply exp_increasing; lra).
  destruct (dense_message_ok rv_two (std_names rv_two) io st_c0 (cluster_id 1 ["c"; "b"; "d"]) ["b"; "c"] (st_good _ (or_introl eq_refl)) eq_refl eq_refl eq_refl eq_refl)
    as (m0 & g0 & M1 & _ & M3 & M4 & M5).
  set (c' := {| cl_fac := dfn ["b"; "c"; "d"] [2; 2; 2] st_skew; cl_id := cluster_id 1 ["c"; "b"; "d"];
    cl_seps := [(cluster_id 0 ["a"; "b"; "c"], ["b"; "c"])]; cl_recv := []; cl_out := []; cl_spec := [] |} : cluster dense nat).
  destruct (dense_message_ok rv_two (std_names rv_two) io c' (cluster_id 0 ["a"; "b"; "c"]) ["b"; "c"] st_back_good eq_refl eq_refl eq_refl eq_refl)
    as (r & g1 & R1 & _ & R3 & R4 & R5).
  change (make_message (dense_ops io) c' (cluster_id 0 ["a"; "b"; "c"])) with (make_message (dense_ops io) st_c1 (cluster_id 0 ["a"; "b"; "c"])) in R1.
  assert (Rr : forall e, e "b" < 2 -> e "c" < 2 -> d_in_range r e).
  { intros e B C. apply (dg_range rv_two (std_names rv_two) r e R3). rewrite R4. intros v [<-|[<-|[]]]; assumption. }
  assert (Pr : forall b c, b < 2 -> c < 2 -> forall e, e "b" = b -> e "c" = c -> dpt r e = (2 * exp (st_skew [b; c; 0%nat]))%R).
  { intros b c Hb Hc e B C. rewrite (R5 ["d"] e); [|nodups|cbn; intros v; split; [intros [<-|[]]; split; [tauto|intuition discriminate]|intuition congruence]].
    rewrite sum_two.
    assert (Q : forall i, i < 2 -> dpt (cl_fac c') (upd e "d" i) = exp (st_skew [b; c; i])).
    { intros i Hi. rewrite dpt_in; [|apply st_back_good|].
      - unfold dpot, dval. cbn [c' cl_fac dfn dvars dtens tget map pot]. rewrite upd_same, !upd_other by discriminate. now rewrite B, C.
      - apply (dg_range rv_two (std_names rv_two) _ _ st_back_good). intros v [<-|[<-|[<-|[]]]]; [rewrite upd_other by discriminate|rewrite upd_other by discriminate|rewrite upd_same]; unfold rv_two; lia. }
    rewrite !Q by lia. assert (S1 : st_skew [b; c; 1%nat] = st_skew [b; c; 0%nat]) by (destruct b as [|[|?]], c as [|[|?]]; reflexivity). rewrite S1. lra. }
  assert (X1 : exists d1, d_distance_from_vacuous r = Ok (Fin d1) /\ (0 < d1)%R).
  { apply (skew_gain r (st_env 0) (st_env 1) R3); [apply Rr; cbn; lia|apply Rr; cbn; lia|].
    rewrite <- !(dpt_in r _ (dg_wf _ _ _ R3)) by (apply Rr; cbn; lia).
    rewrite (Pr 0 0), (Pr 1 0) by (try lia; reflexivity). cbn [st_skew]. rewrite exp_0. lra. }
  destruct X1 as (d1 & X1 & X2).
  assert (Rm : forall f e, dgood rv_two (std_names rv_two) f -> (forall v, In v (dvars f) <-> In v ["b"; "c"]) -> (d_in_range f e <-> e "b" < 2 /\ e "c" < 2)).
  { intros f e G V. rewrite (dg_range rv_two (std_names rv_two) f e G). split.
    - intros H. split; apply H, V; cbn; tauto.
    - intros [B C] v Hv. apply V in Hv. destruct Hv as [<-|[<-|[]]]; assumption. }
  assert (X0 : d_distance_from_vacuous m0 = Ok (Fin 0)).
  { apply (const_gain m0 2 M3). intros e He. rewrite <- (dpt_in m0 e (dg_wf _ _ _ M3) He). apply Rm in He; [|exact M3|now rewrite M4]. destruct He as [B C].
    rewrite (M5 ["a"] e); [|nodups|cbn; intros v; split; [intros [<-|[]]; split; [tauto|intuition discriminate]|intuition congruence]].
    rewrite sum_two. unfold st_c0, cl_fac. rewrite !st_flat_pt; rewrite ?upd_same, ?upd_other by discriminate; try lia. lra. }
  destruct (mul_law rv_two (std_names rv_two) (dfn ["a"; "b"; "c"] [2; 2; 2] st_flat) r (st_good _ (or_introl eq_refl)) R3) as (B1 & B2 & B3 & B4 & B5).
  assert (B6 : dvars B1 = ["a"; "b"; "c"]).
  { rewrite (multiply_moved (dfn ["a"; "b"; "c"] [2; 2; 2] st_flat) r B1); [rewrite R4; reflexivity|unfold listed; rewrite R4; reflexivity|exact B2]. }
  set (c0 := {| cl_fac := B1; cl_id := cluster_id 0 ["a"; "b"; "c"]; cl_seps := [(cluster_id 1 ["c"; "b"; "d"], ["b"; "c"])];
    cl_recv := [(cluster_id 1 ["c"; "b"; "d"], r)]; cl_out := [0]; cl_spec := [] |} : cluster dense nat).
  destruct (dense_reply rv_two (std_names rv_two) io c0 (cluster_id 1 ["c"; "b"; "d"]) ["b"; "c"] r B3 eq_refl eq_refl R3 R4 eq_refl) as (m1 & N1 & N2 & N3 & N4).
  { cbn [c0 cl_fac]. rewrite B6. reflexivity. }
  assert (PB : forall e, e "a" < 2 -> e "b" < 2 -> e "c" < 2 -> dpt B1 e = dpt r e).
  { intros e A B C. rewrite B5, (st_flat_pt e A B C). lra. }
  assert (X3 : d_distance_from_vacuous m1 = Ok (Fin 0)).
  { apply (const_gain m1 2 N2). intros e He. rewrite <- (dpt_in m1 e (dg_wf _ _ _ N2) He). apply Rm in He; [|exact N2|exact N3]. destruct He as [B C].
    rewrite (N4 ["a"] e); [|nodups|cbn [c0 cl_fac]; rewrite B6; cbn; intros v; split; [intros [<-|[]]; split; [tauto|intuition discriminate]|intuition congruence]].
    assert (P : dpt r e <> 0%R) by (apply (dpt_iff rv_two (std_names rv_two) r e R3), Rr; assumption).
    destruct (Req_EM_T (dpt r e) 0) as [Z|_]; [contradiction|]. rewrite sum_two. cbn [c0 cl_fac].
    rewrite !PB; rewrite ?upd_same, ?upd_other by discriminate; try lia.
    rewrite !(dpot_ext rv_two (std_names rv_two) r (upd e "a" _) e R3); [field; exact P| |]; rewrite R4; intros v [<-|[<-|[]]]; apply upd_other; discriminate. }
  rewrite st_graph. unfold new_path.
  change (cl_id st_c1) with (cluster_id 1 ["c"; "b"; "d"]). change (cl_id st_c0) with (cluster_id 0 ["a"; "b"; "c"]).
  rewrite M1. cbn [bind info_gain dense_ops f_dist m_fac]. rewrite X0. cbn [bind]. rewrite R1. cbn [bind info_gain dense_ops f_dist m_fac]. rewrite X1. cbn [bind].
  set (p1 := {| p_snd := 1; p_rcv := 0; p_prev := None; p_next := {| m_fac := r; m_snd := cl_id st_c1; m_rcv := cluster_id 0 ["a"; "b"; "c"] |}; p_gain := Fin d1 |}).
  set (p0 := {| p_snd := 0; p_rcv := 1; p_prev := None; p_next := {| m_fac := m0; m_snd := cl_id st_c0; m_rcv := cluster_id 1 ["c"; "b"; "d"] |}; p_gain := Fin 0 |}).
  set (g := {| g_cl := [add_out st_c0 0; add_out st_c1 1]; g_paths := [p0; p1]; g_order := [0; 1]; g_spec := []; g_passed := 0; g_dists := [] |}).
  set (p0' := {| p_snd := 0; p_rcv := 1; p_prev := None; p_next := {| m_fac := m1; m_snd := cluster_id 0 ["a"; "b"; "c"]; m_rcv := cluster_id 1 ["c"; "b"; "d"] |}; p_gain := Fin 0 |}).
  set (p1' := {| p_snd := 1; p_rcv := 0; p_prev := Some (p_next p1); p_next := p_next p1; p_gain := Fin 0 |}).
  set (g' := {| g_cl := [c0; add_out st_c1 1]; g_paths := [p0'; p1']; g_order := [1; 0]; g_spec := []; g_passed := 1; g_dists := [Fin 0] |}).
  destruct (marg_law rv_two (std_names rv_two) io B1 ["b"] B3) as (res & Y1 & Y2 & _ & Y4 & Y5); [nodups|rewrite B6; intros v [<-|[]]; cbn; tauto|].
  rewrite B6 in Y1, Y4. change (filter (fun v => mem v ["b"]) ["a"; "b"; "c"]) with ["b"] in Y1, Y4.
  assert (Y6 : forall b, b < 2 -> dpot res (st_env b) = sum_over rv_two ["a"; "c"] (dpt B1) (st_env b)).
  { intros b Hb. rewrite <- (Y5 ["a"; "c"] (st_env b)); [|nodups|rewrite B6; cbn; intros v; split; [intros [<-|[<-|[]]]; split; try tauto; intuition discriminate|intuition congruence]].
    symmetry. apply dpt_in; [apply Y2|]. apply (dg_range rv_two (std_names rv_two) res _ Y2). rewrite Y4. intros v [<-|[]]. exact Hb. }
  exists g, g', c0, (add_out st_c1 1), res. split; [reflexivity|]. split.
  { apply path2; [|reflexivity]. intros i j. unfold linked. cbn [g g_paths]. split.
    - intros (k & p & Hk & <- & <-). destruct k as [|[|[|k]]]; cbn in Hk; try discriminate; injection Hk as <-; cbn; tauto.
    - intros [E|[E|[]]]; injection E as <- <-; [exists 0, p0|exists 1, p1]; repeat split. }
  split; [discriminate|]. split.
  - unfold process_graph. cbn [g_cl reset_dists g]. unfold sort_paths. cbn [g_order g_paths reset_dists g length Nat.mul Nat.add g_cl g_spec g_passed g_dists].
    unfold sort_desc. cbn [fold_right insert_desc gain_of nth_error p_gain p0 p1].
    assert (L1 : vltb (Fin 0) (Fin d1) = true) by (cbn; unfold Rlt_b; destruct (Rlt_dec 0 d1); [reflexivity|contradiction]). rewrite L1.
    cbn [process_loop]. unfold process_step. cbn [g_order py_nth nth_error bind]. unfold pass_path.
    cbn [g_paths g_cl g_order g_spec g_passed g_dists py_nth nth_error bind p1 p_rcv p_next p_snd].
    assert (RC : receive_message (dense_ops io) (add_out st_c0 0) {| m_fac := r; m_snd := cl_id st_c1; m_rcv := cluster_id 0 ["a"; "b"; "c"] |} = Ok c0).
    { unfold receive_message. cbn [m_rcv m_snd m_fac add_out cl_id cl_fac cl_recv st_c0 dget]. rewrite BaseFacts.eqb_refl. cbn [py_assert bind dense_ops f_mul]. rewrite B2. reflexivity. }
    rewrite RC. cbn [bind list_set c0 cl_out foldM]. unfold recompute_at, py_nth at 1. cbn [nth_error bind]. unfold recompute. cbn [p0 p_snd p_rcv p_prev py_nth nth_error bind].
    change (cl_id (add_out st_c1 1)) with (cluster_id 1 ["c"; "b"; "d"]). fold c0. rewrite N1. cbn [bind info_gain dense_ops f_dist m_fac]. rewrite X3. cbn [bind list_set].
    unfold sort_paths, sort_desc. cbn [g_order g_paths g_cl g_spec g_passed g_dists fold_right insert_desc gain_of nth_error p_gain].
    rewrite vltb_zero. cbn [bind py_nth nth_error g_order g_paths p_gain snd fst]. rewrite vleb_zero. reflexivity.
  - split; [cbn; lia|]. split; [now left|]. split; [right; now left|]. split; [intros w; cbn [c0 cl_fac]; now rewrite B6|]. split; [reflexivity|].
    assert (V : forall b, b < 2 -> fits rv_two st (st_env b)).
    { intros b Hb f w _ _. unfold st_env, rv_two. destruct (string_dec w "b"); lia. }
    assert (PD : forall e b c, b < 2 -> c < 2 -> e "a" < 2 -> e "b" = b -> e "c" = c -> dpt B1 e = (2 * exp (st_skew [b; c; 0%nat]))%R).
    { intros e b c Hb Hc A B C. rewrite PB by lia. now apply Pr. }
    assert (PD' : forall e, e "a" < 2 -> e "b" < 2 -> e "c" < 2 -> dpot (cl_fac c0) e = dpt B1 e).
    { intros e A B C. symmetry. apply dpt_in; [apply B3|]. apply (dg_range rv_two (std_names rv_two) B1 e B3). rewrite B6. intros v [<-|[<-|[<-|[]]]]; unfold rv_two; lia. }
    assert (Z0 : sum_over rv_two ["a"; "c"] (dpt B1) (st_env 0) = 8%R).
    { rewrite sum_two2. rewrite (PD _ 0 0), (PD _ 0 1), (PD _ 0 0), (PD _ 0 1) by (try reflexivity; cbn; lia). cbn. rewrite exp_0. lra. }
    assert (Z1 : sum_over rv_two ["a"; "c"] (dpt B1) (st_env 1) = (4 * (1 + exp 1))%R).
    { rewrite sum_two2. rewrite (PD _ 1 0), (PD _ 1 1), (PD _ 1 0), (PD _ 1 1) by (try reflexivity; cbn; lia). cbn. rewrite exp_0. lra. }
    split.
    + intros (k & Kp & K). pose proof (K (st_env 0) (V 0 ltac:(lia))) as K0. pose proof (K (st_env 1) (V 1 ltac:(lia))) as K1.
      rewrite sum_two2 in K0, K1. rewrite !PD' in K0, K1 by (cbn; lia). rewrite <- sum_two2 in K0, K1. rewrite Z0 in K0. rewrite Z1 in K1.
      cbn in K0, K1. rewrite exp_0 in K0, K1.
      assert (Q : (k * 8 = 2 * (1 + exp 1))%R) by lra. assert (Q' : (k * (1 + exp 1) = 1)%R) by lra. nra.
    + split; [|split].
      * unfold get_marginal. cbn [g' g_cl find c0 cl_fac dense_ops f_vars]. rewrite B6. cbn. rewrite B6. exact Y1.
      * intros (k & Kp & K). pose proof (K (st_env 0) (V 0 ltac:(lia))) as K0. pose proof (K (st_env 1) (V 1 ltac:(lia))) as K1.
        rewrite (Y6 0) in K0 by lia. rewrite (Y6 1) in K1 by lia. rewrite Z0 in K0. rewrite Z1 in K1. cbn in K0, K1. rewrite exp_0 in K0, K1.
        assert (Q : (k * 8 = 2 * (1 + exp 1))%R) by lra. assert (Q' : (k * (1 + exp 1) = 1)%R) by lra. nra.
      * intros (k & Kp & K). pose proof (K (st_env 0) (V 0 ltac:(lia))) as K0. pose proof (K (st_env 1) (V 1 ltac:(lia))) as K1.
        rewrite (Y6 0) in K0 by lia. rewrite (Y6 1) in K1 by lia. rewrite Z0 in K0. rewrite Z1 in K1. cbn in K0, K1. unfold st_flat in K0, K1. rewrite exp_0 in K0, K1.
        assert (Q : (k * 8 = 4 * (1 + exp 1))%R) by lra. assert (Q' : (k * (1 + exp 1) = 2)%R) by lra. nra.
Qed.
Lemma stopped_differ : exists card nm factors, (forall f, In f factors -> dgood card nm f) /\
  exists g g' ci cj v res, mk_graph (dense_ops io) io factors None [] = Ok g /\ length (g_cl g) <> 1 /\
  process_graph (dense_ops io) 0 1 g = Ok g' /\ length (g_dists g') < 1 * length (g_order g) /\
  In ci (g_cl g') /\ In cj (g_cl g') /\ In v (dvars (cl_fac ci)) /\ In v (dvars (cl_fac cj)) /\ get_marginal (dense_ops io) g' [v] = Ok res /\
  exists ri rj, NoDup ri /\ NoDup rj /\
    (forall w, In w ri <-> In w (dvars (cl_fac ci)) /\ w <> v) /\ (forall w, In w rj <-> In w (dvars (cl_fac cj)) /\ w <> v) /\
    ~ (exists k, (0 < k)%R /\ forall e, fits card factors e -> (k * sum_over card ri (dpot (cl_fac ci)) e = sum_over card rj (dpot (cl_fac cj)) e)%R) /\
    ~ (exists k, (0 < k)%R /\ forall e, fits card factors e -> (k * dpot res e = sum_over card rj (dpot (cl_fac cj)) e)%R).
Proof.
  exists rv_two, (std_names rv_two), st. split; [exact st_good|].
  destruct st_disagree as (g & g' & ci & cj & res & H1 & _ & H2 & H3 & H4 & H5 & H6 & V1 & V2 & D1 & H7 & D2 & _).
  exists g, g', ci, cj, "b", res. do 6 (split; [assumption|]). split; [apply V1; cbn; tauto|]. split; [apply V2; cbn; tauto|]. split; [exact H7|].
  exists ["a"; "c"], ["c"; "d"]. split; [nodups|]. split; [nodups|].
  split; [intros w; rewrite V1; cbn; intuition congruence|]. split; [intros w; rewrite V2; cbn; intuition congruence|]. now split.
Qed.
Lemma stopped_wrong : exists card nm factors, (forall f, In f factors -> dgood card nm f) /\
  exists g g' v res, mk_graph (dense_ops io) io factors None [] = Ok g /\ tree_shaped g /\
  process_graph (dense_ops io) 0 1 g = Ok g' /\ length (g_dists g') < 1 * length (g_order g) /\ get_marginal (dense_ops io) g' [v] = Ok res /\
  exists rem, NoDup rem /\ (forall w, In w rem <-> (exists f, In f factors /\ In w (dvars f)) /\ w <> v) /\
    ~ (exists k, (0 < k)%R /\ forall e, fits card factors e -> (k * dpot res e = sum_over card rem (fun e' => Rprod (map (fun f => dpot f e') factors)) e)%R).
Proof.
  exists rv_two, (std_names rv_two), st. split; [exact st_good|].
  destruct st_disagree as (g & g' & ci & cj & res & H1 & T & _ & H3 & H4 & _ & _ & _ & _ & _ & H7 & _ & D).
  exists g, g', "b", res. do 5 (split; [assumption|]). exists ["a"; "c"; "d"]. split; [nodups|]. split; [|exact D].
  intros w. split.
  - intros [<-|[<-|[<-|[]]]]; (split; [|discriminate]); [exists (dfn ["a"; "b"; "c"] [2; 2; 2] st_flat)|exists (dfn ["c"; "b"; "d"] [2; 2; 2] st_skew)|exists (dfn ["c"; "b"; "d"] [2; 2; 2] st_skew)]; cbn; tauto.
  - intros ((f & [<-|[<-|[]]] & Hw) & N); cbn in Hw |- *; intuition congruence.
Qed.
