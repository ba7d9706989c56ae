(** A concrete chain of Gaussian factors. *)
From Verif Require Export GaussGraph.
From Verif Require SparseExamples GraphExamples3.
From Verif Require Import GaussExamples.
#[global] Set Bullet Behavior "Strict Subproofs".
Local Open Scope string_scope.
Local Open Scope list_scope.
Local Open Scope nat_scope.
Local Notation io := SparseExamples.id_oracle.
Local Notation io_ok := SparseExamples.id_oracle_ok.

Definition gg (v w : string) : gauss := can_obj [v; w] (exK, exh, Fin 0).
Definition gg_chain : list gauss := [gg "a" "b"; gg "b" "c"; gg "c" "d"].
Definition gg_special : dict string R := [("d", 1%R)].
Lemma gg_def v w : v <> w -> def_gauss (gg v w).
Proof.
  intros N. destruct wf_ab as (_ & _ & Hc & _). assert (W : wf_gauss (gg v w)).
  { apply wf_can_obj; [constructor; [intros [E|[]]; congruence|constructor; [intros []|constructor]]|]. exact (Hc _ eq_refl). }
  split; [exact W|]. split; [reflexivity|]. exists (gg v w), exK, exh, 0%R. split; [now apply get_can_some|]. exact exK_posdef.
Qed.
Lemma gg_chain_def : forall f, In f gg_chain -> def_gauss f.
Proof. intros f [<-|[<-|[<-|[]]]]; apply gg_def; discriminate. Qed.

Lemma gg_links sp g : (sp = [] \/ sp = gg_special) ->
  mk_graph (gauss_ops io) io gg_chain None sp = Ok g -> length (g_cl g) = 3 /\
  (forall i j, linked g i j <-> In (i, j) [(0, 1); (1, 0); (1, 2); (2, 1)]) /\ map cl_fac (g_cl g) = gg_chain.
Proof.
  intros Hsp H. destruct (mk_graph_made _ io gg_chain None sp g io_ok H) as (reduced & final & M).
  assert (Ef : final = gg_chain).
  { pose proof (mk_reduced _ _ _ _ _ _ _ _ M) as E1. pose proof (mk_final _ _ _ _ _ _ _ _ M) as E2.
    assert (reduced = gg_chain) by (cbn in E1; now inversion E1). subst reduced.
    assert (E : absorb_subsets (gauss_ops io) gg_chain = Ok gg_chain) by (vm_compute; reflexivity). congruence. }
  subst final. pose proof (mk_struct _ _ _ _ _ _ _ _ M) as ST.
  assert (Hl : length (g_cl g) = 3).
  { pose proof (made_facs _ _ _ _ _ _ _ _ M) as E. apply (f_equal (@length _)) in E. rewrite map_length in E. rewrite E. reflexivity. }
  assert (HE : forall i j, linked g i j <-> In (i, j) [(0, 1); (1, 0); (1, 2); (2, 1)]).
  { intros i j. transitivity (exists s, graph_sep io (map ga_vars gg_chain) (all_evidence None sp) i j = Some s).
    - split.
      + intros (k & p & Hp & <- & <-). exact (st_path _ _ ST k p Hp).
      + intros (s & Hs). destruct (st_edge _ _ ST i j s Hs) as (_ & _ & _ & _ & _ & k & p & HH). exists k, p. exact HH.
    - split.
      + intros (s & Hs). assert (R : i < 3 /\ j < 3).
        { destruct (st_edge _ _ ST i j s Hs) as (R1 & R2 & _). lia. }
        destruct Hsp as [->| ->]; destruct i as [|[|[|i]]]; try lia; destruct j as [|[|[|j]]]; try lia;
          cbn; try tauto; cbv in Hs; discriminate.
      + intros I. destruct Hsp as [->| ->]; repeat (destruct I as [I|I]; [inversion I; subst; eexists; vm_compute; reflexivity|]); destruct I. }
  split; [exact Hl|]. split; [exact HE|]. exact (made_facs _ _ _ _ _ _ _ _ M).
Qed.
Lemma gg_tree sp g : (sp = [] \/ sp = gg_special) -> mk_graph (gauss_ops io) io gg_chain None sp = Ok g -> tree_shaped g /\ length (g_cl g) = 3.
Proof.
  intros Hsp H. destruct (gg_links sp g Hsp H) as (Hl & HE & _). destruct (GraphExamples2.path3 (linked g) HE) as [P1 P2].
  split; [|exact Hl]. split; [|exact P2]. unfold connected. rewrite Hl. exact P1.
Qed.
Lemma gg_made sp : exists g, mk_graph (gauss_ops io) io gg_chain None sp = Ok g.
Proof.
  apply (gmk_some io gg_chain None sp io_ok gg_chain_def). intros f [<-|[<-|[<-|[]]]]; eexists; (split; [left; reflexivity|intros []]).
Qed.
(** The chain with special evidence about "d", after two sweeps. *)
Lemma gg_swept : exists g0 ks g, mk_graph (gauss_ops io) io gg_chain None gg_special = Ok g0 /\ tree_shaped g0 /\ length (g_cl g0) = 3 /\
  (forall c r, In c (g_cl g0) -> g_reduce (cl_fac c) (dkeys (cl_spec c)) (dvals (cl_spec c)) = Ok r -> ga_vac r = false) /\
  (forall c, In c (g_cl g0) -> ga_vac (cl_fac c) = false) /\
  two_sweeps g0 ks /\ length ks = 4 /\ foldM (pass_path (gauss_ops io)) ks g0 = Ok g /\
  exists res, get_marginal (gauss_ops io) g ["c"] = Ok res.
Proof.
  destruct (gg_made gg_special) as (g0 & H). destruct (gg_tree gg_special g0 (or_intror eq_refl) H) as (TR & Hl).
  destruct (gg_links gg_special g0 (or_intror eq_refl) H) as (_ & _ & Hfs).
  destruct (gclusters_plain io gg_chain None gg_special io_ok gg_chain_def g0 H) as (S1 & S2).
  destruct (gsweeps_answer io gg_chain None gg_special io_ok gg_chain_def g0 H g0 0 (hi_init _ _) TR ltac:(lia)) as (ks & g & TS & Hk & Hf & HA).
  exists g0, ks, g. split; [exact H|]. split; [exact TR|]. split; [exact Hl|]. split; [exact S1|]. split; [exact S2|]. split; [exact TS|]. rewrite Hl in Hk. split; [exact Hk|]. split; [exact Hf|].
  destruct (HA ["c"]) as (res & Hr & _).
  - discriminate.
  - constructor; [intros []|constructor].
  - intros v [<-|[]] [E|[]]. discriminate.
  - assert (X : In (gg "b" "c") (map cl_fac (g_cl g0))) by (rewrite Hfs; right; left; reflexivity).
    apply in_map_iff in X. destruct X as (c & Ec & Hc). exists c. split; [exact Hc|]. rewrite Ec. intros v [<-|[]]. right. left. reflexivity.
  - eauto.
Qed.

(** Evidence about every variable of a factor: the construction raises. *)
Lemma mapM_in_ok {A B} (f : A -> res B) l r x : mapM f l = Ok r -> In x l -> exists y, f x = Ok y.
Proof.
  revert r. induction l as [|a l IH]; intros r H []; cbn in H; apply bind_ok in H; destruct H as (y & Hy & H); apply bind_ok in H; destruct H as (ys & Hys & _).
  - subst a. eauto.
  - eapply IH; eauto.
Qed.
Lemma gmk_all_observed o factors d special f : In f factors -> wf_gauss f -> ga_vars f <> [] ->
  incl (ga_vars f) (dkeys d) -> forall g, mk_graph (gauss_ops o) o factors (Some d) special <> Ok g.
Proof.
  intros Hf W Hn Hi g H. unfold mk_graph in H. apply bind_ok in H. destruct H as (reduced & Hr & _).
  unfold evidence_reduce in Hr. destruct (mapM_in_ok _ _ _ f Hr Hf) as (y & Hy). cbv beta iota in Hy. change (f_vars (gauss_ops o) f) with (ga_vars f) in Hy.
  destruct (subset_evidence d (ga_vars f)) as [vrs values] eqn:Es.
  destruct (subset_evidence_spec d _ vrs values (proj1 W) Es) as (Dv & Hm & Hl).
  destruct (Nat.ltb 0 (length vrs)) eqn:El.
  - change (g_reduce f vrs values = Ok y) in Hy. rewrite g_reduce_all in Hy; [discriminate Hy|exact W|exact Dv| | |exact Hl]; intros v Hv; apply Hm; auto.
  - apply Nat.ltb_ge in El. destruct (ga_vars f) as [|v vs]; [congruence|]. destruct vrs as [|u us]; [|cbn in El; lia]. apply (proj2 (Hm v)). split; [now left|]. apply Hi. now left.
Qed.
Lemma gg_observed_refuted : exists factors ev, (forall f, In f factors -> def_gauss f) /\
  forall g, mk_graph (gauss_ops io) io factors ev [] <> Ok g.
Proof.
  exists gg_chain, (Some [("c", 1%R); ("d", 2%R)]). split; [exact gg_chain_def|].
  apply (gmk_all_observed io gg_chain _ [] (gg "c" "d")); [right; right; left; reflexivity|apply gg_def; discriminate|discriminate|].
  intros v Hv. exact Hv.
Qed.

(** A factor that is only semidefinite: the message that integrates its flat variable out cannot be
    computed, and the construction raises. *)
Definition flatK : mat := Mat 2 2 (fun i j => if Nat.eqb i 1 && Nat.eqb j 1 then 1%R else 0%R).
Definition flat (v w : string) : gauss := can_obj [v; w] (flatK, exh, Fin 0).
Lemma flat_semi v w : v <> w -> semi_gauss (flat v w).
Proof.
  intros N. split.
  - apply wf_can_obj; [constructor; [intros [E|[]]; congruence|constructor; [intros []|constructor]]|]. destruct wf_ab as (_ & _ & Hc & _). exact (Hc _ eq_refl).
  - exists (flat v w), flatK, exh, 0%R. split; [now apply get_can_some|]. split.
    + intros i j Hi Hj. unfold flatK. cbn. now rewrite andb_comm.
    + intros u. unfold qsum. cbn. unfold flatK. cbn. nra.
Qed.
Lemma flat_curv v w x : v <> w -> curv (gval (flat v w)) x = (x w * x w)%R.
Proof.
  intros N. pose proof (flat_semi v w N) as (W & _). rewrite (curv_qn _ [v; w] flatK exh 0%R) by (exact (can_gval (flat v w) (flat v w) flatK exh 0%R W (get_can_some (flat v w) flatK exh (Fin 0) eq_refl))).
  rewrite qn_qsum by apply W. unfold qsum, flatK. cbn. ring.
Qed.
Lemma gg_flat_refuted : exists factors, (forall f, In f factors -> semi_gauss f /\ ga_vac f = false) /\
  forall g, mk_graph (gauss_ops io) io factors None [] <> Ok g.
Proof.
  exists [flat "a" "b"; gg "b" "c"]. assert (Hf : forall f, In f [flat "a" "b"; gg "b" "c"] -> semi_gauss f).
  { intros f [<-|[<-|[]]]; [apply flat_semi; discriminate|apply def_semi, gg_def; discriminate]. }
  split; [intros f Hi; split; [now apply Hf|destruct Hi as [<-|[<-|[]]]; reflexivity]|].
  intros g H. destruct (mk_graph_made _ io _ None [] g io_ok H) as (reduced & final & M).
  assert (Ef : final = [flat "a" "b"; gg "b" "c"]).
  { pose proof (mk_reduced _ _ _ _ _ _ _ _ M) as E1. pose proof (mk_final _ _ _ _ _ _ _ _ M) as E2.
    assert (reduced = [flat "a" "b"; gg "b" "c"]) by (cbn in E1; now inversion E1). subst reduced.
    assert (E : absorb_subsets (gauss_ops io) [flat "a" "b"; gg "b" "c"] = Ok [flat "a" "b"; gg "b" "c"]) by (vm_compute; reflexivity). congruence. }
  subst final. pose proof (mk_struct _ _ _ _ _ _ _ _ M) as ST.
  pose proof (gauss_plaws false io io_ok) as L.
  assert (Gf : forall f, In f [flat "a" "b"; gg "b" "c"] -> ggood false f) by (intros f Hi; now apply semi_good, Hf).
  assert (HS : graph_sep io (map ga_vars [flat "a" "b"; gg "b" "c"]) (@all_evidence R None []) 0 1 = Some ["b"]) by (vm_compute; reflexivity).
  destruct (st_edge _ _ ST 0 1 ["b"] HS) as (_ & _ & _ & _ & _ & k & p & Hk & Hp1 & Hp2).
  assert (Hs : forall i f r, nth_error [flat "a" "b"; gg "b" "c"] i = Some f ->
    f_reduce (gauss_ops io) f (dkeys (spec_at (gauss_ops io) [] i f)) (dvals (spec_at (gauss_ops io) [] i f)) = Ok r -> gsound r).
  { intros i f r Hi E. pose proof (Gf f (nth_error_In _ _ Hi)) as G.
    destruct (reduced_at (gauss_ops io) (ggood false) gsound gready gval L io _ None [] Gf i f f r Hi G (fun v => iff_refl _) E) as (Gr & Vr & Pr).
    assert (Eg : forall e, gval r e = gval f e).
    { intros e. rewrite Pr. apply (pl_ext _ _ _ _ _ L); [exact G|]. intros v _. reflexivity. }
    apply (pl_sound_same _ _ _ _ _ L f r G Gr).
    - intros v. rewrite Vr. cbn. tauto.
    - exact Eg.
    - destruct i as [|[|i]]; [| |destruct i; discriminate Hi]; injection Hi as <-.
      + right. exists "b", (fun v => if String.eqb v "b" then 1%R else 0%R). split; [right; left; reflexivity|]. split; [reflexivity|].
        split; [intros u Hu; apply String.eqb_neq in Hu; now rewrite Hu|]. rewrite flat_curv by discriminate. cbn. lra.
      + left. apply (def_proper (gg "b" "c")); [apply gg_def; discriminate|reflexivity]. }
  pose proof (pinv_init (gauss_ops io) (ggood false) gsound gready gval io _ None [] Gf _ _ _ M) as IV.
  destruct (pnext (gauss_ops io) (ggood false) gsound gready gval L io _ None [] io_ok Gf Hs g k p IV (mk_fresh _ _ _ _ _ _ _ _ M) Hk)
    as (s & ci & cj & fi & q & kq & HS' & Hi & _ & Hfi & _ & _ & _ & [_ _ _ (b & [B1 B2 B3] & Bi)]).
  rewrite Hp1, Hp2 in HS'. rewrite Hp1 in Hfi, Hi. injection Hfi as <-.
  change (graph_sep io (map ga_vars [flat "a" "b"; gg "b" "c"]) (@all_evidence R None []) 0 1 = Some s) in HS'. rewrite HS in HS'. injection HS' as <-.
  destruct (Bi ["a"]) as (Sm & _).
  - constructor; [intros []|constructor].
  - intros v. rewrite B2. cbn. split; [intros [<-|[]]; split; [split; [now left|intros []]|intros [E|[]]; discriminate]|].
    intros (([E|[E|[]]] & _) & N); [now left|]. destruct N. now left.
  - assert (Ec : cl_fac ci = flat "a" "b").
    { pose proof (made_facs _ _ _ _ _ _ _ _ M) as E. apply (f_equal (fun l => nth_error l 0)) in E. rewrite nth_error_map, Hi in E. now injection E. }
    specialize (Sm (fun v => if String.eqb v "a" then 1%R else 0%R)).
    assert (Z : curv (gval b) (fun v => if String.eqb v "a" then 1%R else 0%R) = 0%R).
    { transitivity (curv (gval (flat "a" "b")) (fun v => if String.eqb v "a" then 1%R else 0%R)); [|rewrite flat_curv by discriminate; cbn; ring].
      rewrite Ec in B3. unfold curv. change (over [] ?x) with x in B3. rewrite !B3. reflexivity. }
    rewrite Z in Sm. apply (Rlt_irrefl 0). apply Sm.
    + intros v Hv. destruct (String.eqb_spec v "a") as [->|]; [|reflexivity]. destruct Hv. now left.
    + exists "a". cbn. lra.
Qed.

(** ** The examples of the property file *)
Lemma gg_evidence : exists g, mk_graph (gauss_ops io) io gg_chain (Some [("a", 3%R)]) gg_special = Ok g /\
  (forall f, In f gg_chain -> semi_gauss f).
Proof.
  destruct (gmk_some io gg_chain (Some [("a", 3%R)]) gg_special io_ok gg_chain_def) as (g & H).
  - intros f [<-|[<-|[<-|[]]]]; eexists; (split; [right; left; reflexivity|intros [E|[]]; discriminate]).
  - exists g. split; [exact H|]. intros f Hf. now apply def_semi, gg_chain_def.
Qed.
Lemma gg_ready : exists g, (forall f, In f gg_chain -> def_gauss f) /\
  mk_graph (gauss_ops io) io gg_chain None gg_special = Ok g /\ tree_shaped g /\ length (g_cl g) = 3.
Proof. destruct (gg_made gg_special) as (g & H). exists g. split; [exact gg_chain_def|]. split; [exact H|]. now apply (gg_tree gg_special g); [right|]. Qed.
Lemma gg_joint_refuted : exists g, (forall f, In f gg_chain -> def_gauss f) /\
  mk_graph (gauss_ops io) io gg_chain None [] = Ok g /\ get_joint (gauss_ops io) g = Err AttributeError.
Proof.
  destruct (gg_made []) as (g & H). exists g. split; [exact gg_chain_def|]. split; [exact H|].
  apply (djoint_missing io gg_chain None [] g io_ok gg_chain_def H g (hi_init _ _)).
  destruct (gg_links [] g (or_introl eq_refl) H) as (_ & HE & _). destruct (proj2 (HE 0 1)) as (k & p & Hk & _); [now left|].
  exists k, p. split; [exact Hk|]. destruct (mk_graph_made _ io gg_chain None [] g io_ok H) as (reduced & final & M).
  apply (mk_path _ _ _ _ _ _ _ _ M k p Hk).
Qed.
Lemma prev_stays_g {F} (ops : fops F R) o factors ev special g0 : oracle_ok o ->
  mk_graph ops o factors ev special = Ok g0 -> forall ks g g', history ops g0 g ->
  foldM (pass_path ops) ks g = Ok g' ->
  history ops g0 g' /\ length (g_paths g') = length (g_paths g) /\
  forall k p', nth_error (g_paths g') k = Some p' ->
    (In k ks \/ exists p, nth_error (g_paths g) k = Some p /\ p_prev p <> None) -> p_prev p' <> None.
Proof.
  intros Ho Hmk. induction ks as [|k0 ks IH]; intros g g' Hh H; cbn [foldM] in H.
  - inversion H; subst. split; [exact Hh|]. split; [reflexivity|]. intros k p' Hp' [[]|(p & Hp & N)]. congruence.
  - apply bind_ok in H. destruct H as (g1 & H1 & H).
    assert (Hh1 : history ops g0 g1) by (eapply hi_pass; eauto).
    destruct (IH g1 g' Hh1 H) as (Hh' & Hl & P). split; [exact Hh'|].
    destruct (mk_graph_made _ o factors ev special g0 Ho Hmk) as (reduced & final & M).
    destruct (history_static _ _ _ _ _ _ _ _ _ M Hh) as (SA & _).
    destruct (pass_path_passed _ g k0 g1 (struct_out _ _ (sa_struct _ _ _ SA)) H1) as (p0 & cr & cr' & PP).
    split; [rewrite Hl; apply (pa_plen _ _ _ _ _ _ _ PP)|].
    intros k p' Hp' HH. apply (P k p' Hp').
    destruct (in_dec Nat.eq_dec k ks) as [I|NI]; [left; exact I|right].
    assert (Hk : k < length (g_paths g1)) by (rewrite <- Hl; apply nth_error_Some; congruence).
    destruct (nth_error (g_paths g1) k) as [p1|] eqn:E1; [|apply nth_error_Some in Hk; congruence].
    exists p1. split; [reflexivity|]. destruct (pa_paths _ _ _ _ _ _ _ PP k p1 E1) as (p2 & Hp2 & _ & _ & Epr & _).
    rewrite Epr. destruct (Nat.eq_dec k k0) as [_|NE]; [discriminate|].
    destruct HH as [[->|I]|(p & Hp & N)]; [congruence|contradiction|congruence].
Qed.
Lemma passes_run ks : forall g0 g, mk_graph (gauss_ops io) io gg_chain None gg_special = Ok g0 -> history (gauss_ops io) g0 g ->
  (forall k, In k ks -> k < length (g_paths g)) -> exists g', foldM (pass_path (gauss_ops io)) ks g = Ok g'.
Proof.
  induction ks as [|k ks IH]; intros g0 g H Hh Hk; [exists g; reflexivity|]. cbn [foldM].
  destruct (proj1 (gnever_fails io gg_chain None gg_special io_ok gg_chain_def g0 H g Hh) k (Hk k (or_introl eq_refl))) as (g1 & E).
  rewrite E. cbn [bind]. apply (IH g0 g1 H (hi_pass _ _ _ _ _ Hh E)).
  destruct (prev_stays_g (gauss_ops io) io gg_chain None gg_special g0 io_ok H [k] g g1 Hh) as (_ & Hl & _); [cbn [foldM]; now rewrite E|].
  rewrite Hl. intros k' Hk'. apply Hk. now right.
Qed.
Lemma gg_all_sent : exists g0 g, (forall f, In f gg_chain -> def_gauss f) /\
  mk_graph (gauss_ops io) io gg_chain None gg_special = Ok g0 /\ history (gauss_ops io) g0 g /\ length (g_cl g0) = 3 /\
  forall k p, nth_error (g_paths g) k = Some p -> p_prev p <> None.
Proof.
  destruct gg_ready as (g0 & D & H & _ & Hl).
  destruct (passes_run (seq 0 (length (g_paths g0))) g0 g0 H (hi_init _ _)) as (g & E); [intros k Hk; apply in_seq in Hk; lia|].
  destruct (prev_stays_g (gauss_ops io) io gg_chain None gg_special g0 io_ok H _ g0 g (hi_init _ _) E) as (Hh & Hl' & P).
  exists g0, g. split; [exact D|]. split; [exact H|]. split; [exact Hh|]. split; [exact Hl|].
  intros k p Hk. apply (P k p Hk). left. apply in_seq. rewrite <- Hl'. split; [lia|]. apply nth_error_Some. congruence.
Qed.
Lemma gg_calibrated : exists g0 g res, mk_graph (gauss_ops io) io gg_chain None gg_special = Ok g0 /\
  history (gauss_ops io) g0 g /\ tree_shaped g0 /\ length (g_cl g0) = 3 /\
  (forall k p e, nth_error (g_paths g) k = Some p ->
     gval (m_fac (p_next p)) e = match p_prev p with Some m => gval (m_fac m) e | None => 1%R end) /\
  get_marginal (gauss_ops io) g ["c"] = Ok res.
Proof.
  destruct gg_swept as (g0 & ks & g & H & TR & Hl & _ & _ & TS & _ & E & res & Er). exists g0, g, res.
  split; [exact H|]. split; [exact (passes_history (gauss_ops io) g0 ks g0 g (hi_init _ _) E)|]. split; [exact TR|]. split; [exact Hl|]. split; [|exact Er].
  pose proof (gproper_plaws io io_ok) as L. pose proof (gproper_tlaws io io_ok) as T.
  assert (Gf : forall f, In f gg_chain -> gproper f) by (intros f Hf; now apply def_proper, gg_chain_def).
  destruct (pmade (gauss_ops io) gproper gsound gready gval L io gg_chain None gg_special g0 io_ok Gf H
    (proj1 (tclusters (gauss_ops io) gproper gsound gready gval L T io gg_chain None gg_special g0 io_ok Gf H))) as (reduced & final & M & Gfin & Hsound & HL).
  destruct (HL g0 (hi_init _ _)) as (LV & _).
  exact (psweeps_settle (gauss_ops io) gproper gsound gready gval L io final None gg_special io_ok Gfin Hsound g0 ks g LV TS E).
Qed.
Lemma gg_processed : exists g0 g g', (forall f, In f gg_chain -> def_gauss f) /\
  mk_graph (gauss_ops io) io gg_chain None gg_special = Ok g0 /\
  pass_path (gauss_ops io) g0 0 = Ok g /\ process_graph (gauss_ops io) (1 / 100)%R 5 g = Ok g'.
Proof.
  destruct gg_ready as (g0 & D & H & TR & Hl).
  destruct (gg_links gg_special g0 (or_intror eq_refl) H) as (_ & HE & _). destruct (proj2 (HE 0 1)) as (k & p & Hk & _); [now left|].
  assert (Hp : 0 < length (g_paths g0)) by (assert (k < length (g_paths g0)) by (apply nth_error_Some; congruence); lia).
  destruct (proj1 (gnever_fails io gg_chain None gg_special io_ok gg_chain_def g0 H g0 (hi_init _ _)) 0 Hp) as (g & E).
  pose proof (hi_pass _ _ _ _ _ (hi_init (gauss_ops io) g0) E) as Hh.
  destruct (gnever_fails io gg_chain None gg_special io_ok gg_chain_def g0 H g Hh) as (_ & B & _).
  destruct (B (1 / 100)%R 5) as (g' & E').
  - repeat constructor. intros [].
  - intros c Ec. exfalso. destruct (mk_graph_made _ io gg_chain None gg_special g0 io_ok H) as (reduced & final & M).
    destruct (history_static _ _ _ _ _ _ _ _ _ M (hi_init _ _)) as (SA & _).
    destruct (pass_path_passed _ g0 0 g (struct_out _ _ (sa_struct _ _ _ SA)) E) as (p0 & cr & cr' & PP).
    pose proof (pa_len _ _ _ _ _ _ _ PP) as El. rewrite Ec, Hl in El. discriminate.
  - exists g0, g, g'. auto.
Qed.
