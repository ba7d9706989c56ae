(** A chain of Gaussian factors on which greedy message passing stops with a stale message. *)
From Verif Require Export GaussConvEx.
From Verif Require Import FactEq GaussExamples.
#[global] Set Bullet Behavior "Strict Subproofs".
Local Open Scope string_scope.
Local Open Scope list_scope.
Local Open Scope R_scope.
Local Notation io := SparseExamples.id_oracle.
Local Notation io_ok := SparseExamples.id_oracle_ok.
Local Notation ops := (gauss_ops io).

(** * The paths of a built graph, in order *)
Lemma link_edges {F} (op : fops F R) d l : forall g g', foldM (link_pair op d) l g = Ok g' ->
  pedges g' = pedges g ++ flat_map (fun ij => match dget d ij with Some _ => [ij; (snd ij, fst ij)] | None => [] end) l.
Proof.
  induction l as [|[i j] l IH]; intros g g' H; cbn [foldM] in H; [injection H as <-; cbn; now rewrite app_nil_r|].
  apply bind_ok in H. destruct H as (g1 & H1 & H). rewrite (IH g1 g' H). cbn [flat_map fst snd]. unfold link_pair in H1.
  destruct (dget d (i, j)) as [s|]; [|now injection H1 as ->].
  apply bind_ok in H1. destruct H1 as (_ & _ & H1). apply bind_ok in H1. destruct H1 as (ci & _ & H1). apply bind_ok in H1. destruct H1 as (cj & _ & H1).
  apply bind_ok in H1. destruct H1 as (ci1 & _ & H1). apply bind_ok in H1. destruct H1 as (cj1 & _ & H1).
  apply bind_ok in H1. destruct H1 as (p1 & N1 & H1). apply bind_ok in H1. destruct H1 as (p2 & N2 & H1).
  apply bind_ok in H1. destruct H1 as (l1 & _ & H1). apply bind_ok in H1. destruct H1 as (l2 & _ & H1). injection H1 as <-.
  unfold new_path in N1, N2. apply bind_ok in N1. destruct N1 as (m1 & _ & N1). apply bind_ok in N1. destruct N1 as (v1 & _ & N1). injection N1 as <-.
  apply bind_ok in N2. destruct N2 as (m2 & _ & N2). apply bind_ok in N2. destruct N2 as (v2 & _ & N2). injection N2 as <-.
  unfold pedges. cbn [g_paths]. rewrite map_app, <- app_assoc. reflexivity.
Qed.

(** * The factors *)
Definition zh : mat := Mat 2 1 (fun _ _ => 0).
Definition qm (v w : string) : gauss := can_obj [v; w] (exK, zh, Fin 0).
Definition eps : R := 1 / 10000.
Definition eK : mat := Mat 2 2 (fun i j => if Nat.eqb i j then (if Nat.eqb i 0 then eps else 1) else 0).
Definition ln2pi : R := ln (2 * PI).
Definition qc : gauss := can_obj ["c"; "d"] (eK, zh, Fin (- (/ 2 * ln2pi))).
Definition qchain : list gauss := [qm "a" "b"; qm "b" "c"; qc].

Lemma eK_posdef : posdef eK.
Proof.
  split; [intros i j _ _; unfold eK; cbn [ent]; rewrite Nat.eqb_sym; destruct (Nat.eqb_spec j i) as [->|]; reflexivity|].
  intros u (i & Hi & Hne). unfold qsum, rsum, Rsum. cbn -[Rmult Rplus eps] in *.
  assert (H : u 0%nat <> 0 \/ u 1%nat <> 0) by (destruct i as [|[|i]]; [now left|now right|lia]).
  assert (0 <= u 0%nat * u 0%nat) by apply Rle_0_sqr. assert (0 <= u 1%nat * u 1%nat) by apply Rle_0_sqr. unfold eps.
  destruct H as [H|H]; apply Rsqr_pos_lt in H; unfold Rsqr in H; nra.
Qed.
Lemma pair_def v w K g : v <> w -> nr K = 2%nat -> nc K = 2%nat -> posdef K -> def_gauss (can_obj [v; w] (K, zh, Fin g)).
Proof.
  intros N A1 A2 P. assert (W : wf_gauss (can_obj [v; w] (K, zh, Fin g))) by (apply wf_can_obj; [now apply nd2|now repeat split]).
  split; [exact W|]. split; [reflexivity|]. exists (can_obj [v; w] (K, zh, Fin g)), K, zh, g. split; [now apply get_can_some|exact P].
Qed.
Lemma qchain_def : forall f, In f qchain -> def_gauss f.
Proof.
  intros f [<-|[<-|[<-|[]]]]; apply pair_def; try discriminate; try reflexivity; first [exact exK_posdef|exact eK_posdef].
Qed.
Lemma pair_val v w K g e : v <> w -> nr K = 2%nat -> nc K = 2%nat -> posdef K ->
  gval (can_obj [v; w] (K, zh, Fin g)) e = exp (- / 2 * (ent K 0 0 * (e v * e v) + (ent K 0 1 + ent K 1 0) * (e v * e w) + ent K 1 1 * (e w * e w)) + g).
Proof.
  intros N A1 A2 P. destruct (pair_def v w K g N A1 A2 P) as (W & _).
  rewrite (can_gval _ _ K zh g W (get_can_some (can_obj [v; w] (K, zh, Fin g)) K zh (Fin g) eq_refl)). cbn [ga_vars can_obj].
  pose proof (nd2 v w N) as Hd. f_equal. f_equal. unfold can_form. cbn [map].
  rewrite (named_entry_at K _ 0 0 v v Hd), (named_entry_at K _ 0 1 v w Hd), (named_entry_at K _ 1 0 w v Hd), (named_entry_at K _ 1 1 w w Hd) by reflexivity.
  rewrite (named_coord_at zh _ 0 v Hd), (named_coord_at zh _ 1 w Hd) by reflexivity. unfold Rsum. cbn [fold_right ent zh]. field.
Qed.
Lemma qm_val v w e : v <> w -> gval (qm v w) e = exp (- (e v * e v + e v * e w + e w * e w)).
Proof. intros N. unfold qm. rewrite (pair_val v w exK 0 e N eq_refl eq_refl exK_posdef). f_equal. cbn -[Rmult Rplus Ropp Rinv]. field. Qed.
Lemma qc_val e : gval qc e = exp (- / 2 * (eps * (e "c" * e "c") + e "d" * e "d") - / 2 * ln2pi).
Proof. unfold qc. rewrite (pair_val "c" "d" eK _ e ltac:(discriminate) eq_refl eq_refl eK_posdef). f_equal. unfold eK. cbn -[Rmult Rplus Ropp Rinv ln2pi eps]. ring. Qed.

(** * The graph *)
Definition qedges : list (nat * nat) := [(0, 1); (1, 0); (1, 2); (2, 1)]%nat.
Lemma q_final : absorb_subsets ops qchain = Ok qchain.
Proof. vm_compute. reflexivity. Qed.
Lemma q_edges g : mk_graph ops io qchain None [] = Ok g -> pedges g = qedges.
Proof.
  intros H. unfold mk_graph in H. apply bind_ok in H. destruct H as (reduced & H1 & H). change (Ok qchain = Ok reduced) in H1. injection H1 as <-.
  apply bind_ok in H. destruct H as (final & H2 & H). rewrite q_final in H2. injection H2 as <-. unfold build_graph in H.
  apply bind_ok in H. destruct H as (u & _ & H). apply link_edges in H. rewrite H. vm_compute. reflexivity.
Qed.
Lemma q_made : exists g, mk_graph ops io qchain None [] = Ok g /\ tree_shaped g /\ length (g_cl g) = 3%nat /\ exists reduced, made ops io qchain None [] reduced qchain g.
Proof.
  destruct (gmk_some io qchain None [] io_ok qchain_def) as (g & H).
  { intros f [<-|[<-|[<-|[]]]]; eexists; (split; [left; reflexivity|intros []]). }
  exists g. split; [exact H|]. destruct (mk_graph_made _ io qchain None [] g io_ok H) as (reduced & final & M).
  assert (Ef : final = qchain).
  { pose proof (mk_reduced _ _ _ _ _ _ _ _ M) as E1. pose proof (mk_final _ _ _ _ _ _ _ _ M) as E2. change (Ok qchain = Ok reduced) in E1. injection E1 as <-. rewrite q_final in E2. now injection E2. }
  subst final. assert (Hl : length (g_cl g) = 3%nat).
  { pose proof (made_facs _ _ _ _ _ _ _ _ M) as E. apply (f_equal (@length _)) in E. rewrite map_length in E. rewrite E. reflexivity. }
  assert (HE : forall i j, linked g i j <-> In (i, j) qedges).
  { intros i j. rewrite <- (q_edges g H). split.
    - intros (k & p & Hp & <- & <-). apply (nth_error_In _ k). apply pedges_nth. exists p. auto.
    - intros I. apply In_nth_error in I. destruct I as (k & I). apply pedges_nth in I. destruct I as (p & Hp & E). inversion E. exists k, p. auto. }
  destruct (GraphExamples2.path3 (linked g) HE) as [P1 P2]. split; [|split; [exact Hl|eauto]]. split; [|exact P2]. unfold connected. now rewrite Hl.
Qed.

(** * The states of the greedy run *)
Local Notation pL := (gproper_plaws io io_ok).
Local Notation tL := (gproper_tlaws io io_ok).
Local Notation qL := (gproper_qlaws io io_ok).
Local Notation canon := (fun f => ga_can f <> None).
Local Notation Live := (plive ops gproper gsound gready gval io qchain None []).
Lemma q_proper : forall f, In f qchain -> gproper f.
Proof. intros f H. now apply def_proper, qchain_def. Qed.
Local Notation q_sound := (tsound ops gproper gsound gready gval pL tL io qchain None [] q_proper).

Record good_state (g : cgraph gauss R) : Prop := { gs_live : Live g; gs_edges : pedges g = qedges; gs_canon : sent_canon canon g }.
Definition unsent (g : cgraph gauss R) (k : nat) : Prop := forall p, nth_error (g_paths g) k = Some p -> p_prev p = None.
Definition sentf (g : cgraph gauss R) (k : nat) (phi : (string -> R) -> R) : Prop :=
  forall p, nth_error (g_paths g) k = Some p -> exists m, p_prev p = Some m /\ forall e, gval (m_fac m) e = phi e.
Definition nextf (g : cgraph gauss R) (k : nat) (phi : (string -> R) -> R) : Prop :=
  forall p, nth_error (g_paths g) k = Some p -> forall e, gval (m_fac (p_next p)) e = phi e.

Lemma gs_path g k ij : good_state g -> nth_error qedges k = Some ij ->
  exists p, nth_error (g_paths g) k = Some p /\ p_snd p = fst ij /\ p_rcv p = snd ij.
Proof. intros [LV Ee SC] H. rewrite <- Ee in H. apply pedges_nth in H. destruct H as (p & Hp & <-). exists p. auto. Qed.
Lemma gs_ends g k ij p : good_state g -> nth_error qedges k = Some ij -> nth_error (g_paths g) k = Some p -> p_snd p = fst ij /\ p_rcv p = snd ij.
Proof. intros G H Hp. destruct (gs_path g k ij G H) as (q & Hq & E1 & E2). rewrite Hp in Hq. injection Hq as <-. auto. Qed.
Lemma gs_list g : good_state g -> exists p0 p1 p2 p3, g_paths g = [p0; p1; p2; p3] /\
  p_snd p0 = 0%nat /\ p_rcv p0 = 1%nat /\ p_snd p1 = 1%nat /\ p_rcv p1 = 0%nat /\ p_snd p2 = 1%nat /\ p_rcv p2 = 2%nat /\ p_snd p3 = 2%nat /\ p_rcv p3 = 1%nat.
Proof.
  intros [_ Ee _]. unfold pedges, qedges in Ee. destruct (g_paths g) as [|p0 [|p1 [|p2 [|p3 [|p4 l]]]]]; try discriminate Ee. injection Ee. intros. exists p0, p1, p2, p3. repeat split; assumption.
Qed.

Lemma gs_step g k g' gain : good_state g -> step_ok ops g k g' gain -> exists p g1, nth_error (g_paths g) k = Some p /\ pass_path ops g k = Ok g1 /\
  g_paths g' = g_paths g1 /\ good_state g' /\ good_state g1.
Proof.
  intros G K. pose proof G as [LV Ee SC]. destruct (sk_pass _ _ _ _ _ K) as (g1 & Hp & C1 & C2).
  pose proof (plive_step ops gproper gsound gready gval pL io qchain None [] io_ok q_proper q_sound g k g' gain LV K) as LV'.
  pose proof (plive_pass ops gproper gsound gready gval pL io qchain None [] io_ok q_proper q_sound g k g1 LV Hp) as LV1.
  pose proof (pedges_pass ops gproper gsound gready gval io qchain None [] g k g1 LV Hp) as E1.
  pose proof (sent_canon_pass ops gproper gsound gready canon gval qL io qchain None [] g k g1 LV SC Hp) as SC1.
  destruct (pass_path_passed ops g k g1 (struct_out _ _ (sa_struct _ _ _ (pv_static _ _ _ _ _ _ _ _ _ _ LV))) Hp) as (p & cr & cr' & P).
  exists p, g1. split; [exact (pa_path _ _ _ _ _ _ _ P)|]. split; [exact Hp|]. split; [exact C2|]. split.
  - split; [exact LV'|unfold pedges; rewrite C2; now rewrite <- Ee, <- E1|]. intros q x m. rewrite C2. apply SC1.
  - split; [exact LV1|congruence|exact SC1].
Qed.

Section Step.
Context (g g' : cgraph gauss R) (k : nat) (gain : val).
Hypothesis G : good_state g.
Hypothesis K : step_ok ops g k g' gain.
Lemma st_self phi : nextf g k phi -> sentf g' k phi.
Proof.
  intros H. destruct (gs_step g k g' gain G K) as (p & g1 & Hp & Hs & E & _). intros p' Hp'. rewrite E in Hp'.
  destruct (ppass_same ops gproper gsound gready gval io qchain None [] g g1 k p (gs_live _ G) Hp Hs k p' Hp') as (p1 & Hp1 & _ & _ & E3).
  destruct (Nat.eq_dec k k); [|congruence]. exists (p_next p). split; [exact E3|]. exact (H p Hp).
Qed.
Lemma st_quiet_self : pquiet gval g' k.
Proof.
  destruct (gs_step g k g' gain G K) as (p & g1 & Hp & Hs & E & _).
  pose proof (pquiet_self ops gproper gsound gready gval io qchain None [] g g1 k p (gs_live _ G) Hp Hs) as Q. intros p' Hp'. rewrite E in Hp'. exact (Q p' Hp').
Qed.
Lemma st_unsent k1 : k1 <> k -> unsent g k1 -> unsent g' k1.
Proof.
  intros N H p' Hp'. destruct (gs_step g k g' gain G K) as (p & g1 & Hp & Hs & E & _). rewrite E in Hp'.
  destruct (ppass_same ops gproper gsound gready gval io qchain None [] g g1 k p (gs_live _ G) Hp Hs k1 p' Hp') as (p1 & Hp1 & _ & _ & E3).
  destruct (Nat.eq_dec k1 k); [contradiction|]. rewrite E3. exact (H p1 Hp1).
Qed.
Lemma st_sent k1 phi : k1 <> k -> sentf g k1 phi -> sentf g' k1 phi.
Proof.
  intros N H p' Hp'. destruct (gs_step g k g' gain G K) as (p & g1 & Hp & Hs & E & _). rewrite E in Hp'.
  destruct (ppass_same ops gproper gsound gready gval io qchain None [] g g1 k p (gs_live _ G) Hp Hs k1 p' Hp') as (p1 & Hp1 & _ & _ & E3).
  destruct (Nat.eq_dec k1 k); [contradiction|]. rewrite E3. exact (H p1 Hp1).
Qed.
Context (ij ab : nat * nat) (k1 : nat).
Hypothesis H0 : nth_error qedges k = Some ij.
Hypothesis H1 : nth_error qedges k1 = Some ab.
Lemma st_next phi : fst ab <> snd ij \/ ab = (snd ij, fst ij) -> nextf g k1 phi -> nextf g' k1 phi.
Proof.
  intros C H p' Hp' e. destruct (gs_step g k g' gain G K) as (p & g1 & Hp & Hs & E & _). rewrite E in Hp'.
  destruct (gs_ends g k ij p G H0 Hp) as (S0 & R0). destruct (gs_path g k1 ab G H1) as (p1 & Hp1 & S1 & R1). destruct C as [C| ->].
  - destruct (ppass_other ops gproper gsound gready gval io qchain None [] g g1 k p (gs_live _ G) Hp Hs k1 p1 p' Hp1 Hp') as (_ & _ & E3 & _); [congruence|].
    rewrite E3. exact (H p1 Hp1 e).
  - cbn [fst snd] in S1, R1. destruct (preverse_same ops gproper gsound gready gval pL io qchain None [] io_ok q_proper q_sound g g1 k p (gs_live _ G) Hp Hs k1 p1 p' e Hp1) as (_ & E3);
      [congruence|congruence|exact Hp'|]. rewrite E3. exact (H p1 Hp1 e).
Qed.
Lemma st_quiet : fst ab <> snd ij \/ ab = (snd ij, fst ij) -> pquiet gval g k1 -> pquiet gval g' k1.
Proof.
  intros C D. destruct (gs_step g k g' gain G K) as (p & g1 & Hp & Hs & E & _).
  destruct (gs_ends g k ij p G H0 Hp) as (S0 & R0). destruct (gs_path g k1 ab G H1) as (p1 & Hp1 & S1 & R1).
  intros p' Hp'. rewrite E in Hp'. revert p' Hp'. change (pquiet gval g1 k1). destruct C as [C| ->].
  - apply (pquiet_other ops gproper gsound gready gval io qchain None [] g g1 k p (gs_live _ G) Hp Hs k1 p1 Hp1); [congruence|exact D].
  - cbn [fst snd] in S1, R1. apply (pquiet_reverse ops gproper gsound gready gval pL tL io qchain None [] io_ok q_proper g g1 k p (gs_live _ G) Hp Hs k1 p1 Hp1); [congruence|congruence|exact D].
Qed.
End Step.

(** * The gains *)
Lemma gs_quiet g k : good_state g -> (k < 4)%nat -> pquiet gval g k -> gain_of (g_paths g) k = Fin 0.
Proof.
  intros G Hk D. pose proof G as [LV Ee SC].
  apply (pquiet_gain ops gproper gsound gready canon gval pL tL qL io qchain None [] io_ok q_proper g k LV SC); [|exact D].
  destruct (gs_list g G) as (? & ? & ? & ? & E & _). rewrite E. exact Hk.
Qed.
Lemma gs_good g k p : good_state g -> nth_error (g_paths g) k = Some p -> gproper (m_fac (p_next p)) /\
  (forall m, p_prev p = Some m -> gproper (m_fac m) /\ ga_can (m_fac m) <> None /\ forall v, In v (ga_vars (m_fac m)) <-> In v (ga_vars (m_fac (p_next p)))).
Proof.
  intros [[IV SA] Ee SC] Hp. destruct (pnext ops gproper gsound gready gval pL io qchain None [] io_ok q_proper q_sound g k p IV (sa_fresh _ _ _ SA) Hp)
    as (s & c0 & c1 & f0 & q0 & k0 & HS & _ & _ & _ & _ & _ & _ & [_ _ (Gm & Vm) _]). split; [exact Gm|]. intros m Em.
  destruct (pi_prev _ _ _ _ _ _ _ _ _ _ IV k p m Hp Em) as (s' & HS' & G0 & V0).
  rewrite HS in HS'. injection HS' as <-. split; [exact G0|]. split; [exact (SC k p m Hp Em)|]. intros v. etransitivity; [exact (V0 v)|]. symmetry. exact (Vm v).
Qed.
Lemma gs_unsent g k : good_state g -> (k < 4)%nat -> unsent g k -> gain_of (g_paths g) k = PInf.
Proof.
  intros G Hk U. destruct (nth_error (g_paths g) k) as [p|] eqn:Hp.
  2:{ apply nth_error_None in Hp. destruct (gs_list g G) as (? & ? & ? & ? & E & _). rewrite E in Hp. cbn in Hp. lia. }
  unfold gain_of. rewrite Hp. specialize (U p Hp). destruct (gs_good g k p G Hp) as ((_ & Va) & _). pose proof G as [[IV SA] _ _].
  destruct (sa_gains _ _ _ SA k p Hp) as [H|[_ H]]; [|congruence]. rewrite U in H. cbn in H. unfold g_distance_from_vacuous in H. rewrite Va in H. now injection H.
Qed.
Local Notation sepf := (graph_sep io (map (f_vars ops) qchain) (@all_evidence R None [])).
Lemma single_vars (l : list string) v : NoDup l -> (forall u, In u l <-> In u [v]) -> l = [v].
Proof. intros D H. apply Permutation_length_1_inv. apply NoDup_Permutation; [constructor; [intros []|constructor]|exact D|]. intros u. symmetry. apply H. Qed.
Definition one (x : R) : mat := Mat 1 1 (fun _ _ => x).
Lemma one_form v x e : can_form [v] (one x) (one 0) e = - / 2 * (x * (e v * e v)).
Proof.
  assert (D : NoDup [v]) by (constructor; [intros []|constructor]). unfold can_form. cbn [map].
  rewrite (named_entry_at (one x) _ 0 0 v v D), (named_coord_at (one 0) _ 0 v D) by reflexivity. unfold Rsum. cbn [fold_right ent one]. field.
Qed.
Lemma gs_close g k ij v k1 c1 k2 c2 : good_state g -> nth_error qedges k = Some ij -> sepf (fst ij) (snd ij) = Some [v] ->
  sentf g k (fun e => exp (- / 2 * (k1 * (e v * e v)) + c1)) -> nextf g k (fun e => exp (- / 2 * (k2 * (e v * e v)) + c2)) ->
  Rabs (k1 - k2) <= default_tol -> Rabs (c1 - c2) <= default_tol -> gain_of (g_paths g) k = Fin 0.
Proof.
  intros G Hk HS Hs Hn Ak Ac. destruct (gs_path g k ij G Hk) as (p & Hp & P1 & P2). destruct (Hs p Hp) as (m & Em & Vm). pose proof (Hn p Hp) as Vn.
  destruct (gs_good g k p G Hp) as (Gn & Gm). destruct (Gm m Em) as (G1 & C1 & Ev). pose proof G as [[IV SA] _ _].
  destruct (pi_prev _ _ _ _ _ _ _ _ _ _ IV k p m Hp Em) as (s & HS' & _ & V0). rewrite P1, P2, HS in HS'. injection HS' as <-.
  assert (D : NoDup [v]) by (constructor; [intros []|constructor]).
  pose proof G1 as ((W1 & _) & _). pose proof W1 as (D1 & _). pose proof (single_vars _ v D1 V0) as Es.
  assert (E0 : exists K h c, ga_can (m_fac m) = Some (K, h, Fin c) /\ symm K /\ nr K = 1%nat /\ forall e, gval (m_fac m) e = exp (can_form [v] K h e + c)).
  { destruct (ga_can (m_fac m)) as [[[K h] c]|] eqn:Ec; [|congruence]. destruct (gproper_form _ G1) as (fx & Kx & hx & cx & E & Sh & Y & F).
    rewrite (get_can_some _ K h c Ec) in E. injection E as <- <- <- ->. rewrite Es in Sh, F. exists K, h, cx. split; [reflexivity|]. split; [exact Y|]. split; [apply Sh|exact F]. }
  destruct E0 as (K & h & c & Ec & Y & N & F).
  assert (Y1 : forall x, symm (one x)) by (intros x i j _ _; reflexivity).
  destruct (params_unique [v] K h c (one k1) (one 0) c1 D N eq_refl Y (Y1 k1)) as (-> & EK & Eh).
  { intros e. apply exp_inv. rewrite <- F, Vm. f_equal. now rewrite one_form. }
  assert (Pt : 0 <= default_tol) by (unfold default_tol; lra).
  assert (Cl : forall x y, Rabs (x - y) <= default_tol -> close default_tol default_tol x y).
  { intros x y A. unfold close. pose proof (Rmult_le_pos _ _ Pt (Rabs_pos y)). lra. }
  destruct (close_functions (m_fac m) (m_fac (p_next p)) K h c1 (one k2) (one 0) c2 G1 Gn Ec Ev (Y1 k2)) as (f2' & E).
  - now rewrite Es.
  - intros e. rewrite Es, Vn. f_equal. now rewrite one_form.
  - now apply Cl.
  - rewrite Es. intros u w [<-|[]] [<-|[]]. rewrite (EK v v (or_introl eq_refl) (or_introl eq_refl)). rewrite !(named_entry_at _ _ 0 0 v v D) by reflexivity. now apply Cl.
  - rewrite Es. intros u [<-|[]]. rewrite (Eh v (or_introl eq_refl)). apply Cl. rewrite Rminus_diag_eq, Rabs_R0; [exact Pt|reflexivity].
  - unfold gain_of. rewrite Hp. destruct (sa_gains _ _ _ SA k p Hp) as [H|[H _]]; [|exact H]. unfold info_gain in H. rewrite Em in H.
    rewrite (kl_equal io _ _ f2' G1 Gn Ev E) in H. now injection H.
Qed.

(** * The messages *)
Lemma gs_msg g k ij kq S rem f : good_state g -> nth_error qedges k = Some ij -> nth_error qedges kq = Some (snd ij, fst ij) ->
  sepf (fst ij) (snd ij) = Some S -> nth_error qchain (fst ij) = Some f -> NoDup rem -> (forall v, In v rem <-> In v (ga_vars f) /\ ~ In v S) ->
  exists p q, nth_error (g_paths g) k = Some p /\ nth_error (g_paths g) kq = Some q /\
    forall e, iint rem (fun e' => gval f e' * Rprod (map (fun p => tox gval (fst ij) p e') (g_paths g))) e (gval (m_fac (p_next p)) e * pmsg gval q e).
Proof.
  intros G Hk Hkq HS Hf Hd Hr. destruct (gs_path g k ij G Hk) as (p & Hp & P1 & P2). pose proof G as [[IV SA] _ _].
  destruct (pnext ops gproper gsound gready gval pL io qchain None [] io_ok q_proper q_sound g k p IV (sa_fresh _ _ _ SA) Hp)
    as (s & c0 & c1 & f0 & q & k0 & HS' & Hc0 & _ & Hf0 & Hq & Q1 & Q2 & [_ _ _ (b & [B1 B2 B3] & Hb)]).
  rewrite P1, P2, HS in HS'. injection HS' as <-. rewrite P1 in Hf0, Hc0. rewrite Hf in Hf0. injection Hf0 as <-.
  destruct (gs_path g kq _ G Hkq) as (q' & Hq' & R1 & R2). cbn [fst snd] in R1, R2.
  assert (k0 = kq) by (apply (st_pair _ _ (sa_struct _ _ _ SA) k0 kq q q' Hq Hq'); congruence). subst k0.
  exists p, q. split; [exact Hp|]. split; [exact Hq|]. intros e.
  destruct (Hb rem Hd) as (_ & Hi). { intros v. rewrite B2, Hr. cbn. tauto. }
  destruct (pi_cl _ _ _ _ _ _ _ _ _ _ IV _ c0 Hc0) as (f1 & Hf1 & _ & _ & Pc). rewrite Hf in Hf1. injection Hf1 as <-.
  specialize (Hi e). revert Hi. apply iint_ext. intros e'. rewrite B3. exact (Pc e').
Qed.
Definition m0 (e : string -> R) : R := exp (- / 2 * (3 / 2 * (e "b" * e "b")) + / 2 * ln (2 * PI / 2)).
Definition mC (e : string -> R) : R := exp (- / 2 * (eps * (e "c" * e "c"))).
Definition m1 (e : string -> R) : R := exp (- / 2 * ((2 - / (2 + eps)) * (e "b" * e "b")) + / 2 * ln (2 * PI / (2 + eps))).
Lemma eps_pos : 0 < eps. Proof. unfold eps. lra. Qed.
Lemma int_bc e : is_int (fun t => gval (qm "b" "c") (setv e "c" t)) (m0 e).
Proof.
  unfold m0. pose proof (gauss_int_quad 2 (- e "b") (- (e "b" * e "b")) ltac:(lra)) as H.
  replace (exp (- / 2 * (3 / 2 * (e "b" * e "b")) + / 2 * ln (2 * PI / 2))) with (exp (- (e "b" * e "b") + / 2 * (- e "b" * - e "b" / 2) + / 2 * ln (2 * PI / 2))) by (f_equal; field).
  revert H. apply is_int_ext. intros t. rewrite qm_val by discriminate. rewrite setv_same, setv_other by discriminate. f_equal. field.
Qed.
Lemma int_bc_C e : is_int (fun t => gval (qm "b" "c") (setv e "c" t) * mC (setv e "c" t)) (m1 e).
Proof.
  unfold m1. pose proof eps_pos as Pe. pose proof (gauss_int_quad (2 + eps) (- e "b") (- (e "b" * e "b")) ltac:(lra)) as H.
  replace (exp (- / 2 * ((2 - / (2 + eps)) * (e "b" * e "b")) + / 2 * ln (2 * PI / (2 + eps)))) with (exp (- (e "b" * e "b") + / 2 * (- e "b" * - e "b" / (2 + eps)) + / 2 * ln (2 * PI / (2 + eps)))) by (f_equal; field; lra).
  revert H. apply is_int_ext. intros t. rewrite qm_val by discriminate. unfold mC. rewrite setv_same, setv_other by discriminate. rewrite <- exp_plus. f_equal. field.
Qed.
Lemma int_cd e : is_int (fun t => gval qc (setv e "d" t)) (mC e).
Proof.
  unfold mC. pose proof (gauss_int_quad 1 0 (- / 2 * (eps * (e "c" * e "c")) - / 2 * ln2pi) ltac:(lra)) as H.
  replace (exp (- / 2 * (eps * (e "c" * e "c")))) with (exp (- / 2 * (eps * (e "c" * e "c")) - / 2 * ln2pi + / 2 * (0 * 0 / 1) + / 2 * ln (2 * PI / 1))).
  2:{ unfold ln2pi. replace (2 * PI / 1) with (2 * PI) by field. f_equal. field. }
  revert H. apply is_int_ext. intros t. rewrite qc_val. rewrite setv_same, setv_other by discriminate. f_equal. ring.
Qed.
Lemma unsent_msg g k p e : unsent g k -> nth_error (g_paths g) k = Some p -> pmsg gval p e = 1.
Proof. intros U Hp. unfold pmsg. now rewrite (U p Hp). Qed.
Lemma sent_msg g k p e phi : sentf g k phi -> nth_error (g_paths g) k = Some p -> pmsg gval p e = phi e.
Proof. intros U Hp. unfold pmsg. destruct (U p Hp) as (m & -> & H). apply H. Qed.

Lemma first_next g : good_state g -> (forall k, unsent g k) -> nextf g 1 m0 /\ nextf g 3 mC.
Proof.
  intros G U. destruct (gs_list g G) as (p0 & p1 & p2 & p3 & E & _).
  assert (T : forall i e, Rprod (map (fun p => tox gval i p e) (g_paths g)) = 1).
  { intros i e. assert (Z : forall k p, nth_error (g_paths g) k = Some p -> tox gval i p e = 1).
    { intros k p Hp. unfold tox. rewrite (unsent_msg g k p e (U k) Hp). now destruct (Nat.eq_dec _ _). }
    rewrite E in *. cbn [map]. rewrite (Z 0%nat p0 eq_refl), (Z 1%nat p1 eq_refl), (Z 2%nat p2 eq_refl), (Z 3%nat p3 eq_refl). unfold Rprod. cbn. ring. }
  split.
  - intros p Hp e. destruct (gs_msg g 1 (1, 0)%nat 0 ["b"] ["c"] (qm "b" "c") G eq_refl eq_refl) as (p' & q & Hp' & Hq & HI); try reflexivity.
    + constructor; [intros []|constructor].
    + intros v. cbn. split; [intros [<-|[]]; split; [auto|intros [C|[]]; discriminate]|]. intros ([<-|[<-|[]]] & C); [destruct C; auto|auto].
    + rewrite Hp in Hp'. injection Hp' as <-. specialize (HI e). rewrite (unsent_msg g _ q e (U _) Hq), Rmult_1_r in HI.
      apply iint_one in HI. apply (is_int_unique _ _ _ HI). generalize (int_bc e). apply is_int_ext. intros t. now rewrite T, Rmult_1_r.
  - intros p Hp e. destruct (gs_msg g 3 (2, 1)%nat 2 ["c"] ["d"] qc G eq_refl eq_refl) as (p' & q & Hp' & Hq & HI); try reflexivity.
    + constructor; [intros []|constructor].
    + intros v. cbn. split; [intros [<-|[]]; split; [auto|intros [C|[]]; discriminate]|]. intros ([<-|[<-|[]]] & C); [destruct C; auto|auto].
    + rewrite Hp in Hp'. injection Hp' as <-. specialize (HI e). rewrite (unsent_msg g _ q e (U _) Hq), Rmult_1_r in HI.
      apply iint_one in HI. apply (is_int_unique _ _ _ HI). generalize (int_cd e). apply is_int_ext. intros t. now rewrite T, Rmult_1_r.
Qed.
Lemma last_next g : good_state g -> sentf g 3 mC -> nextf g 1 m1.
Proof.
  intros G S3 p Hp e. destruct (gs_list g G) as (p0 & p1 & p2 & p3 & E & A0 & B0 & A1 & B1 & A2 & B2 & A3 & B3).
  destruct (gs_msg g 1 (1, 0)%nat 0 ["b"] ["c"] (qm "b" "c") G eq_refl eq_refl) as (p' & q & Hp' & Hq & HI); try reflexivity.
  - constructor; [intros []|constructor].
  - intros v. cbn. split; [intros [<-|[]]; split; [auto|intros [C|[]]; discriminate]|]. intros ([<-|[<-|[]]] & C); [destruct C; auto|auto].
  - rewrite Hp in Hp'. injection Hp' as <-. pose proof G as [[IV SA] _ _].
    assert (Eq : q = p0) by (rewrite E in Hq; now injection Hq as ->). subst q.
    assert (X : 0 < pmsg gval p0 e /\ forall t, pmsg gval p0 (setv e "c" t) = pmsg gval p0 e).
    { unfold pmsg. destruct (p_prev p0) as [m|] eqn:Em; [|split; [lra|reflexivity]].
      destruct (pi_prev _ _ _ _ _ _ _ _ _ _ IV 0%nat p0 m Hq Em) as (s & HS & Gm & Vm). rewrite A0, B0 in HS. change (Some ["b"] = Some s) in HS. injection HS as <-.
      split; [exact (pl_pos _ _ _ _ _ pL _ e Gm)|]. intros t. apply (pl_ext _ _ _ _ _ pL _ _ _ Gm). intros v Hv. apply Vm in Hv. destruct Hv as [<-|[]]. now rewrite setv_other by discriminate. }
    destruct X as (X1 & X2). specialize (HI e). apply iint_one in HI.
    assert (T : forall e, Rprod (map (fun p => tox gval 1 p e) (g_paths g)) = pmsg gval p0 e * mC e).
    { intros e'. assert (H3 : pmsg gval p3 e' = mC e') by (apply (sent_msg g 3 p3 e' mC S3); rewrite E; reflexivity).
      rewrite E. cbn [map]. unfold tox. rewrite B0, B1, B2, B3, H3. unfold Rprod. cbn. ring. }
    assert (Y : gval (m_fac (p_next p)) e * pmsg gval p0 e = pmsg gval p0 e * m1 e).
    { apply (is_int_unique _ _ _ HI). generalize (is_int_scal (pmsg gval p0 e) _ _ (int_bc_C e)). apply is_int_ext. intros t. cbn [fst]. rewrite T, X2. ring. }
    apply (Rmult_eq_reg_r (pmsg gval p0 e)); [|lra]. rewrite Y. ring.
Qed.

(** * The run *)
Lemma close_K : Rabs (3 / 2 - (2 - / (2 + eps))) <= default_tol.
Proof.
  unfold default_tol, eps. replace (3 / 2 - (2 - / (2 + 1 / 10000))) with (- (1 / 40002)) by field. rewrite Rabs_Ropp, Rabs_right; lra.
Qed.
Lemma close_g : Rabs (/ 2 * ln (2 * PI / 2) - / 2 * ln (2 * PI / (2 + eps))) <= default_tol.
Proof.
  pose proof PI_RGT_0 as HPi. pose proof eps_pos as Pe.
  assert (E : / 2 * ln (2 * PI / 2) - / 2 * ln (2 * PI / (2 + eps)) = / 2 * ln (1 + eps / 2)).
  { replace (2 * PI / 2) with ((2 * PI / (2 + eps)) * (1 + eps / 2)) by (field; lra). rewrite ln_mult; [ring|apply Rdiv_lt_0_compat; lra|lra]. }
  rewrite E. assert (L0 : 0 < ln (1 + eps / 2)) by (rewrite <- ln_1; apply ln_increasing; lra).
  assert (L1 : ln (1 + eps / 2) <= eps / 2).
  { rewrite <- (ln_exp (eps / 2)) at 2. apply Rlt_le, ln_increasing; [lra|]. apply exp_ineq1. lra. }
  rewrite Rabs_right by lra. unfold default_tol. unfold eps in L1 at 2. lra.
Qed.
Lemma vltb_zero : vltb (Fin 0) (Fin 0) = false.
Proof. cbn. unfold Rlt_b. destruct (Rlt_dec 0 0); [lra|reflexivity]. Qed.
Lemma vleb_zero : vleb (Fin 0) (Fin 0) = true.
Proof. unfold vleb. cbn. unfold Rlt_b, Req_b. destruct (Rlt_dec 0 0); [reflexivity|]. destruct (Req_EM_T 0 0); [reflexivity|lra]. Qed.

Lemma loop_step g k rest g' n : process_loop ops 0 (S n) g = Ok g' -> g_order g = k :: rest ->
  exists g1 gain, step_ok ops g k g1 gain /\ (if vleb gain (Fin 0) then g' = g1 else process_loop ops 0 n g1 = Ok g').
Proof.
  intros H Ho. cbn [process_loop] in H. apply bind_ok in H. destruct H as ([g1 gain] & H1 & H). cbn [fst snd] in H.
  destruct (process_step_ok ops g g1 gain H1) as (k' & K). destruct (sk_head _ _ _ _ _ K) as (r & E). rewrite Ho in E. injection E as <- <-.
  exists g1, gain. split; [exact K|]. destruct (vleb gain (Fin 0)); [now injection H|exact H].
Qed.
Lemma step_gain g k g1 gain l : step_ok ops g k g1 gain -> sort_desc vltb (gain_of (g_paths g1)) (g_order g) = l ->
  g_order g1 = l /\ forall k' r, l = k' :: r -> gain = gain_of (g_paths g1) k'.
Proof.
  intros K <-. split; [exact (sk_order _ _ _ _ _ K)|]. intros k' r E. destruct (sk_gain _ _ _ _ _ K) as (k2 & r2 & E2 & ->).
  rewrite (sk_order _ _ _ _ _ K), E in E2. now injection E2 as <- _.
Qed.

Section Run.
Context (g0 : cgraph gauss R).
Hypothesis Hmk : mk_graph ops io qchain None [] = Ok g0.

Lemma q_start : good_state (sort_paths (reset_dists g0)) /\ (forall k, unsent (sort_paths (reset_dists g0)) k) /\ g_order g0 = [0; 1; 2; 3]%nat.
Proof.
  destruct (mk_graph_made _ io qchain None [] g0 io_ok Hmk) as (reduced & final & M). destruct q_made as (gx & Hx & _ & _ & red & Mx).
  rewrite Hmk in Hx. injection Hx as <-. clear M reduced final.
  pose proof (plive_init ops gproper gsound gready gval io qchain None [] q_proper qchain red g0 Mx) as LV.
  assert (U : forall k, unsent g0 k) by (intros k p Hp; apply (mk_path _ _ _ _ _ _ _ _ Mx k p Hp)).
  split; [|split; [exact U|]].
  - split; [exact (plive_sort ops gproper gsound gready gval io qchain None [] g0 LV)|exact (q_edges g0 Hmk)|]. intros k p m Hp Hm. rewrite (U k p Hp) in Hm. discriminate.
  - rewrite (mk_order _ _ _ _ _ _ _ _ Mx). replace (length (g_paths g0)) with 4%nat; [reflexivity|].
    transitivity (length (pedges g0)); [rewrite (q_edges g0 Hmk); reflexivity|unfold pedges; now rewrite map_length].
Qed.
Lemma q_run n g' : (0 < n)%nat -> process_graph ops 0 n g0 = Ok g' -> good_state g' /\ sentf g' 1 m0 /\ nextf g' 1 m1 /\
  length (g_dists g') = 4%nat /\ forall k, (k < length (g_paths g'))%nat -> gain_of (g_paths g') k = Fin 0.
Proof.
  intros Hn H. destruct q_start as (G0 & U0 & Ord). destruct q_made as (gx & Hx & _ & Hl & _). rewrite Hmk in Hx. injection Hx as <-.
  unfold process_graph in H. cbn zeta in H. change (g_cl (reset_dists g0)) with (g_cl g0) in H. change (g_order (reset_dists g0)) with (g_order g0) in H.
  destruct (g_cl g0) as [|c0 [|c1 cs]] eqn:Ec; [discriminate Hl|discriminate Hl|]. rewrite Ord in H. cbn [length] in H.
  replace (n * 4)%nat with (S (S (S (S (4 * (n - 1))))))%nat in H by lia.
  set (s0 := sort_paths (reset_dists g0)) in *. destruct (first_next s0 G0 U0) as (N1 & N3).
  assert (O0 : g_order s0 = [0; 1; 2; 3]%nat).
  { change (sort_desc vltb (gain_of (g_paths s0)) (g_order g0) = [0; 1; 2; 3]%nat). rewrite Ord.
    assert (I : forall k, (k < 4)%nat -> gain_of (g_paths s0) k = PInf) by (intros k Hk; exact (gs_unsent s0 k G0 Hk (U0 k))).
    pose proof (I 0%nat ltac:(lia)) as I0. pose proof (I 1%nat ltac:(lia)) as I1. pose proof (I 2%nat ltac:(lia)) as I2. pose proof (I 3%nat ltac:(lia)) as I3.
    unfold sort_desc. cbn [fold_right insert_desc]. repeat (rewrite ?I0, ?I1, ?I2, ?I3; cbn [vltb insert_desc]). reflexivity. }
  (* 0 -> 1 *)
  destruct (loop_step s0 0 _ g' _ H O0) as (s1 & d1 & K1 & H1). destruct (gs_step _ _ _ _ G0 K1) as (_ & _ & _ & _ & _ & G1 & _).
  pose proof (st_quiet_self _ _ _ _ G0 K1) as Q10.
  pose proof (st_unsent _ _ _ _ G0 K1 1%nat ltac:(lia) (U0 1%nat)) as U11. pose proof (st_unsent _ _ _ _ G0 K1 2%nat ltac:(lia) (U0 2%nat)) as U12.
  pose proof (st_unsent _ _ _ _ G0 K1 3%nat ltac:(lia) (U0 3%nat)) as U13.
  pose proof (st_next _ _ _ _ G0 K1 (0, 1)%nat (1, 0)%nat 1%nat eq_refl eq_refl m0 (or_intror eq_refl) N1) as N11.
  pose proof (st_next _ _ _ _ G0 K1 (0, 1)%nat (2, 1)%nat 3%nat eq_refl eq_refl mC ltac:(left; cbn; lia) N3) as N13.
  pose proof (gs_quiet s1 0 G1 ltac:(lia) Q10) as A0. pose proof (gs_unsent s1 1 G1 ltac:(lia) U11) as A1. pose proof (gs_unsent s1 2 G1 ltac:(lia) U12) as A2. pose proof (gs_unsent s1 3 G1 ltac:(lia) U13) as A3.
  destruct (step_gain _ _ _ _ [1; 2; 3; 0]%nat K1) as (O1 & E1).
  { rewrite O0. unfold sort_desc. cbn [fold_right insert_desc]. repeat (rewrite ?A0, ?A1, ?A2, ?A3, ?vltb_zero; cbn [vltb insert_desc]). reflexivity. }
  rewrite (E1 _ _ eq_refl), A1 in H1. cbn [vleb] in H1. change (process_loop ops 0 (S (S (S (4 * (n - 1))))) s1 = Ok g') in H1. clear A0 A1 A2 A3 E1.
  (* 1 -> 0 *)
  destruct (loop_step s1 1 _ g' _ H1 O1) as (s2 & d2 & K2 & H2). destruct (gs_step _ _ _ _ G1 K2) as (_ & _ & _ & _ & _ & G2 & _).
  pose proof (st_quiet_self _ _ _ _ G1 K2) as Q21. pose proof (st_self _ _ _ _ G1 K2 m0 N11) as S21.
  pose proof (st_quiet _ _ _ _ G1 K2 (1, 0)%nat (0, 1)%nat 0%nat eq_refl eq_refl (or_intror eq_refl) Q10) as Q20.
  pose proof (st_unsent _ _ _ _ G1 K2 2%nat ltac:(lia) U12) as U22. pose proof (st_unsent _ _ _ _ G1 K2 3%nat ltac:(lia) U13) as U23.
  pose proof (st_next _ _ _ _ G1 K2 (1, 0)%nat (2, 1)%nat 3%nat eq_refl eq_refl mC ltac:(left; cbn; lia) N13) as N23.
  pose proof (gs_quiet s2 0 G2 ltac:(lia) Q20) as A0. pose proof (gs_quiet s2 1 G2 ltac:(lia) Q21) as A1. pose proof (gs_unsent s2 2 G2 ltac:(lia) U22) as A2. pose proof (gs_unsent s2 3 G2 ltac:(lia) U23) as A3.
  destruct (step_gain _ _ _ _ [2; 3; 1; 0]%nat K2) as (O2 & E2).
  { rewrite O1. unfold sort_desc. cbn [fold_right insert_desc]. repeat (rewrite ?A0, ?A1, ?A2, ?A3, ?vltb_zero; cbn [vltb insert_desc]). reflexivity. }
  rewrite (E2 _ _ eq_refl), A2 in H2. change (process_loop ops 0 (S (S (4 * (n - 1)))) s2 = Ok g') in H2. clear A0 A1 A2 A3 E2.
  (* 1 -> 2 *)
  destruct (loop_step s2 2 _ g' _ H2 O2) as (s3 & d3 & K3 & H3). destruct (gs_step _ _ _ _ G2 K3) as (_ & _ & _ & _ & _ & G3 & _).
  pose proof (st_quiet_self _ _ _ _ G2 K3) as Q32. pose proof (st_sent _ _ _ _ G2 K3 1%nat m0 ltac:(lia) S21) as S31.
  pose proof (st_quiet _ _ _ _ G2 K3 (1, 2)%nat (0, 1)%nat 0%nat eq_refl eq_refl ltac:(left; cbn; lia) Q20) as Q30.
  pose proof (st_quiet _ _ _ _ G2 K3 (1, 2)%nat (1, 0)%nat 1%nat eq_refl eq_refl ltac:(left; cbn; lia) Q21) as Q31.
  pose proof (st_unsent _ _ _ _ G2 K3 3%nat ltac:(lia) U23) as U33.
  pose proof (st_next _ _ _ _ G2 K3 (1, 2)%nat (2, 1)%nat 3%nat eq_refl eq_refl mC (or_intror eq_refl) N23) as N33.
  pose proof (gs_quiet s3 0 G3 ltac:(lia) Q30) as A0. pose proof (gs_quiet s3 1 G3 ltac:(lia) Q31) as A1. pose proof (gs_quiet s3 2 G3 ltac:(lia) Q32) as A2. pose proof (gs_unsent s3 3 G3 ltac:(lia) U33) as A3.
  destruct (step_gain _ _ _ _ [3; 2; 1; 0]%nat K3) as (O3 & E3).
  { rewrite O2. unfold sort_desc. cbn [fold_right insert_desc]. repeat (rewrite ?A0, ?A1, ?A2, ?A3, ?vltb_zero; cbn [vltb insert_desc]). reflexivity. }
  rewrite (E3 _ _ eq_refl), A3 in H3. change (process_loop ops 0 (S (4 * (n - 1))) s3 = Ok g') in H3. clear A0 A1 A2 A3 E3.
  (* 2 -> 1 *)
  destruct (loop_step s3 3 _ g' _ H3 O3) as (s4 & d4 & K4 & H4). destruct (gs_step _ _ _ _ G3 K4) as (_ & _ & _ & _ & _ & G4 & _).
  pose proof (st_quiet_self _ _ _ _ G3 K4) as Q43. pose proof (st_self _ _ _ _ G3 K4 mC N33) as S43. pose proof (st_sent _ _ _ _ G3 K4 1%nat m0 ltac:(lia) S31) as S41.
  pose proof (st_quiet _ _ _ _ G3 K4 (2, 1)%nat (0, 1)%nat 0%nat eq_refl eq_refl ltac:(left; cbn; lia) Q30) as Q40.
  pose proof (st_quiet _ _ _ _ G3 K4 (2, 1)%nat (1, 2)%nat 2%nat eq_refl eq_refl (or_intror eq_refl) Q32) as Q42.
  pose proof (last_next s4 G4 S43) as N41.
  pose proof (gs_quiet s4 0 G4 ltac:(lia) Q40) as A0. pose proof (gs_quiet s4 2 G4 ltac:(lia) Q42) as A2. pose proof (gs_quiet s4 3 G4 ltac:(lia) Q43) as A3.
  pose proof (gs_close s4 1 (1, 0)%nat "b" _ _ _ _ G4 eq_refl eq_refl S41 N41 close_K close_g) as A1.
  destruct (step_gain _ _ _ _ [3; 2; 1; 0]%nat K4) as (O4 & E4).
  { rewrite O3. unfold sort_desc. cbn [fold_right insert_desc]. repeat (rewrite ?A0, ?A1, ?A2, ?A3, ?vltb_zero; cbn [vltb insert_desc]). reflexivity. }
  rewrite (E4 _ _ eq_refl), A3, vleb_zero in H4. subst g'. split; [exact G4|]. split; [exact S41|]. split; [exact N41|]. split.
  - rewrite (sk_dists _ _ _ _ _ K4), (sk_dists _ _ _ _ _ K3), (sk_dists _ _ _ _ _ K2), (sk_dists _ _ _ _ _ K1). reflexivity.
  - destruct (gs_list s4 G4) as (p0 & p1 & p2 & p3 & E & _). intros k Hk. rewrite E in Hk. cbn in Hk. destruct k as [|[|[|[|k]]]]; [exact A0|exact A1|exact A2|exact A3|lia].
Qed.
End Run.

(** * The answer *)
Lemma no_evidence vs : @subset_evidence R [] vs = ([], []).
Proof. unfold subset_evidence. replace (flat_map _ vs) with (@nil (string * R)); [reflexivity|]. induction vs as [|v vs IH]; [reflexivity|exact IH]. Qed.
Lemma q_answer g res : good_state g -> g_spec g = [] -> sentf g 1 m0 -> get_marginal ops g ["a"; "b"] = Ok res -> forall e, gval res e = gval (qm "a" "b") e * m0 e.
Proof.
  intros G Hsp S1 H e. pose proof G as [[IV SA] _ _]. destruct (gs_list g G) as (p0 & p1 & p2 & p3 & E & A0 & B0 & A1 & B1 & A2 & B2 & A3 & B3).
  unfold get_marginal in H. destruct (find _ (g_cl g)) as [c|] eqn:Ef; [|discriminate]. apply find_some in Ef. destruct Ef as (Hc & Hsub). apply subsetb_incl in Hsub.
  apply In_nth_error in Hc. destruct Hc as (i & Hi). destruct (pi_cl _ _ _ _ _ _ _ _ _ _ IV i c Hi) as (f & Hf & _ & (Gc & Vc) & Pc).
  assert (i = 0%nat).
  { destruct i as [|[|[|i]]]; [reflexivity| | |destruct i; discriminate Hf]; injection Hf as <-;
      (assert (X : In "a" (ga_vars (cl_fac c))) by (apply Hsub; now left)); apply Vc in X; cbn in X; exfalso; intuition discriminate. }
  subst i. injection Hf as <-. rewrite Hsp, no_evidence in H. cbn [length Nat.ltb Nat.leb bind] in H.
  destruct (pl_marg _ _ _ _ _ pL (cl_fac c) ["a"; "b"] res Gc (proj2 Gc)) as (_ & _ & HI); [discriminate|apply nd2; discriminate|exact Hsub|exact H|].
  destruct (HI []) as (_ & HI2); [constructor|intros v; split; [intros []|intros (X & Y); apply Y; now apply Vc]|].
  rewrite (HI2 e), Pc. f_equal. rewrite E. cbn [map]. unfold tox. rewrite B0, B1, B2, B3. unfold Rprod. cbn.
  rewrite (sent_msg g 1 p1 e m0 S1) by (rewrite E; reflexivity). ring.
Qed.
Lemma q_truth e : iint ["c"; "d"] (fun e' => Rprod (map (fun f => gval f e') qchain)) e (gval (qm "a" "b") e * m1 e).
Proof.
  exists (fun t => gval (qm "a" "b") e * (gval (qm "b" "c") (setv e "c" t) * mC (setv e "c" t))). split.
  - intros t. apply iint_one. set (e1 := setv e "c" t).
    replace (gval (qm "a" "b") e * (gval (qm "b" "c") e1 * mC e1)) with ((gval (qm "a" "b") e * gval (qm "b" "c") e1) * mC e1) by ring.
    generalize (is_int_scal (gval (qm "a" "b") e * gval (qm "b" "c") e1) _ _ (int_cd e1)). apply is_int_ext. intros d. unfold qchain. cbn [map]. unfold Rprod. cbn [fold_right].
    rewrite !qm_val by discriminate. replace (setv e1 "d" d "a") with (e "a") by reflexivity. replace (setv e1 "d" d "b") with (e "b") by reflexivity.
    replace (setv e1 "d" d "c") with (e1 "c") by reflexivity. replace (e1 "b") with (e "b") by reflexivity. ring.
  - exact (is_int_scal _ _ _ (int_bc_C e)).
Qed.
Lemma q_stale : exists g0, (forall f, In f qchain -> def_gauss f) /\ mk_graph ops io qchain None [] = Ok g0 /\ tree_shaped g0 /\ length (g_cl g0) = 3%nat /\
  forall n, (0 < n)%nat -> exists g res, process_graph ops 0 n g0 = Ok g /\ length (g_dists g) = 4%nat /\
    (forall k, (k < length (g_paths g))%nat -> gain_of (g_paths g) k = Fin 0) /\ get_marginal ops g ["a"; "b"] = Ok res /\
    NoDup ["c"; "d"] /\ (forall v, In v ["c"; "d"] <-> (exists f, In f qchain /\ In v (ga_vars f)) /\ ~ In v ["a"; "b"]) /\
    forall k, exists e, ~ iint ["c"; "d"] (fun e' => Rprod (map (fun f => gval f e') qchain)) e (k * gval res e).
Proof.
  destruct q_made as (g0 & H & TR & Hl & red & M). exists g0. split; [exact qchain_def|]. split; [exact H|]. split; [exact TR|]. split; [exact Hl|].
  intros n Hn. destruct (gnever_fails io qchain None [] io_ok qchain_def g0 H g0 (hi_init _ _)) as (_ & HP & _).
  destruct (HP 0 n) as (g & Hg); [constructor|intros c Ec; rewrite Ec in Hl; discriminate|].
  destruct (q_run g0 H n g Hn Hg) as (G & S1 & _ & Hd & HG).
  assert (Hh : history ops g0 g) by (eapply hi_process; [apply hi_init|left; rewrite Hl; discriminate|exact Hg]).
  destruct (ganswer io qchain None [] io_ok qchain_def g0 H g ["a"; "b"] Hh) as (res & Hr); [discriminate|apply nd2; discriminate|intros v _ []| |].
  { pose proof G as [[IV SA] _ _]. pose proof (pi_len _ _ _ _ _ _ _ _ _ _ IV) as Hlen. destruct (nth_error (g_cl g) 0) as [c|] eqn:E.
    - exists c. split; [exact (nth_error_In _ _ E)|]. destruct (pi_cl _ _ _ _ _ _ _ _ _ _ IV 0%nat c E) as (f & Hf & _ & (_ & V) & _). injection Hf as <-. intros v Hv. now apply V.
    - apply nth_error_None in E. rewrite Hlen in E. cbn in E. lia. }
  exists g, res. split; [exact Hg|]. split; [exact Hd|]. split; [exact HG|]. split; [exact Hr|]. split; [apply nd2; discriminate|]. split.
  { intros v. split.
    - intros Hv. split; [exists qc; split; [right; right; left; reflexivity|exact Hv]|]. destruct Hv as [<-|[<-|[]]]; cbn; intuition discriminate.
    - intros ((f & [<-|[<-|[<-|[]]]] & Hv) & N); cbn in Hv, N |- *; intuition. }
  destruct (history_static ops _ _ _ _ _ _ _ _ M Hh) as (_ & Hsp & _).
  assert (V : forall e, gval res e = gval (qm "a" "b") e * m0 e) by (apply (q_answer g res G Hsp S1 Hr)).
  intros k.
  assert (Z : forall e, iint ["c"; "d"] (fun e' => Rprod (map (fun f => gval f e') qchain)) e (k * gval res e) -> k * m0 e = m1 e).
  { intros e HI. pose proof (iint_unique _ _ _ _ _ HI (q_truth e)) as X. rewrite V, qm_val in X by discriminate.
    set (a := exp _) in X. assert (0 < a) by apply exp_pos. apply (Rmult_eq_reg_l a); [|lra]. lra. }
  destruct (Req_EM_T (k * m0 (fun _ => 0)) (m1 (fun _ => 0))) as [E0|N0]; [|exists (fun _ => 0); intros HI; exact (N0 (Z _ HI))].
  exists (fun _ => 1). intros HI. apply Z in HI. unfold m0, m1 in E0, HI. rewrite !Rmult_0_r, !Rplus_0_l in E0. rewrite !Rmult_1_r, !exp_plus, <- E0 in HI.
  assert (P0 : 0 < exp (/ 2 * ln (2 * PI / 2))) by apply exp_pos.
  assert (Kp : 0 < k). { pose proof (exp_pos (/ 2 * ln (2 * PI / (2 + eps)))) as P. rewrite <- E0 in P. nra. }
  assert (C : exp (- / 2 * (3 / 2)) = exp (- / 2 * (2 - / (2 + eps)))).
  { apply (Rmult_eq_reg_r (k * exp (/ 2 * ln (2 * PI / 2)))); [|nra]. lra. }
  apply exp_inv in C. unfold eps in C. assert (X : / (2 + 1 / 10000) = 10000 / 20001) by field. rewrite X in C. lra.
Qed.
