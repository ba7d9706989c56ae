(** The joint distribution of a nonlinear Gaussian whose transform is affine. *)
From Coq Require Import FunctionalExtensionality.
From Verif Require Export NlgFacts.
Local Open Scope string_scope.
Local Open Scope list_scope.
Local Open Scope R_scope.

(** The transform reads its rows by name, and maps x to A x + b. *)
Definition affine_by_name (T : mat -> list string -> res mat) (cing cal : list string) (A : string -> string -> R) (b : string -> R) : Prop :=
  forall X names, Permutation names cing -> nr X = length names ->
    exists Y, T X names = Ok Y /\
      meq Y (Mat (length cal) (nc X) (fun i k => rsum (length names) (fun l => A (nth i cal "") (nth l names "") * ent X l k) + b (nth i cal ""))).
(** The mean of the conditional variables, and the density of the noise. *)
Definition cond_mean (A : string -> string -> R) (b : string -> R) (cing cal : list string) (e : string -> R) : mat :=
  Mat (length cal) 1 (fun i _ => Rsum (map (fun v => A (nth i cal "") v * e v) cing) + b (nth i cal "")).
Definition noise_lp (f : nlg) (A : string -> string -> R) (b : string -> R) (e : string -> R) : res val :=
  lp (cov_obj (nl_cal f) (nl_Q f, cond_mean A b (nl_cing f) (nl_cal f) e, nl_w f)) e.
Definition obeys (ev : dict string R) (e : string -> R) : Prop := forall v x, dget ev v = Some x -> e v = x.
Definition upd_ok (f : nlg) : Prop :=
  match nl_upd f with None => True | Some u => wf_gauss u /\ sym_prec u /\ incl (ga_vars u) (nl_cal f) end.
Definition upd_lp (f : nlg) (e : string -> R) : res val := match nl_upd f with None => Ok (Fin 0) | Some u => lp u e end.
(** A well formed object with an affine transform. *)
Definition nl_ok (f : nlg) (A : string -> string -> R) (b : string -> R) : Prop :=
  NoDup (nl_vars f) /\ nl_cal f <> [] /\ nr (nl_Q f) = length (nl_cal f) /\ nc (nl_Q f) = length (nl_cal f) /\ posdef (nl_Q f) /\
  affine_by_name (nl_T f) (nl_cing f) (nl_cal f) A b /\ NoDup (dkeys (nl_ev f)) /\ upd_ok f.
(** Every conditioning variable has a distribution or a value, and one is not observed. *)
Definition informed (f : nlg) (c : gauss) : Prop :=
  solid c /\ incl (ga_vars c) (nl_cing f) /\ (forall v, In v (nl_cing f) -> In v (ga_vars c) \/ In v (dkeys (nl_ev f))) /\
  ~ incl (ga_vars c) (dkeys (nl_ev f)).

Definition evv (ev : dict string R) (v : string) : R := match dget ev v with Some x => x | None => 0 end.
Lemma mapM_evv ev l : incl l (dkeys ev) -> mapM (dget_r ev) l = Ok (map (evv ev) l).
Proof.
  induction l as [|v l IH]; intros H; [reflexivity|]. cbn [mapM map]. unfold dget_r at 1, evv at 1.
  destruct (In_dkeys_dget ev v (H v (or_introl eq_refl))) as (x & ->). cbn [bind]. rewrite IH by (intros u Hu; apply H; now right). reflexivity.
Qed.
Lemma obeys_map ev e l : obeys ev e -> incl l (dkeys ev) -> map e l = map (evv ev) l.
Proof.
  intros Ho H. apply map_ext_in. intros v Hv. unfold evv. destruct (In_dkeys_dget ev v (H v Hv)) as (x & E). rewrite E. now apply Ho.
Qed.
Lemma copy_solid_lp c : solid c -> exists d, g_copy c = Ok d /\ solid d /\ ga_vars d = ga_vars c /\ forall e, lp d e = lp c e.
Proof.
  intros Sc. destruct (solid_copy c Sc) as (d & E & Sd & V). exists d. split; [exact E|]. split; [exact Sd|]. split; [exact V|].
  intros e. apply same_obj_lp'. apply copy_same; [apply Sc|exact E].
Qed.
Lemma filter_NoDup (p : string -> bool) l : NoDup l -> NoDup (filter p l).
Proof. apply NoDup_filter. Qed.
(** The order of the variables. *)
Definition corder (o : oracle) (cvars : list string) (ev : dict string R) : list string :=
  let vrs := so o (set_inter (dkeys ev) cvars) in if Nat.ltb 0 (length vrs) then ssort (set_diff cvars vrs) else cvars.
Definition jorder (o : oracle) (cvars cal : list string) (ev : dict string R) : list string :=
  let l := corder o cvars ev ++ cal in let y := filter (fun v => mem v cal) (dkeys ev) in if Nat.ltb 0 (length y) then ssort (set_diff l y) else l.
Lemma cond_reduced_strong o c ev : oracle_ok o -> solid c -> NoDup (dkeys ev) -> ~ incl (ga_vars c) (dkeys ev) ->
  exists r, cond_reduced o c ev = Ok r /\ ga_vars r = corder o (ga_vars c) ev /\ solid r /\ (forall v, In v (ga_vars r) <-> In v (ga_vars c) /\ ~ In v (dkeys ev)) /\
    forall e, obeys ev e -> lp r e = lp c e.
Proof.
  intros Ho Sc Hd Hn. destruct (copy_solid_lp c Sc) as (d & E & Sd & V & L). unfold cond_reduced. rewrite E. cbn [bind].
  set (l := set_inter (dkeys ev) (ga_vars d)).
  assert (Dl : NoDup l) by now apply NoDup_set_inter. pose proof (proj1 Ho l Dl) as HP. set (vrs := so o l) in *.
  assert (Iv : forall v, In v vrs <-> In v (dkeys ev) /\ In v (ga_vars c)).
  { intros v. rewrite <- V. unfold vrs. rewrite <- (In_set_inter v (dkeys ev) (ga_vars d)). split; intros Hv; [exact (Permutation_in _ (Permutation_sym HP) Hv)|exact (Permutation_in _ HP Hv)]. }
  assert (Dv : NoDup vrs) by exact (Permutation_NoDup HP Dl).
  assert (I1 : incl vrs (dkeys ev)) by (intros v Hv; now apply Iv). assert (I2 : incl vrs (ga_vars d)) by (intros v Hv; rewrite V; now apply Iv).
  rewrite (mapM_evv ev vrs I1). cbn [bind]. destruct (Nat.ltb_spec 0 (length vrs)) as [H|H].
  - destruct (reduce_solid d vrs (map (evv ev) vrs) Sd Dv I2) as (r & Er & Sr & Vr & Lr); [|apply map_length|].
    { rewrite V. intros C. apply Hn. intros v Hv. apply Iv. now apply C. }
    exists r. split; [exact Er|]. split; [rewrite Vr; unfold rest, corder; rewrite <- V; fold l; fold vrs; now rewrite (proj2 (Nat.ltb_lt _ _) H)|]. split; [exact Sr|]. split.
    + intros v. rewrite Vr, rest_In, V, Iv. split; [intros (H1 & H2)|intros (H1 & H2)]; split; try exact H1; tauto.
    + intros e He. rewrite Lr by now apply obeys_map. apply L.
  - exists d. split; [reflexivity|]. split; [unfold corder; rewrite <- V; fold l; fold vrs; now rewrite (proj2 (Nat.ltb_ge _ _) H)|]. split; [exact Sd|]. split; [|intros e _; apply L]. intros v. rewrite V. split; [|tauto]. intros Hv. split; [exact Hv|].
    intros Hk. assert (In v vrs) as HC by (apply Iv; now split). destruct vrs; [exact HC|cbn in H; lia].
Qed.

Lemma noise_blocks A b C m Q Cj mj xs ys : nc A = length xs -> nr A = length ys -> NoDup (xs ++ ys) -> nr Q = length ys -> nc Q = length ys ->
  joint_blocks A b C m Cj mj ->
  exists J, indexed_square_matrix_operation Cj Q (xs ++ ys) ys Rplus = Ok (J, xs ++ ys) /\
    lin_blocks (length xs) (length ys) A C Q J /\ nc J = (length xs + length ys)%nat /\ mean_blocks (length xs) (length ys) A b m mj.
Proof.
  intros A2 A1 Hd Q1 Q2 (H1 & H2 & H3 & H4 & H5 & H6 & H7 & H8 & H9 & H10). rewrite A1, A2 in *.
  assert (L : length (xs ++ ys) = (length xs + length ys)%nat) by apply app_length.
  unfold indexed_square_matrix_operation. rewrite H1, H2, Q1, Q2, L, !Nat.eqb_refl. cbn [py_assert bind].
  assert (NV : new_vars (xs ++ ys) ys = xs ++ ys).
  { unfold new_vars. rewrite (proj2 (subsetb_incl ys (xs ++ ys))); [reflexivity|]. intros v Hv. apply in_or_app. now right. }
  rewrite NV. eexists. split; [reflexivity|].
  pose proof (NoDup_app_tail _ _ Hd) as Dy.
  assert (P : forall i, (i < length xs + length ys)%nat -> index_opt (nth i (xs ++ ys) "") (xs ++ ys) = Some i).
  { intros i Hi. apply index_opt_nth_NoDup; [exact Hd|]. apply nth_error_nth'. now rewrite L. }
  assert (Z : forall i, (i < length xs)%nat -> index_opt (nth i (xs ++ ys) "") ys = None).
  { intros i Hi. rewrite app_nth1 by exact Hi. destruct (index_opt (nth i xs "") ys) as [k|] eqn:E; [|reflexivity].
    exfalso. apply index_opt_nth, nth_error_In in E. apply (proj2 (proj2 (NoDup_app_elim xs ys Hd)) (nth i xs "")); [now apply nth_In|exact E]. }
  assert (N : forall i, (i < length ys)%nat -> index_opt (nth (length xs + i) (xs ++ ys) "") ys = Some i).
  { intros i Hi. rewrite app_nth2 by lia. replace (length xs + i - length xs)%nat with i by lia. apply index_opt_nth_NoDup; [exact Dy|]. now apply nth_error_nth'. }
  split; [|split; [exact L|]].
  - unfold lin_blocks. cbn [nr ent]. split; [exact L|]. split; [|split; [|split]]; intros i j Hi Hj; unfold named_entry.
    + rewrite !P, !Z by lia. rewrite H7 by assumption. ring.
    + rewrite !P, N, !Z by lia. rewrite H8 by assumption. ring.
    + rewrite !P, N, !Z by lia. rewrite H9 by assumption. ring.
    + rewrite !P, !N by lia. rewrite H10 by assumption. reflexivity.
  - split; [exact H3|]. split; [exact H4|]. split; [exact H5|exact H6].
Qed.

(** Before the update factor and the observed conditional variables. *)
Lemma nl_transform f A b c2 C m w X cobs : nl_ok f A b -> solid c2 -> ga_cov c2 = Some (C, m, w) -> get_cov c2 = Ok (c2, (C, m, w)) ->
  meq (mean_cols X) m -> meq (cov_bias X) C -> nr X = length (ga_vars c2) -> (0 < nc X)%nat -> ga_vars c2 <> [] ->
  Permutation (cobs ++ ga_vars c2) (nl_cing f) -> incl cobs (dkeys (nl_ev f)) ->
  exists j Xe Cj mj J, extend_points X (map (evv (nl_ev f)) cobs) = Ok Xe /\ joint_params Xe (nl_T f) (cobs ++ ga_vars c2) = Ok (Cj, mj) /\
    check_rows Cj mj (length (nl_vars f)) = Ok tt /\
    indexed_square_matrix_operation (drop_both Cj (length cobs)) (nl_Q f) (ga_vars c2 ++ nl_cal f) (nl_cal f) Rplus = Ok (J, ga_vars c2 ++ nl_cal f) /\
    mk_cov (ga_vars c2 ++ nl_cal f) J (drop_rows mj (length cobs)) (vadd (nl_w f) w) = Ok j /\ solid j /\ ga_vars j = ga_vars c2 ++ nl_cal f /\
    forall e, obeys (nl_ev f) e -> exists l1 l2, lp c2 e = Ok l1 /\ noise_lp f A b e = Ok l2 /\ lp j e = Ok (vadd l1 l2).
Proof.
  intros (Hd & Hcal & Q1 & Q2 & PQ & HT & Hk & _) S2 Cc Gc MX CX X1 Xp Nx HP Hi.
  set (ev := nl_ev f) in *. set (cing := nl_cing f) in *. set (cal := nl_cal f) in *. set (xs := ga_vars c2) in *. set (names := cobs ++ xs) in *.
  set (values := map (evv ev) cobs). assert (Lv : length values = length cobs) by apply map_length.
  destruct (extend_ok X values) as (Xe & EX & Xe1 & Xe2 & _). destruct (HT Xe names HP) as (Y & ET & MY).
  { rewrite Xe1, Lv, X1. unfold names. now rewrite app_length. }
  set (Ae := Mat (length cal) (length names) (fun i l => A (nth i cal "") (nth l names ""))). set (be := Mat (length cal) 1 (fun i _ => b (nth i cal ""))).
  assert (Ln : length names = (length values + nr X)%nat) by (unfold names; rewrite app_length, X1, Lv; reflexivity).
  destruct (joint_affine_meq Ae be Xe (nl_T f) Y names) as (Cj & mj & EJ & BJ); [lia|unfold Ae; cbn [nc]; now rewrite Xe1, Ln|exact ET|exact MY|].
  pose proof (drop_blocks Ae be X values Xe Cj mj Xp EX Ln BJ) as BD. cbn [Ae be nr nc ent] in BD. rewrite Lv in BD.
  set (A2 := Mat (length cal) (nr X) _) in BD. set (b2 := Mat (length cal) 1 _) in BD.
  assert (BD' : joint_blocks A2 b2 C m (drop_both Cj (length cobs)) (drop_rows mj (length cobs))).
  { eapply joint_blocks_meq; [| | | |exact CX|exact MX|exact BD]; cbn; lia. }
  assert (Dc : NoDup cing) by (unfold nl_vars in Hd; exact (proj1 (NoDup_app_elim _ _ Hd))).
  assert (Dn : NoDup names) by exact (Permutation_NoDup (Permutation_sym HP) Dc).
  assert (Dx : NoDup xs) by exact (NoDup_app_tail _ _ Dn).
  assert (Ix : forall v, In v xs -> In v cing) by (intros v Hv; apply (Permutation_in _ HP), in_or_app; now right).
  assert (Dxy : NoDup (xs ++ cal)).
  { apply NoDup_app_intro; [exact Dx|exact (NoDup_app_tail _ _ Hd)|]. intros v Hv. apply (proj2 (proj2 (NoDup_app_elim cing cal Hd))). now apply Ix. }
  destruct (noise_blocks A2 b2 C m (nl_Q f) _ _ xs cal X1 eq_refl Dxy Q1 Q2 BD') as (J & EN & LB & J2 & MB).
  destruct (solid_lp_cov c2 c2 C m w S2 Gc) as (Sh & PC & LC). fold xs in Sh.
  assert (PJ : posdef J) by (destruct (lin_mat (length xs) (length cal) A2 C (nl_Q f) J (proj1 Sh) Q1 PC PQ LB) as (P & _); exact P).
  assert (ShJ : shaped (length (xs ++ cal)) (J, drop_rows mj (length cobs), vadd (nl_w f) w)).
  { rewrite app_length. destruct LB as (J1 & _). destruct MB as (M1 & M2 & _). now repeat split. }
  exists (cov_obj (xs ++ cal) (J, drop_rows mj (length cobs), vadd (nl_w f) w)), Xe, Cj, mj, J.
  split; [exact EX|]. split; [exact EJ|]. split.
  { destruct BJ as (B1 & _ & B3 & _). cbn [Ae nr nc] in B1, B3. rewrite (Permutation_length HP) in B1, B3. unfold check_rows.
    unfold nl_vars. rewrite app_length. fold cing cal. rewrite B3, B1, Nat.eqb_refl. cbn [py_assert bind].
    assert (Hl : (length cing + length cal <> 1)%nat).
    { assert (length cal <> 0)%nat by (destruct cal; [congruence|discriminate]).
      assert (length cing <> 0)%nat; [|lia]. rewrite <- (Permutation_length HP), Ln, X1.
      destruct xs; [congruence|cbn; lia]. }
    destruct (Nat.eqb_spec (length cing + length cal) 1); [congruence|]. reflexivity. }
  split; [exact EN|]. split; [now apply mk_cov_ok|]. split; [now apply solid_cov|]. split; [reflexivity|]. intros e He.
  destruct (lin_lp xs cal A2 b2 C m w (nl_Q f) (nl_w f) J (drop_rows mj (length cobs)) e) as (l1 & l2 & L1 & L2 & L3 & _); try assumption; try reflexivity.
  exists l1, l2. split; [|split].
  - rewrite LC. rewrite <- L1. unfold lp, cov_obj. cbn [ga_vars]. now rewrite lp_cov_only.
  - rewrite <- L2. unfold noise_lp. fold cal cing. do 4 f_equal. unfold cond_mean, lin_mean. cbn [A2 b2 nr ent]. f_equal.
    apply functional_extensionality. intros i. apply functional_extensionality. intros k.
    rewrite (Rsum_perm (map (fun v => A (nth i cal "") v * e v) cing) (map (fun v => A (nth i cal "") v * e v) names)) by (apply Permutation_map; now symmetry). unfold names at 1. rewrite map_app, Rsum_app.
    rewrite <- !rsum_list. fold xs. rewrite (rsum_ext (length xs) (fun l => A (nth i cal "") (nth (length cobs + l) names "") * _) (fun l => A (nth i cal "") (nth l xs "") * e (nth l xs ""))).
    2: { intros l Hl. unfold names. rewrite app_nth2 by lia. now replace (length cobs + l - length cobs)%nat with l by lia. }
    rewrite (rsum_ext (length cobs) (fun l => A (nth i cal "") (nth l names "") * _) (fun l => A (nth i cal "") (nth l cobs "") * e (nth l cobs ""))).
    2: { intros l Hl. unfold names, values. rewrite app_nth1 by exact Hl. rewrite <- (obeys_map ev e cobs He Hi), nth_map_d by exact Hl. reflexivity. }
    ring.
  - rewrite vadd_comm. exact L3.
Qed.

Lemma nl_cobs f c : NoDup (nl_vars f) -> NoDup (dkeys (nl_ev f)) -> informed f c ->
  let cobs := filter (fun v => mem v (nl_cing f)) (dkeys (nl_ev f)) in
  seteqb (ga_vars c ++ cobs) (nl_cing f) = true /\ incl cobs (dkeys (nl_ev f)) /\
  forall xs, NoDup xs -> (forall v, In v xs <-> In v (ga_vars c) /\ ~ In v (dkeys (nl_ev f))) -> Permutation (cobs ++ xs) (nl_cing f).
Proof.
  intros Hd Hk (Sc & Ic & Hall & Hn) cobs.
  assert (IC : forall v, In v cobs <-> In v (dkeys (nl_ev f)) /\ In v (nl_cing f)) by (intros v; unfold cobs; rewrite filter_In, mem_In; reflexivity).
  split; [|split].
  - apply seteqb_iff. intros v. rewrite in_app_iff, IC. split.
    + intros [Hv|Hv]; [now apply Ic|tauto].
    + intros Hv. destruct (Hall v Hv); tauto.
  - intros v Hv. now apply IC.
  - intros xs Dx Hx. apply NoDup_Permutation.
    + apply NoDup_app_intro; [now apply filter_NoDup|exact Dx|]. intros v Hv Hv'. apply IC in Hv. apply Hx in Hv'. tauto.
    + exact (proj1 (NoDup_app_elim _ _ Hd)).
    + intros v. rewrite in_app_iff, IC, Hx. split; [intros [(_ & Hv)|(Hv & _)]; [exact Hv|now apply Ic]|].
      intros Hv. destruct (in_dec string_dec v (dkeys (nl_ev f))); [now left; split|right]. destruct (Hall v Hv); tauto.
Qed.

Theorem nl_recompute_strong o f A b c : oracle_ok o -> nl_ok f A b -> nl_cond f = Some c -> informed f c ->
  exists j, nl_recompute o f = Ok (set_joint f j) /\ ga_vars j = jorder o (ga_vars c) (nl_cal f) (nl_ev f) /\ wf_gauss j /\ sym_prec j /\
    (match nl_upd f with None => True | Some u => solid u end -> solid j) /\
    (forall v, In v (ga_vars j) <-> (In v (ga_vars c) \/ In v (nl_cal f)) /\ ~ In v (dkeys (nl_ev f))) /\    forall e, obeys (nl_ev f) e -> exists l1 l2 l3, lp c e = Ok l1 /\ noise_lp f A b e = Ok l2 /\ upd_lp f e = Ok l3 /\
      lp j e = Ok (vadd (vadd l1 l2) l3).
Proof.
  intros Ho OK Ec IN. pose proof OK as (Hd & Hcal & Q1 & Q2 & PQ & HT & Hk & HU). pose proof IN as (Sc & Ic & Hall & Hn).
  unfold nl_recompute. set (ev := nl_ev f) in *. destruct (nl_cobs f c Hd Hk IN) as (SE & IO & PN). fold ev in SE, IO, PN.
  set (cobs := filter (fun v => mem v (nl_cing f)) (dkeys ev)) in *. set (yobs := filter (fun v => mem v (nl_cal f)) (dkeys ev)).
  assert (IY : forall v, In v yobs <-> In v (dkeys ev) /\ In v (nl_cal f)) by (intros v; unfold yobs; rewrite filter_In, mem_In; reflexivity).
  assert (IY1 : incl yobs (dkeys ev)) by (intros v Hv; now apply IY).
  rewrite (mapM_evv ev cobs IO), (mapM_evv ev yobs IY1). cbn [bind]. rewrite Ec, SE. cbn [negb].
  destruct (cond_reduced_strong o c ev Ho Sc Hk Hn) as (c1 & E1 & O1 & S1 & V1 & L1). rewrite E1. cbn [bind].
  destruct (get_cov_solid c1 S1) as (c2 & C & m & w & G). destruct (solid_get_cov c1 c2 _ S1 G) as (S2 & V2 & G2).
  destruct (solid_lp_cov c1 c2 C m w S1 G) as (Sh & PC & LC). pose proof S1 as (W1 & Vac1 & _ & PK1 & _).
  assert (R1 : regular c1). { intros K h g HK. pose proof (PK1 K h g HK) as P. split; [apply P|now apply posdef_det]. }
  destruct (sigma_points_gauss c1 c2 C m w W1 R1 G PC) as (X & EX & X1 & X2 & MX & CX). rewrite EX. cbn [bind fst snd].
  destruct (get_cov_same c1 c2 _ W1 R1 G) as (_ & _ & Cc2 & _).
  assert (V2' : forall v, In v (ga_vars c2) <-> In v (ga_vars c) /\ ~ In v (dkeys ev)) by (intros v; rewrite V2; apply V1).
  assert (Nx : ga_vars c2 <> []).
  { intros C0. apply Hn. intros v Hv. destruct (in_dec string_dec v (dkeys ev)) as [Hin|Hni]; [exact Hin|]. exfalso.
    assert (In v (ga_vars c2)) as HC by (apply V2'; now split). rewrite C0 in HC. exact HC. }
  assert (D2 : NoDup (ga_vars c2)) by (destruct S2 as ((D & _) & _); exact D).
  destruct (nl_transform f A b c2 C m w X cobs OK S2 Cc2 G2 MX CX) as (j & Xe & Cj & mj & J & F1 & F2 & F3 & F4 & F5 & Sj & Vj & Lj); [congruence|lia|exact Nx|now apply PN|exact IO|].
  fold ev in F1, Lj. rewrite F1. cbn [bind]. rewrite F2. cbn [bind fst snd]. rewrite F3. cbn [bind]. rewrite F4. cbn [bind]. rewrite Cc2. cbn [bind fst snd]. rewrite F5. cbn [bind].
  assert (LL : forall e, obeys ev e -> exists l1 l2, lp c e = Ok l1 /\ noise_lp f A b e = Ok l2 /\ lp j e = Ok (vadd l1 l2)).
  { intros e He. destruct (Lj e He) as (l1 & l2 & A1 & A2 & A3). exists l1, l2. split; [|now split]. rewrite <- L1 by exact He.
    destruct (solid_lp_cov c2 c2 C m w S2 G2) as (_ & _ & LC2). rewrite LC, <- V2, <- LC2. exact A1. }
  assert (STEP : exists j1, match nl_upd f with Some u => g_multiply j u | None => Ok j end = Ok j1 /\ wf_gauss j1 /\ sym_prec j1 /\    (match nl_upd f with None => True | Some u => solid u end -> solid j1) /\ ga_vars j1 = ga_vars c2 ++ nl_cal f /\
    forall e, obeys ev e -> exists l1 l2 l3, lp c e = Ok l1 /\ noise_lp f A b e = Ok l2 /\ upd_lp f e = Ok l3 /\ lp j1 e = Ok (vadd (vadd l1 l2) l3)).
  { unfold upd_ok in HU. unfold upd_lp. destruct (nl_upd f) as [u|].
    - destruct HU as (Wu & Su & Iu). destruct (multiply_symm j u (proj1 Sj) Wu (solid_sym j Sj) Su) as (r & Er & Wr & Sr & Vr & Lr).
      exists r. split; [exact Er|]. split; [exact Wr|]. split; [exact Sr|]. split.
      + intros Hu. destruct (multiply_solid j u Sj Hu) as (r' & Er' & Sr' & _). rewrite Er in Er'. injection Er' as <-. exact Sr'.
      + split.
        * rewrite Vr, Vj. unfold new_vars. rewrite (proj2 (subsetb_incl _ _)); [reflexivity|]. intros v Hv. apply in_or_app. right. now apply Iu.
        * intros e He. destruct (LL e He) as (l1 & l2 & A1 & A2 & A3). destruct (lp_exists u e Wu) as (l3 & A4). exists l1, l2, l3. do 3 (split; [assumption|]). now apply Lr.
    - exists j. split; [reflexivity|]. split; [apply Sj|]. split; [now apply solid_sym|]. split; [intros _; exact Sj|]. split; [exact Vj|].
      intros e He. destruct (LL e He) as (l1 & l2 & A1 & A2 & A3). exists l1, l2, (Fin 0). do 3 (split; [first [assumption|reflexivity]|]). now rewrite vadd_0_r. }
  destruct STEP as (j1 & EJ1 & Wj1 & Sj1 & So1 & Vj1 & Lj1). rewrite EJ1. cbn [bind].
  assert (In1 : forall v, In v (ga_vars j1) <-> (In v (ga_vars c) /\ ~ In v (dkeys ev)) \/ In v (nl_cal f)) by (intros v; rewrite Vj1, in_app_iff, V2'; reflexivity).
  assert (DIS : forall v, In v (ga_vars c) -> ~ In v (nl_cal f)) by (intros v Hv Hv'; exact (proj2 (proj2 (NoDup_app_elim _ _ Hd)) v (Ic v Hv) Hv')).
  destruct (Nat.ltb_spec 0 (length yobs)) as [HL|HL].
  - assert (NIn : ~ incl (ga_vars j1) yobs).
    { intros C0. apply Nx. destruct (ga_vars c2) as [|v l] eqn:Ev; [reflexivity|exfalso].
      assert (In v (ga_vars c) /\ ~ In v (dkeys ev)) as (B1 & B2) by (apply V2'; now left).
      apply B2, IY1, C0, In1. left. now split. }
    assert (IYj : incl yobs (ga_vars j1)) by (intros v Hv; apply In1; right; now apply IY).
    assert (DY : NoDup yobs) by now apply filter_NoDup.
    destruct (g_reduce_spec j1 yobs (map (evv ev) yobs) Wj1 Sj1 DY IYj NIn (map_length _ _)) as (r & Er & Wr & Sr & Vr & Lr).
    rewrite Er. cbn [bind]. exists r. split; [reflexivity|]. split; [rewrite Vr; unfold rest, jorder; rewrite Vj1, V2, O1; fold ev; fold yobs; now rewrite (proj2 (Nat.ltb_lt _ _) HL)|]. split; [exact Wr|]. split; [exact Sr|]. split.
    { intros HS. destruct (reduce_solid j1 yobs (map (evv ev) yobs) (So1 HS) DY IYj NIn (map_length _ _)) as (r' & Er' & Sr' & _). rewrite Er in Er'. injection Er' as <-. exact Sr'. }
    split.
    { intros v. rewrite Vr, rest_In, In1, IY. split; [intros ([(B1 & B2)|B] & B3); tauto|]. intros ([B1|B1] & B2); [split; [now left; split|tauto]|tauto]. }
    intros e He. destruct (Lj1 e He) as (l1 & l2 & l3 & B1 & B2 & B3 & B4). exists l1, l2, l3. do 3 (split; [assumption|]).
    unfold lp. rewrite (Lr e) by now apply obeys_map. exact B4.
  - cbn [bind]. exists j1. split; [reflexivity|]. split; [unfold jorder; rewrite Vj1, V2, O1; fold ev; fold yobs; now rewrite (proj2 (Nat.ltb_ge _ _) HL)|]. split; [exact Wj1|]. split; [exact Sj1|]. split; [exact So1|]. split.
    { intros v. rewrite In1. split; [intros [(B1 & B2)|B]; [split; [now left|exact B2]|]|tauto]. split; [now right|]. intros B2.
      assert (In v yobs) as HC by (apply IY; now split). destruct yobs; [exact HC|cbn in HL; lia]. }
    exact Lj1.
Qed.
Theorem nl_recompute_spec o f A b c : oracle_ok o -> nl_ok f A b -> nl_cond f = Some c -> informed f c ->
  exists j, nl_recompute o f = Ok (set_joint f j) /\ wf_gauss j /\ sym_prec j /\
    (match nl_upd f with None => True | Some u => solid u end -> solid j) /\
    (forall v, In v (ga_vars j) <-> (In v (ga_vars c) \/ In v (nl_cal f)) /\ ~ In v (dkeys (nl_ev f))) /\
    forall e, obeys (nl_ev f) e -> exists l1 l2 l3, lp c e = Ok l1 /\ noise_lp f A b e = Ok l2 /\ upd_lp f e = Ok l3 /\
      lp j e = Ok (vadd (vadd l1 l2) l3).
Proof. intros Ho OK Ec IN. destruct (nl_recompute_strong o f A b c Ho OK Ec IN) as (j & E & _ & H). exists j. now split. Qed.
