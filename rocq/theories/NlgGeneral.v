(** The joint distribution of a nonlinear Gaussian, any transform. *)
From Verif Require Export NlgOps2.
Local Open Scope string_scope.
Local Open Scope list_scope.
Local Open Scope R_scope.

(** The transform gives one row for every conditional variable and one column for every point. *)
Definition shapes_by_name (T : mat -> list string -> res mat) (cing cal : list string) : Prop :=
  forall X names, Permutation names cing -> nr X = length names -> exists Y, T X names = Ok Y /\ nr Y = length cal /\ nc Y = nc X.
(** Averages and covariances over the columns. *)
Definition avg (X : mat) (i : nat) : R := rsum (nc X) (fun k => ent X i k) / INR (nc X).
Definition covar (X : mat) (i : nat) (Y : mat) (j : nat) : R := rsum (nc X) (fun k => (ent X i k - avg X i) * (ent Y j k - avg Y j)) / INR (nc X).
Definition joint_of_points (X Y Q : mat) (C m J mj : mat) : Prop :=
  let n := nr X in let p := nr Y in
  nr J = (n + p)%nat /\ nc J = (n + p)%nat /\ nr mj = (n + p)%nat /\ nc mj = 1%nat /\
  (forall i, (i < n)%nat -> ent mj i 0 = ent m i 0) /\
  (forall i, (i < p)%nat -> ent mj (n + i) 0 = avg Y i) /\
  (forall i j, (i < n)%nat -> (j < n)%nat -> ent J i j = ent C i j) /\
  (forall i j, (i < p)%nat -> (j < n)%nat -> ent J (n + i) j = covar Y i X j /\ ent J j (n + i) = covar Y i X j) /\
  (forall i j, (i < p)%nat -> (j < p)%nat -> ent J (n + i) (n + j) = covar Y i Y j + ent Q i j).

Lemma copy_solid_id c : solid c -> g_copy c = Ok c.
Proof.
  intros Sc. destruct (solid_copy c Sc) as (d & E & Sd & V). rewrite E. f_equal. destruct (g_copy_ok c (proj1 Sc)) as (d' & E' & V' & C' & D' & _).
  rewrite E in E'. injection E' as <-. destruct Sc as (_ & Vc & _), Sd as (_ & Vd & _). destruct c, d. cbn in *. congruence.
Qed.
Lemma rsum_div n c f : rsum n f / c = rsum n (fun i => f i / c).
Proof. unfold Rdiv. symmetry. apply rsum_scal_r. Qed.
Lemma avg_mean X i : ent (mean_cols X) i 0 = avg X i. Proof. reflexivity. Qed.
Lemma qsum_split n p A u : qsum (n + p) A u =
  rsum n (fun i => rsum n (fun j => u i * ent A i j * u j)) + rsum n (fun i => rsum p (fun j => u i * ent A i (n + j) * u (n + j)%nat)) +
  (rsum p (fun i => rsum n (fun j => u (n + i)%nat * ent A (n + i) j * u j)) + rsum p (fun i => rsum p (fun j => u (n + i)%nat * ent A (n + i) (n + j) * u (n + j)%nat))).
Proof.
  unfold qsum. rewrite rsum_app. f_equal.
  - rewrite <- rsum_plus. apply rsum_ext. intros i _. apply rsum_app.
  - rewrite <- rsum_plus. apply rsum_ext. intros i _. apply rsum_app.
Qed.
(** A matrix of averages of products is a sum of squares. *)
Lemma qsum_cov J u : (0 < nc J)%nat -> qsum (nr J) (cov_bias J) u = rsum (nc J) (fun k => (rsum (nr J) (fun i => u i * (ent J i k - avg J i))) ^ 2) / INR (nc J).
Proof.
  intros Hp. unfold qsum. rewrite (rsum_ext (nr J) _ (fun i => rsum (nr J) (fun j => rsum (nc J) (fun k => (u i * (ent J i k - avg J i)) * (u j * (ent J j k - avg J j)))) / INR (nc J))).
  2: { intros i Hi. rewrite (rsum_div (nr J) (INR (nc J))). apply rsum_ext. intros j Hj. cbn [cov_bias ent]. rewrite !avg_mean. unfold Rdiv. rewrite <- Rmult_assoc.
       rewrite (rsum_ext (nc J) (fun k => u i * (ent J i k - avg J i) * (u j * (ent J j k - avg J j))) (fun k => (u i * u j) * ((ent J i k - avg J i) * (ent J j k - avg J j)))) by (intros k _; ring).
       rewrite rsum_scal. ring. }
  rewrite <- rsum_div. f_equal.
  rewrite (rsum_ext (nr J) _ (fun i => rsum (nc J) (fun k => rsum (nr J) (fun j => u i * (ent J i k - avg J i) * (u j * (ent J j k - avg J j)))))) by (intros i _; apply rsum_swap).
  rewrite rsum_swap. apply rsum_ext. intros k _.
  rewrite (rsum_ext (nr J) _ (fun i => rsum (nr J) (fun j => u j * (ent J j k - avg J j)) * (u i * (ent J i k - avg J i)))).
  2: { intros i _. rewrite rsum_scal. ring. }
  rewrite rsum_scal. ring.
Qed.
(** Covariance plus noise in the last coordinates. *)
Lemma joint_posdef X Y Q C m J mj : (0 < nc X)%nat -> nc Y = nc X -> nr Q = nr Y -> posdef Q -> nr C = nr X -> posdef C ->
  (forall i j, (i < nr X)%nat -> (j < nr X)%nat -> ent C i j = covar X i X j) -> joint_of_points X Y Q C m J mj -> posdef J.
Proof.
  intros Xp Yc Q1 PQ C1 PC HC (J1 & J2 & M1 & M2 & M3 & M4 & B1 & B2 & B3). set (n := nr X) in *. set (p := nr Y) in *.
  destruct PQ as (SQ & PQ). destruct PC as (SC & PC). unfold symm in SQ, SC. rewrite Q1 in SQ, PQ. rewrite C1 in SC, PC.
  assert (CS : forall i j, covar Y i Y j = covar Y j Y i) by (intros i j; unfold covar; f_equal; apply rsum_ext; intros k _; ring).
  split.
  - intros i j Hi Hj. rewrite J1 in Hi, Hj. destruct (Nat.lt_ge_cases i n) as [Li|Li], (Nat.lt_ge_cases j n) as [Lj|Lj].
    + rewrite !B1 by assumption. now apply SC.
    + replace j with (n + (j - n))%nat by lia. destruct (B2 (j - n)%nat i) as (-> & ->); [lia|exact Li|reflexivity].
    + replace i with (n + (i - n))%nat by lia. destruct (B2 (i - n)%nat j) as (-> & ->); [lia|exact Lj|reflexivity].
    + replace i with (n + (i - n))%nat by lia. replace j with (n + (j - n))%nat by lia. rewrite !B3 by lia. rewrite CS, SQ by lia. reflexivity.
  - intros u Hu. rewrite J1 in *. destruct (vcat_ok X Y (eq_sym Yc)) as (Z & _ & Z1 & Z2 & Z3 & Z4). fold n p in Z1, Z3, Z4.
    assert (A1 : forall i, (i < n)%nat -> avg Z i = avg X i) by (intros i Hi; unfold avg; rewrite Z2; f_equal; apply rsum_ext; intros k _; now apply Z3).
    assert (A2 : forall i, avg Z (n + i) = avg Y i) by (intros i; unfold avg; rewrite Z2, Yc; f_equal; apply rsum_ext; intros k _; apply Z4).
    assert (E : qsum (n + p) J u = qsum (nr Z) (cov_bias Z) u + qsum p Q (fun i => u (n + i)%nat)).
    { rewrite Z1, !qsum_split. set (t := qsum p Q _).
      assert (E1 : rsum n (fun i => rsum n (fun j => u i * ent J i j * u j)) = rsum n (fun i => rsum n (fun j => u i * ent (cov_bias Z) i j * u j))).
      { apply rsum_ext. intros i Hi. apply rsum_ext. intros j Hj. rewrite B1, HC by assumption. do 2 f_equal. unfold covar. cbn [cov_bias ent]. rewrite !avg_mean, !A1, Z2 by assumption.
        f_equal. apply rsum_ext. intros k _. now rewrite !Z3. }
      assert (E2 : rsum n (fun i => rsum p (fun j => u i * ent J i (n + j) * u (n + j)%nat)) = rsum n (fun i => rsum p (fun j => u i * ent (cov_bias Z) i (n + j) * u (n + j)%nat))).
      { apply rsum_ext. intros i Hi. apply rsum_ext. intros j Hj. rewrite (proj2 (B2 j i Hj Hi)). do 2 f_equal. unfold covar. cbn [cov_bias ent]. rewrite !avg_mean, (A1 i), A2, Z2, Yc by assumption.
        f_equal. apply rsum_ext. intros k _. rewrite (Z3 i), Z4 by exact Hi. ring. }
      assert (E3 : rsum p (fun i => rsum n (fun j => u (n + i)%nat * ent J (n + i) j * u j)) = rsum p (fun i => rsum n (fun j => u (n + i)%nat * ent (cov_bias Z) (n + i) j * u j))).
      { apply rsum_ext. intros i Hi. apply rsum_ext. intros j Hj. rewrite (proj1 (B2 i j Hi Hj)). do 2 f_equal. unfold covar. cbn [cov_bias ent]. rewrite !avg_mean, (A1 j), A2, Z2, Yc by assumption.
        f_equal. apply rsum_ext. intros k _. now rewrite (Z3 j), Z4. }
      assert (E4 : rsum p (fun i => rsum p (fun j => u (n + i)%nat * ent J (n + i) (n + j) * u (n + j)%nat)) = rsum p (fun i => rsum p (fun j => u (n + i)%nat * ent (cov_bias Z) (n + i) (n + j) * u (n + j)%nat)) + t).
      { unfold t, qsum. rewrite <- rsum_plus. apply rsum_ext. intros i Hi. rewrite <- rsum_plus. apply rsum_ext. intros j Hj. rewrite B3 by assumption.
        assert (covar Y i Y j = ent (cov_bias Z) (n + i) (n + j)) as ->; [|ring]. unfold covar. cbn [cov_bias ent]. rewrite !avg_mean, !A2, Z2, Yc. f_equal. apply rsum_ext. intros k _. now rewrite !Z4. }
      rewrite E1, E2, E3, E4. ring. }
    assert (NN : 0 <= qsum (nr Z) (cov_bias Z) u).
    { rewrite qsum_cov by lia. apply Rmult_le_pos; [apply rsum_nonneg; intros k _; apply pow2_ge_0|]. apply Rlt_le, Rinv_0_lt_compat, lt_0_INR. lia. }
    destruct (ClassicalEpsilon.excluded_middle_informative (exists i, (i < p)%nat /\ u (n + i)%nat <> 0)) as [HE|HE].
    + rewrite E. pose proof (PQ (fun i => u (n + i)%nat) HE) as PP. change (0 < qsum p Q (fun i => u (n + i)%nat)) in PP. change (0 < qsum (nr Z) (cov_bias Z) u + qsum p Q (fun i => u (n + i)%nat)). lra.
    + assert (HZ : forall i, (i < p)%nat -> u (n + i)%nat = 0). { intros i Hi. destruct (Req_dec (u (n + i)%nat) 0) as [H|H]; [exact H|]. exfalso. apply HE. now exists i. }
      rewrite qsum_split. rewrite (rsum_zero p (fun i => rsum n _)), (rsum_zero p (fun i => rsum p _)), (rsum_zero n (fun i => rsum p _)).
      2: { intros i _. apply rsum_zero. intros j Hj. rewrite HZ by exact Hj. ring. }
      2: { intros i Hi. apply rsum_zero. intros j _. rewrite (HZ i Hi). ring. }
      2: { intros i Hi. apply rsum_zero. intros j _. rewrite (HZ i Hi). ring. }
      rewrite (rsum_ext n _ (fun i => rsum n (fun j => u i * ent C i j * u j))) by (intros i Hi; apply rsum_ext; intros j Hj; now rewrite B1).
      assert (0 < qsum n C u) as PP; [|unfold qsum in PP; rewrite !Rplus_0_r; exact PP]. apply PC. destruct Hu as (i & Hi & Ui). exists i. split; [|exact Ui].
      destruct (Nat.lt_ge_cases i n) as [Li|Li]; [exact Li|]. exfalso. apply Ui. replace i with (n + (i - n))%nat by lia. apply HZ. lia.
Qed.
Lemma seteqb_perm (l m : list string) : Permutation l m -> seteqb l m = true.
Proof. intros HP. apply (proj2 (seteqb_iff _ _)). intros v. split; intros H; [exact (Permutation_in _ HP H)|exact (Permutation_in _ (Permutation_sym HP) H)]. Qed.
Theorem nl_general o f c : oracle_ok o -> nl_wf f -> nl_cal f <> [] -> posdef (nl_Q f) -> shapes_by_name (nl_T f) (nl_cing f) (nl_cal f) ->
  nl_ev f = [] -> nl_upd f = None -> nl_cond f = Some c -> solid c -> Permutation (ga_vars c) (nl_cing f) -> ga_vars c <> [] ->
  exists c' C m w X Y j J mj, get_cov c = Ok (c', (C, m, w)) /\ get_sigma_points_array c = Ok (c', X) /\ nl_T f X (ga_vars c) = Ok Y /\
    nl_joint_distribution o f = Ok j /\ solid j /\ ga_vars j = ga_vars c ++ nl_cal f /\ get_cov j = Ok (j, (J, mj, vadd (nl_w f) w)) /\
    nr X = length (ga_vars c) /\ nr Y = length (nl_cal f) /\ joint_of_points X Y (nl_Q f) C m J mj.
Proof.
  intros Ho Wf Hcal PQ HT Ev Eu Ec Sc HP Nc. destruct (nl_copy_spec f Wf) as (d & Ed & (SK & K6 & _ & K8 & _)). pose proof SK as (K1 & K2 & K3 & K4 & K5).
  pose proof Wf as (Hd & Q1 & Q2 & _).
  assert (Ecd : nl_cond d = Some c).
  { unfold nl_copy, mk_nlg in Ed. repeat (apply bind_ok in Ed; destruct Ed as (? & ? & Ed)). injection Ed as <-. cbn [nl_cond].
    match goal with H : opt_copy (nl_cond f) = Ok _ |- _ => rewrite Ec in H; unfold opt_copy in H; rewrite (copy_solid_id c Sc) in H; cbn [bind] in H; congruence end. }
  assert (Eud : nl_upd d = None) by (unfold opt_same in K8; rewrite Eu in K8; destruct (nl_upd d); [contradiction|reflexivity]).
  destruct (get_cov_solid c Sc) as (c2 & C & m & w & G). destruct (solid_get_cov c c2 _ Sc G) as (S2 & V2 & G2).
  destruct (solid_lp_cov c c2 C m w Sc G) as (Sh & PC & LC). pose proof Sc as (W1 & Vac1 & _ & PK1 & _).
  assert (R1 : regular c). { intros K h g HK. pose proof (PK1 K h g HK) as P. split; [apply P|now apply posdef_det]. }
  destruct (sigma_points_gauss c c2 C m w W1 R1 G PC) as (X & EX & X1 & X2 & MX & CX). destruct (get_cov_same c c2 _ W1 R1 G) as (_ & _ & Cc2 & _).
  destruct (HT X (ga_vars c) HP X1) as (Y & ET & Y1 & Y2). destruct (vcat_ok X Y (eq_sym Y2)) as (Z & EZ & Z1 & Z2 & Z3 & Z4).
  set (n := length (ga_vars c)) in *. set (p := length (nl_cal f)) in *. rewrite X1 in Z1, Z3, Z4. rewrite Y1 in Z1.
  assert (A1 : forall i, (i < n)%nat -> avg Z i = avg X i) by (intros i Hi; unfold avg; rewrite Z2; f_equal; apply rsum_ext; intros k _; now apply Z3).
  assert (A2 : forall i, avg Z (n + i) = avg Y i) by (intros i; unfold avg; rewrite Z2, Y2; f_equal; apply rsum_ext; intros k _; apply Z4).
  assert (Dxy : NoDup (ga_vars c ++ nl_cal f)).
  { apply NoDup_app_intro; [apply W1|exact (NoDup_app_tail _ _ Hd)|]. intros v Hv. apply (proj2 (proj2 (NoDup_app_elim (nl_cing f) (nl_cal f) Hd))). exact (Permutation_in _ HP Hv). }
  assert (LL : length (ga_vars c ++ nl_cal f) = (n + p)%nat) by apply app_length.
  set (xs := ga_vars c) in *. set (ys := nl_cal f) in *.
  assert (NV : new_vars (xs ++ ys) ys = xs ++ ys).
  { unfold new_vars. rewrite (proj2 (subsetb_incl ys (xs ++ ys))); [reflexivity|]. intros v Hv. apply in_or_app. now right. }
  set (Cd := drop_both (cov_bias Z) 0). set (md := drop_rows (mean_cols Z) 0).
  set (J := Mat (n + p) (n + p) (fun i k => named_entry Cd (xs ++ ys) (nth i (xs ++ ys) "") (nth k (xs ++ ys) "") + named_entry (nl_Q f) ys (nth i (xs ++ ys) "") (nth k (xs ++ ys) ""))).
  assert (EJ : indexed_square_matrix_operation Cd (nl_Q f) (xs ++ ys) ys Rplus = Ok (J, xs ++ ys)).
  { unfold indexed_square_matrix_operation. cbn [Cd drop_both cov_bias nr nc]. rewrite Nat.sub_0_r, Z1, Q1, Q2, LL. fold ys p. rewrite !Nat.eqb_refl. cbn [py_assert bind]. rewrite NV, LL. reflexivity. }
  pose proof (NoDup_app_tail _ _ Dxy) as Dy.
  assert (P : forall i, (i < n + p)%nat -> index_opt (nth i (xs ++ ys) "") (xs ++ ys) = Some i).
  { intros i Hi. apply index_opt_nth_NoDup; [exact Dxy|]. apply nth_error_nth'. now rewrite LL. }
  assert (Zn : forall i, (i < n)%nat -> index_opt (nth i (xs ++ ys) "") ys = None).
  { intros i Hi. rewrite app_nth1 by exact Hi. destruct (index_opt (nth i xs "") ys) as [k|] eqn:E; [|reflexivity].
    exfalso. apply index_opt_nth, nth_error_In in E. apply (proj2 (proj2 (NoDup_app_elim xs ys Dxy)) (nth i xs "")); [now apply nth_In|exact E]. }
  assert (Nn : forall i, (i < p)%nat -> index_opt (nth (n + i) (xs ++ ys) "") ys = Some i).
  { intros i Hi. rewrite app_nth2 by (fold n; lia). fold n. replace (n + i - n)%nat with i by lia. apply index_opt_nth_NoDup; [exact Dy|]. now apply nth_error_nth'. }
  destruct MX as (MX1 & MX2 & MX). destruct CX as (CX1 & CX2 & CX). cbn [mean_cols cov_bias nr nc] in MX1, MX2, MX, CX1, CX2, CX. rewrite X1 in *.
  assert (JP : joint_of_points X Y (nl_Q f) C m J md).
  { unfold joint_of_points. rewrite X1, Y1. split; [reflexivity|]. split; [reflexivity|]. split; [cbn; lia|]. split; [reflexivity|]. split; [|split; [|split; [|split]]].
    - intros i Hi. cbn [md drop_rows ent]. rewrite Nat.add_0_l, avg_mean, A1 by exact Hi. rewrite <- (MX i 0%nat) by lia. reflexivity.
    - intros i Hi. cbn [md drop_rows ent]. rewrite Nat.add_0_l, avg_mean. apply A2.
    - intros i j Hi Hj. cbn [J ent]. unfold named_entry. rewrite !P, !Zn by lia. cbn [Cd drop_both ent]. rewrite Rplus_0_r, !Nat.add_0_l. rewrite <- (CX i j) by lia.
      cbn [cov_bias ent]. rewrite !avg_mean, !A1, Z2 by assumption. f_equal. apply rsum_ext. intros k _. now rewrite !Z3.
    - intros i j Hi Hj. cbn [J ent]. unfold named_entry. rewrite !P by lia; rewrite !(Zn j) by exact Hj; rewrite !(Nn i) by exact Hi. cbn [Cd drop_both ent]. rewrite !Rplus_0_r, !Nat.add_0_l.
      unfold covar. cbn [cov_bias ent]. rewrite !avg_mean, (A1 j), !A2, Z2, Y2 by assumption. split; f_equal; apply rsum_ext; intros k _; rewrite (Z3 j), !Z4 by exact Hj; ring.
    - intros i j Hi Hj. cbn [J ent]. unfold named_entry. rewrite !P, !Nn by lia. cbn [Cd drop_both ent]. rewrite !Nat.add_0_l. f_equal.
      unfold covar. cbn [cov_bias ent]. rewrite !avg_mean, !A2, Z2, Y2. f_equal. apply rsum_ext. intros k _. now rewrite !Z4. }
  assert (PJ : posdef J).
  { apply (joint_posdef X Y (nl_Q f) C m J md); try assumption; try lia. intros i j Hi Hj. rewrite X1 in Hi, Hj. rewrite <- (CX i j) by assumption. reflexivity. }
  assert (ShJ : shaped (length (xs ++ ys)) (J, md, vadd (nl_w f) w)) by (rewrite LL; cbn; rewrite Nat.sub_0_r; now repeat split).
  exists c2, C, m, w, X, Y, (cov_obj (xs ++ ys) (J, md, vadd (nl_w f) w)), J, md. split; [exact G|]. split; [exact EX|]. split; [exact ET|]. split.
  2: { split; [now apply solid_cov|]. split; [reflexivity|]. split; [apply get_cov_obj|]. split; [exact X1|]. split; [exact Y1|exact JP]. }
  unfold nl_joint_distribution. rewrite Ed. cbn [bind]. unfold nl_recompute. rewrite K6, Ev. cbn [dkeys map filter mapM bind]. rewrite Ecd, K1, app_nil_r.
  fold xs in HP. fold xs. rewrite (seteqb_perm _ _ HP). cbn [negb]. unfold cond_reduced. rewrite (copy_solid_id c Sc). cbn [bind].
  assert (Eo : so o (set_inter (dkeys (@nil (string * R))) xs) = []).
  { assert (HPo : Permutation [] (so o [])) by (apply (proj1 Ho); constructor). apply Permutation_nil in HPo. exact HPo. }
  fold xs. change (set_inter (dkeys []) xs) with (@nil string). change (set_inter (dkeys []) xs) with (@nil string) in Eo. rewrite Eo. cbn [mapM bind length Nat.ltb Nat.leb]. rewrite EX. cbn [bind fst snd]. unfold extend_points. cbn [length Nat.ltb Nat.leb bind]. cbn [app].
  rewrite V2. fold xs. unfold joint_params. rewrite K3, ET. cbn [bind]. rewrite EZ. cbn [bind]. unfold array_to_params. cbn [fst snd].
  assert (Lv : length (nl_vars d) = (n + p)%nat). { unfold nl_vars. rewrite K1, K2, app_length. fold ys p. rewrite <- (Permutation_length HP). reflexivity. }
  unfold check_rows. cbn [mean_cols cov_bias nr]. rewrite Lv, Z1, Nat.eqb_refl. cbn [py_assert bind].
  assert (Hl : (n + p <> 1)%nat). { assert (p <> 0)%nat by (unfold p; destruct ys; [congruence|discriminate]). assert (n <> 0)%nat by (unfold n; destruct xs; [congruence|discriminate]). lia. }
  destruct (Nat.eqb_spec (n + p) 1); [congruence|]. cbn [raise_if bind]. fold Cd md. rewrite K2, K4. fold ys. rewrite EJ. cbn [bind]. rewrite Cc2. cbn [bind fst snd]. rewrite K5, (mk_cov_ok _ _ _ _ Dxy ShJ). cbn [bind].
  rewrite Eud. cbn [bind]. reflexivity.
Qed.
(** Its marginal on the conditioning variables is the conditioning factor. *)
Theorem nl_general_marginal o f c : oracle_ok o -> nl_wf f -> nl_cal f <> [] -> posdef (nl_Q f) -> shapes_by_name (nl_T f) (nl_cing f) (nl_cal f) ->
  nl_ev f = [] -> nl_upd f = None -> nl_cond f = Some c -> solid c -> Permutation (ga_vars c) (nl_cing f) -> ga_vars c <> [] ->
  exists r, nl_marginalize o f (ga_vars c) true = Ok r /\ ga_vars r = ga_vars c /\ forall e, exists l, lp c e = Ok l /\ lp r e = Ok (vadd (nl_w f) l).
Proof.
  intros Ho Wf Hcal PQ HT Ev Eu Ec Sc HP Nc.
  destruct (nl_general o f c Ho Wf Hcal PQ HT Ev Eu Ec Sc HP Nc) as (c' & C & m & w & X & Y & j & J & mj & G & EX & ET & Ej & Sj & Vj & Gj & X1 & Y1 & JP).
  pose proof Sc as ((Dx & _) & _). pose proof Sj as ((Dj & _) & Vacj & _).
  assert (Ix : incl (ga_vars c) (ga_vars j)) by (rewrite Vj; intros v Hv; apply in_or_app; now left).
  destruct (marg_solid o j (ga_vars c) Ho Sj Dx Ix) as (j' & J' & mj' & wj & r & r' & C1 & m1 & Gj' & Er & Sr & Vr & _ & Gr & Rc & Rm).
  rewrite Gj in Gj'. injection Gj' as <- <- <- <-. destruct (solid_lp_cov c c' C m w Sc G) as (Sh & PC & LC). destruct (solid_lp_cov r r' C1 m1 _ Sr Gr) as (Shr & PC1 & LCr).
  destruct JP as (J1 & J2 & M1 & M2 & M3 & M4 & B1 & _). rewrite X1 in *. rewrite Vj in Rc, Rm. rewrite Vj in Dj. set (xs := ga_vars c) in *. set (n := length xs) in *.
  pose proof Sh as (H1 & H2 & H3 & H4). fold n in H1, H2, H3.
  assert (LX : (n <= length (xs ++ nl_cal f))%nat) by (rewrite app_length; fold n; lia).
  assert (MC : meq C1 C).
  { destruct Rc as (C11 & C12 & Rc). split; [now rewrite C11, H1|]. split; [now rewrite C12, H2|]. intros i k Hi Hk. rewrite C11 in Hi. rewrite C12 in Hk. fold n in Hi, Hk.
    specialize (Rc (nth i xs "") (nth k xs "") (nth_In _ _ Hi) (nth_In _ _ Hk)). rewrite nth_name_entry in Rc by assumption. rewrite Rc.
    rewrite <- (app_nth1 xs (nl_cal f) "" Hi), <- (app_nth1 xs (nl_cal f) "" Hk). rewrite nth_name_entry by (exact Dj || lia). now apply B1. }
  assert (MM : meq m1 m).
  { destruct Rm as (m11 & m12 & Rm). split; [now rewrite m11, H3|]. split; [now rewrite m12, H4|]. intros i k Hi Hk. rewrite m11 in Hi. rewrite m12 in Hk. fold n in Hi. assert (k = 0%nat) as -> by lia.
    specialize (Rm (nth i xs "") (nth_In _ _ Hi)). rewrite nth_name_coord in Rm by assumption. rewrite Rm.
    rewrite <- (app_nth1 xs (nl_cal f) "" Hi). rewrite nth_name_coord by (exact Dj || lia). now apply M3. }
  exists r. split; [|split; [exact Vr|]].
  - unfold nl_marginalize. cbn [marginal_vars].
    assert (SB : subsetb xs (nl_vars f) = true). { apply subsetb_incl. intros v Hv. apply in_or_app. left. exact (Permutation_in _ HP Hv). }
    rewrite SB. cbn [py_assert bind]. unfold nl_joint_distribution in Ej. apply bind_ok in Ej. destruct Ej as (d & Ed & Ej). rewrite Ed. cbn [bind].
    apply bind_ok in Ej. destruct Ej as (d' & Ed' & [= Ej]). rewrite Ed'. cbn [bind]. rewrite Ej, Vacj. exact Er.
  - intros e. assert (So : solid (cov_obj xs (C, m, vadd (nl_w f) w))) by (apply solid_cov; assumption).
    rewrite (solid_same_lp r (cov_obj xs (C, m, vadd (nl_w f) w)) r' _ C1 m1 C m _ Sr So Vr Gr (get_cov_obj _ _) MC MM e). rewrite LC. unfold lp, cov_obj. cbn [ga_vars]. rewrite lp_cov_only.
    rewrite !(cov_log_potential_ok n) by (exact Sh || (now repeat split) || apply map_length || (split; [apply PC|now apply posdef_det])).
    eexists. split; [reflexivity|]. f_equal. destruct (nl_w f), w; cbn; try reflexivity. f_equal. ring.
Qed.
