(** The divergence from a factor that is not normalised first; covariances without positive determinant. *)
From Coq Require Import String List Reals Lra Permutation Classical.
Import ListNotations.
From Verif Require Export SparseProofs3 DenseProofs3 GaussFacts MxFacts.
From Verif Require Import BaseFacts SumFacts.
Local Open Scope string_scope.
Local Open Scope nat_scope.
Local Open Scope list_scope.

Definition clamped (D : R) (r : res val) : Prop :=
  (0 <= D -> r = Ok (Fin D))%R /\ (- (1 / 10000) <= D < 0 -> r = Ok (Fin 0))%R /\ (D < - (1 / 10000) -> r = Err ValueError)%R.
Lemma clamp_clamped D : clamped D (clamp_kld (Fin D)).
Proof.
  unfold clamped, clamp_kld, visclose, Rle_b. cbn [vltb]. unfold Rlt_b. rewrite Rabs_R0, Rmult_0_r, Rplus_0_r, Rminus_0_r.
  destruct (Rlt_dec D 0) as [N|N].
  - rewrite (Rabs_left D N). destruct (Rle_dec (- D) (1 / 10000)); (split; [|split]); intros H; try reflexivity; exfalso; lra.
  - split; [|split]; intros H; try reflexivity; exfalso; lra.
Qed.
Lemma kl_raw_spec o p q : oracle_ok o -> wf_sparse p -> wf_sparse q -> zero_default p -> zero_default q ->
  Permutation (svars p) (svars q) -> cards_agree p q -> svars p <> [] -> (0 < weight_of p)%R ->
  ((exists e, in_range p e /\ 0 < spot p e /\ spot q e = 0)%R -> s_kl_divergence o p q false = Ok PInf) /\
  (~ (exists e, in_range p e /\ 0 < spot p e /\ spot q e = 0)%R ->
    clamped (sum_over (card_of p) (svars p) (fun e => kl_term (spot p e / weight_of p) (spot q e))%R (fun _ => 0)) (s_kl_divergence o p q false)).
Proof.
  intros Ho Hp Hq Zp Zq HP Hc Hne Wp. rewrite (weight_total p Hp Zp) in *.
  unfold s_kl_divergence. rewrite (normalize_ok p Hp Wp). cbn [bind].
  destruct (raw_kld_spec o (norm_of p) q Ho (norm_wf p Hp) Hq Zp Zq HP Hc Hne) as (d & -> & H1 & H2). cbn [bind].
  assert (Np : forall e, spot (norm_of p) e = (spot p e / total p)%R).
  { intros e. rewrite norm_pot by auto. unfold Rdiv. ring. }
  assert (Hex : (exists e, in_range (norm_of p) e /\ 0 < spot (norm_of p) e /\ spot q e = 0)%R <->
                (exists e, in_range p e /\ 0 < spot p e /\ spot q e = 0)%R).
  { assert (Ip := Rinv_0_lt_compat _ Wp).
    split; intros (e & R1 & R2 & R3); exists e; split; try exact R1; (split; [|exact R3]); rewrite Np in *; unfold Rdiv in *.
    - destruct (pot_nonneg (sval p e)) as [Sp|Sp]; fold (spot p e) in Sp; [exact Sp|]. rewrite <- Sp in R2. lra.
    - now apply Rmult_lt_0_compat. }
  rewrite Hex in H1, H2. split; intros C.
  - rewrite (H1 C). now apply clamp_nonneg; left.
  - rewrite (H2 C (fun _ => 0)).
    replace (sum_over (card_of p) (svars p) (fun e => kl_term (spot p e / total p) (spot q e))%R (fun _ => 0))
      with (sum_over (card_of (norm_of p)) (svars (norm_of p)) (fun e => kl_term (spot (norm_of p) e) (spot q e)) (fun _ => 0)); [apply clamp_clamped|].
    apply sum_over_ext_g. intros e. now rewrite Np.
Qed.
Lemma d_kl_raw_spec p q : wf_dense p -> wf_dense q -> Permutation (dvars p) (dvars q) -> d_cards_agree p q ->
  names_agree p q -> (0 < d_weight_of p)%R ->
  ((exists e, d_in_range p e /\ 0 < dpot p e /\ dpot q e = 0)%R -> d_kl_divergence p q false = Ok PInf) /\
  (~ (exists e, d_in_range p e /\ 0 < dpot p e /\ dpot q e = 0)%R ->
    clamped (sum_over (d_card_of p) (dvars p) (fun e => kl_term (dpot p e / d_weight_of p) (dpot q e))%R (fun _ => 0)) (d_kl_divergence p q false)).
Proof.
  intros Hp Hq HP Hc Hn Wp. unfold d_kl_divergence. rewrite (check_names_ok p q Hn). cbn [bind].
  destruct (d_normalize_spec p Hp Wp) as (p1 & -> & P1 & P2 & P3 & P4 & P5 & P6 & P7). cbn [bind].
  destruct (d_reorder_spec p1 (dvars q) P1) as (p2 & -> & Q1 & Q2 & Q3 & Q4 & Q5); [now rewrite P2|]. cbn [bind].
  assert (Gn : forall e, d_in_range p e -> dpot p2 e = (dpot p e / d_weight_of p)%R).
  { intros e He. unfold dpot. rewrite Q5. apply (P6 e He). }
  assert (Hp2 : wf_dense p2).
  { split; [exact Q1|]. intros e He. rewrite Q5. apply (wd_vals p1 P1). intros v c H. apply He, Q3, H. }
  assert (Hs : tshape (dtens p2) = tshape (dtens q)).
  { rewrite (d_shape p2 Hp2), (d_shape q Hq), Q2. apply map_ext_in. intros v Hv.
    apply (Hc v); [|apply d_has_card_of; auto]. apply P4, Q3. apply d_has_card_of; auto. now rewrite Q2. }
  destruct (d_raw_kld_spec p2 q Hp2 Hq Q2 Hs) as (d & -> & H1 & H2). cbn [bind].
  assert (HP' : Permutation (dvars q) (dvars p)) by now apply Permutation_sym.
  assert (Hc' : d_cards_agree q p) by (intros v c c' A1 A2; symmetry; eapply Hc; eauto).
  assert (Rn : forall e, d_in_range p2 e <-> d_in_range p e).
  { intros e. assert (d_in_range p2 e <-> d_in_range q e) as ->; [unfold d_in_range, d_has_card; now rewrite Q2, Hs|].
    split; apply d_range_same; auto. }
  assert (Ip := Rinv_0_lt_compat _ Wp).
  assert (Ppos : forall e, (0 < dpot p e / d_weight_of p <-> 0 < dpot p e)%R).
  { intros e. split; intros H; [|now apply Rmult_lt_0_compat].
    destruct (dpot_nonneg p e) as [S|S]; [exact S|]. unfold Rdiv in H. rewrite <- S in H. lra. }
  assert (Hex : (exists e, d_in_range p2 e /\ 0 < dpot p2 e /\ dpot q e = 0)%R <->
                (exists e, d_in_range p e /\ 0 < dpot p e /\ dpot q e = 0)%R).
  { split; intros (e & R1 & R2 & R3); exists e.
    - apply Rn in R1. rewrite (Gn e R1) in R2. split; [exact R1|]. split; [now apply Ppos|exact R3].
    - split; [now apply Rn|]. rewrite (Gn e R1). split; [now apply Ppos|exact R3]. }
  rewrite Hex in H1, H2. split; intros C.
  - rewrite (H1 C). reflexivity.
  - rewrite (H2 C (fun _ => 0)).
    replace (sum_over (d_card_of p) (dvars p) (fun e => kl_term (dpot p e / d_weight_of p) (dpot q e))%R (fun _ => 0))
      with (sum_over (d_card_of p2) (dvars p2) (fun e => kl_term (dpot p2 e) (dpot q e)) (fun _ => 0)).
    { change d_clamp_kld with clamp_kld. apply clamp_clamped. }
    assert (Pn : Permutation (dvars p2) (dvars p)) by (rewrite Q2; exact HP').
    assert (Cn : d_cards_agree p2 p).
    { intros v c c' A1 A2. symmetry. apply (Hc v); [exact A2|]. unfold d_has_card in *. now rewrite <- Q2, <- Hs. }
    rewrite (same_scope_sum_d p2 p _ _ (wd_s p2 Hp2) (wd_s p Hp) Pn Cn).
    2: { intros e e' H. f_equal; now apply dpot_ext'. }
    apply sum_over_ext_range. intros e He _. rewrite Gn; [reflexivity|]. apply d_range_iff; auto.
Qed.
Lemma cov_negative f C m w : ga_can f = None -> ga_cov f = Some (C, m, w) -> shaped (length (ga_vars f)) (C, m, w) ->
  ((mdet C < 0)%R -> get_can f = Err Warning) /\ (mdet C = 0%R -> get_can f = Err LinAlgError).
Proof.
  intros N E (H1 & H2 & H3 & H4). unfold get_can, update_canform. rewrite N, E. split; intros D.
  - rewrite np_inv_ok by (try congruence; lra). cbn [bind].
    rewrite mmul_ok by (cbn; congruence). cbn [bind].
    rewrite (quad_ok (length (ga_vars f))) by (cbn; congruence). cbn [bind].
    rewrite det_2pi_ok by congruence. cbn [bind]. rewrite H1.
    assert (HP : (0 < (2 * PI) ^ length (ga_vars f))%R) by apply pow_lt, twopi_pos.
    unfold utils_log, Rlt_b. destruct (Rlt_dec ((2 * PI) ^ length (ga_vars f) * mdet C) 0) as [G|G]; [reflexivity|]. exfalso. apply G.
    rewrite <- (Rmult_0_r ((2 * PI) ^ length (ga_vars f))). now apply Rmult_lt_compat_l.
  - unfold np_inv. rewrite H1, H2, Nat.eqb_refl. unfold Req_b. destruct (Req_EM_T (mdet C) R0) as [G|G]; [reflexivity|]. now destruct (G D).
Qed.
