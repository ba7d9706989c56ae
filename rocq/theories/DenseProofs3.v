(** Proofs for the dense factor: normalisation, KL divergence, distance from vacuous (C22) and
    the agreement of the sparse and the dense representation (C23). *)
From Coq Require Import ZArith Classical_Prop.
From Verif Require Export DenseProofs2.

Lemma dpot_ext f e e' : (forall v, In v (dvars f) -> e v = e' v) -> dpot f e = dpot f e'.
Proof. intros H. unfold dpot, dval. do 2 f_equal. now apply map_ext_in. Qed.
Lemma dpot_ext' f : ext (dpot f).
Proof. intros e e' H. apply dpot_ext. auto. Qed.
Lemma dpot_nonneg f e : (0 <= dpot f e)%R.
Proof. apply pot_nonneg. Qed.

(** Sums over the elements of a tensor are sums over named assignments. *)
Lemma telems_sum f (h : val -> R) e0 : wf_shape f ->
  Rsum (map h (telems (dtens f))) = sum_over (d_card_of f) (dvars f) (fun e => h (dval f e)) e0.
Proof.
  intros Hw. rewrite sum_over_assign. unfold telems, tindices. rewrite map_map, <- (d_shape f Hw).
  apply Rsum_ext. intros k Hk. unfold dval. rewrite map_upds; [reflexivity|apply (ws_vars f Hw)|].
  apply In_assignments in Hk. rewrite (Forall2_length _ _ _ Hk). apply (ws_ndim f Hw).
Qed.
Lemma telems_lp f v : wf_dense f -> In v (telems (dtens f)) -> is_lp v.
Proof.
  intros Hw Hv. unfold telems in Hv. apply in_map_iff in Hv. destruct Hv as (k & <- & Hk).
  destruct (d_index_env f k Hw Hk) as [E1 E2]. rewrite <- E1. now apply (wd_vals f Hw).
Qed.
Lemma d_weight_any f e : wf_shape f -> sum_over (d_card_of f) (dvars f) (dpot f) e = d_weight_of f.
Proof. intros Hw. unfold d_weight_of. rewrite <- !(telems_sum f pot) by exact Hw. reflexivity. Qed.

(** ** normalisation *)
Lemma d_normalize_spec f : wf_dense f -> (0 < d_weight_of f)%R ->
  exists r, d_normalize f = Ok r /\ wf_dense r /\ dvars r = dvars f /\
    tshape (dtens r) = tshape (dtens f) /\
    (forall v c, d_has_card r v c <-> d_has_card f v c) /\
    (forall v ns, dget (dnames r) v = Some ns <-> dget (dnames f) v = Some ns) /\
    (forall e, d_in_range f e -> dpot r e = (dpot f e / d_weight_of f)%R) /\
    d_weight_of r = 1%R.
Proof.
  intros Hw Hp. unfold d_normalize. rewrite (d_copy_ok f Hw). cbn [bind mkd dvars dtens dcards dnames].
  assert (HW : d_weight_of f = Rsum (map pot (telems (dtens f)))).
  { unfold d_weight_of. rewrite (telems_sum f pot (fun _ => 0)) by auto. reflexivity. }
  unfold logsumexp. destruct (telems (dtens f)) as [|x l] eqn:Et.
  { rewrite HW in Hp. cbn in Hp. lra. }
  rewrite <- Et in *. cbn [bind].
  rewrite (lse_pos (telems (dtens f))).
  2: { intros v Hv. eapply telems_lp; eauto. }
  2: { rewrite <- HW. exact Hp. }
  rewrite <- HW. set (W := d_weight_of f) in *.
  set (r := {| dvars := dvars f; dtens := tmap (fun x => vsub x (Fin (ln W))) (dtens f);
               dcards := tshape (dtens f); dnames := combine (dvars f) (map (dname f) (dvars f)) |}).
  assert (Hlen : forall v, In v (dvars f) -> length (dedup (dname f v)) = d_card_of f v).
  { intros v Hv. apply dname_len; auto. }
  destruct (mkd_wf (dvars f) (tmap (fun x => vsub x (Fin (ln W))) (dtens f)) (dname f) (d_card_of f) (ws_vars f Hw) (d_shape f Hw) Hlen)
    as (Wf & C & N & CO).
  change (mkd (dvars f) (tmap (fun x => vsub x (Fin (ln W))) (dtens f)) (dname f)) with r in *.
  assert (C' : forall v c, d_has_card r v c <-> d_has_card f v c).
  { intros v c. rewrite C, d_has_card_iff by auto. reflexivity. }
  assert (G : forall e, d_in_range f e -> dpot r e = (dpot f e / W)%R /\ is_lp (dval r e)).
  { intros e He. unfold dpot. change (dval r e) with (vsub (dval f e) (Fin (ln W))).
    replace W with (pot (Fin (ln W))) at 2 by (cbn; now apply exp_ln).
    apply pot_vsub; [now apply (wd_vals f Hw)|exact I|]. cbn. rewrite exp_ln by exact Hp. lra. }
  exists r. split; [reflexivity|]. split; [split; [exact Wf|]|].
  { intros e He. apply G. intros v c H. apply He, C', H. }
  split; [reflexivity|]. split; [reflexivity|]. split; [exact C'|]. split; [|split].
  - intros v ns. split; intros H.
    + assert (Hv : In v (dvars f)) by (exact (names_var _ v _ Wf H)). rewrite (N v Hv) in H. injection H as <-.
      apply dname_get; auto.
    + assert (Hv : In v (dvars f)) by (exact (names_var _ v _ (wd_s f Hw) H)). rewrite (N v Hv). unfold dname, dget_or. now rewrite H.
  - intros e He. now apply G.
  - unfold d_weight_of. change (dvars r) with (dvars f).
    rewrite (sum_over_ext_card (d_card_of r) (d_card_of f)) by (intros v Hv; now apply CO).
    rewrite (sum_over_ext_range (d_card_of f) (dvars f) (dpot r) (fun e => / W * dpot f e)%R).
    + rewrite sum_over_scal. rewrite d_weight_any by auto. fold W. field. lra.
    + intros e' H1 _. destruct (G e') as [E _]; [|rewrite E; unfold Rdiv; ring].
      intros v c H. apply d_has_card_iff in H; auto. destruct H as [H ->]. auto.
Qed.

(** ** KL divergence *)
Lemma gibbs_vs (card : string -> nat) (vs : list string) (P Q : env -> R) (e0 : env) : NoDup vs ->
  (forall e e', (forall v, In v vs -> e v = e' v) -> P e = P e') ->
  (forall e e', (forall v, In v vs -> e v = e' v) -> Q e = Q e') ->
  (forall e, 0 <= P e)%R -> (forall e, 0 <= Q e)%R ->
  (forall e : env, (forall v, In v vs -> e v < card v) -> (0 < P e)%R -> (0 < Q e)%R) ->
  sum_over card vs P e0 = sum_over card vs Q e0 ->
  (0 <= sum_over card vs (fun e => kl_term (P e) (Q e)) e0)%R /\
  (sum_over card vs (fun e => kl_term (P e) (Q e)) e0 = 0%R <->
   forall e : env, (forall v, In v vs -> e v < card v) -> P e = Q e).
Proof.
  intros Hw EP EQ HP HQ HPQ Hs. rewrite !sum_over_assign in *.
  assert (Hr : forall k, In k (assignments (map card vs)) -> forall v, In v vs -> upds e0 vs k v < card v).
  { intros k Hk. apply In_assign_range in Hk.
    assert (Hm := map_upds vs e0 k Hw (Forall2_length _ _ _ Hk)). rewrite <- Hm in Hk. clear Hm. revert Hk.
    generalize (upds e0 vs k). intros e' Hk v Hv. clear - Hk Hv.
    induction vs as [|w l IH]; [destruct Hv|]. cbn [map] in Hk. inversion Hk; subst. destruct Hv as [->|Hv]; auto. }
  destruct (gibbs (fun k => P (upds e0 vs k)) (fun k => Q (upds e0 vs k)) (assignments (map card vs))) as [G1 G2]; auto.
  split; [exact G1|]. rewrite G2. split.
  - intros H e He.
    assert (Hin : In (map e vs) (assignments (map card vs))) by (apply In_assignments; now apply map_in_range).
    specialize (H _ Hin).
    assert (A : forall v, In v vs -> upds e0 vs (map e vs) v = e v).
    { intros v Hv. assert (Hm := map_upds vs e0 (map e vs) Hw (map_length _ _)).
      clear - Hv Hm. revert Hm. generalize (upds e0 vs (map e vs)). intros e1 Hm.
      induction vs as [|w l IH]; [destruct Hv|]. cbn [map] in Hm. injection Hm as H1 H2.
      destruct Hv as [->|Hv]; auto. }
    rewrite (EP _ _ A), (EQ _ _ A) in H. exact H.
  - intros H k Hk. apply H. auto.
Qed.

Lemma d_range_iff f e : wf_shape f -> (d_in_range f e <-> forall v, In v (dvars f) -> e v < d_card_of f v).
Proof.
  intros Hw. split; intros H.
  - intros v Hv. apply H. now apply d_has_card_of.
  - intros v c Hc. apply d_has_card_iff in Hc; auto. destruct Hc as [Hv ->]. auto.
Qed.

Lemma d_raw_kld_spec p q : wf_dense p -> wf_dense q -> dvars p = dvars q -> tshape (dtens p) = tshape (dtens q) ->
  exists d, d_raw_kld (dtens p) (dtens q) = Ok d /\
    ((exists e, d_in_range p e /\ 0 < dpot p e /\ dpot q e = 0)%R -> d = PInf) /\
    (~ (exists e, d_in_range p e /\ 0 < dpot p e /\ dpot q e = 0)%R ->
     forall e0, d = Fin (sum_over (d_card_of p) (dvars p) (fun e => kl_term (dpot p e) (dpot q e)) e0)).
Proof.
  intros Hp Hq Hv Hs. unfold d_raw_kld, tbin. rewrite broadcast_same_length by now rewrite Hs.
  rewrite <- Hs, bshape_same. cbn [bind]. eexists. split; [reflexivity|].
  set (T := {| tshape := tshape (dtens p); tget := _ |}).
  assert (HT : forall k, In k (tindices (dtens p)) -> tget T k = kld_elem (tget (dtens p) k) (tget (dtens q) k)).
  { intros k Hk. unfold tindices in Hk. apply In_assignments in Hk. cbn [T tget]. rewrite !bindex_in_range by exact Hk.
    unfold kld_elem, vneb. destruct (veqb (tget (dtens p) k) NInf); reflexivity. }
  assert (Hqr : forall e, d_in_range p e -> d_in_range q e).
  { intros e He v c H. apply He. unfold d_has_card in *. now rewrite Hv, Hs. }
  assert (Hel : forall x, In x (telems T) -> exists e, d_in_range p e /\ x = kld_elem (dval p e) (dval q e)).
  { intros x Hx. unfold telems in Hx. apply in_map_iff in Hx. destruct Hx as (k & <- & Hk).
    assert (Hk' : In k (tindices (dtens p))) by exact Hk.
    destruct (d_index_env p k Hp Hk') as [E1 E2]. exists (env_of (dvars p) k). split; [exact E2|].
    rewrite (HT k Hk'). unfold dval. rewrite E1, <- Hv, E1. reflexivity. }
  unfold vsum. rewrite vsum_gen.
  2: { intros x [<-|Hx]; [right; exists 0%R; reflexivity|]. destruct (Hel x Hx) as (e & He & ->).
       destruct (kld_elem_cases (dval p e) (dval q e)) as [[-> _]|[-> _]]; eauto.
       - now apply (wd_vals p Hp).
       - apply (wd_vals q Hq). auto. }
  cbn [existsb is_pinf orb]. split.
  - intros (e & He & H1 & H2).
    assert (Hin : In (kld_elem (dval p e) (dval q e)) (telems T)).
    { unfold telems. apply in_map_iff. exists (map e (dvars p)). pose proof (d_env_index p e Hp He) as Hk.
      split; [|exact Hk]. rewrite (HT _ Hk). unfold dval. now rewrite <- Hv. }
    assert (Hpi : kld_elem (dval p e) (dval q e) = PInf).
    { destruct (kld_elem_cases (dval p e) (dval q e)) as [[-> _]|[_ [Hn|Hn]]]; try reflexivity.
      - now apply (wd_vals p Hp).
      - apply (wd_vals q Hq). auto.
      - exfalso. unfold dpot in H1. rewrite Hn in H1. cbn in H1. lra.
      - exfalso. unfold dpot in H2. pose proof (wd_vals q Hq e (Hqr e He)) as L.
        destruct (dval q e) as [|y| |]; cbn in *; try tauto. pose proof (exp_pos y). lra. }
    rewrite Hpi in Hin. destruct (existsb is_pinf (telems T)) eqn:E; [reflexivity|].
    assert (existsb is_pinf (telems T) = true); [|congruence]. apply existsb_exists. exists PInf. auto.
  - intros Hno e0.
    assert (E : existsb is_pinf (telems T) = false).
    { apply not_true_iff_false. intros C. apply existsb_exists in C. destruct C as (x & Hx & Hpx).
      destruct (Hel x Hx) as (e & He & ->). apply Hno. exists e. split; [exact He|].
      destruct (kld_elem_cases (dval p e) (dval q e)) as [[_ [H1 H2]]|[H1 _]].
      - now apply (wd_vals p Hp).
      - apply (wd_vals q Hq). auto.
      - unfold dpot. rewrite H2. split; [|reflexivity]. pose proof (wd_vals p Hp e He) as L.
        destruct (dval p e) as [|y| |]; cbn in *; try tauto. apply exp_pos.
      - rewrite H1 in Hpx. discriminate. }
    cbv iota. rewrite E. f_equal. cbn [hfin]. rewrite Rplus_0_l. rewrite sum_over_assign.
    unfold telems, tindices. rewrite map_map, <- (d_shape p Hp). apply Rsum_ext. intros k Hk.
    assert (Hk' : In k (tindices (dtens p))) by exact Hk. rewrite (HT k Hk').
    set (e := upds e0 (dvars p) k).
    assert (Ek : map e (dvars p) = k).
    { apply map_upds; [apply (ws_vars p Hp)|]. apply In_assignments in Hk. rewrite (Forall2_length _ _ _ Hk). apply (ws_ndim p Hp). }
    assert (He : d_in_range p e).
    { apply d_range_iff; auto. apply In_assignments in Hk. rewrite (d_shape p Hp), <- Ek in Hk. clearbody e. clear - Hk. revert Hk.
      generalize (d_card_of p). intros cd Hk. induction (dvars p) as [|w l IH]; intros v Hv; [destruct Hv|]. cbn [map] in Hk. inversion Hk; subst.
      destruct Hv as [->|Hv]; auto. }
    assert (Ep : tget (dtens p) k = dval p e) by (unfold dval; now rewrite Ek).
    assert (Eq : tget (dtens q) k = dval q e) by (unfold dval; now rewrite <- Hv, Ek).
    rewrite Ep, Eq. destruct (kld_elem_cases (dval p e) (dval q e)) as [[_ [H1 H2]]|[-> _]]; [now apply (wd_vals p Hp)|apply (wd_vals q Hq); auto| |reflexivity].
    + exfalso. apply Hno. exists e. split; [exact He|]. unfold dpot. rewrite H2. split; [|reflexivity].
      pose proof (wd_vals p Hp e He) as L. destruct (dval p e) as [|y| |]; cbn in *; try tauto. apply exp_pos.
Qed.

Lemma same_scope_sum_d p q (g : env -> R) e : wf_shape p -> wf_shape q -> Permutation (dvars p) (dvars q) ->
  d_cards_agree p q -> ext g ->
  sum_over (d_card_of p) (dvars p) g e = sum_over (d_card_of q) (dvars q) g e.
Proof.
  intros Hp Hq HP Hc Hg. rewrite (sum_over_perm (d_card_of p) _ _ g HP (ws_vars p Hp) Hg).
  apply sum_over_ext_card. intros v Hv. apply (Hc v); apply d_has_card_of; auto.
  apply (Permutation_in _ (Permutation_sym HP)); exact Hv.
Qed.
Lemma d_range_same p q e : wf_shape p -> wf_shape q -> Permutation (dvars p) (dvars q) -> d_cards_agree p q ->
  d_in_range p e -> d_in_range q e.
Proof.
  intros Hp Hq HP Hc He v c H. apply d_has_card_iff in H; auto. destruct H as [H ->].
  assert (Hv : In v (dvars p)) by (apply (Permutation_in _ (Permutation_sym HP)); exact H).
  rewrite <- (Hc v (d_card_of p v)); try apply d_has_card_of; auto. apply He. now apply d_has_card_of.
Qed.

(** [np] is the normalised self reordered to the variables of the other factor. *)
Lemma kl_core p np q' (N : env -> R) : wf_dense p -> wf_dense q' -> wf_dense np -> dvars np = dvars q' ->
  tshape (dtens np) = tshape (dtens q') -> Permutation (dvars p) (dvars q') -> d_cards_agree p q' ->
  (0 < d_weight_of p)%R ->
  (forall e, d_in_range p e -> dpot np e = (dpot p e / d_weight_of p)%R) ->
  (forall e, d_in_range p e -> dpot q' e = N e) -> (forall e, 0 <= N e)%R ->
  (forall e e', (forall v, In v (dvars p) -> e v = e' v) -> N e = N e') ->
  sum_over (d_card_of p) (dvars p) N (fun _ => 0) = 1%R ->
  let D := sum_over (d_card_of p) (dvars p) (fun e => kl_term (dpot p e / d_weight_of p) (N e))%R (fun _ => 0) in
  exists d, (let* k := d_raw_kld (dtens np) (dtens q') in d_clamp_kld k) = Ok d /\
    ((exists e, d_in_range p e /\ 0 < dpot p e /\ N e = 0)%R -> d = PInf) /\
    (~ (exists e, d_in_range p e /\ 0 < dpot p e /\ N e = 0)%R -> d = Fin D /\ (0 <= D)%R) /\
    (d = Fin 0 <-> forall e, d_in_range p e -> (dpot p e / d_weight_of p = N e)%R).
Proof.
  intros Hp Hq Hnp Hv Hs HP Hc Wp Gn Gq N0 NE N1 D.
  destruct (d_raw_kld_spec np q' Hnp Hq Hv Hs) as (d & -> & H1 & H2). cbn [bind].
  assert (Ip := Rinv_0_lt_compat _ Wp).
  assert (Rq : forall e, d_in_range p e -> d_in_range q' e) by (intros e; apply d_range_same; auto).
  assert (HP' : Permutation (dvars q') (dvars p)) by now apply Permutation_sym.
  assert (Hc' : d_cards_agree q' p) by (intros v c c' A1 A2; symmetry; eapply Hc; eauto).
  assert (Rp : forall e, d_in_range q' e -> d_in_range p e) by (intros e; apply d_range_same; auto).
  assert (Rn : forall e, d_in_range np e <-> d_in_range p e).
  { intros e. assert (d_in_range np e <-> d_in_range q' e) as ->; [|split; auto].
    unfold d_in_range, d_has_card. now rewrite Hv, Hs. }
  assert (Ppos : forall e, (0 < dpot p e / d_weight_of p <-> 0 < dpot p e)%R).
  { intros e. split; intros H.
    - destruct (dpot_nonneg p e) as [S|S]; [exact S|]. unfold Rdiv in H. rewrite <- S in H. lra.
    - now apply Rmult_lt_0_compat. }
  assert (Hex : (exists e, d_in_range np e /\ 0 < dpot np e /\ dpot q' e = 0)%R <->
                (exists e, d_in_range p e /\ 0 < dpot p e /\ N e = 0)%R).
  { split; intros (e & R1 & R2 & R3); exists e.
    - apply Rn in R1. rewrite (Gn e R1) in R2. rewrite (Gq e R1) in R3. split; [exact R1|]. split; [now apply Ppos|exact R3].
    - split; [now apply Rn|]. rewrite (Gn e R1), (Gq e R1). split; [now apply Ppos|exact R3]. }
  rewrite Hex in H1, H2.
  assert (HD : sum_over (d_card_of np) (dvars np) (fun e => kl_term (dpot np e) (dpot q' e)) (fun _ => 0) = D).
  { assert (Pn : Permutation (dvars np) (dvars p)) by (rewrite Hv; exact HP').
    assert (Cn : d_cards_agree np p).
    { intros v c c' A1 A2. symmetry. apply (Hc v); [exact A2|]. unfold d_has_card in *. now rewrite <- Hv, <- Hs. }
    rewrite (same_scope_sum_d np p _ _ (wd_s np Hnp) (wd_s p Hp) Pn Cn).
    2: { intros e e' H. f_equal; now apply dpot_ext'. }
    apply sum_over_ext_range. intros e He _. rewrite Gn, Gq; [reflexivity| |]; apply d_range_iff; auto. }
  destruct (classic (exists e, d_in_range p e /\ 0 < dpot p e /\ N e = 0)%R) as [C|C].
  - specialize (H1 C). subst d. exists PInf. split; [reflexivity|]. split; [reflexivity|]. split; [tauto|]. split; [discriminate|].
    intros H. exfalso. destruct C as (e & R1 & R2 & R3). specialize (H e R1). rewrite R3 in H.
    apply Ppos in R2. lra.
  - specialize (H2 C (fun _ => 0)). rewrite HD in H2. subst d.
    destruct (gibbs_vs (d_card_of p) (dvars p) (fun e => dpot p e / d_weight_of p)%R N (fun _ => 0) (ws_vars p Hp)) as [G1 G2].
    + intros e e' H. now rewrite (dpot_ext p e e' H).
    + exact NE.
    + intros e. apply Rmult_le_pos; [apply dpot_nonneg|lra].
    + exact N0.
    + intros e He H. apply Ppos in H. destruct (N0 e) as [S|S]; [exact S|]. exfalso. apply C. exists e.
      split; [apply d_range_iff; auto|]. split; [exact H|now symmetry].
    + rewrite N1. rewrite (sum_over_ext_g (d_card_of p) _ _ (fun e => / d_weight_of p * dpot p e)%R) by (intros; unfold Rdiv; ring).
      rewrite sum_over_scal, d_weight_any by auto. apply Rinv_l. lra.
    + fold D in G1, G2.
      assert (Hcl : d_clamp_kld (Fin D) = Ok (Fin D)).
      { unfold d_clamp_kld. cbn [vltb]. unfold Rlt_b. destruct (Rlt_dec D 0); [lra|reflexivity]. }
      rewrite Hcl. eexists. split; [reflexivity|]. split; [tauto|]. split; [auto|].
      split.
      * intros H. injection H as H. intros e He. apply (proj1 G2 H). apply d_range_iff; auto.
      * intros H. f_equal. apply G2. intros e He. apply H. apply d_range_iff; auto.
Qed.

Lemma d_kl_spec p q : wf_dense p -> wf_dense q -> Permutation (dvars p) (dvars q) -> d_cards_agree p q ->
  names_agree p q -> (0 < d_weight_of p)%R -> (0 < d_weight_of q)%R ->
  exists d, d_kl_divergence p q true = Ok d /\
    ((exists e, d_in_range p e /\ 0 < dpot p e /\ dpot q e = 0)%R -> d = PInf) /\
    (~ (exists e, d_in_range p e /\ 0 < dpot p e /\ dpot q e = 0)%R ->
       d = Fin (d_kl_of p q) /\ (0 <= d_kl_of p q)%R) /\
    (d = Fin 0 <-> forall e, d_in_range p e -> (dpot p e / d_weight_of p = dpot q e / d_weight_of q)%R).
Proof.
  intros Hp Hq HP Hc Hn Wp Wq. unfold d_kl_divergence. rewrite (check_names_ok p q Hn). cbn [bind].
  destruct (d_normalize_spec p Hp Wp) as (p1 & -> & P1 & P2 & P3 & P4 & P5 & P6 & P7). cbn [bind].
  destruct (d_reorder_spec p1 (dvars q) P1) as (p2 & -> & Q1 & Q2 & Q3 & Q4 & Q5); [now rewrite P2|]. cbn [bind].
  destruct (d_normalize_spec q Hq Wq) as (q1 & -> & R1 & R2 & R3 & R4 & R5 & R6 & R7). cbn [bind].
  assert (Gn : forall e, d_in_range p e -> dpot p2 e = (dpot p e / d_weight_of p)%R).
  { intros e He. unfold dpot. rewrite Q5. apply (P6 e He). }
  assert (Hp2 : wf_dense p2).
  { split; [exact Q1|]. intros e He. rewrite Q5. apply (wd_vals p1 P1). intros v c H. apply He, Q3, H. }
  assert (Iq := Rinv_0_lt_compat _ Wq).
  destruct (kl_core p p2 q1 (fun e => dpot q e / d_weight_of q)%R) as (d & Hd & D1 & D2 & D3); auto.
  - now rewrite R2.
  - rewrite (d_shape p2 Hp2), (d_shape q1 R1), Q2, R2. apply map_ext_in. intros v Hv.
    assert (Hvp : In v (dvars p)) by (apply (Permutation_in _ (Permutation_sym HP)); exact Hv).
    apply (Hc v).
    + apply P4, Q3. apply d_has_card_of; auto. now rewrite Q2.
    + apply R4. apply d_has_card_of; auto. now rewrite R2.
  - now rewrite R2.
  - intros v c c' A1 A2. eapply Hc; eauto. apply R4. exact A2.
  - intros e He. apply R6. eapply d_range_same; [| |exact HP|exact Hc|]; auto.
  - intros e. apply Rmult_le_pos; [apply dpot_nonneg|lra].
  - intros e e' H. rewrite (dpot_ext q e e'); [reflexivity|]. intros v Hv. apply H.
    apply (Permutation_in _ (Permutation_sym HP)); exact Hv.
  - rewrite (same_scope_sum_d p q _ _ (wd_s p Hp) (wd_s q Hq) HP Hc).
    2: { intros e e' H. f_equal. now apply dpot_ext'. }
    rewrite (sum_over_ext_g (d_card_of q) _ _ (fun e => / d_weight_of q * dpot q e)%R) by (intros; unfold Rdiv; ring).
    rewrite sum_over_scal, d_weight_any by auto. apply Rinv_l. lra.
  - exists d. split; [exact Hd|].
    assert (E : forall x, (x / d_weight_of q = 0 <-> x = 0)%R).
    { intros x. split; intros H; [|rewrite H; unfold Rdiv; ring]. unfold Rdiv in H. apply Rmult_integral in H. destruct H; [assumption|lra]. }
    assert (Hex : (exists e, d_in_range p e /\ 0 < dpot p e /\ dpot q e / d_weight_of q = 0)%R <->
                  (exists e, d_in_range p e /\ 0 < dpot p e /\ dpot q e = 0)%R).
    { split; intros (e & A1 & A2 & A3); exists e; (split; [exact A1|split; [exact A2|now apply E]]). }
    rewrite Hex in D1, D2. auto.
Qed.

Lemma names_agree_refl f g : (forall v ns, dget (dnames g) v = Some ns <-> dget (dnames f) v = Some ns) -> names_agree f g.
Proof. intros H v ns ns' H1 H2. apply H in H2. congruence. Qed.
Lemma d_vacuous_spec f : wf_dense f -> (0 < d_weight_of f)%R ->
  let D := sum_over (d_card_of f) (dvars f)
             (fun e => kl_term (dpot f e / d_weight_of f) (1 / INR (d_n_assignments f)))%R (fun _ => 0) in
  d_distance_from_vacuous f = Ok (Fin D) /\ (0 <= D)%R /\
  (D = 0%R <-> forall e e', d_in_range f e -> d_in_range f e' -> dpot f e = dpot f e').
Proof.
  intros Hw Hp D.
  assert (HNp : 0 < d_n_assignments f).
  { unfold d_n_assignments. destruct (Nat.eq_0_gt_0_cases (fold_right Nat.mul 1 (tshape (dtens f)))) as [E|E]; [|exact E].
    exfalso. unfold d_weight_of in Hp. rewrite sum_over_assign, <- (d_shape f Hw) in Hp.
    assert (L := length_assignments (tshape (dtens f))). unfold nprod in L. rewrite E in L.
    destruct (assignments (tshape (dtens f))); [|discriminate]. cbn in Hp. lra. }
  assert (HNR : (0 < INR (d_n_assignments f))%R) by (now apply lt_0_INR).
  unfold d_distance_from_vacuous. rewrite (names_of_ok f (dvars f) Hw (incl_refl _)). cbn [bind].
  fold (d_n_assignments f). set (Nn := INR (d_n_assignments f)) in *.
  assert (Hu : vopp (rlog Nn) = Fin (- ln Nn)).
  { unfold rlog, Rlt_b. destruct (Rlt_dec 0 Nn); [reflexivity|lra]. }
  rewrite Hu. set (t := tconst (tshape (dtens f)) (Fin (- ln Nn))).
  assert (Hlen : forall v, In v (dvars f) -> length (dedup (dname f v)) = d_card_of f v).
  { intros v Hv. apply dname_len; auto. }
  rewrite (mk_dense_ok (dvars f) t _ (d_card_of f) (ws_vars f Hw) (d_shape f Hw) Hlen). cbn [bind].
  destruct (mkd_wf (dvars f) t _ (d_card_of f) (ws_vars f Hw) (d_shape f Hw) Hlen) as (W & C & N & CO).
  set (u := mkd (dvars f) t (dname f)) in *.
  assert (Hu' : wf_dense u) by (split; [exact W|intros; exact I]).
  assert (C' : forall v c, d_has_card u v c <-> d_has_card f v c).
  { intros v c. rewrite C, d_has_card_iff by auto. reflexivity. }
  unfold d_kl_divergence. rewrite (check_names_ok f u).
  2: { intros v ns ns' H1 H2. assert (Hv : In v (dvars f)) by (exact (names_var f v _ (wd_s f Hw) H1)).
       rewrite (N v Hv) in H2. rewrite (dname_get f v Hw Hv) in H1. congruence. }
  cbn [bind].
  destruct (d_normalize_spec f Hw Hp) as (p1 & -> & P1 & P2 & P3 & P4 & P5 & P6 & P7). cbn [bind].
  destruct (d_reorder_spec p1 (dvars u) P1) as (p2 & -> & Q1 & Q2 & Q3 & Q4 & Q5); [now rewrite P2|]. cbn [bind].
  assert (Gn : forall e, d_in_range f e -> dpot p2 e = (dpot f e / d_weight_of f)%R).
  { intros e He. unfold dpot. rewrite Q5. apply (P6 e He). }
  assert (Hp2 : wf_dense p2).
  { split; [exact Q1|]. intros e He. rewrite Q5. apply (wd_vals p1 P1). intros v c H. apply He, Q3, H. }
  assert (Ud : forall e, dpot u e = (1 / Nn)%R).
  { intros e. unfold dpot, dval. cbn. rewrite exp_Ropp, exp_ln by exact HNR. unfold Rdiv. ring. }
  assert (IN := Rinv_0_lt_compat _ HNR).
  assert (HsumN : sum_over (d_card_of f) (dvars f) (fun _ => 1 / Nn)%R (fun _ => 0) = 1%R).
  { rewrite sum_over_assign, Rsum_const, length_assignments, <- (d_shape f Hw).
    change (nprod (tshape (dtens f))) with (d_n_assignments f). fold Nn. field. lra. }
  destruct (kl_core f p2 u (fun _ => 1 / Nn)%R) as (d & Hd & D1 & D2 & D3); auto.
  - rewrite (d_shape p2 Hp2), (d_shape u W), Q2. apply map_ext_in. intros v Hv. rewrite (CO v Hv).
    assert (X : d_has_card f v (d_card_of p2 v)).
    { apply P4, Q3, d_has_card_of; auto. now rewrite Q2. }
    apply d_has_card_iff in X; auto. tauto.
  - intros v c c' A1 A2. apply C' in A2. apply d_has_card_iff in A1, A2; auto. destruct A1 as [_ ->], A2 as [_ ->]. reflexivity.
  - intros _. unfold Rdiv. lra.
  - destruct D2 as [D2 D2']. { intros (e & _ & _ & H). unfold Rdiv in H. lra. }
    fold D in D2, D2'. subst d. rewrite Hd. split; [reflexivity|]. split; [exact D2'|].
    assert (IW := Rinv_0_lt_compat _ Hp).
    split.
    + intros H. assert (H' := proj1 D3 (f_equal Fin H)). intros e e' He He'.
      pose proof (H' e He) as A1. pose proof (H' e' He') as A2.
      apply (Rmult_eq_reg_r (/ d_weight_of f)); [|lra]. unfold Rdiv in *. rewrite A1, A2. reflexivity.
    + intros H. assert (X : Fin D = Fin 0); [|now injection X]. apply D3. intros e He.
      assert (Hc : d_weight_of f = (Nn * dpot f e)%R).
      { unfold d_weight_of.
        rewrite (sum_over_ext_range (d_card_of f) (dvars f) (dpot f) (fun _ => dpot f e)).
        - rewrite sum_over_assign, Rsum_const, length_assignments, <- (d_shape f Hw). reflexivity.
        - intros e' H1 _. apply H; [apply d_range_iff; auto|exact He]. }
      rewrite Hc at 1. assert (dpot f e <> 0)%R by (intros Z; rewrite Z, Rmult_0_r in Hc; lra).
      field. split; [lra|assumption].
Qed.

(** ** C23: the two representations of a dictionary *)
Lemma tset_fold_dict cards (p : dict (list nat) R) : NoDup (dkeys p) ->
  (forall k x, In (k, x) p -> In k (assignments cards)) ->
  forall t, tshape t = cards ->
  exists t', foldM (fun t kp => tset t (fst kp) (snd kp)) p t = Ok t' /\ tshape t' = cards /\
    forall k, In k (assignments cards) -> tget t' k = match dget p k with Some x => x | None => tget t k end.
Proof.
  induction p as [|[k x] p IH]; intros Hn Hr t Ht.
  - exists t. split; [reflexivity|]. split; [exact Ht|]. reflexivity.
  - cbn [foldM fst snd]. destruct (tset_same t k x) as (t1 & -> & S1 & G1).
    { unfold tindices. rewrite Ht. apply (Hr k x). left; reflexivity. }
    cbn [bind]. cbn [dkeys map fst] in Hn. inversion Hn as [|? ? Hk Hn']; subst.
    destruct (IH Hn' (fun k x H => Hr k x (or_intror H)) t1 S1) as (t' & -> & S' & G').
    exists t'. split; [reflexivity|]. split; [exact S'|]. intros k' Hk'. rewrite (G' k' Hk'). cbn [dget].
    rewrite (G1 k' Hk'). unfold eqb. destruct (eq_dec k' k) as [->|N].
    + assert (E : dget p k = None) by now apply dget_None. rewrite E. reflexivity.
    + reflexivity.
Qed.
Lemma same_dict vars cards (p : dict (list nat) R) : NoDup vars -> length cards = length vars -> NoDup (dkeys p) ->
  (forall k x, In (k, x) p -> Forall2 (fun i c => i < c) k cards /\ (0 <= x)%R) ->
  exists s d, mk_sparse_probs vars cards p NInf = Ok s /\ mk_dense_probs vars cards p None = Ok d /\
    wf_sparse s /\ zero_default s /\ wf_dense d /\ svars s = vars /\ dvars d = vars /\
    (forall v c, has_card s v c <-> d_has_card d v c) /\
    (forall e, d_in_range d e -> sval s e = dval d e) /\
    (forall k x e, In (k, x) p -> map e vars = k -> dpot d e = x) /\
    (forall e, d_in_range d e -> ~ In (map e vars) (dkeys p) -> dpot d e = 0%R).
Proof.
  intros Hn Hl Hk Hr. unfold mk_sparse_probs, mk_sparse, mk_dense_probs.
  rewrite (proj2 (nodupb_iff vars) Hn), Hl, Nat.eqb_refl. cbn [negb raise_if bind].
  destruct (tset_fold_dict cards p Hk (fun k x H => proj2 (In_assignments cards k) (proj1 (Hr k x H))) (tconst cards 0%R) eq_refl)
    as (t & -> & St & Gt). cbn [bind mk_names].
  eexists _, _. split; [reflexivity|]. split; [reflexivity|].
  set (s := {| svars := vars; scards := cards; stbl := _; sdef := NInf |}).
  set (d := {| dvars := vars; dtens := tmap rlog t; dcards := cards; dnames := names_default vars cards |}).
  assert (Hlp : forall x, (0 <= x)%R -> is_lp (rlog x) /\ pot (rlog x) = x).
  { intros x Hx. unfold rlog, Rlt_b, Req_b. destruct (Rlt_dec 0 x); [split; [exact I|cbn; now apply exp_ln]|].
    destruct (Req_EM_T x 0); [split; [exact I|now subst]|]. exfalso. lra. }
  assert (Ws : wf_sparse s).
  { split; [split|]; cbn [s svars scards stbl].
    - exact Hn.
    - exact Hl.
    - intros k v Hkv. apply in_map_iff in Hkv. destruct Hkv as ([k' x] & E & Hkv). cbn [fst snd] in E. injection E as <- _.
      now apply (Hr k' x).
    - rewrite (dkeys_map rlog). exact Hk.
    - intros k v Hkv. apply in_map_iff in Hkv. destruct Hkv as ([k' x] & E & Hkv). cbn [fst snd] in E. injection E as _ <-.
      apply Hlp. now apply (Hr k' x). }
  assert (Hcards : cards = map (fun v => match dget (combine vars cards) v with Some c => c | None => 0 end) vars).
  { change cards with (scards s) at 1. rewrite (scards_map s Ws). reflexivity. }
  set (card := fun v => match dget (combine vars cards) v with Some c => c | None => 0 end) in Hcards.
  assert (Hnd : names_default vars cards = combine vars (map (fun v => map AInt (seq 0 (card v))) vars)).
  { unfold names_default. rewrite Hcards at 1. clearbody card. clear - Hn.
    assert (E : map (fun vc : string * nat => (fst vc, map AInt (seq 0 (snd vc)))) (combine vars (map card vars)) =
                combine vars (map (fun v => map AInt (seq 0 (card v))) vars)).
    { clear Hn. induction vars as [|v l IH]; [reflexivity|]. cbn [map combine fst snd]. now rewrite IH. }
    rewrite E. apply dict_of_NoDup. rewrite dkeys_combine by apply map_length. exact Hn. }
  assert (Hs : tshape (tmap rlog t) = map card vars) by (cbn [tmap tshape]; now rewrite St).
  assert (Hlen : forall v, In v vars -> length (dedup (map AInt (seq 0 (card v)))) = card v).
  { intros v _. rewrite dedup_NoDup_id; [rewrite map_length; apply seq_length|].
    apply NoDup_map_inj; [|apply seq_NoDup]. intros x y _ _ H. now injection H. }
  destruct (mkd_wf vars (tmap rlog t) _ card Hn Hs Hlen) as (W & C & _ & _).
  assert (Ed : d = mkd vars (tmap rlog t) (fun v => map AInt (seq 0 (card v)))).
  { unfold d, mkd. rewrite <- Hnd. f_equal. cbn [tmap tshape]. now rewrite St. }
  rewrite <- Ed in W, C.
  assert (HC : forall v c, has_card s v c <-> d_has_card d v c).
  { intros v c. unfold has_card, d_has_card. cbn [s svars scards d dvars dtens tmap tshape]. now rewrite St. }
  assert (Hin : forall e, d_in_range d e -> In (map e vars) (assignments cards)).
  { intros e He. pose proof (d_env_index d e W He) as H. unfold tindices in H. cbn [d dvars dtens tmap tshape] in H. now rewrite St in H. }
  assert (HV : forall e, d_in_range d e -> dval d e = match dget p (map e vars) with Some x => rlog x | None => NInf end).
  { intros e He. unfold dval. cbn [d dvars dtens tmap tget]. rewrite (Gt _ (Hin e He)).
    destruct (dget p (map e vars)); [reflexivity|]. cbn [tconst tget]. unfold rlog, Rlt_b, Req_b.
    destruct (Rlt_dec 0 0); [lra|]. destruct (Req_EM_T 0 0); congruence. }
  assert (Hrange : forall e, Forall2 (fun i c => i < c) (map e vars) cards -> d_in_range d e).
  { intros e H v c Hc. apply C in Hc. destruct Hc as [Hv ->]. rewrite Hcards in H. clearbody card. clear - H Hv.
    induction vars as [|w l IH]; [destruct Hv|]. cbn [map] in H. inversion H; subst. destruct Hv as [->|Hv]; auto. }
  split; [exact Ws|]. split; [reflexivity|]. split; [split; [exact W|]|].
  { intros e He. rewrite (HV e He). destruct (dget p (map e vars)) as [x|] eqn:E; [|exact I].
    apply dget_In in E. apply Hlp. now apply (Hr _ _ E). }
  split; [reflexivity|]. split; [reflexivity|]. split; [exact HC|]. split; [|split].
  - intros e He. rewrite (HV e He). unfold sval. cbn [s svars stbl sdef]. rewrite (dget_map rlog).
    destruct (dget p (map e vars)); reflexivity.
  - intros k x e Hkx <-. assert (He : d_in_range d e) by (apply Hrange, (Hr _ _ Hkx)).
    unfold dpot. rewrite (HV e He), (In_dget _ _ _ Hk Hkx). apply Hlp. now apply (Hr _ _ Hkx).
  - intros e He Hni. unfold dpot. rewrite (HV e He). apply dget_None in Hni. rewrite Hni. reflexivity.
Qed.

(** A sparse and a dense factor that represent the same table. *)
Definition represent (s : sparse) (d : dense) : Prop :=
  (forall v c, has_card s v c <-> d_has_card d v c) /\ forall e, d_in_range d e -> spot s e = dpot d e.
Lemma represent_multiply o s1 s2 d1 d2 : oracle_ok o -> wf_sparse s1 -> wf_sparse s2 -> zero_default s1 -> zero_default s2 ->
  wf_dense d1 -> wf_dense d2 -> represent s1 d1 -> represent s2 d2 -> cards_agree s1 s2 -> names_agree d1 d2 ->
  exists s d, s_multiply o s1 s2 = Ok s /\ d_multiply d1 d2 = Ok d /\ represent s d.
Proof.
  intros Ho W1 W2 Z1 Z2 D1 D2 [R1 V1] [R2 V2] Hc Hn.
  destruct (multiply_spec o s1 s2 Ho W1 W2 Z1 Z2 Hc) as (s & Hs & _ & _ & _ & Cs & Vs).
  assert (Hc' : d_cards_agree d1 d2) by (intros v c c' A1 A2; apply (Hc v); [now apply R1|now apply R2]).
  destruct (d_multiply_spec d1 d2 D1 D2 Hc' Hn) as (d & Hd & _ & _ & Cd & _ & Vd).
  exists s, d. split; [exact Hs|]. split; [exact Hd|]. split.
  - intros v c. rewrite Cs, Cd, R1, R2. reflexivity.
  - intros e He. rewrite Vs. destruct (Vd e He) as [_ ->]. f_equal.
    + apply V1. intros v c H. apply He, Cd. auto.
    + apply V2. intros v c H. apply He, Cd. auto.
Qed.
Lemma represent_reduce s d vrs (values : list nat) : wf_sparse s -> zero_default s -> wf_dense d -> represent s d ->
  NoDup vrs -> incl vrs (svars s) ->
  (exists k v, In (k, v) (stbl s) /\ map (env_of (svars s) k) vrs = values) ->
  exists s' d', s_reduce s vrs values = Ok s' /\ d_reduce d vrs (map Z.of_nat values) = Ok d' /\ represent s' d'.
Proof.
  intros Ws Zs Wd [R V] Hn Hi Hex.
  destruct (reduce_spec s vrs values Ws Zs Hn Hi Hex) as (s' & Hs & _ & _ & _ & Cs & Vs).
  destruct Hex as (k & x & Hk & Hv).
  assert (Hl : length values = length vrs) by (rewrite <- Hv; apply map_length).
  assert (Hcv : forall v z, In (v, z) (combine vrs (map Z.of_nat values)) -> In v vrs /\ z = Z.of_nat (env_of (svars s) k v)).
  { intros v z H. rewrite <- Hv, map_map in H. apply combine_map_In' in H. exact H. }
  assert (Hrk : in_range s (env_of (svars s) k)).
  { intros v c Hvc. pose proof (wf_keys s Ws k x Hk) as F.
    assert (Hkl := key_length s k x (wf_s s Ws) Hk).
    rewrite <- (map_env_of (svars s) k (wf_vars s Ws) Hkl) in F. unfold has_card in Hvc. clear - F Hvc. revert F Hvc.
    generalize (env_of (svars s) k). intros e. generalize (svars s) (scards s). induction l as [|y l IH]; intros [|z m] Hr Hvc; try (destruct Hvc).
    + injection H as -> ->. cbn [map] in Hr. inversion Hr; subst; assumption.
    + cbn [map] in Hr. inversion Hr; subst; eauto. }
  destruct (d_reduce_spec d vrs (map Z.of_nat values) Wd Hn) as (d' & Hd & Wd' & Vd' & Cd & _ & Vd).
  { now rewrite map_length. }
  { intros v z c H Hc. apply Hcv in H. destruct H as [H ->]. apply R in Hc. specialize (Hrk v c Hc). lia. }
  exists s', d'. split; [exact Hs|]. split; [exact Hd|]. split.
  - intros v c. rewrite Cs, Cd, R. reflexivity.
  - intros e He.
    set (e' := fun v => if mem v vrs then env_of (svars s) k v else e v).
    assert (E1 : spot s' e = spot s' e').
    { apply spot_ext. intros v Hv'. unfold e'.
      assert (Hh : has_card s' v (card_of s' v)).
      { apply has_card_iff; auto. destruct (reduce_spec s vrs values Ws Zs Hn Hi) as (s'' & A1 & A2 & _); [eauto|]. rewrite Hs in A1. injection A1 as <-. auto. }
      apply Cs in Hh. destruct Hh as [_ Hh]. now rewrite (proj2 (mem_nIn v vrs) Hh). }
    assert (E2 : dpot d' e = dpot d' e').
    { apply dpot_ext. intros v Hv'. unfold e'. rewrite Vd' in Hv'. apply filter_In in Hv'. destruct Hv' as [_ Hv'].
      apply negb_true_iff in Hv'. now rewrite Hv'. }
    rewrite E1, E2. rewrite Vs.
    2: { rewrite <- Hv. apply map_ext_in. intros v Hv'. unfold e'. now rewrite (proj2 (mem_In v vrs) Hv'). }
    unfold dpot. rewrite (Vd e').
    2: { intros v z H _. apply Hcv in H. destruct H as [H ->]. unfold e'. now rewrite (proj2 (mem_In v vrs) H). }
    apply V. intros v c Hc. unfold e'. destruct (mem v vrs) eqn:E.
    + apply Hrk. now apply R.
    + apply He. apply Cd. split; [exact Hc|]. now apply mem_nIn.
Qed.
