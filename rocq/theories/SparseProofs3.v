(** Proofs for KL divergence, distance from vacuous, reorder and equality (C11 - C13). *)
From Coq Require Import Classical_Prop.
From Verif Require Export SparseProofs2.

Lemma weight_total f : wf_struct f -> zero_default f -> weight_of f = total f.
Proof. intros. now apply total_spec. Qed.
Lemma weight_pos f : wf_struct f -> zero_default f -> forall e,
  sum_over (card_of f) (svars f) (spot f) e = weight_of f.
Proof. intros. unfold weight_of. rewrite !total_spec; auto. Qed.

#[global] Hint Resolve wf_s : core.

(** ** Gibbs' inequality *)
Lemma ln_lt_x1 x : (0 < x)%R -> x <> 1%R -> (ln x < x - 1)%R.
Proof.
  intros Hx Hn. replace x with (1 + (x - 1))%R at 1 by ring.
  assert (Hl : (ln x <> 0)%R).
  { intros C. apply Hn. apply ln_inv; [exact Hx|lra|]. rewrite C. symmetry. apply ln_1. }
  replace (1 + (x - 1))%R with x by ring.
  pose proof (exp_ineq1 (ln x) Hl) as H. rewrite exp_ln in H by exact Hx. lra.
Qed.
Lemma kl_term_ge p q : (0 <= p)%R -> (0 <= q)%R -> (0 < p -> 0 < q)%R ->
  (p - q <= kl_term p q)%R /\ (kl_term p q = p - q -> p = q)%R.
Proof.
  intros Hp Hq Hpq. unfold kl_term. destruct (Req_EM_T p 0) as [->|Hn].
  - split; [lra|]. intros; lra.
  - assert (Hp' : (0 < p)%R) by lra. specialize (Hpq Hp').
    destruct (Req_EM_T p q) as [->|Hne].
    + unfold Rdiv. rewrite Rinv_r by lra. rewrite ln_1. split; [lra|reflexivity].
    + assert (Hx : (0 < q / p)%R) by (apply Rdiv_lt_0_compat; lra).
      assert (Hx1 : (q / p <> 1)%R).
      { intros C. apply Hne. apply (Rmult_eq_compat_r p) in C. unfold Rdiv in C.
        rewrite Rmult_assoc, Rinv_l in C by lra. lra. }
      pose proof (ln_lt_x1 _ Hx Hx1) as H.
      assert (Hln : ln (p / q) = (- ln (q / p))%R).
      { rewrite <- ln_Rinv by exact Hx. f_equal. unfold Rdiv. rewrite Rinv_mult, Rinv_inv; lra. }
      rewrite Hln.
      assert (Hs : (p * ln (q / p) < p * (q / p - 1))%R) by (apply Rmult_lt_compat_l; lra).
      replace (p * (q / p - 1))%R with (q - p)%R in Hs by (field; lra).
      split; [lra|]. intros; lra.
Qed.
Lemma gibbs {A} (P Q : A -> R) (l : list A) :
  (forall x, In x l -> 0 <= P x)%R -> (forall x, In x l -> 0 <= Q x)%R ->
  (forall x, In x l -> 0 < P x -> 0 < Q x)%R ->
  Rsum (map P l) = Rsum (map Q l) ->
  (0 <= Rsum (map (fun x => kl_term (P x) (Q x)) l))%R /\
  (Rsum (map (fun x => kl_term (P x) (Q x)) l) = 0%R <-> (forall x, In x l -> P x = Q x)).
Proof.
  intros HP HQ HPQ Hs.
  set (D := fun x => (kl_term (P x) (Q x) - (P x - Q x))%R).
  assert (HD : forall x, In x l -> (0 <= D x)%R).
  { intros x Hx. unfold D. destruct (kl_term_ge (P x) (Q x)) as [H _]; auto. lra. }
  assert (HsD : Rsum (map D l) = Rsum (map (fun x => kl_term (P x) (Q x)) l)).
  { unfold D. rewrite (Rsum_minus (fun x => kl_term (P x) (Q x)) (fun x => P x - Q x)%R).
    rewrite Rsum_minus. lra. }
  rewrite <- HsD. split; [now apply Rsum_nonneg|]. split.
  - intros H0 x Hx. pose proof (Rsum_zero_all D l HD H0 x Hx) as H.
    destruct (kl_term_ge (P x) (Q x)) as [_ H']; auto. apply H'. unfold D in H. lra.
  - intros H. apply Rsum_zero. intros x Hx. unfold D. rewrite <- (H x Hx). unfold kl_term.
    destruct (Req_EM_T (P x) 0) as [->|Hn]; [ring|]. unfold Rdiv. rewrite Rinv_r by exact Hn. rewrite ln_1. ring.
Qed.

(** ** sums over in-range assignments *)
Lemma Forall2_map_r' {A B C} (P : A -> C -> Prop) (g : B -> C) l m :
  Forall2 P l (map g m) <-> Forall2 (fun x y => P x (g y)) l m.
Proof.
  revert l; induction m as [|x m IH]; intros l; cbn; split; intros H; inversion H; subst;
    constructor; auto; apply IH; auto.
Qed.
Lemma In_assign_range (card : string -> nat) (vs : list string) (k : key) : In k (assignments (map card vs)) <->
  Forall2 (fun i v => i < card v) k vs.
Proof. rewrite In_assignments. apply Forall2_map_r'. Qed.
Lemma upds_id vs : forall (e : env), forall v, upds e vs (map e vs) v = e v.
Proof.
  induction vs as [|w vs IH]; intros e v; cbn [map upds]; [reflexivity|].
  transitivity (upds (upd e w (e w)) vs (map (upd e w (e w)) vs) v).
  - f_equal. apply map_ext. intros x. unfold upd. destruct (string_dec x w) as [->|]; reflexivity.
  - rewrite IH. unfold upd. destruct (string_dec v w) as [->|]; reflexivity.
Qed.

Lemma in_range_upds f e k : wf_struct f -> In k (assignments (map (card_of f) (svars f))) ->
  in_range f (upds e (svars f) k).
Proof.
  intros Hw Hk v c Hvc. apply has_card_iff in Hvc; [|exact Hw]. destruct Hvc as [Hv ->].
  apply In_assign_range in Hk.
  assert (Hm := map_upds (svars f) e k (wf_vars f Hw) (Forall2_length _ _ _ Hk)).
  rewrite <- Hm in Hk. clear Hm. revert Hk. generalize (upds e (svars f) k). intros e' Hk.
  induction (svars f) as [|w l IH]; [destruct Hv|]. cbn [map] in Hk. inversion Hk; subst.
  destruct Hv as [->|Hv]; auto.
Qed.
Lemma in_range_assign f (e : env) : wf_struct f -> in_range f e ->
  In (map e (svars f)) (assignments (map (card_of f) (svars f))).
Proof.
  intros Hw Hr. apply In_assign_range.
  assert (H : forall v, In v (svars f) -> e v < card_of f v).
  { intros v Hv. apply Hr. apply has_card_iff; auto. }
  clear Hr. induction (svars f) as [|v l IH]; cbn [map]; constructor.
  - apply H. left; reflexivity.
  - apply IH. intros w Hv. apply H. right; exact Hv.
Qed.

(** ** raw KL of two log tables over the same scope *)
Definition hfin (v : val) : R := match v with Fin r => r | _ => 0%R end.
Lemma vsum_gen (l : list val) : forall acc,
  (forall v, In v (acc :: l) -> v = PInf \/ exists r, v = Fin r) ->
  fold_left vadd l acc =
  if existsb is_pinf (acc :: l) then PInf else Fin (hfin acc + Rsum (map hfin l)).
Proof.
  induction l as [|x l IH]; intros acc H.
  - cbn [fold_left existsb map]. destruct (H acc (or_introl eq_refl)) as [->|[r ->]]; [reflexivity|].
    cbn [is_pinf orb hfin]. unfold Rsum. cbn [fold_right]. f_equal. ring.
  - cbn [fold_left].
    assert (Hacc := H acc (or_introl eq_refl)). assert (Hx := H x (or_intror (or_introl eq_refl))).
    rewrite IH.
    + cbn [existsb map]. rewrite Rsum_cons.
      destruct Hacc as [->|[r ->]], Hx as [->|[s ->]]; cbn [vadd is_pinf orb hfin]; try reflexivity.
      destruct (existsb is_pinf l); [reflexivity|]. f_equal. ring.
    + intros v [<-|Hv]; [|apply H; right; right; exact Hv].
      destruct Hacc as [->|[r ->]], Hx as [->|[s ->]]; cbn [vadd]; eauto.
Qed.

Lemma kld_elem_cases a b : is_lp a -> is_lp b ->
  kld_elem a b = PInf /\ a <> NInf /\ b = NInf \/
  kld_elem a b = Fin (kl_term (pot a) (pot b)) /\ (a = NInf \/ b <> NInf).
Proof.
  intros Ha Hb. unfold kld_elem. destruct a as [|x| |], b as [|y| |]; cbn in Ha, Hb; try tauto.
  - right. cbn [veqb pot]. split; [|tauto]. unfold kl_term. destruct (Req_EM_T 0 0); congruence.
  - right. cbn [veqb pot]. split; [|tauto]. unfold kl_term. destruct (Req_EM_T 0 0); congruence.
  - left. cbn [veqb vexp vsub vopp vadd vmul]. unfold vmul_inf, Req_b, Rlt_b. pose proof (exp_pos x).
    destruct (Req_EM_T (exp x) 0); [lra|]. destruct (Rlt_dec 0 (exp x)); [|lra].
    repeat split; discriminate || reflexivity.
  - right. cbn [veqb vexp vsub vopp vadd vmul pot]. split; [|right; discriminate]. f_equal.
    pose proof (exp_pos x). pose proof (exp_pos y). unfold kl_term. destruct (Req_EM_T (exp x) 0); [lra|].
    f_equal. unfold Rdiv. rewrite <- exp_Ropp, <- exp_plus, ln_exp. ring.
Qed.

Lemma raw_kld_spec o p q : oracle_ok o -> wf_sparse p -> wf_sparse q -> zero_default p -> zero_default q ->
  Permutation (svars p) (svars q) -> cards_agree p q -> svars p <> [] ->
  exists d, s_raw_kld o p q = Ok d /\
    ((exists e, in_range p e /\ 0 < spot p e /\ spot q e = 0)%R -> d = PInf) /\
    (~ (exists e, in_range p e /\ 0 < spot p e /\ spot q e = 0)%R ->
     forall e0, d = Fin (sum_over (card_of p) (svars p) (fun e => kl_term (spot p e) (spot q e)) e0)).
Proof.
  intros Ho Hp Hq Zp Zq HP Hc Hne.
  assert (Hlp : forall e, is_lp (sval p e)) by (intros; apply sval_lp; auto; now apply zd_lp).
  assert (Hlq : forall e, is_lp (sval q e)) by (intros; apply sval_lp; auto; now apply zd_lp).
  destruct (binop_none o p q kld_elem Ho Hp Hq Hc) as (k & Hk & Hres).
  { rewrite Zp, Zq. reflexivity. }
  { destruct (svars p) as [|v l] eqn:E; [congruence|]. exists v.
    split; [left; reflexivity|]. apply (Permutation_in _ HP). left; reflexivity. }
  pose proof (binop_struct o p q kld_elem k _ Ho Hres) as Hwk.
  assert (Hin : forall e, sval k e = kld_elem (sval p e) (sval q e)).
  { intros e. apply (br_in _ _ _ _ _ _ Hres). split; intros v Hv Hn; exfalso; apply Hn;
      [apply (Permutation_in _ HP)|apply (Permutation_in _ (Permutation_sym HP))]; exact Hv. }
  assert (Hdef : sdef k = Fin 0).
  { rewrite (br_def _ _ _ _ _ _ Hres), Zp. unfold kld_elem. cbn [veqb]. reflexivity. }
  assert (Hvals : forall v, In v (dvals (stbl k)) -> exists e, in_range p e /\ v = kld_elem (sval p e) (sval q e)).
  { intros v Hv. unfold dvals in Hv. apply in_map_iff in Hv. destruct Hv as ([kk v'] & <- & Hv). cbn [snd].
    destruct (br_keys _ _ _ _ _ _ Hres kk v' Hv) as (Hr & e & -> & _ & ->). exists e. split; [|reflexivity].
    intros w c Hwc.
    assert (Hck : has_card k w c).
    { apply (b_card_has o p q k Ho Hp Hq Hc (br_vars _ _ _ _ _ _ Hres) (br_cards _ _ _ _ _ _ Hres)). tauto. }
    unfold has_card in Hck. clear - Hr Hck. revert Hr Hck.
    generalize (svars k) (scards k). intros l; induction l as [|x l IH]; intros [|y m] Hr Hck; try (destruct Hck).
    + injection H as -> ->. cbn [map] in Hr. inversion Hr; subst; assumption.
    + cbn [map] in Hr. inversion Hr; subst; eauto. }
  unfold s_raw_kld. rewrite Hk. cbn [bind]. eexists. split; [reflexivity|].
  unfold vsum. rewrite vsum_gen.
  2: { intros v [<-|Hv]; [right; exists 0%R; reflexivity|].
       destruct (Hvals v Hv) as (e & _ & ->).
       destruct (kld_elem_cases (sval p e) (sval q e) (Hlp e) (Hlq e)) as [[-> _]|[-> _]]; eauto. }
  cbn [existsb is_pinf orb].
  split.
  - intros (e & Hr & H1 & H2).
    destruct (existsb is_pinf (dvals (stbl k))) eqn:He; [reflexivity|]. exfalso.
    assert (Hpi : sval k e = PInf).
    { rewrite Hin. destruct (kld_elem_cases (sval p e) (sval q e) (Hlp e) (Hlq e)) as [[-> _]|[_ [Hn|Hn]]].
      - reflexivity.
      - exfalso. unfold spot in H1. rewrite Hn in H1. cbn in H1. lra.
      - exfalso. unfold spot in H2. specialize (Hlq e). destruct (sval q e) as [|y| |]; cbn in *; try tauto.
        pose proof (exp_pos y). lra. }
    unfold sval in Hpi. destruct (dget (stbl k) (map e (svars k))) as [v|] eqn:Hg; [|rewrite Hdef in Hpi; discriminate].
    apply dget_In in Hg. subst v.
    assert (Ht : existsb is_pinf (dvals (stbl k)) = true); [|congruence].
    apply existsb_exists. exists PInf. split; [|reflexivity]. unfold dvals. apply in_map_iff.
    eexists. split; [|exact Hg]. reflexivity.
  - intros Hno e0.
    assert (He : existsb is_pinf (dvals (stbl k)) = false).
    { apply not_true_iff_false. intros C. apply existsb_exists in C. destruct C as (v & Hv & Hpv).
      destruct (Hvals v Hv) as (e & Hr & ->). apply Hno. exists e. split; [exact Hr|].
      destruct (kld_elem_cases (sval p e) (sval q e) (Hlp e) (Hlq e)) as [[_ [H1 H2]]|[H1 _]].
      - unfold spot. rewrite H2. split; [|reflexivity]. specialize (Hlp e).
        destruct (sval p e) as [|x| |]; cbn in *; try tauto. apply exp_pos.
      - rewrite H1 in Hpv. discriminate. }
    rewrite He. f_equal. cbn [hfin]. rewrite Rplus_0_l.
    rewrite <- (total_sum hfin k e0 Hwk) by (rewrite Hdef; reflexivity).
    assert (HPk : Permutation (svars k) (svars p)).
    { apply NoDup_Permutation; [apply (wf_vars k Hwk)|apply (wf_vars p Hp)|].
      intros v. rewrite (br_vars _ _ _ _ _ _ Hres), In_b_vars by exact Ho. split; [|tauto].
      intros [H|H]; [exact H|]. apply (Permutation_in _ (Permutation_sym HP)); exact H. }
    rewrite (sum_over_perm (card_of k) _ _ _ HPk (wf_vars k Hwk)).
    2: { intros e e' H. f_equal. now apply sval_ext. }
    rewrite (sum_over_ext_card (card_of k) (card_of p)).
    2: { intros v Hv. symmetry. apply (card_of_eq p k v Hp Hwk); [|exact Hv]. intros c H.
         apply (b_card_has o p q k Ho Hp Hq Hc (br_vars _ _ _ _ _ _ Hres) (br_cards _ _ _ _ _ _ Hres)). tauto. }
    rewrite !sum_over_assign. apply Rsum_ext. intros kk Hkk.
    set (e := upds e0 (svars p) kk). rewrite Hin.
    destruct (kld_elem_cases (sval p e) (sval q e) (Hlp e) (Hlq e)) as [[_ [H1 H2]]|[-> _]]; [|reflexivity].
    exfalso. apply Hno. exists e. split; [apply in_range_upds; auto|]. unfold spot. rewrite H2.
    split; [|reflexivity]. specialize (Hlp e). destruct (sval p e) as [|x| |]; cbn in *; try tauto. apply exp_pos.
Qed.

Lemma clamp_nonneg d : (d = PInf \/ exists r, d = Fin r /\ 0 <= r)%R -> clamp_kld d = Ok d.
Proof.
  intros [->|(r & -> & Hr)]; unfold clamp_kld; cbn [vltb]; [reflexivity|].
  unfold Rlt_b. destruct (Rlt_dec r 0); [lra|reflexivity].
Qed.

Lemma total_nonneg f : (0 <= total f)%R.
Proof. apply Rsum_nonneg. intros. apply pot_nonneg. Qed.
Lemma card_of_norm f v : card_of (norm_of f) v = card_of f v.
Proof. reflexivity. Qed.

(** Gibbs for two tables over the same scope. *)
Lemma gibbs_tables (p : sparse) (P Q : env -> R) e0 : wf_struct p ->
  (forall e e', (forall v, In v (svars p) -> e v = e' v) -> P e = P e') ->
  (forall e e', (forall v, In v (svars p) -> e v = e' v) -> Q e = Q e') ->
  (forall e, 0 <= P e)%R -> (forall e, 0 <= Q e)%R ->
  (forall e, in_range p e -> 0 < P e -> 0 < Q e)%R ->
  sum_over (card_of p) (svars p) P e0 = sum_over (card_of p) (svars p) Q e0 ->
  (0 <= sum_over (card_of p) (svars p) (fun e => kl_term (P e) (Q e)) e0)%R /\
  (sum_over (card_of p) (svars p) (fun e => kl_term (P e) (Q e)) e0 = 0%R <->
   forall e, in_range p e -> P e = Q e).
Proof.
  intros Hw EP EQ HP HQ HPQ Hs. rewrite !sum_over_assign in *.
  destruct (gibbs (fun k => P (upds e0 (svars p) k)) (fun k => Q (upds e0 (svars p) k))
              (assignments (map (card_of p) (svars p)))) as [G1 G2]; auto.
  { intros k Hk. apply HPQ. apply in_range_upds; auto. }
  split; [exact G1|]. rewrite G2. split.
  - intros H e He. specialize (H _ (in_range_assign p e Hw He)).
    assert (A : forall v, In v (svars p) -> upds e0 (svars p) (map e (svars p)) v = e v).
    { intros v Hv. assert (Hm := map_upds (svars p) e0 (map e (svars p)) (wf_vars p Hw) (map_length _ _)).
      clear - Hv Hm. revert Hm. generalize (upds e0 (svars p) (map e (svars p))). intros e1 Hm.
      induction (svars p) as [|w l IH]; [destruct Hv|]. cbn [map] in Hm. injection Hm as H1 H2.
      destruct Hv as [->|Hv]; auto. }
    rewrite (EP _ _ A), (EQ _ _ A) in H. exact H.
  - intros H k Hk. apply H. apply in_range_upds; auto.
Qed.

Lemma same_scope_sum p q (g : env -> R) e : wf_struct p -> wf_struct q -> Permutation (svars p) (svars q) ->
  cards_agree p q -> ext g ->
  sum_over (card_of p) (svars p) g e = sum_over (card_of q) (svars q) g e.
Proof.
  intros Hp Hq HP Hc Hg. rewrite (sum_over_perm (card_of p) _ _ g HP (wf_vars p Hp) Hg).
  apply sum_over_ext_card. intros v Hv.
  apply (Hc v); apply has_card_iff; auto. split; [|reflexivity].
  apply (Permutation_in _ (Permutation_sym HP)); exact Hv.
Qed.

Lemma kl_spec o p q : oracle_ok o -> wf_sparse p -> wf_sparse q -> zero_default p -> zero_default q ->
  Permutation (svars p) (svars q) -> cards_agree p q -> svars p <> [] ->
  (0 < weight_of p)%R -> (0 < weight_of q)%R ->
  exists d, s_kl_divergence o p q true = Ok d /\
    ((exists e, in_range p e /\ 0 < spot p e /\ spot q e = 0)%R -> d = PInf) /\
    (~ (exists e, in_range p e /\ 0 < spot p e /\ spot q e = 0)%R ->
       d = Fin (kl_of p q) /\ (0 <= kl_of p q)%R) /\
    (d = Fin 0 <-> forall e, in_range p e -> (spot p e / weight_of p = spot q e / weight_of q)%R).
Proof.
  intros Ho Hp Hq Zp Zq HP Hc Hne Wp Wq.
  rewrite (weight_total p Hp Zp) in *. rewrite (weight_total q Hq Zq) in *.
  unfold s_kl_divergence. rewrite (normalize_ok p Hp Wp), (normalize_ok q Hq Wq). cbn [bind].
  destruct (raw_kld_spec o (norm_of p) (norm_of q) Ho (norm_wf p Hp) (norm_wf q Hq) Zp Zq HP Hc Hne)
    as (d & -> & H1 & H2). cbn [bind].
  assert (Np : forall e, spot (norm_of p) e = (spot p e / total p)%R).
  { intros e. rewrite norm_pot by auto. unfold Rdiv. ring. }
  assert (Nq : forall e, spot (norm_of q) e = (spot q e / total q)%R).
  { intros e. rewrite norm_pot by auto. unfold Rdiv. ring. }
  assert (Hex : (exists e, in_range (norm_of p) e /\ 0 < spot (norm_of p) e /\ spot (norm_of q) e = 0)%R <->
                (exists e, in_range p e /\ 0 < spot p e /\ spot q e = 0)%R).
  { assert (Ip := Rinv_0_lt_compat _ Wp). assert (Iq := Rinv_0_lt_compat _ Wq).
    split; intros (e & R1 & R2 & R3); exists e; split; try exact R1; rewrite Np, Nq in *; unfold Rdiv in *.
    - assert (Sp := pot_nonneg (sval p e)). fold (spot p e) in Sp. split.
      + destruct Sp as [Sp|Sp]; [exact Sp|]. rewrite <- Sp in R2. lra.
      + apply Rmult_integral in R3. destruct R3; [assumption|lra].
    - split; [now apply Rmult_lt_0_compat|]. rewrite R3. ring. }
  assert (Hkl : forall e0, sum_over (card_of (norm_of p)) (svars (norm_of p))
            (fun e => kl_term (spot (norm_of p) e) (spot (norm_of q) e)) e0 =
          sum_over (card_of p) (svars p) (fun e => kl_term (spot p e / total p) (spot q e / total q))%R e0).
  { intros e0. apply sum_over_ext_g. intros e. now rewrite Np, Nq. }
  assert (Hklo : kl_of p q = sum_over (card_of p) (svars p)
      (fun e => kl_term (spot p e / total p) (spot q e / total q))%R (fun _ => 0)).
  { unfold kl_of. rewrite (weight_total p Hp Zp), (weight_total q Hq Zq). reflexivity. }
  rewrite Hex in H1, H2.
  destruct (classic (exists e, in_range p e /\ 0 < spot p e /\ spot q e = 0)%R) as [C|C].
  - specialize (H1 C). subst d. rewrite (clamp_nonneg PInf) by auto. exists PInf.
    split; [reflexivity|]. split; [reflexivity|]. split; [tauto|]. split; [discriminate|].
    intros H. exfalso. destruct C as (e & R1 & R2 & R3). specialize (H e R1). rewrite R3 in H.
    unfold Rdiv in H. rewrite Rmult_0_l in H. assert (Ip := Rinv_0_lt_compat _ Wp).
    apply Rmult_integral in H. lra.
  - specialize (H2 C (fun _ => 0)). rewrite Hkl, <- Hklo in H2. subst d.
    destruct (gibbs_tables p (fun e => spot p e / total p)%R (fun e => spot q e / total q)%R (fun _ => 0) Hp)
      as [G1 G2].
    + intros e e' H. now rewrite (spot_ext p e e' H).
    + intros e e' H. rewrite (spot_ext q e e'); [reflexivity|]. intros v Hv. apply H.
      apply (Permutation_in _ (Permutation_sym HP)); exact Hv.
    + intros e. apply Rmult_le_pos; [apply pot_nonneg|]. left. now apply Rinv_0_lt_compat.
    + intros e. apply Rmult_le_pos; [apply pot_nonneg|]. left. now apply Rinv_0_lt_compat.
    + intros e Hr Hpos. assert (Ip := Rinv_0_lt_compat _ Wp). assert (Iq := Rinv_0_lt_compat _ Wq).
      apply Rmult_lt_0_compat; [|exact Iq].
      assert (Sq := pot_nonneg (sval q e)). fold (spot q e) in Sq. destruct Sq as [Sq|Sq]; [exact Sq|].
      exfalso. apply C. exists e. split; [exact Hr|]. split; [|symmetry; exact Sq].
      assert (Sp := pot_nonneg (sval p e)). fold (spot p e) in Sp. destruct Sp as [Sp|Sp]; [exact Sp|].
      unfold Rdiv in Hpos. rewrite <- Sp in Hpos. lra.
    + rewrite (same_scope_sum p q (fun e => spot q e / total q)%R _ Hp Hq HP Hc).
      2: { intros e e' H. f_equal. now apply spot_ext'. }
      rewrite (sum_over_ext_g (card_of p) _ _ (fun e => / total p * spot p e)%R) by (intros; unfold Rdiv; ring).
      rewrite (sum_over_ext_g (card_of q) _ _ (fun e => / total q * spot q e)%R) by (intros; unfold Rdiv; ring).
      rewrite !sum_over_scal, total_spec, total_spec by auto. rewrite !Rinv_l by lra. reflexivity.
    + rewrite <- Hklo in G1, G2. rewrite (clamp_nonneg (Fin (kl_of p q))) by eauto.
      eexists. split; [reflexivity|]. split; [tauto|]. split; [auto|].
      rewrite <- G2. split; [intros H; now injection H|intros ->; reflexivity].
Qed.

Lemma kl_empty_scope o p q : oracle_ok o -> wf_sparse p -> wf_sparse q -> zero_default p -> zero_default q ->
  svars p = [] -> svars q = [] -> (0 < weight_of p)%R -> (0 < weight_of q)%R ->
  s_kl_divergence o p q true = Err TypeError.
Proof.
  intros Ho Hp Hq Zp Zq Ep Eq Wp Wq. rewrite (weight_total p Hp Zp) in *. rewrite (weight_total q Hq Zq) in *.
  unfold s_kl_divergence. rewrite (normalize_ok p Hp Wp), (normalize_ok q Hq Wq). cbn [bind].
  unfold s_raw_kld. rewrite binop_none_disjoint; [reflexivity|exact Ho|exact (norm_wf p Hp)|exact (norm_wf q Hq)| |].
  - cbn [norm_of sdef]. rewrite Zp, Zq. reflexivity.
  - cbn [norm_of svars]. rewrite Ep. intros v [].
Qed.

(** ** distance from vacuous *)
Definition unif_of (f : sparse) (u : val) : sparse := s_apply_to_probs f (fun _ => u).
Lemma nprod_pos l k : Forall2 (fun i c => i < c) k l -> 0 < nprod l.
Proof. induction 1 as [|i c k l Hi Hk IH]; cbn; [lia|]. unfold nprod in IH. nia. Qed.
Lemma length_product {A} (ls : list (list A)) : length (product ls) = fold_right Nat.mul 1 (map (@length A) ls).
Proof.
  induction ls as [|l ls IH]; [reflexivity|]. cbn [product map fold_right]. rewrite <- IH. clear IH.
  induction l as [|x l IH]; [reflexivity|]. cbn [flat_map length Nat.mul]. rewrite app_length, IH, map_length. reflexivity.
Qed.
Lemma length_assignments cs : length (assignments cs) = nprod cs.
Proof.
  unfold assignments. rewrite length_product, map_map. unfold nprod. f_equal.
  induction cs as [|c cs IH]; cbn; [reflexivity|]. now rewrite seq_length, IH.
Qed.
Lemma Rsum_const {A} (c : R) (l : list A) : Rsum (map (fun _ => c) l) = (INR (length l) * c)%R.
Proof.
  induction l as [|x l IH]; [unfold Rsum; cbn; ring|]. cbn [map]. rewrite Rsum_cons, IH.
  change (length (x :: l)) with (S (length l)). rewrite S_INR. ring.
Qed.

Lemma vacuous_spec o f : oracle_ok o -> wf_sparse f -> zero_default f -> svars f <> [] ->
  (0 < weight_of f)%R ->
  let D := sum_over (card_of f) (svars f)
             (fun e => kl_term (spot f e / weight_of f) (1 / INR (n_assignments f)))%R (fun _ => 0) in
  s_distance_from_vacuous o f = Ok (Fin D) /\ (0 <= D)%R /\
  (D = 0%R <-> forall e e', in_range f e -> in_range f e' -> spot f e = spot f e').
Proof.
  intros Ho Hw Hz Hne Hpos D.
  assert (HpT : (0 < total f)%R) by (rewrite <- (weight_total f Hw Hz); exact Hpos).
  assert (HN : 0 < n_assignments f).
  { destruct (stbl f) as [|[k v] t] eqn:E; [unfold total in HpT; rewrite E in HpT; cbn in HpT; lra|].
    apply (nprod_pos (scards f) k). eapply (wf_keys f Hw). rewrite E. left; reflexivity. }
  assert (HNR : (0 < INR (n_assignments f))%R) by (apply lt_0_INR; exact HN).
  set (N := INR (n_assignments f)) in *.
  unfold s_distance_from_vacuous. rewrite (s_copy_ok f Hw). cbn [bind].
  assert (Hu : vopp (rlog (INR (nprod (dvals (var_cards f))))) = Fin (- ln N)).
  { rewrite (var_cards_wf f Hw), (dvals_combine (svars f) (scards f) (wf_cards f Hw)).
    change (nprod (scards f)) with (n_assignments f). fold N. unfold rlog, Rlt_b.
    destruct (Rlt_dec 0 N); [reflexivity|lra]. }
  rewrite Hu. unfold s_kl_divergence. rewrite (normalize_ok f Hw HpT). cbn [bind].
  set (u := s_apply_to_probs f (fun _ => Fin (- ln N))).
  assert (Wu : wf_sparse u).
  { pose proof (wf_s f Hw) as [A1 A2 A3 A4]. split; [split|]; cbn [u s_apply_to_probs svars scards stbl]; auto.
    - intros k v Hk. apply in_map_iff in Hk. destruct Hk as ([k' v'] & H & Hk). injection H as <- _. eauto.
    - now rewrite (dkeys_map (fun _ => Fin (- ln N))).
    - intros k v Hk. apply in_map_iff in Hk. destruct Hk as ([k' v'] & H & Hk). injection H as _ <-. exact I. }
  assert (Hsu : forall e, (0 < spot f e)%R -> spot u e = (1 / N)%R).
  { intros e. unfold spot, sval. cbn [u s_apply_to_probs svars stbl sdef].
    rewrite (dget_map (fun _ => Fin (- ln N))).
    destruct (dget (stbl f) (map e (svars f))); cbn [option_map].
    - intros _. cbn [pot]. rewrite exp_Ropp, exp_ln by exact HNR. unfold Rdiv. ring.
    - rewrite Hz. cbn. lra. }
  assert (Np : forall e, spot (norm_of f) e = (spot f e / total f)%R).
  { intros e. rewrite norm_pot by auto. unfold Rdiv. ring. }
  assert (IT := Rinv_0_lt_compat _ HpT). assert (IN := Rinv_0_lt_compat _ HNR).
  assert (Hpp : forall e, (0 < spot f e / total f -> 0 < spot f e)%R).
  { intros e H. assert (Sp := pot_nonneg (sval f e)). fold (spot f e) in Sp.
    destruct Sp as [Sp|Sp]; [exact Sp|]. unfold Rdiv in H. rewrite <- Sp in H. lra. }
  destruct (raw_kld_spec o (norm_of f) u Ho (norm_wf f Hw) Wu Hz Hz (Permutation_refl _)) as (d & Hd & _ & H2).
  { intros v c c' A1 A2. apply (has_card_iff (norm_of f) v c (norm_wf f Hw)) in A1.
    apply (has_card_iff u v c' Wu) in A2. destruct A1 as [_ ->], A2 as [_ ->]. reflexivity. }
  { exact Hne. }
  rewrite Hd. cbn [bind].
  specialize (H2 ltac:(intros (e & R1 & R2 & R3); rewrite Np in R2; rewrite (Hsu e (Hpp e R2)) in R3; lra)).
  specialize (H2 (fun _ => 0)).
  assert (HD : sum_over (card_of (norm_of f)) (svars (norm_of f))
                 (fun e => kl_term (spot (norm_of f) e) (spot u e)) (fun _ => 0) = D).
  { unfold D. cbn [norm_of svars]. rewrite (weight_total f Hw Hz).
    apply sum_over_ext_g. intros e. rewrite Np. unfold kl_term. destruct (Req_EM_T (spot f e / total f) 0) as [_|Hn]; [reflexivity|].
    rewrite Hsu; [reflexivity|]. apply Hpp.
    assert (Sp := pot_nonneg (sval f e)). fold (spot f e) in Sp.
    assert (0 <= spot f e / total f)%R by (apply Rmult_le_pos; lra). lra. }
  rewrite HD in H2. subst d.
  assert (Hsum1 : sum_over (card_of f) (svars f) (fun e => spot f e / total f)%R (fun _ => 0) = 1%R).
  { rewrite (sum_over_ext_g (card_of f) _ _ (fun e => / total f * spot f e)%R) by (intros; unfold Rdiv; ring).
    rewrite sum_over_scal, total_spec by auto. apply Rinv_l. lra. }
  assert (HsumN : sum_over (card_of f) (svars f) (fun _ => 1 / N)%R (fun _ => 0) = 1%R).
  { rewrite sum_over_assign, Rsum_const, length_assignments, <- (scards_map f Hw).
    change (nprod (scards f)) with (n_assignments f). fold N. field. lra. }
  destruct (gibbs_tables f (fun e => spot f e / total f)%R (fun _ => 1 / N)%R (fun _ => 0) Hw) as [G1 G2].
  - intros e e' H. now rewrite (spot_ext f e e' H).
  - reflexivity.
  - intros e. apply Rmult_le_pos; [apply pot_nonneg|lra].
  - intros e. unfold Rdiv. lra.
  - intros e _ _. unfold Rdiv. lra.
  - congruence.
  - assert (HDD : D = sum_over (card_of f) (svars f)
             (fun e => kl_term (spot f e / total f) (1 / N))%R (fun _ => 0)).
    { unfold D. now rewrite (weight_total f Hw Hz). }
    rewrite <- HDD in G1, G2. split; [|split; [exact G1|]].
    + apply clamp_nonneg. right. eauto.
    + rewrite G2. split.
      * intros H e e' He He'. pose proof (H e He) as A1. pose proof (H e' He') as A2.
        apply (Rmult_eq_reg_r (/ total f)); [|lra]. unfold Rdiv in *. congruence.
      * intros H e He.
        assert (Hc : sum_over (card_of f) (svars f) (fun e => spot f e / total f)%R (fun _ => 0) = (N * (spot f e / total f))%R).
        { rewrite sum_over_assign.
          rewrite (Rsum_ext _ (fun _ => spot f e / total f)%R).
          - rewrite Rsum_const, length_assignments, <- (scards_map f Hw). reflexivity.
          - intros k Hk. rewrite (H (upds (fun _ => 0) (svars f) k) e); [reflexivity| |exact He]. apply in_range_upds; auto. }
        rewrite Hsum1 in Hc. apply (Rmult_eq_reg_l N); [|lra]. rewrite <- Hc. field. lra.
Qed.
Lemma vacuous_empty o f : oracle_ok o -> wf_sparse f -> zero_default f -> svars f = [] ->
  (0 < weight_of f)%R -> s_distance_from_vacuous o f = Err TypeError.
Proof.
  intros Ho Hw Hz He Wp. rewrite (weight_total f Hw Hz) in Wp.
  unfold s_distance_from_vacuous. rewrite (s_copy_ok f Hw). cbn [bind].
  unfold s_kl_divergence. rewrite (normalize_ok f Hw Wp). cbn [bind].
  unfold s_raw_kld. rewrite binop_none_disjoint; [reflexivity|exact Ho|exact (norm_wf f Hw)| | |].
  - pose proof (wf_s f Hw) as [A1 A2 A3 A4]. split; cbn [s_apply_to_probs svars scards stbl]; auto.
    + intros k v Hk. apply in_map_iff in Hk. destruct Hk as ([k' v'] & H & Hk). injection H as <- _. eauto.
    + now rewrite (dkeys_map (fun _ => vopp (rlog (INR (nprod (dvals (var_cards f))))))).
  - cbn [norm_of s_apply_to_probs sdef]. rewrite Hz. reflexivity.
  - cbn [norm_of svars]. rewrite He. intros v [].
Qed.

(** ** reorder and equality *)
Definition pos (v : string) (l : list string) : nat := match index_opt v l with Some i => i | None => 0 end.
Definition rkey (vars order : list string) (k : key) : key := map (env_of vars k) order.

Lemma env_of_pos vars k v : NoDup vars -> length k = length vars -> In v vars ->
  nth (pos v vars) k 0 = env_of vars k v.
Proof.
  intros Hn Hl Hv. unfold pos. destruct (index_opt_In v vars Hv) as (i & Hi). rewrite Hi.
  assert (Hm := map_env_of vars k Hn Hl). apply index_opt_nth in Hi.
  rewrite <- Hm at 1. apply nth_error_nth. now apply map_nth_error.
Qed.
Lemma reorder_fold (vars order : list string) : NoDup vars -> Permutation vars order ->
  forall (t r : table), NoDup (dkeys r ++ map (rkey vars order) (dkeys t)) ->
  (forall k v, In (k, v) t -> length k = length vars) ->
  foldM (fun (r : table) (kv : key * val) =>
      let* k := mapM (py_nth (fst kv)) (map (fun v => pos v vars) order) in Ok (dset r k (snd kv))) t r =
  Ok (r ++ map (fun kv => (rkey vars order (fst kv), snd kv)) t).
Proof.
  intros Hn HP. induction t as [|[k v] t IH]; intros r Hr Hl; cbn [foldM map].
  - now rewrite app_nil_r.
  - cbn [fst snd]. assert (Hk : length k = length vars) by (eapply Hl; left; reflexivity).
    rewrite mapM_py_nth.
    2: { intros i Hi. apply in_map_iff in Hi. destruct Hi as (w & <- & Hw). unfold pos.
         destruct (index_opt_In w vars) as (i & Hi); [apply (Permutation_in _ (Permutation_sym HP)); exact Hw|].
         rewrite Hi. apply index_opt_nth in Hi. rewrite Hk. apply nth_error_Some. congruence. }
    cbn [bind]. rewrite map_map.
    assert (map (fun x => nth (pos x vars) k 0) order = rkey vars order k) as ->.
    { apply map_ext_in. intros w Hw. apply env_of_pos; auto.
      apply (Permutation_in _ (Permutation_sym HP)); exact Hw. }
    unfold dkeys in Hr. cbn [map fst] in Hr.
    rewrite dset_new by (intros C; apply NoDup_remove_2 in Hr; apply Hr, in_or_app; left; exact C).
    rewrite IH.
    + rewrite <- app_assoc. reflexivity.
    + unfold dkeys. rewrite map_app. cbn [map fst]. rewrite <- app_assoc. exact Hr.
    + intros k' v' H. apply (Hl k' v'). right; exact H.
Qed.

Definition reordered (f : sparse) (order : list string) : sparse :=
  {| svars := order; scards := map (card_of f) order;
     stbl := map (fun kv => (rkey (svars f) order (fst kv), snd kv)) (stbl f); sdef := NInf |}.

Lemma rkey_inj vars order k k' : NoDup vars -> Permutation vars order ->
  length k = length vars -> length k' = length vars -> rkey vars order k = rkey vars order k' -> k = k'.
Proof.
  intros Hn HP Hk Hk' H. unfold rkey in H.
  rewrite <- (map_env_of vars k Hn Hk), <- (map_env_of vars k' Hn Hk').
  apply map_ext_in. intros v Hv. apply (Permutation_in _ HP) in Hv.
  clear - Hv H. induction order as [|w l IH]; [destruct Hv|]. cbn [map] in H. injection H as H1 H2.
  destruct Hv as [->|Hv]; auto.
Qed.
Lemma reordered_keys f order : wf_struct f -> Permutation (svars f) order ->
  NoDup (map (rkey (svars f) order) (dkeys (stbl f))).
Proof.
  intros Hw HP. apply NoDup_map_inj; [|apply (wf_nodup f Hw)].
  intros x y Hx Hy. apply In_dkeys_dget in Hx, Hy. destruct Hx as (vx & Hx), Hy as (vy & Hy).
  apply dget_In in Hx, Hy. apply rkey_inj; auto; try apply (wf_vars f Hw); eapply key_length; eauto.
Qed.
Lemma scards_nth f v : wf_struct f -> In v (svars f) -> py_nth (scards f) (pos v (svars f)) = Ok (card_of f v).
Proof.
  intros Hw Hv. unfold pos. destruct (index_opt_In v (svars f) Hv) as (i & Hi). rewrite Hi.
  apply index_opt_nth in Hi. unfold py_nth. rewrite (scards_map f Hw).
  now rewrite (map_nth_error (card_of f) _ _ Hi).
Qed.
Lemma reorder_ok f order : wf_struct f -> Permutation (svars f) order ->
  s_reorder f order = Ok (reordered f order).
Proof.
  intros Hw HP. unfold s_reorder.
  assert (Hin : forall v, In v order -> In v (svars f)) by (intros v; apply (Permutation_in _ (Permutation_sym HP))).
  rewrite (mapM_ok (py_index (svars f)) (fun v => pos v (svars f))).
  2: { intros v Hv. unfold py_index, pos. destruct (index_opt_In v (svars f) (Hin v Hv)) as (i & ->). reflexivity. }
  cbn [bind]. rewrite (reorder_fold (svars f) order (wf_vars f Hw) HP).
  2: { cbn [dkeys map app]. apply reordered_keys; auto. }
  2: { intros k v H. eapply key_length; eauto. }
  cbn [bind app].
  assert (mapM (py_nth (scards f)) (map (fun v => pos v (svars f)) order) = Ok (map (card_of f) order)) as ->.
  { rewrite <- (map_id (map (card_of f) order)). rewrite map_map.
    assert (G : forall l, (forall v, In v l -> In v (svars f)) ->
      mapM (py_nth (scards f)) (map (fun v => pos v (svars f)) l) = Ok (map (fun v => card_of f v) l)).
    { induction l as [|v l IH]; intros H; [reflexivity|]. cbn [map mapM].
      rewrite (scards_nth f v Hw) by (apply H; left; reflexivity). cbn [bind].
      rewrite IH by (intros w Hw'; apply H; right; exact Hw'). reflexivity. }
    now apply G. }
  cbn [bind]. unfold mk_sparse. rewrite (proj2 (nodupb_iff order)), map_length, Nat.eqb_refl.
  - reflexivity.
  - eapply Permutation_NoDup; [exact HP|apply (wf_vars f Hw)].
Qed.
Lemma reordered_get f order e : wf_struct f -> Permutation (svars f) order ->
  dget (stbl (reordered f order)) (map e order) = dget (stbl f) (map e (svars f)).
Proof.
  intros Hw HP. cbn [reordered stbl].
  assert (Hrk : rkey (svars f) order (map e (svars f)) = map e order).
  { unfold rkey. apply map_ext_in. intros v Hv. apply (map_env_inj (svars f)).
    { apply map_env_of; [apply (wf_vars f Hw)|apply map_length]. }
    apply (Permutation_in _ (Permutation_sym HP)); exact Hv. }
  rewrite <- Hrk.
  destruct (dget (stbl f) (map e (svars f))) as [v|] eqn:Hg.
  - apply dget_In in Hg. apply In_dget.
    + unfold dkeys. rewrite map_map. cbn [fst]. rewrite <- (map_map fst (rkey (svars f) order)). apply reordered_keys; auto.
    + apply in_map_iff. eexists. split; [|exact Hg]. reflexivity.
  - apply dget_None. intros C. unfold dkeys in C. rewrite map_map in C. apply in_map_iff in C.
    destruct C as ([k v] & Hk & Hin). cbn [fst] in Hk.
    apply rkey_inj in Hk; [|apply (wf_vars f Hw)|exact HP|eapply key_length; eauto|apply map_length].
    apply dget_None in Hg. apply Hg. rewrite <- Hk. unfold dkeys. apply in_map_iff. exists (k, v). auto.
Qed.
Lemma reordered_wf f order : wf_sparse f -> Permutation (svars f) order -> wf_sparse (reordered f order).
Proof.
  intros Hw HP. split; [split|]; cbn [reordered svars scards stbl].
  - eapply Permutation_NoDup; [exact HP|apply (wf_vars f Hw)].
  - apply map_length.
  - intros k v Hk. apply in_map_iff in Hk. destruct Hk as ([k0 v0] & H & Hk). injection H as <- <-. cbn [fst].
    unfold rkey.
    assert (Hr : Forall2 (fun i v => i < card_of f v) k0 (svars f)).
    { apply Forall2_map_r'. rewrite <- (scards_map f Hw). eapply wf_keys; eauto. }
    assert (G : forall v, In v (svars f) -> env_of (svars f) k0 v < card_of f v).
    { rewrite <- (map_env_of (svars f) k0 (wf_vars f Hw)) in Hr by (eapply key_length; eauto).
      clear - Hr. revert Hr. generalize (env_of (svars f) k0). intros e Hr.
      induction (svars f) as [|w l IH]; intros v [].
      - subst. cbn [map] in Hr. now inversion Hr.
      - cbn [map] in Hr. inversion Hr; subst. auto. }
    apply Forall2_map_both. intros v Hv. apply G. apply (Permutation_in _ (Permutation_sym HP)); exact Hv.
  - unfold dkeys. rewrite map_map. cbn [fst]. rewrite <- (map_map fst (rkey (svars f) order)). apply reordered_keys; auto.
  - intros k v Hk. apply in_map_iff in Hk. destruct Hk as ([k0 v0] & H & Hk). injection H as _ <-. eapply wf_vals; eauto.
Qed.

Lemma reordered_val f order e : wf_struct f -> zero_default f -> Permutation (svars f) order ->
  sval (reordered f order) e = sval f e.
Proof.
  intros Hw Hz HP. unfold sval. cbn [reordered svars]. rewrite (reordered_get f order e Hw HP).
  cbn [reordered sdef]. now rewrite Hz.
Qed.
Lemma reorder_spec f order : wf_sparse f -> zero_default f -> Permutation (svars f) order ->
  exists r, s_reorder f order = Ok r /\ wf_sparse r /\ zero_default r /\ svars r = order /\
    (forall v c, has_card r v c <-> has_card f v c) /\ (forall e, sval r e = sval f e).
Proof.
  intros Hw Hz HP. exists (reordered f order). split; [now apply reorder_ok; auto|].
  split; [now apply reordered_wf|]. split; [reflexivity|]. split; [reflexivity|]. split.
  - intros v c. unfold has_card at 1. cbn [reordered svars scards]. rewrite combine_map_In.
    rewrite (has_card_iff f v c Hw). split; intros [H1 H2]; split; auto.
    + apply (Permutation_in _ (Permutation_sym HP)); exact H1.
    + apply (Permutation_in _ HP); exact H1.
  - intros e. apply reordered_val; auto.
Qed.

Definition econd (rtol atol : R) (d : val) (x y : option val) : Prop :=
  match x, y with
  | None, _ => True
  | Some v, None => veqb v d = true
  | Some v, Some w => visclose w v rtol atol = true
  end.
Lemma nde_iff f g rtol atol : wf_struct f ->
  non_default_equal f g rtol atol = true <->
  forall e, econd rtol atol (sdef g) (dget (stbl f) (map e (svars f))) (dget (stbl g) (map e (svars f))).
Proof.
  intros Hw. unfold non_default_equal. rewrite forallb_forall. split.
  - intros H e. destruct (dget (stbl f) (map e (svars f))) as [v|] eqn:Hv; [|exact I].
    apply dget_In in Hv. specialize (H _ Hv). cbn [fst snd] in H. unfold econd.
    destruct (dget (stbl g) (map e (svars f))); exact H.
  - intros H [k v] Hk. cbn [fst snd]. specialize (H (env_of (svars f) k)).
    rewrite (map_env_of (svars f) k (wf_vars f Hw)) in H by (eapply key_length; eauto).
    rewrite (In_dget _ _ _ (wf_nodup f Hw) Hk) in H. unfold econd in H.
    destruct (dget (stbl g) k); exact H.
Qed.
Definition eqrel (rtol atol : R) (f g : sparse) : Prop :=
  forall e, econd rtol atol NInf (dget (stbl f) (map e (svars f))) (dget (stbl g) (map e (svars g))).
Lemma equals_iff f g rtol atol : wf_sparse f -> wf_sparse g -> zero_default f -> zero_default g ->
  exists b, s_equals f g rtol atol = Ok b /\
    (b = true <-> (forall v, In v (svars f) <-> In v (svars g)) /\ eqrel rtol atol f g /\ eqrel rtol atol g f).
Proof.
  intros Hf Hg Zf Zg. unfold s_equals.
  destruct (seteqb (svars f) (svars g)) eqn:Hs; cbn [negb].
  2: { exists false. split; [reflexivity|]. split; [discriminate|]. intros [H _].
       rewrite (proj2 (seteqb_iff _ _) H) in Hs. discriminate. }
  rewrite seteqb_iff in Hs.
  assert (HP : Permutation (svars g) (svars f)).
  { apply NoDup_Permutation; [apply (wf_vars g Hg)|apply (wf_vars f Hf)|]. intros v; split; apply Hs. }
  set (g' := if eqb (svars f) (svars g) then Ok g else s_reorder g (svars f)).
  assert (Hg' : exists h, g' = Ok h /\ wf_sparse h /\ zero_default h /\ svars h = svars f /\
       forall e, dget (stbl h) (map e (svars f)) = dget (stbl g) (map e (svars g))).
  { unfold g', eqb. destruct (eq_dec (svars f) (svars g)) as [E|N].
    - exists g. split; [reflexivity|]. split; [exact Hg|]. split; [exact Zg|]. split; [auto|]. intros e. now rewrite E.
    - exists (reordered g (svars f)). split; [apply reorder_ok; auto|]. split; [now apply reordered_wf|].
      split; [reflexivity|]. split; [reflexivity|]. intros e. apply reordered_get; auto. }
  destruct Hg' as (h & -> & Hh & Zh & Eh & Gh). cbn [bind].
  assert (N1 : non_default_equal f h rtol atol = true <-> eqrel rtol atol f g).
  { rewrite (nde_iff f h rtol atol Hf). unfold eqrel. rewrite Zh. split; intros H e; specialize (H e);
      [rewrite Gh in H|rewrite Gh]; exact H. }
  assert (N2 : non_default_equal h f rtol atol = true <-> eqrel rtol atol g f).
  { rewrite (nde_iff h f rtol atol Hh). unfold eqrel. rewrite Zf, Eh. split; intros H e; specialize (H e);
      [rewrite Gh in H|rewrite Gh]; exact H. }
  destruct (non_default_equal f h rtol atol); cbn [negb].
  2: { exists false. split; [reflexivity|]. split; [discriminate|]. intros (_ & H & _). now apply N1 in H. }
  destruct (non_default_equal h f rtol atol); cbn [negb].
  2: { exists false. split; [reflexivity|]. split; [discriminate|]. intros (_ & _ & H). now apply N2 in H. }
  exists true. split.
  - destruct (negb (s_is_dense f) && negb (s_is_dense g)); [|reflexivity]. rewrite Zf, Zg. reflexivity.
  - split; [|reflexivity]. intros _. split; [exact Hs|]. split; [now apply N1|now apply N2].
Qed.

Lemma visclose_refl v rtol atol : is_lp v -> (0 <= rtol)%R -> (0 <= atol)%R -> visclose v v rtol atol = true.
Proof.
  destruct v as [|a| |]; cbn; intros; try tauto. unfold Rle_b. destruct (Rle_dec _ _) as [|N]; [reflexivity|].
  exfalso. apply N. replace (a - a)%R with 0%R by ring. rewrite Rabs_R0. pose proof (Rabs_pos a). nra.
Qed.
Lemma equals_sym f g rtol atol : wf_sparse f -> wf_sparse g -> zero_default f -> zero_default g ->
  s_equals f g rtol atol = s_equals g f rtol atol.
Proof.
  intros Hf Hg Zf Zg.
  destruct (equals_iff f g rtol atol Hf Hg Zf Zg) as (b & -> & H1).
  destruct (equals_iff g f rtol atol Hg Hf Zg Zf) as (c & -> & H2).
  f_equal. destruct b, c; try reflexivity.
  - symmetry. apply H2. destruct (proj1 H1 eq_refl) as (A & B & C). split; [|auto]. intros v. symmetry. apply A.
  - apply H1. destruct (proj1 H2 eq_refl) as (A & B & C). split; [|auto]. intros v. symmetry. apply A.
Qed.
(** What a positive answer means: at every assignment the two log values are close, both ways. *)
Lemma equals_meaning f g rtol atol : wf_sparse f -> wf_sparse g -> zero_default f -> zero_default g ->
  (s_equals f g rtol atol = Ok true <->
   (forall v, In v (svars f) <-> In v (svars g)) /\
   forall e, visclose (sval g e) (sval f e) rtol atol = true /\ visclose (sval f e) (sval g e) rtol atol = true).
Proof.
  intros Hf Hg Zf Zg. destruct (equals_iff f g rtol atol Hf Hg Zf Zg) as (b & -> & H).
  transitivity (b = true); [split; [intros E; now injection E|intros ->; reflexivity]|].
  rewrite H. unfold eqrel. clear H.
  assert (G : forall e, (econd rtol atol NInf (dget (stbl f) (map e (svars f))) (dget (stbl g) (map e (svars g))) /\
                         econd rtol atol NInf (dget (stbl g) (map e (svars g))) (dget (stbl f) (map e (svars f)))) <->
    (visclose (sval g e) (sval f e) rtol atol = true /\ visclose (sval f e) (sval g e) rtol atol = true)).
  { intros e. unfold sval. rewrite Zf, Zg.
    destruct (dget (stbl f) (map e (svars f))) as [v|] eqn:Ef, (dget (stbl g) (map e (svars g))) as [w|] eqn:Eg;
      cbn [econd].
    - tauto.
    - destruct v; cbn; intuition congruence.
    - destruct w; cbn; intuition congruence.
    - cbn. tauto. }
  split.
  - intros (A & B & C). split; [exact A|]. intros e. apply G. split; [apply B|apply C].
  - intros (A & B). split; [exact A|]. split; intros e; apply G; apply B.
Qed.
Lemma equals_reorder f order r rtol atol : wf_sparse f -> zero_default f -> Permutation (svars f) order ->
  (0 <= rtol)%R -> (0 <= atol)%R -> s_reorder f order = Ok r ->
  s_equals f r rtol atol = Ok true /\ s_equals r f rtol atol = Ok true.
Proof.
  intros Hf Zf HP Hr Ha Hro. rewrite (reorder_ok f order Hf HP) in Hro. injection Hro as <-.
  pose proof (reordered_wf f order Hf HP) as Hw.
  assert (E : s_equals f (reordered f order) rtol atol = Ok true).
  { apply (equals_meaning f (reordered f order) rtol atol Hf Hw Zf eq_refl). cbn [reordered svars]. split.
    - intros v; split; apply Permutation_in; [|symmetry]; exact HP.
    - intros e. fold (reordered f order). rewrite reordered_val by auto.
      split; apply visclose_refl; auto; apply sval_lp; auto; now apply zd_lp. }
  split; [exact E|]. rewrite equals_sym by (auto; reflexivity). exact E.
Qed.

(** ** Restatements in the vocabulary of TableSpec *)
Lemma marg_keep_spec o f vrs : wf_sparse f -> zero_default f -> NoDup vrs -> incl vrs (svars f) ->
  exists r, s_marginalize o f vrs true = Ok r /\ wf_sparse r /\ zero_default r /\ svars r = vrs /\
    (forall v c, has_card r v c <-> In v vrs /\ has_card f v c) /\
    (forall removed e, NoDup removed ->
       (forall v, In v removed <-> In v (svars f) /\ ~ In v vrs) ->
       spot r e = sum_over (card_of f) removed (spot f) e) /\
    weight_of r = weight_of f.
Proof.
  intros Hw Hz Hn Hi. destruct (marg_spec o f vrs Hw Hz Hn Hi) as (r & H1 & H2 & H3 & H4 & H5 & H6 & _ & H7).
  exists r. do 6 (split; [assumption|]). rewrite !weight_total by auto. exact H7.
Qed.
Lemma marg_remove_spec o f vrs : oracle_ok o -> wf_sparse f -> zero_default f ->
  exists r, s_marginalize o f vrs false = Ok r /\ wf_sparse r /\ zero_default r /\
    (forall v, In v (svars r) <-> In v (svars f) /\ ~ In v vrs) /\
    (forall v c, has_card r v c <-> has_card f v c /\ ~ In v vrs) /\
    (forall removed e, NoDup removed ->
       (forall v, In v removed <-> In v (svars f) /\ In v vrs) ->
       spot r e = sum_over (card_of f) removed (spot f) e) /\
    weight_of r = weight_of f.
Proof.
  intros Ho Hw Hz. rewrite s_marginalize_kept. cbn [marginal_vars].
  set (kept := so o (set_diff (svars f) vrs)).
  assert (Hd : NoDup (set_diff (svars f) vrs)) by (apply NoDup_set_diff).
  assert (Hk : forall v, In v kept <-> In v (svars f) /\ ~ In v vrs).
  { intros v. unfold kept. rewrite (so_In o _ v Ho Hd). apply In_set_diff. }
  destruct (marg_spec o f kept Hw Hz) as (r & H1 & H2 & H3 & H4 & H5 & H6 & _ & H7).
  { now apply so_NoDup. }
  { intros v Hv. now apply Hk. }
  exists r. do 3 (split; [assumption|]). split; [now rewrite H4|]. split.
  - intros v c. rewrite H5, Hk. rewrite (has_card_iff f v c Hw). tauto.
  - split.
    + intros rm e Hrm Hin. apply H6; [exact Hrm|]. intros v. rewrite Hin, Hk.
      destruct (mem v vrs) eqn:Hm; [apply mem_In in Hm|apply mem_nIn in Hm]; tauto.
    + rewrite !weight_total by auto. exact H7.
Qed.
Lemma weight_property f : wf_sparse f -> zero_default f -> stbl f <> [] -> s_weight f = Ok (Fin (weight_of f)).
Proof. intros Hw Hz Hn. apply weight_spec; auto. Qed.
Lemma env_key_iff f vrs values : wf_struct f ->
  (exists e0 v, In (map e0 (svars f), v) (stbl f) /\ map e0 vrs = values) /\ incl vrs (svars f) <->
  (exists k v, In (k, v) (stbl f) /\ map (env_of (svars f) k) vrs = values) /\ incl vrs (svars f).
Proof.
  intros Hw. split; intros [H Hi]; split; auto.
  - destruct H as (e0 & v & H1 & H2). exists (map e0 (svars f)), v. split; [exact H1|]. rewrite <- H2.
    apply map_ext_in. intros w Hw'. apply (map_env_inj (svars f)); auto.
    apply map_env_of; [apply (wf_vars f Hw)|apply map_length].
  - destruct H as (k & v & H1 & H2). exists (env_of (svars f) k), v. split; [|exact H2].
    rewrite map_env_of; [exact H1|apply (wf_vars f Hw)|eapply key_length; eauto].
Qed.
Lemma reduce_env_spec f vrs values : wf_sparse f -> zero_default f -> NoDup vrs -> incl vrs (svars f) ->
  (exists e0 v, In (map e0 (svars f), v) (stbl f) /\ map e0 vrs = values) ->
  exists r, s_reduce f vrs values = Ok r /\ wf_sparse r /\ zero_default r /\
    svars r = filter (fun v => negb (mem v vrs)) (svars f) /\
    (forall v c, has_card r v c <-> has_card f v c /\ ~ In v vrs) /\
    (forall e, map e vrs = values -> spot r e = spot f e).
Proof.
  intros Hw Hz Hn Hi He. apply reduce_spec; auto. apply (env_key_iff f vrs values Hw). auto.
Qed.
Lemma reduce_env_missing f vrs values : wf_struct f -> NoDup vrs -> incl vrs (svars f) ->
  length values = length vrs ->
  ~ (exists e0 v, In (map e0 (svars f), v) (stbl f) /\ map e0 vrs = values) ->
  s_reduce f vrs values = Err KeyError.
Proof.
  intros Hw Hn Hi Hl He. apply reduce_missing; auto. intros C. apply He.
  apply (env_key_iff f vrs values Hw). auto.
Qed.
Lemma normalize_weight f : wf_sparse f -> zero_default f -> (0 < weight_of f)%R ->
  exists r c, s_normalize f = Ok r /\ wf_sparse r /\ zero_default r /\
    svars r = svars f /\ scards r = scards f /\ (0 < c)%R /\
    (forall e, spot r e = (c * spot f e)%R) /\ weight_of r = 1%R.
Proof.
  intros Hw Hz Hp. destruct (normalize_spec f Hw Hz) as (r & c & H1 & H2 & H3 & H4 & H5 & H6 & H7 & H8).
  { intros e. now rewrite weight_pos by auto. }
  exists r, c. do 7 (split; [assumption|]). unfold weight_of. rewrite H4.
  rewrite (sum_over_ext_card (card_of r) (card_of f)); [apply H8|].
  intros v _. unfold card_of. now rewrite H4, H5.
Qed.
Lemma argmax_env_spec f : wf_sparse f -> zero_default f -> stbl f <> [] ->
  exists k, s_argmax f = Ok k /\ length k = length (svars f) /\
    (forall e, map e (svars f) = k -> in_range f e /\ forall e', (spot f e' <= spot f e)%R).
Proof.
  intros Hw Hz Hn. destruct (argmax_spec f Hw Hz Hn) as (k & H1 & H2 & H3). exists k. split; [exact H1|].
  apply In_dkeys_dget in H2. destruct H2 as (v & H2). apply dget_In in H2.
  split; [eapply key_length; eauto|]. intros e He. split; [|now apply H3].
  intros w c Hc. apply has_card_iff in Hc; [|exact Hw]. destruct Hc as [Hw' ->].
  pose proof (key_range f _ v w Hw H2 Hw') as Hr. replace (e w) with (env_of (svars f) k w); [exact Hr|].
  apply (map_env_inj (svars f)); [|exact Hw'].
  rewrite He. apply map_env_of; [apply (wf_vars f Hw)|eapply key_length; eauto].
Qed.
