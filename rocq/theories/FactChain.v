(** A chain of three factors whose marginal is wrong: merging compares each factor only with the
    first of its group. *)
From Verif Require Export FactInt.
#[global] Set Bullet Behavior "Strict Subproofs".
Local Open Scope string_scope.
Local Open Scope R_scope.

Definition one_v (v : string) (k : R) : gauss := can_obj [v] (Mat 1 1 (fun _ _ => k), mzeros 1 1, Fin 0).
Definition two_v (u v : string) (p q r : R) : gauss :=
  can_obj [u; v] (Mat 2 2 (fun i j => if Nat.eqb i j then (if Nat.eqb i 0 then p else r) else q), mzeros 2 1, Fin 0).
Lemma one_v_can v k : get_can (one_v v k) = Ok (one_v v k, (Mat 1 1 (fun _ _ => k), mzeros 1 1, Fin 0)).
Proof. reflexivity. Qed.
Lemma two_v_can u v p q r : get_can (two_v u v p q r) =
  Ok (two_v u v p q r, (Mat 2 2 (fun i j => if Nat.eqb i j then (if Nat.eqb i 0 then p else r) else q), mzeros 2 1, Fin 0)).
Proof. reflexivity. Qed.
Lemma one_v_solid v k : 0 < k -> solid (one_v v k) /\ plain (one_v v k).
Proof.
  intros Hk. assert (W : wf_gauss (one_v v k)) by (apply wf_can_obj; [constructor; [intros []|constructor]|now repeat split]). split.
  - split; [exact W|]. split; [reflexivity|]. split; [intros p q _ Hq; discriminate|]. split; [|intros C m w Hq; discriminate].
    intros K h g E. injection E as <- _ _. split; [intros i j _ _; reflexivity|]. intros u (i & Hi & Hne). cbn in Hi. assert (i = 0%nat) as -> by lia.
    unfold qsum, rsum, Rsum. cbn -[Rmult Rplus]. apply Rsqr_pos_lt in Hne. unfold Rsqr in Hne. replace (_ + _) with (k * (u 0%nat * u 0%nat)) by ring. now apply Rmult_lt_0_compat.
  - apply (plain_g _ _ _ _ _ W (one_v_can v k)). exact I.
Qed.
Lemma two_v_solid u v p q r : u <> v -> 0 < p -> 0 < p * r - q * q -> solid (two_v u v p q r) /\ plain (two_v u v p q r).
Proof.
  intros Hne Hp Hd. assert (W : wf_gauss (two_v u v p q r)) by (apply wf_can_obj; [now apply nd2|now repeat split]). split.
  - split; [exact W|]. split; [reflexivity|]. split; [intros p0 q0 _ Hq; discriminate|]. split; [|intros C m w Hq; discriminate].
    intros K h g E. injection E as <- _ _. split.
    + intros i j Hi Hj. cbn in *. rewrite (Nat.eqb_sym j i). destruct (Nat.eqb i j) eqn:E; [apply Nat.eqb_eq in E as ->|]; reflexivity.
    + intros x (i & Hi & Hx). unfold qsum, rsum, Rsum. cbn -[Rmult Rplus] in *.
      match goal with |- _ < ?t => change (0 < t); assert (Et : t * p = (p * x 0%nat + q * x 1%nat) * (p * x 0%nat + q * x 1%nat) + (p * r - q * q) * (x 1%nat * x 1%nat)) by ring;
        apply (Rmult_lt_reg_r p); [exact Hp|]; rewrite Et, Rmult_0_l end.
      pose proof (Rle_0_sqr (p * x 0%nat + q * x 1%nat)) as Q1. unfold Rsqr in Q1.
      destruct (Req_dec (x 1%nat) 0) as [H1|H1].
      * assert (H0 : x 0%nat <> 0) by (destruct i as [|[|i]]; [exact Hx|contradiction|lia]). rewrite H1. replace (_ + _) with ((p * x 0%nat) * (p * x 0%nat)) by ring.
        apply Rsqr_pos_lt. apply Rmult_integral_contrapositive. split; lra.
      * apply Rsqr_pos_lt in H1. unfold Rsqr in H1. assert (0 < (p * r - q * q) * (x 1%nat * x 1%nat)) by now apply Rmult_lt_0_compat. lra.
  - apply (plain_g _ _ _ _ _ W (two_v_can u v p q r)). exact I.
Qed.
Lemma one_v_val v k e : gval (one_v v k) e = exp (- / 2 * (k * (e v * e v))).
Proof.
  assert (W : wf_gauss (one_v v k)) by (apply wf_can_obj; [constructor; [intros []|constructor]|now repeat split]).
  unfold gval, lp. rewrite (lp_canon _ _ _ _ _ e W (one_v_can v k)).
  cbn [vadd pot]. f_equal. unfold can_form. cbn [ga_vars one_v can_obj map]. unfold Rsum. cbn [fold_right]. unfold named_entry, named_coord.
  assert (P0 : index_opt v [v] = Some 0%nat) by (cbn; destruct (eq_dec v v); [reflexivity|congruence]). rewrite ?P0. cbn -[Rmult Rplus]. field.
Qed.
Lemma two_v_val u v p q r e : u <> v -> gval (two_v u v p q r) e = exp (- / 2 * (p * (e u * e u) + 2 * q * (e u * e v) + r * (e v * e v))).
Proof.
  intros Hne. assert (W : wf_gauss (two_v u v p q r)) by (apply wf_can_obj; [now apply nd2|now repeat split]).
  unfold gval, lp. rewrite (lp_canon _ _ _ _ _ e W (two_v_can u v p q r)).
  cbn [vadd pot]. f_equal. unfold can_form. cbn [ga_vars two_v can_obj map]. unfold Rsum. cbn [fold_right]. unfold named_entry, named_coord.
  assert (P0 : index_opt u [u; v] = Some 0%nat) by (cbn; destruct (eq_dec u u); [reflexivity|congruence]).
  assert (P1 : index_opt v [u; v] = Some 1%nat) by (cbn; destruct (eq_dec v u); [congruence|destruct (eq_dec v v); [reflexivity|congruence]]).
  rewrite ?P0, ?P1. cbn -[Rmult Rplus]. field.
Qed.
Lemma copy_can_obj vars K h g : NoDup vars -> shaped (length vars) (K, h, g) -> posdef K -> vars <> [] -> g_copy (can_obj vars (K, h, g)) = Ok (can_obj vars (K, h, g)).
Proof.
  intros Hd Hs Hp Hn. change (g_copy (can_obj vars (K, h, g))) with (mk_can vars K h g). rewrite (mk_can_ok vars K h g Hd Hs).
  destruct vars as [|v vars]; [congruence|]. pose proof Hs as (H1 & H2 & _). rewrite (posdef_not_vacuous K); [reflexivity|congruence|exact Hp].
Qed.
Lemma copy_one v k : 0 < k -> g_copy (one_v v k) = Ok (one_v v k).
Proof.
  intros Hk. destruct (one_v_solid v k Hk) as ((W & _ & _ & P & _) & _). pose proof W as (D & _ & Sh & _).
  apply copy_can_obj; [exact D|exact (Sh _ eq_refl)|exact (P _ _ _ eq_refl)|discriminate].
Qed.
Lemma copy_two u v p q r : u <> v -> 0 < p -> 0 < p * r - q * q -> g_copy (two_v u v p q r) = Ok (two_v u v p q r).
Proof.
  intros Hne Hp Hd. destruct (two_v_solid u v p q r Hne Hp Hd) as ((W & _ & _ & P & _) & _). pose proof W as (D & _ & Sh & _).
  apply copy_can_obj; [exact D|exact (Sh _ eq_refl)|exact (P _ _ _ eq_refl)|discriminate].
Qed.
Definition ch1 : gauss := one_v "x" 1.
Definition ch2 : gauss := two_v "x" "y" 1 0 1.
Definition ch3 : gauss := two_v "y" "a" 1 (-1) 2.
Definition chain : list gauss := [ch1; ch2; ch3].
Lemma xy : "x" <> "y". Proof. discriminate. Qed.
Lemma ya : "y" <> "a". Proof. discriminate. Qed.
Lemma ch1_ok : solid ch1 /\ plain ch1 /\ g_copy ch1 = Ok ch1.
Proof. destruct (one_v_solid "x" 1 Rlt_0_1) as (H1 & H2). split; [exact H1|]. split; [exact H2|]. exact (copy_one "x" 1 Rlt_0_1). Qed.
Lemma ch2_ok : solid ch2 /\ plain ch2 /\ g_copy ch2 = Ok ch2.
Proof.
  assert (Q : 0 < 1 * 1 - 0 * 0) by lra. destruct (two_v_solid "x" "y" 1 0 1 xy Rlt_0_1 Q) as (H1 & H2).
  split; [exact H1|]. split; [exact H2|]. exact (copy_two "x" "y" 1 0 1 xy Rlt_0_1 Q).
Qed.
Lemma ch3_ok : solid ch3 /\ plain ch3 /\ g_copy ch3 = Ok ch3.
Proof.
  assert (Q : 0 < 1 * 2 - (-1) * (-1)) by lra. destruct (two_v_solid "y" "a" 1 (-1) 2 ya Rlt_0_1 Q) as (H1 & H2).
  split; [exact H1|]. split; [exact H2|]. exact (copy_two "y" "a" 1 (-1) 2 ya Rlt_0_1 Q).
Qed.
Lemma chain_ok f : In f chain -> solid f /\ plain f.
Proof.
  destruct ch1_ok as (A1 & A2 & _), ch2_ok as (B1 & B2 & _), ch3_ok as (C1 & C2 & _). intros [<-|[<-|[<-|[]]]]; now split.
Qed.
Lemma chain_copies : mapM g_copy chain = Ok chain.
Proof.
  destruct ch1_ok as (_ & _ & A), ch2_ok as (_ & _ & B), ch3_ok as (_ & _ & C). unfold chain. cbn [mapM]. rewrite A, B, C. reflexivity.
Qed.
Lemma chain_vars v : In v (dedup (concat (map ga_vars chain))) <-> v = "x" \/ v = "y" \/ v = "a".
Proof. cbn. firstorder congruence. Qed.
Lemma exp_quad (A B k : R) : 0 < k -> exp (A + / 2 * (B * B / k) + / 2 * ln (2 * PI / k)) = sqrt (2 * PI / k) * exp (A + / 2 * (B * B / k)).
Proof.
  intros Hk. assert (Hp : 0 < 2 * PI / k) by (apply Rdiv_lt_0_compat; [pose proof PI_RGT_0; lra|exact Hk]).
  rewrite exp_plus, Rmult_comm. f_equal. rewrite <- (Rpower_sqrt _ Hp). unfold Rpower. f_equal. 
Qed.
(** The true marginal at [a]: the chain integrates to a constant times [exp (-3/4 a^2)]. *)
Lemma chain_true e : iint ["x"; "y"] (gvals chain) e (sqrt (2 * PI / 2) * (sqrt (2 * PI / 2) * exp (- (3 / 4) * (e "a" * e "a")))).
Proof.
  exists (fun t => exp (- / 2 * (2 * (t * t))) * (sqrt (2 * PI / 2) * exp (- (3 / 4) * (e "a" * e "a")))). split.
  - intros t. exists (fun s => exp (- / 2 * (2 * (t * t)) - e "a" * e "a" + e "a" * s - / 2 * (2 * (s * s)))). split.
    + intros s. cbn [iint]. unfold gvals, chain. cbn [map fold_right]. unfold ch1, ch2, ch3. rewrite one_v_val, !two_v_val by discriminate.
      rewrite Rmult_1_r, <- !exp_plus. cbn. f_equal. field.
    + replace (exp (- / 2 * (2 * (t * t))) * _) with (exp (- / 2 * (2 * (t * t)) - e "a" * e "a" + / 2 * (e "a" * e "a" / 2) + / 2 * ln (2 * PI / 2))).
      * apply gauss_int_quad. lra.
      * rewrite exp_quad by lra. replace (- / 2 * (2 * (t * t)) - e "a" * e "a" + / 2 * (e "a" * e "a" / 2)) with (- / 2 * (2 * (t * t)) + - (3 / 4) * (e "a" * e "a")) by field.
        rewrite exp_plus. ring.
  - apply (is_int_ext (fun t => (sqrt (2 * PI / 2) * exp (- (3 / 4) * (e "a" * e "a"))) * exp (0 + 0 * t - / 2 * (2 * (t * t))))).
    + intros t. rewrite Rmult_comm. f_equal. f_equal. ring.
    + rewrite (Rmult_comm (sqrt (2 * PI / 2)) (_ * _)). apply is_int_scal.
      replace (sqrt (2 * PI / 2)) with (exp (0 + / 2 * (0 * 0 / 2) + / 2 * ln (2 * PI / 2))); [apply gauss_int_quad; lra|].
      rewrite exp_quad by lra. replace (0 + / 2 * (0 * 0 / 2)) with 0 by field. rewrite exp_0. ring.
Qed.
(** What the merged pair and the last factor integrate to on their own. *)
Lemma chain_pair e : iint ["x"; "y"] (fun e => gval ch1 e * gval ch2 e) e (sqrt (2 * PI / 2) * sqrt (2 * PI / 1)).
Proof.
  exists (fun t => exp (- / 2 * (2 * (t * t))) * sqrt (2 * PI / 1)). split.
  - intros t. exists (fun s => exp (- / 2 * (2 * (t * t)) + 0 * s - / 2 * (1 * (s * s)))). split.
    + intros s. cbn [iint]. unfold ch1, ch2. rewrite one_v_val, two_v_val by discriminate. rewrite <- exp_plus. cbn. f_equal. field.
    + replace (exp (- / 2 * (2 * (t * t))) * _) with (exp (- / 2 * (2 * (t * t)) + / 2 * (0 * 0 / 1) + / 2 * ln (2 * PI / 1))).
      * apply gauss_int_quad. lra.
      * rewrite exp_quad by lra. rewrite Rmult_comm. f_equal. f_equal. field.
  - apply (is_int_ext (fun t => sqrt (2 * PI / 1) * exp (0 + 0 * t - / 2 * (2 * (t * t))))).
    + intros t. rewrite Rmult_comm. f_equal. f_equal. ring.
    + rewrite (Rmult_comm (sqrt (2 * PI / 2)) _). apply is_int_scal.
      replace (sqrt (2 * PI / 2)) with (exp (0 + / 2 * (0 * 0 / 2) + / 2 * ln (2 * PI / 2))); [apply gauss_int_quad; lra|].
      rewrite exp_quad by lra. replace (0 + / 2 * (0 * 0 / 2)) with 0 by field. rewrite exp_0. ring.
Qed.
Lemma chain_last e : iint ["y"] (gval ch3) e (sqrt (2 * PI / 1) * exp (- (1 / 2) * (e "a" * e "a"))).
Proof.
  exists (fun s => exp (- (e "a" * e "a") + e "a" * s - / 2 * (1 * (s * s)))). split.
  - intros s. cbn [iint]. unfold ch3. rewrite two_v_val by discriminate. cbn. f_equal. field.
  - replace (sqrt (2 * PI / 1) * _) with (exp (- (e "a" * e "a") + / 2 * (e "a" * e "a" / 1) + / 2 * ln (2 * PI / 1))); [apply gauss_int_quad; lra|].
    rewrite exp_quad by lra. do 2 f_equal. field.
Qed.
Definition chain_fg (o : oracle) : fg := {| fg_vars := so o (dedup (concat (map ga_vars chain))); fg_factors := chain |}.
Lemma chain_made o : mk_fg o chain = Ok (chain_fg o).
Proof. unfold mk_fg. now rewrite chain_copies. Qed.
Lemma chain_fg_copy o : fg_copy o (chain_fg o) = Ok (chain_fg o).
Proof. unfold fg_copy. cbn [chain_fg fg_factors]. rewrite chain_copies. cbn [bind]. apply chain_made. Qed.
Lemma chain_fg_vars o v : oracle_ok o -> In v (fg_vars (chain_fg o)) <-> v = "x" \/ v = "y" \/ v = "a".
Proof.
  intros (Ho & _). rewrite <- chain_vars. pose proof (Ho _ (NoDup_dedup (concat (map ga_vars chain)))) as HP.
  split; apply Permutation_in; [now apply Permutation_sym|exact HP].
Qed.
Lemma sqrt_pi_sq : sqrt (2 * PI / 2) * sqrt (2 * PI / 2) = PI.
Proof. rewrite sqrt_sqrt; [field|]. pose proof PI_RGT_0. lra. Qed.
Lemma sqrt_2pi_sq : sqrt (2 * PI / 1) * sqrt (2 * PI / 1) = 2 * PI.
Proof. rewrite sqrt_sqrt; [field|]. pose proof PI_RGT_0. lra. Qed.
Theorem chain_wrong o : oracle_ok o -> exists j m g,
  mk_fg o chain = Ok (chain_fg o) /\ fg_joint (chain_fg o) = Ok j /\ g_marginalize o j ["a"] true = Ok m /\
  fg_marginalize o (chain_fg o) ["a"] true = Ok (inl g) /\
  (forall e, gval m e = PI * exp (- (3 / 4) * (e "a" * e "a"))) /\ (forall e, gval g e = sqrt PI * (2 * PI) * exp (- (1 / 2) * (e "a" * e "a"))).
Proof.
  intros Ho. pose proof (chain_fg_vars o) as HV.
  destruct (joint_solid (chain_fg o)) as (j & Ej & Sj & Pj); [discriminate|exact chain_ok|].
  assert (HW : all_wf (fg_factors (chain_fg o))) by (intros f Hf; destruct (chain_ok f Hf) as ((W & _) & _); exact W).
  destruct (joint_spec (chain_fg o)) as (j' & Ej' & Wj & Vj & Lj); [discriminate|exact HW|]. rewrite Ej in Ej'. injection Ej' as <-.
  assert (HP : Permutation (["x"; "y"] ++ ["a"]) (ga_vars j)).
  { apply NoDup_Permutation; [|apply Wj|].
    - repeat constructor; cbn; intuition discriminate.
    - intros v. rewrite Vj. unfold in_scope. cbn [chain_fg fg_factors]. unfold chain. split.
      + intros [<-|[<-|[<-|[]]]]; [exists ch1|exists ch2|exists ch3]; cbn; intuition.
      + intros (f & [<-|[<-|[<-|[]]]] & Hv); cbn in *; intuition. }
  destruct (marg_integral o ["x"; "y"] j ["a"] Ho Sj Pj HP) as (m & Em & _ & Sm & Pm & Im).
  destruct ch1_ok as (S1 & P1 & C1), ch2_ok as (S2 & P2 & C2), ch3_ok as (S3 & P3 & C3).
  destruct (multiply_solid ch1 ch2 S1 S2) as (p & Ep & Sp & Vp & Lp & Pp). specialize (Pp P1 P2).
  set (out := set_diff (fg_vars (chain_fg o)) ["a"]).
  assert (Ho1 : In "x" out) by (apply In_set_diff; split; [apply HV; auto|intros [H|[]]; discriminate]).
  assert (Ho2 : In "y" out) by (apply In_set_diff; split; [apply HV; auto|intros [H|[]]; discriminate]).
  assert (Ho3 : ~ In "a" out) by (intros H; apply In_set_diff in H; destruct H as (_ & H); apply H; now left).
  assert (E1 : set_inter (ga_vars ch1) out = ["x"]) by (cbn; now rewrite (proj2 (mem_In "x" out) Ho1)).
  assert (E2 : set_inter (ga_vars ch2) out = ["x"; "y"]) by (cbn; now rewrite (proj2 (mem_In "x" out) Ho1), (proj2 (mem_In "y" out) Ho2)).
  assert (E3 : set_inter (ga_vars ch3) out = ["y"]) by (cbn; now rewrite (proj2 (mem_In "y" out) Ho2), (proj2 (mem_nIn "a" out) Ho3)).
  assert (EM : merge_shared chain out = Ok [p; ch3]).
  { unfold merge_shared, chain. cbn [map]. rewrite E1, E2, E3. unfold merge_inner. cbn -[g_multiply ch1 ch2 ch3]. rewrite Ep. reflexivity. }
  assert (Vq : ga_vars p = ["x"; "y"]).
  { destruct (g_multiply_spec ch1 ch2 (proj1 S1) (proj1 S2)) as (q & Eq & _ & V & _). rewrite Ep in Eq. injection Eq as <-. exact V. }
  assert (Vp' : set_inter (ga_vars p) out = ["x"; "y"]) by (rewrite Vq; exact E2).
  destruct (marg_step_ok o out [] (Fin 0) p Ho Sp Pp) as [(w & Ew & Lw & _ & Iw)|(m' & _ & _ & _ & Vm & (v & Hv) & _)].
  2:{ exfalso. apply Vm in Hv. destruct Hv as (H1 & H2). apply Vp in H1. cbn in H1. intuition congruence. }
  destruct (marg_step_ok o out [] (vadd (Fin 0) w) ch3 Ho S3 P3) as [(w' & _ & _ & Hv & _)|(m' & Em' & Sm' & Pm' & _ & _ & Im')].
  { exfalso. apply Ho3, Hv. cbn. auto. }
  rewrite E3 in Im'. exists j, m, (add_log_weight m' (vadd (Fin 0) w)).
  split; [apply chain_made|]. split; [exact Ej|]. split; [exact Em|]. split.
  { unfold fg_marginalize. cbn [marginal_vars]. fold out. rewrite chain_fg_copy. cbn [bind]. cbn [chain_fg fg_factors]. rewrite (intersecting_some chain ["a"] "a" ch3); [|right; right; now left|right; now left|now left].
    cbn [raise_if bind]. rewrite EM. cbn [bind foldM]. rewrite Ew. cbn [bind]. rewrite Em'. reflexivity. }
  split; intros e.
  - assert (EJ : forall e0, gvals chain e0 = gval j e0) by (intros e0; rewrite gval_lv, (lv_of j e0 _ (Lj e0)); symmetry; apply lvs_plain; exact chain_ok).
    rewrite (iint_unique ["x"; "y"] (gval j) e _ _ (Im e) (iint_ext _ _ _ _ _ EJ (chain_true e))).
    pose proof sqrt_pi_sq as Q2. set (A := sqrt (2 * PI / 2)) in *. rewrite <- Q2. ring.
  - destruct Sm' as (Wm' & _). destruct (add_weight_lv m' (vadd (Fin 0) w) Wm') as (_ & _ & La). rewrite gval_lv, La, vadd_0_l.
    assert (Q : is_lp (lv m' e)) by (apply (Pm' e); now apply lp_lv). rewrite (proj2 (pot_vadd _ _ Q Lw)), <- gval_lv.
    rewrite (iint_unique ["y"] (gval ch3) e _ _ (Im' e) (chain_last e)).
    specialize (Iw e). rewrite Vp' in Iw.
    assert (EP : forall e0, gval ch1 e0 * gval ch2 e0 = gval p e0).
    { intros e0. rewrite (gval_lv p), Lp, (proj2 (pot_vadd _ _ (lv_plain _ e0 S1 P1) (lv_plain _ e0 S2 P2))), !gval_lv. reflexivity. }
    rewrite (iint_unique ["x"; "y"] (gval p) e _ _ Iw (iint_ext _ _ _ _ _ EP (chain_pair e))).
    replace (sqrt PI) with (sqrt (2 * PI / 2)) by (f_equal; field). pose proof sqrt_2pi_sq as Q2. set (A := sqrt (2 * PI / 2)). set (B := sqrt (2 * PI / 1)) in *. rewrite <- Q2. ring.
Qed.
Theorem chain_refuted o : oracle_ok o -> exists a j m g, mk_fg o chain = Ok a /\ fg_joint a = Ok j /\ g_marginalize o j ["a"] true = Ok m /\ fg_marginalize o a ["a"] true = Ok (inl g) /\ exists e, lp g e <> lp m e.
Proof.
  intros Ho. destruct (chain_wrong o Ho) as (j & m & g & E1 & E2 & E3 & E4 & Vm & Vg). exists (chain_fg o), j, m, g.
  split; [exact E1|]. split; [exact E2|]. split; [exact E3|]. split; [exact E4|]. exists (fun _ => 0). intros E.
  assert (Q : gval g (fun _ => 0) = gval m (fun _ => 0)) by (unfold gval; now rewrite E). rewrite Vm, Vg in Q.
  rewrite !Rmult_0_r, !exp_0 in Q. pose proof PI_RGT_0 as Hp. pose proof PI2_3_2 as Hp2.
  assert (1 <= sqrt PI) by (rewrite <- sqrt_1; apply sqrt_le_1_alt; unfold PI2 in Hp2; lra).
  assert (1 * (2 * PI) <= sqrt PI * (2 * PI)) by (apply Rmult_le_compat_r; lra). lra.
Qed.
