(** Raw moments, moment matching and products of factors. *)
From Verif Require Export IntMoment FactStats.
#[global] Set Bullet Behavior "Strict Subproofs".
Local Open Scope R_scope.

Theorem raw_moment1 f f' C m w ys e u : solid f -> plain f -> get_cov f = Ok (f', (C, m, w)) -> Permutation ys (ga_vars f) -> In u (ga_vars f) ->
  iint ys (fun e => e u * gval f e) e (named_coord m (ga_vars f) u * pot w).
Proof.
  intros S Pl G HP Hu. set (mu := named_coord m (ga_vars f) u).
  pose proof (iint_plus ys _ _ e _ _ (mean_moment ys f f' C m w e u S Pl G HP Hu) (iint_const ys mu _ e _ (proj2 (weight_integral f f' C m w ys e S Pl G HP)))) as H.
  rewrite Rplus_0_l in H. revert H. apply iint_ext. intros e'. fold mu. ring.
Qed.
Theorem raw_moment2 f f' C m w ys e u v : solid f -> plain f -> get_cov f = Ok (f', (C, m, w)) -> Permutation ys (ga_vars f) -> In u (ga_vars f) -> In v (ga_vars f) ->
  iint ys (fun e => e u * e v * gval f e) e ((named_entry C (ga_vars f) u v + named_coord m (ga_vars f) u * named_coord m (ga_vars f) v) * pot w).
Proof.
  intros S Pl G HP Hu Hv. set (mu := named_coord m (ga_vars f) u). set (mv := named_coord m (ga_vars f) v).
  pose proof (cov_moment ys f f' C m w e u v S Pl G HP Hu Hv) as H2.
  pose proof (iint_const ys mv _ e _ (mean_moment ys f f' C m w e u S Pl G HP Hu)) as Ha. pose proof (iint_const ys mu _ e _ (mean_moment ys f f' C m w e v S Pl G HP Hv)) as Hb.
  pose proof (iint_const ys (mu * mv) _ e _ (proj2 (weight_integral f f' C m w ys e S Pl G HP))) as Hc.
  pose proof (iint_plus ys _ _ e _ _ H2 (iint_plus ys _ _ e _ _ Ha (iint_plus ys _ _ e _ _ Hb Hc))) as H.
  replace ((named_entry C (ga_vars f) u v + mu * mv) * pot w) with (named_entry C (ga_vars f) u v * pot w + (mv * 0 + (mu * 0 + mu * mv * pot w))) by ring.
  revert H. apply iint_ext. intros e'. fold mu mv. ring.
Qed.

(** * Moment matching *)
Lemma rsum_Rsum {A} n (g : nat -> A -> R) l : rsum n (fun i => Rsum (map (g i) l)) = Rsum (map (fun p => rsum n (fun i => g i p)) l).
Proof. unfold rsum. apply Rsum_swap. Qed.
Lemma mixture_posdef (ps : list cparams) (C m : mat) n W : 0 < W -> nr C = n -> ps <> [] ->
  (forall p, In p ps -> posdef (fst (fst p)) /\ nr (fst (fst p)) = n) -> W = weight_sum ps ->
  (forall i, (i < n)%nat -> W * ent m i 0 = first_sum ps i) ->
  (forall i j, (i < n)%nat -> (j < n)%nat -> W * (ent C i j + ent m i 0 * ent m j 0) = second_sum ps i j) -> posdef C.
Proof.
  intros HW HC Hne HP EW H1 H2.
  assert (H2' : forall i j, (i < n)%nat -> (j < n)%nat ->
    W * ent C i j = Rsum (map (fun p : cparams => exp (snd p) * (ent (fst (fst p)) i j + (ent (snd (fst p)) i 0 - ent m i 0) * (ent (snd (fst p)) j 0 - ent m j 0))) ps)).
  { intros i j Hi Hj. pose proof (H2 i j Hi Hj) as E. pose proof (H1 i Hi) as Ei. pose proof (H1 j Hj) as Ej. unfold second_sum, first_sum, weight_sum in *.
    rewrite (Rsum_ext _ (fun p : cparams => (exp (snd p) * (ent (fst (fst p)) i j + ent (snd (fst p)) i 0 * ent (snd (fst p)) j 0) + (- ent m j 0) * (exp (snd p) * ent (snd (fst p)) i 0))
       + ((- ent m i 0) * (exp (snd p) * ent (snd (fst p)) j 0) + (ent m i 0 * ent m j 0) * exp (snd p)))) by (intros; ring).
    rewrite !Rsum_plus, !Rsum_scal, <- E, <- Ei, <- Ej, <- EW. ring. }
  split.
  - intros i j Hi Hj. rewrite HC in Hi, Hj. apply (Rmult_eq_reg_l W); [|lra]. rewrite !H2' by assumption. apply Rsum_ext. intros p Hp. destruct (HP p Hp) as ((Hs & _) & Hn).
    rewrite (Hs i j) by (rewrite Hn; assumption). ring.
  - intros u (i & Hi & Nu). rewrite HC in *. apply (Rmult_lt_reg_l W); [exact HW|]. rewrite Rmult_0_r.
    replace (W * qsum n C u) with (Rsum (map (fun p : cparams => exp (snd p) * (qsum n (fst (fst p)) u + Rsqr (rsum n (fun i => u i * (ent (snd (fst p)) i 0 - ent m i 0))))) ps)).
    + destruct ps as [|p ps]; [congruence|]. cbn [map]. rewrite Rsum_cons. apply Rplus_lt_le_0_compat.
      * apply Rmult_lt_0_compat; [apply exp_pos|]. apply Rplus_lt_le_0_compat; [|apply Rle_0_sqr]. destruct (HP p (or_introl eq_refl)) as ((_ & Hq) & Hn). rewrite <- Hn. apply Hq. exists i. split; [now rewrite Hn|exact Nu].
      * apply Rsum_nonneg. intros q Hq. apply Rmult_le_pos; [left; apply exp_pos|]. destruct (HP q (or_intror Hq)) as (Pq & Hn). apply Rplus_le_le_0_compat; [now apply qsum_nonneg|apply Rle_0_sqr].
    + unfold qsum. rewrite <- rsum_scal.
      rewrite (rsum_ext n (fun i => W * _) (fun i => Rsum (map (fun p : cparams => rsum n (fun j => exp (snd p) * (u i * ent (fst (fst p)) i j * u j + (u i * (ent (snd (fst p)) i 0 - ent m i 0)) * (u j * (ent (snd (fst p)) j 0 - ent m j 0))))) ps))).
      2: { intros a Ha. rewrite <- rsum_scal. unfold rsum. rewrite Rsum_swap. apply Rsum_ext. intros b Hb. apply in_seq in Hb.
           replace (W * (u a * ent C a b * u b)) with ((u a * u b) * (W * ent C a b)) by ring. rewrite H2' by (assumption || lia). rewrite <- Rsum_scal. apply Rsum_ext. intros p _. ring. }
      rewrite rsum_Rsum. apply Rsum_ext. intros p _. rewrite Rmult_plus_distr_l. unfold Rsqr. symmetry.
      rewrite (rsum_ext n _ (fun a => exp (snd p) * rsum n (fun j => u a * ent (fst (fst p)) a j * u j) + (exp (snd p) * rsum n (fun j => u j * (ent (snd (fst p)) j 0 - ent m j 0))) * (u a * (ent (snd (fst p)) a 0 - ent m a 0)))).
      * rewrite rsum_plus, !rsum_scal. ring.
      * intros a _. rewrite rsum_scal, rsum_plus, rsum_scal. ring.
Qed.

Theorem match_moments a ps : wf_mix a -> (forall c, In c (gm_comps a) -> solid c /\ plain c) -> Forall2 has_params (gm_comps a) ps ->
  exists r, mix_moment_match a = Ok r /\ solid r /\ plain r /\ ga_vars r = gm_vars a /\
    forall ys e, Permutation ys (gm_vars a) ->
      (exists W, iint ys (mval a) e W /\ iint ys (gval r) e W) /\
      (forall u, In u (gm_vars a) -> exists M, iint ys (fun e => e u * mval a e) e M /\ iint ys (fun e => e u * gval r e) e M) /\
      (forall u v, In u (gm_vars a) -> In v (gm_vars a) -> exists S, iint ys (fun e => e u * e v * mval a e) e S /\ iint ys (fun e => e u * e v * gval r e) e S).
Proof.
  intros Wa HS F. pose proof Wa as (Na & Ha). destruct (moment_match a ps Wa F) as (r & C & m & w & Er & Vr & Gr & Sh & EW & H1 & H2).
  set (vars := gm_vars a) in *.
  assert (Hps : ps <> []) by (intros ->; inversion F; congruence). pose proof (weight_sum_pos ps Hps) as HW.
  assert (Hcp : forall p, In p ps -> exists c c', In c (gm_comps a) /\ get_cov c = Ok (c', (fst (fst p), snd (fst p), Fin (snd p)))).
  { intros p Hp. destruct (F2_in_r _ _ _ p F Hp) as (c & Hc & (c' & E)). exists c, c'. now split. }
  assert (Hd : NoDup vars).
  { destruct (gm_comps a) as [|c cs] eqn:Ec; [congruence|]. destruct (Ha c (or_introl eq_refl)) as ((Dc & _) & Vc). now rewrite Vc in Dc. }
  assert (P : posdef C).
  { apply (mixture_posdef ps C m (length vars) (weight_sum ps) HW); auto; [apply Sh|]. intros p Hp. destruct (Hcp p Hp) as (c & c' & Hc & E). destruct (HS c Hc) as (Sc & _).
    destruct (solid_lp_cov c c' _ _ _ Sc E) as ((S1 & _) & Pc & _). split; [exact Pc|]. rewrite S1. now rewrite (proj2 (Ha c Hc)). }
  (* the matched Gaussian holds its covariance form *)
  assert (Eq : r = cov_obj vars (C, m, Fin w)).
  { pose proof Er as E. unfold mix_moment_match in E. repeat (apply bind_ok in E; destruct E as (? & ? & E)).
    destruct (gm_comps a) as [|c cs] eqn:Ec; [congruence|]. destruct (Ha c (or_introl eq_refl)) as ((Dc & _) & Vc).
    revert E. unfold mk_cov. intros E. repeat (apply bind_ok in E; destruct E as (? & ? & E)). injection E as <-.
    unfold get_cov, update_covform in Gr. cbn [ga_vac ga_cov bind] in Gr. injection Gr as -> -> ->. cbn [ga_vars] in Vr. unfold cov_obj. congruence. }
  assert (Sr : solid r).
  { rewrite Eq. split; [apply wf_cov_obj; [exact Hd|exact Sh|split; [apply P|now apply posdef_det]]|]. split; [reflexivity|]. split; [intros p q Hp; discriminate Hp|]. split; cbn; intros K0 h0 g0 Hk; [discriminate Hk|]. injection Hk as <- _ _. exact P. }
  assert (Plr : plain r).
  { intros e l L. destruct (gval_form r r C m w Sr Gr) as (c & L'). rewrite L' in L. injection L as <-. exact I. }
  exists r. split; [exact Er|]. split; [exact Sr|]. split; [exact Plr|]. split; [exact Vr|]. intros ys e HP.
  assert (Sum : forall (F0 : (string -> R) -> R) (J : cparams -> R),
    (forall c c' C' m' w', In c (gm_comps a) -> get_cov c = Ok (c', (C', m', Fin w')) -> iint ys (fun e => F0 e * gval c e) e (J (C', m', w'))) ->
    iint ys (fun e => F0 e * mval a e) e (Rsum (map J ps))).
  { intros F0 J HJ. apply (iint_ext _ (fun e => Rsum (map (fun c => F0 e * gval c e) (gm_comps a)))).
    { intros e'. rewrite Rsum_scal. f_equal. symmetry. apply mval_sum; [exact Wa|]. intros c Hc. now apply HS. }
    clear -F HJ. revert HJ. generalize (gm_comps a) as cs, F. intros cs F'. clear F. induction F' as [|c p cs ps Hcp F' IH]; intros HJ; cbn [map].
    - apply iint_zero.
    - rewrite Rsum_cons. apply (iint_ext _ (fun e => F0 e * gval c e + Rsum (map (fun c => F0 e * gval c e) cs))); [intros; now rewrite Rsum_cons|].
      apply iint_plus.
      + destruct Hcp as (c' & E). destruct p as [[C' m'] w']. apply (HJ c c' C' m' w'); [now left|exact E].
      + apply IH. intros c0 c0' C' m' w' Hc. apply HJ. now right. }
  assert (Nm : forall (A : mat) u, In u vars -> (pos vars u < length vars)%nat) by (intros _ u Hu; now apply pos_nth).
  assert (HPr : Permutation ys (ga_vars r)) by now rewrite Vr.
  assert (Hcv : forall c, In c (gm_comps a) -> ga_vars c = vars) by (intros c Hc; now apply Ha).
  split; [|split].
  - exists (weight_sum ps). split.
    + apply (iint_ext _ (fun e => 1 * mval a e)); [intros; ring|]. unfold weight_sum. apply (Sum (fun _ => 1)). intros c c' C' m' w' Hc E. destruct (HS c Hc) as (Sc & Pc).
      apply (iint_ext _ (gval c)); [intros; ring|]. apply (weight_integral c c' C' m' (Fin w') ys e Sc Pc E). now rewrite Hcv.
    + rewrite <- EW. exact (proj2 (weight_integral r r C m (Fin w) ys e Sr Plr Gr HPr)).
  - intros u Hu. exists (first_sum ps (pos vars u)). split.
    + unfold first_sum. apply (Sum (fun e => e u)). intros c c' C' m' w' Hc E. destruct (HS c Hc) as (Sc & Pc). cbn [fst snd].
      rewrite <- (named_pos1 m' vars u Hu), Rmult_comm, <- (Hcv c Hc). apply (raw_moment1 c c' C' m' (Fin w') ys e u Sc Pc E); now rewrite Hcv.
    + rewrite <- H1 by now apply pos_nth. rewrite <- EW, <- (named_pos1 m vars u Hu), Rmult_comm, <- Vr. apply (raw_moment1 r r C m (Fin w) ys e u Sr Plr Gr HPr). now rewrite Vr.
  - intros u v Hu Hv. exists (second_sum ps (pos vars u) (pos vars v)). split.
    + unfold second_sum. apply (Sum (fun e => e u * e v)). intros c c' C' m' w' Hc E. destruct (HS c Hc) as (Sc & Pc). cbn [fst snd].
      rewrite <- (named_pos1 m' vars u Hu), <- (named_pos1 m' vars v Hv), <- (named_pos C' vars u v Hu Hv), Rmult_comm, <- (Hcv c Hc). apply (raw_moment2 c c' C' m' (Fin w') ys e u v Sc Pc E); now rewrite Hcv.
    + rewrite <- H2 by now apply pos_nth. rewrite <- EW, <- (named_pos1 m vars u Hu), <- (named_pos1 m vars v Hv), <- (named_pos C vars u v Hu Hv), Rmult_comm, <- Vr.
      apply (raw_moment2 r r C m (Fin w) ys e u v Sr Plr Gr HPr); now rewrite Vr.
Qed.

(** * Factorised factors *)
Lemma get_cov_solid f : solid f -> exists f' C m w, get_cov f = Ok (f', (C, m, w)).
Proof.
  intros S. destruct id_oracle_ok as (o & Ho). pose proof S as ((Hd & _) & _).
  destruct (marg_solid o f (ga_vars f) Ho S Hd (incl_refl _)) as (f' & C & m & w & _ & _ & _ & _ & G & _). exists f', C, m, w. exact G.
Qed.
Lemma joint_gvals a j : fg_factors a <> [] -> (forall f, In f (fg_factors a) -> solid f /\ plain f) -> fg_joint a = Ok j -> forall e, gval j e = gvals (fg_factors a) e.
Proof.
  intros Hn H Ej e. destruct (joint_spec a Hn) as (j' & Ej' & _ & _ & L). { intros f Hf. now destruct (H f Hf) as ((W & _) & _). }
  assert (j' = j) as -> by congruence. rewrite (lp_gval j e _ (L e)). now apply lvs_plain.
Qed.
Theorem fg_moments a : fg_factors a <> [] -> (forall f, In f (fg_factors a) -> solid f /\ plain f) ->
  exists j C m W, fg_joint a = Ok j /\ fg_get_cov a = Ok C /\ fg_get_mean a = Ok m /\
    nr C = length (ga_vars j) /\ nc C = length (ga_vars j) /\ nr m = length (ga_vars j) /\ nc m = 1%nat /\
    forall ys e, Permutation ys (ga_vars j) ->
      iint ys (gvals (fg_factors a)) e W /\
      (forall u, In u (ga_vars j) -> iint ys (fun e => e u * gvals (fg_factors a) e) e (named_coord m (ga_vars j) u * W)) /\
      (forall u v, In u (ga_vars j) -> In v (ga_vars j) ->
        iint ys (fun e => (e u - named_coord m (ga_vars j) u) * (e v - named_coord m (ga_vars j) v) * gvals (fg_factors a) e) e (named_entry C (ga_vars j) u v * W)).
Proof.
  intros Hn H. destruct (joint_solid a Hn H) as (j & Ej & Sj & Pj). destruct (get_cov_solid j Sj) as (j' & C & m & w & G).
  pose proof (joint_gvals a j Hn H Ej) as GV. destruct (solid_lp_cov j j' C m w Sj G) as ((S1 & S2 & S3 & S4) & _).
  exists j, C, m, (pot w). split; [exact Ej|]. split; [unfold fg_get_cov; rewrite Ej; cbn [bind]; rewrite G; reflexivity|].
  split; [unfold fg_get_mean; rewrite Ej; cbn [bind]; rewrite G; reflexivity|]. repeat (split; [assumption|]). intros ys e HP. split; [|split].
  - apply (iint_ext _ (gval j)); [exact GV|]. exact (proj2 (weight_integral j j' C m w ys e Sj Pj G HP)).
  - intros u Hu. apply (iint_ext _ (fun e => e u * gval j e)); [intros e'; now rewrite GV|]. now apply (raw_moment1 j j' C m w).
  - intros u v Hu Hv. apply (iint_ext _ (fun e => (e u - named_coord m (ga_vars j) u) * (e v - named_coord m (ga_vars j) v) * gval j e)); [intros e'; now rewrite GV|]. now apply (cov_moment ys j j' C m w).
Qed.
