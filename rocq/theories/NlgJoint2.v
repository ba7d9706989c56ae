(** The joint distribution of a tree of clusters, from their factors and the messages last sent. *)
From Verif Require Export NlgJoint1.
Local Open Scope string_scope.
Local Open Scope list_scope.
Local Open Scope R_scope.

Lemma send_old o c d d' y : send (nfac_ops o) c d = Ok d' -> dget (cl_recv d) (cl_id c) = Some y ->
  exists x z, nf_mul o (cl_fac d) x = Ok z /\ nf_cancel o z y = Ok (cl_fac d') /\ cl_recv d' = dset (cl_recv d) (cl_id c) x.
Proof.
  unfold send. intros H N. apply bind_ok in H. destruct H as (m & Hm & H).
  assert (Em : m_snd m = cl_id c).
  { unfold make_message in Hm. repeat (apply bind_ok in Hm; destruct Hm as (? & _ & Hm)). now injection Hm as <-. }
  unfold receive_message in H. apply bind_ok in H. destruct H as (_ & _ & H). apply bind_ok in H. destruct H as (f1 & E1 & H). rewrite Em, N in H. apply bind_ok in H. destruct H as (f2 & E2 & H). injection H as <-.
  exists (m_fac m), f1. now split.
Qed.
Lemma app_both {A} (l1 l2 r1 r2 : list A) : length l1 = length r1 -> l1 ++ l2 = r1 ++ r2 -> l1 = r1 /\ l2 = r2.
Proof. revert r1. induction l1 as [|x l1 IH]; intros [|y r1]; cbn; try discriminate; [now split|]. intros [= L] [= -> E]. destruct (IH r1 L E) as (-> & ->). now split. Qed.
Lemma resend_holds o : oracle_ok o -> forall t t' P q p t3, post P q t t' -> calm p t t3 -> cl_id p = cl_id q -> resend (nfac_ops o) p t' = Ok t3 ->
  Forall2 (fun d q => holds (own d) q) (fnodes t) (fnodes t') -> Forall2 (fun d q => holds (own d) q) (fnodes t) (fnodes t3).
Proof.
  intros Ho. induction t as [|d k IHk s IHs]; intros [|d2 k2 s2] P q p [|d3 k3 s3]; cbn [post calm]; try tauto.
  intros ((S & a & b & B & C & c & A1 & A2 & A3 & A4 & A5 & A6 & A7 & A8 & A9 & A10 & A10' & A11 & A12 & A13 & A14 & A15 & A16 & A17 & A18 & A19) & Ps).
  intros ((S' & m & b' & B' & X' & D1 & D2 & D3 & D4 & D5 & D6 & D7 & D8 & D9 & _) & Ck & Cs) Ei Er HF. cbn [resend] in Er.
  apply bind_ok in Er. destruct Er as (d1 & Es & Er). apply bind_ok in Er. destruct Er as (k1 & Ek & Er). apply bind_ok in Er. destruct Er as (s1 & Es1 & Er). injection Er as -> -> ->.
  cbn [fnodes] in *. inversion_clear HF as [|? ? ? ? Hd Hks]. apply Forall2_app_inv_l in Hks. destruct Hks as (l1 & l2 & H1 & H2 & HE).
  assert (L : length l1 = length (fnodes k2)).
  { rewrite <- (Forall2_length _ _ _ H1). clear - A19. revert k2 A19. generalize (fun e => own d e * gval a e). generalize d2. induction k as [|x y IHy z IHz]; intros p0 P0 [|x' y' z']; cbn [post fnodes]; try tauto. intros ((? & ? & ? & ? & ? & ? & H) & K). cbn [length]. rewrite !app_length.
    rewrite (IHy _ _ _ (proj2 (proj2 (proj2 (proj2 (proj2 (proj2 (proj2 (proj2 (proj2 (proj2 (proj2 (proj2 (proj2 (proj2 (proj2 (proj2 (proj2 (proj2 (proj2 H)))))))))))))))))))). now rewrite (IHz _ _ _ K). }
  destruct (app_both _ _ _ _ L (eq_sym HE)) as (-> & ->).
  rewrite <- Ei in A5. destruct (send_old o p d2 d3 _ Es A5) as (x & z & Em & Ec & Rc). assert (x = FG m) as ->. { rewrite Rc, dget_dset_eq in D5. now injection D5 as ->. }
  pose proof (solid_proper a A7 A8) as (Ga & Fa). assert (S' = S) as ->. { pose proof (ed_d _ _ _ A1) as Z1. pose proof (ed_d _ _ _ D1) as Z2. rewrite Ei in Z2. rewrite Z1 in Z2. now injection Z2. }
  destruct (renew o (cl_fac d) (cl_fac d2) S a m B Ho (ed_wait _ _ _ A1) (ed_ne _ _ _ A1) A3 (proj2 (proj2 (proj2 A2))) A4 Ga A9 Fa A12 A13 D7 D8 D9) as (z1 & z2 & Z1 & Z2 & _ & _ & _ & Z3).
  rewrite Em in Z1. injection Z1 as <-. rewrite Ec in Z2. injection Z2 as Z2. rewrite <- Z2 in Z3. pose proof (solid_proper m D7 D8) as (Gm & _).
  constructor; [|apply Forall2_app].
  - destruct Hd as ((k0 & Hk0 & Hd) & Hm). split.
    + exists k0. split; [exact Hk0|]. intros e. apply (Rmult_eq_reg_r (gval a e)); [|apply Rgt_not_eq, A8]. pose proof (mprod_old (cl_recv d2) (cl_id p) (FG m) (FG a) e A5) as M. cbn [npot] in M.
      rewrite Rmult_assoc, Rc, M, <- Rmult_assoc, <- Hd, A13, Z3. ring.
    + rewrite Rc. intros x Hx. apply dvals_dset in Hx. assert (V : forall v, In v (cvars d2) -> In v (cvars d3)) by (intros v Hv; apply (same_vars d d3 v D2); now apply (same_vars d d2 v A2)).
      destruct Hx as [->|Hx]; [|apply (posted_kind d2); [exact V|now apply Hm]]. exists m. split; [reflexivity|]. split; [now apply (ggood_weak true)|]. rewrite D9. split; [exact (ed_ne _ _ _ A1)|].
      intros v Hv. apply (same_vars d d3 v D2). now apply (wait_free _ _ (ed_wait _ _ _ A1)).
  - apply (IHk k2 _ d2 d3 k3 A19 Ck); auto. destruct A2 as (I2 & _), D2 as (I3 & _). congruence.
  - now apply (IHs s2 P q p s3).
Qed.

(** Products of Gaussians. *)
Lemma mul_all o : forall ms m, ggood false m -> Forall (fun x => exists g, x = FG g /\ ggood false g) ms ->
  exists r, foldM (nf_mul o) ms (FG m) = Ok (FG r) /\ ggood false r /\ (forall v, In v (ga_vars r) <-> In v (ga_vars m) \/ exists g, In (FG g) ms /\ In v (ga_vars g)) /\
    forall e, gval r e = gval m e * mprod ms e.
Proof.
  induction ms as [|x ms IH]; intros m G F.
  - exists m. cbn [foldM mprod fold_right]. split; [reflexivity|]. split; [exact G|]. split; [intros v; split; [now left|intros [H|(g & [] & _)]; exact H]|intros e; ring].
  - inversion_clear F as [|? ? (g & -> & Gg) F']. cbn [foldM nf_mul]. destruct (gmul_law false m g G Gg) as (r & Er & Gr & Vr & Lr). rewrite Er. cbn [bind].
    destruct (IH r Gr F') as (r2 & E2 & G2 & V2 & L2). exists r2. split; [exact E2|]. split; [exact G2|]. split.
    + intros v. rewrite V2, Vr. cbn [In]. split; [intros [[H|H]|(g' & H & H')]; eauto|intros [H|(g' & [[= ->]|H] & H')]; eauto].
    + intros e. rewrite L2, Lr. cbn [mprod fold_right npot]. unfold mprod. ring.
Qed.
Lemma joint_of o x v : oracle_ok o -> nready x -> In v (nfree x) -> exists j, nf_joint o x = Ok (FG j) /\ ggood false j /\ (forall v, In v (ga_vars j) <-> In v (nfree x)) /\ forall e, gval j e = npot x e.
Proof.
  intros Ho R Hv. destruct x as [g|f]; cbn [nready nf_joint nfree npot] in *.
  - destruct R as (Sg & Pg). destruct (solid_proper g Sg Pg) as (Gg & _). destruct (same_obj_copy g (proj1 Gg)) as (d & Ed & SO & _). rewrite Ed. cbn [bind]. exists d. split; [reflexivity|]. split; [apply (ggood_weak true), (ggood_same true g d SO Gg)|].
    pose proof SO as (_ & V & _). split; [intros u; now rewrite V|]. intros e. unfold gval. now rewrite (same_obj_lp' g d e SO).
  - destruct (ready_joint o f Ho R) as (j & Ej & Sj & (Gj & _) & Vj & Lj). rewrite Ej. cbn [bind]. exists j. split; [reflexivity|]. split; [now apply (ggood_weak true)|]. now split.
Qed.
Definition cprod (l : list ncl) (e : renv) : R := fold_right (fun q acc => own q e * acc) 1 l.
Lemma joint_all o : oracle_ok o -> forall cs m, ggood false m -> Forall (fun q => nready (cl_fac q) /\ cvars q <> []) cs ->
  exists r, foldM (fun acc c => let* j := nf_joint o (cl_fac c) in nf_mul o acc j) cs (FG m) = Ok (FG r) /\ ggood false r /\ (forall v, In v (ga_vars r) <-> In v (ga_vars m) \/ exists q, In q cs /\ In v (cvars q)) /\
    forall e, gval r e = gval m e * cprod cs e.
Proof.
  intros Ho. induction cs as [|q cs IH]; intros m G F.
  - exists m. cbn [foldM cprod fold_right]. split; [reflexivity|]. split; [exact G|]. split; [intros v; split; [now left|intros [H|(g & [] & _)]; exact H]|intros e; ring].
  - inversion_clear F as [|? ? (R & N) F']. cbn [foldM]. destruct (cvars q) as [|v0 l] eqn:Eq; [congruence|]. assert (Hv : In v0 (cvars q)) by (rewrite Eq; now left). rewrite <- Eq in *.
    destruct (joint_of o _ v0 Ho R Hv) as (j & Ej & Gj & Vj & Lj). rewrite Ej. cbn [bind nf_mul]. destruct (gmul_law false m j G Gj) as (r & Er & Gr & Vr & Lr). rewrite Er. cbn [bind].
    destruct (IH r Gr F') as (r2 & E2 & G2 & V2 & L2). exists r2. split; [exact E2|]. split; [exact G2|]. split.
    + intros v. rewrite V2, Vr, Vj. cbn [In]. split; [intros [[H|H]|(g' & H & H')]; eauto|intros [H|(g' & [<-|H] & H')]; eauto].
    + intros e. rewrite L2, Lr, Lj. cbn [cprod fold_right]. unfold cprod. ring.
Qed.
Lemma cprod_app l1 l2 e : cprod (l1 ++ l2) e = cprod l1 e * cprod l2 e.
Proof. unfold cprod. induction l1 as [|q l1 IH]; cbn [fold_right app]; [ring|]. rewrite IH. ring. Qed.
Lemma cprod_perm l1 l2 e : Permutation l1 l2 -> cprod l1 e = cprod l2 e.
Proof. unfold cprod. intros H. induction H; cbn [fold_right]; [reflexivity|now rewrite IHPermutation|ring|congruence]. Qed.
Lemma mprod_app l1 l2 e : mprod (l1 ++ l2) e = mprod l1 e * mprod l2 e.
Proof. unfold mprod. induction l1 as [|q l1 IH]; cbn [fold_right app]; [ring|]. rewrite IH. ring. Qed.
Lemma mprod_perm l1 l2 e : Permutation l1 l2 -> mprod l1 e = mprod l2 e.
Proof. unfold mprod. intros H. induction H; cbn [fold_right]; [reflexivity|now rewrite IHPermutation|ring|congruence]. Qed.
Lemma cprod_nodes t e : cprod (fnodes t) e = fpot t e.
Proof. induction t as [|d k IHk s IHs]; cbn [fnodes fpot cprod fold_right]; [reflexivity|]. fold (cprod (fnodes k ++ fnodes s) e). rewrite cprod_app, IHk, IHs. ring. Qed.
Lemma holds_prod l l' : Forall2 (fun d q => holds (own d) q) l l' -> exists k, 0 < k /\ forall e, cprod l' e = k * cprod l e * mprod (flat_map (fun q => inbox q) l') e.
Proof.
  induction 1 as [|d q l l' ((k & Hk & H) & _) HF (k' & Hk' & H')].
  - exists 1. split; [lra|]. intros e. cbn. ring.
  - exists (k * k'). split; [now apply Rmult_lt_0_compat|]. intros e. cbn [flat_map cprod fold_right]. rewrite mprod_app. fold (cprod l e) (cprod l' e). rewrite H, H'. ring.
Qed.
Theorem posterior_ok o p t cls ms p' t' t3 : oracle_ok o -> nready (cl_fac p) -> tree p t -> clear p t -> NoDup (cl_id p :: fids t) -> cl_recv p = [] -> cvars p <> [] ->
  visit (nfac_ops o) p t = Ok (p', t') -> resend (nfac_ops o) p' t' = Ok t3 -> Permutation cls (p' :: fnodes t3) -> Permutation ms (flat_map (fun q => inbox q) cls) ->
  exists J c, posterior o cls ms = Ok (FG J) /\ ggood false J /\ (forall v, In v (ga_vars J) <-> In v (tvars p t)) /\ 0 < c /\ forall e, gval J e = c * tpot p t e.
Proof.
  intros Ho Rp T C ND Rv NE Ev Er Pc Pm.
  assert (Dp : forall i, In i (fids t) -> dget (cl_recv p) i = None) by (intros i _; now rewrite Rv).
  assert (Hp : holds (own p) p). { split; [exists 1; split; [lra|]; intros e; rewrite Rv; cbn; ring|]. rewrite Rv. intros x []. }
  destruct (visit_holds o t Ho (own p) p Rp T C ND Dp NE Hp) as (p1 & t1 & Ev1 & Hp' & HF). rewrite Ev in Ev1. injection Ev1 as <- <-.
  destruct (visit_post o t Ho p Rp T C ND Dp NE) as (p1 & t1 & Ev1 & Po & _). rewrite Ev in Ev1. injection Ev1 as <- <-.
  destruct (spread_calm o p t Ho Rp T C ND Dp NE) as (p1 & t1 & t2 & c & Ev1 & Er1 & Ca & SC & Hc & Hq). rewrite Ev in Ev1. injection Ev1 as <- <-. rewrite Er in Er1. injection Er1 as <-.
  pose proof (resend_holds o Ho t t' (own p) p' p' t3 Po Ca eq_refl Er HF) as HF3. assert (HA : Forall2 (fun d q => holds (own d) q) (p :: fnodes t) (p' :: fnodes t3)) by now constructor.
  destruct (holds_prod _ _ HA) as (k & Hk & Hprod).
  assert (TP : forall e, cprod (p :: fnodes t) e = tpot p t e) by (intros e; cbn [cprod fold_right]; fold (cprod (fnodes t) e); now rewrite cprod_nodes).
  assert (VA : Forall2 alike (p :: fnodes t) (p' :: fnodes t3)) by (constructor; [split; [apply SC|intros v; now apply same_vars]|exact (calm_alike t t3 p' Ca)]).
  assert (VN : forall v, (exists q, In q (p' :: fnodes t3) /\ In v (cvars q)) <-> In v (tvars p t)).
  { assert (V1 : forall l l' v, Forall2 alike l l' -> ((exists q, In q l' /\ In v (cvars q)) <-> exists q, In q l /\ In v (cvars q))).
    { clear. induction 1 as [|d q l l' (_ & H) _ IH]; [tauto|]. cbn [In]. split.
      - intros (x & [<-|Hx] & Hv); [exists d; split; [now left|now apply H]|]. destruct (proj1 IH (ex_intro _ x (conj Hx Hv))) as (y & Hy & Hv'). exists y. auto.
      - intros (x & [<-|Hx] & Hv); [exists q; split; [now left|now apply H]|]. destruct (proj2 IH (ex_intro _ x (conj Hx Hv))) as (y & Hy & Hv'). exists y. auto. }
    intros v. rewrite (V1 _ _ v VA). unfold tvars. rewrite in_app_iff. cbn [In].
    assert (V2 : forall u, (exists q, In q (fnodes u) /\ In v (cvars q)) <-> In v (fvars u)).
    { clear. induction u as [|d k IHk s IHs]; cbn [fnodes fvars In]; [split; [intros (q & [] & _)|intros []]|]. rewrite !in_app_iff, <- IHk, <- IHs. split.
      - intros (q & [<-|Hx] & Hv); [now left|]. apply in_app_or in Hx. destruct Hx; eauto.
      - intros [H|[(q & Hx & Hv)|(q & Hx & Hv)]]; [exists d; auto|exists q; rewrite in_app_iff; auto|exists q; rewrite in_app_iff; auto]. }
    rewrite <- V2. split; [intros (q & [<-|Hx] & Hv); eauto|intros [H|(q & Hx & Hv)]; eauto]. }
  assert (HP : forall x, In x ms -> exists g, x = FG g /\ ggood false g /\ ga_vars g <> [] /\ incl (ga_vars g) (tvars p t)).
  { intros x Hx. apply (Permutation_in _ Pm) in Hx. apply in_flat_map in Hx. destruct Hx as (q & Hqc & Hx). apply (Permutation_in _ Pc) in Hqc.
    assert (Hpo : posted q x). { clear - HA Hqc Hx. revert Hqc. induction HA as [|d q0 l l' (_ & H) _ IH]; [intros []|]. intros [<-|Hin]; [now apply H|now apply IH]. }
    destruct Hpo as (g & E & G & N & I). exists g. split; [exact E|]. split; [exact G|]. split; [exact N|]. intros v Hv. apply VN. exists q. split; [exact Hqc|now apply I]. }
  assert (RA : forall q, In q cls -> nready (cl_fac q) /\ cvars q <> []) by (intros q Hqc; apply (Permutation_in _ Pc) in Hqc; destruct (Hq q Hqc) as (R1 & R2 & _); now split).
  destruct (cvars p) as [|v0 l] eqn:Ec; [congruence|]. assert (Hv0 : In v0 (cvars p)) by (rewrite Ec; now left). rewrite <- Ec in *.
  pose proof (forest_gf o p t _ _ Ho T (ready_gf o _ v0 Ho Rp Hv0)) as GT. fold (tvars p t) in GT.
  assert (GTk : gf (tvars p t) (fun e => k * tpot p t e)). { apply (gf_same (tvars p t) _ (fun e => tpot p t e * k)); [tauto|intros e; ring|]. apply gf_times; [exact GT|now apply gf_const]. }
  destruct GTk as (D & GD & VD & LD).
  destruct cls as [|q cs]; [apply Permutation_nil in Pc; discriminate|]. destruct (RA q (or_introl eq_refl)) as (Rq & Nq). destruct (cvars q) as [|v1 l1] eqn:Eq; [congruence|]. assert (Hv1 : In v1 (cvars q)) by (rewrite Eq; now left). clear Nq.
  destruct (joint_of o _ v1 Ho Rq Hv1) as (j & Ej & Gj & Vj & Lj). destruct (joint_all o Ho cs j Gj) as (r & Err & Gr & Vr & Lr); [apply Forall_forall; intros x Hx; apply RA; now right|].
  assert (LC : forall e, gval r e = k * tpot p t e * mprod ms e).
  { intros e. rewrite Lr, Lj, <- TP. change (own q e * cprod cs e) with (cprod (q :: cs) e). rewrite (cprod_perm _ _ e Pc), Hprod. f_equal. rewrite (mprod_perm _ _ e Pm). apply mprod_perm. apply Permutation_sym. now apply Permutation_flat_map. }
  assert (VC : forall v, In v (ga_vars r) <-> In v (tvars p t)).
  { intros v. rewrite Vr, Vj, <- VN. split.
    - intros [H|(x & Hx & H)]; [exists q|exists x]; (split; [apply (Permutation_in _ Pc); auto; first [now left|now right]|exact H]).
    - intros (x & Hx & H). apply (Permutation_in _ (Permutation_sym Pc)) in Hx. destruct Hx as [<-|Hx]; eauto. }
  unfold posterior. rewrite Ej. cbn [bind]. rewrite Err. cbn [bind]. destruct ms as [|m0 ms].
  - exists r, k. split; [reflexivity|]. split; [exact Gr|]. split; [exact VC|]. split; [exact Hk|]. intros e. rewrite LC. cbn. ring.
  - destruct (HP m0 (or_introl eq_refl)) as (g0 & -> & G0 & N0 & I0). destruct (mul_all o ms g0 G0) as (mp & Emp & Gmp & Vmp & Lmp).
    { apply Forall_forall. intros x Hx. destruct (HP x (or_intror Hx)) as (g & E & G & _). now exists g. }
    rewrite Emp. cbn [bind nf_cancel]. destruct (gdiv_law false r mp D Gr Gmp GD) as (J & EJ & GJ & VJ & LJ).
    + intros v. now rewrite VD, VC.
    + intros v Hv. apply VC. apply Vmp in Hv. destruct Hv as [Hv|(g & Hg & Hv)]; [now apply I0|]. destruct (HP (FG g) (or_intror Hg)) as (g' & E' & _ & _ & I'). injection E' as <-. now apply I'.
    + intros e. rewrite LC, Lmp, LD. cbn [mprod fold_right npot]. reflexivity.
    + rewrite EJ. cbn [bind]. exists J, k. split; [reflexivity|]. split; [exact GJ|]. split; [intros v; now rewrite VJ, VC|]. split; [exact Hk|]. intros e. now rewrite LJ, LD.
Qed.
Lemma ex_posterior : exists o f1 f2 f3 p' t' t3, oracle_ok o /\ is_link "x0" "x1" [] f1 /\ is_link "x1" "z" [("z", 3)] f2 /\ is_link "x1" "x2" [] f3 /\
  nready (cl_fac ex_root) /\ tree ex_root (ex_kids f1 f2 f3) /\ clear ex_root (ex_kids f1 f2 f3) /\ NoDup (cl_id ex_root :: fids (ex_kids f1 f2 f3)) /\
  cl_recv ex_root = [] /\ cvars ex_root <> [] /\ visit (nfac_ops o) ex_root (ex_kids f1 f2 f3) = Ok (p', t') /\ resend (nfac_ops o) p' t' = Ok t3 /\ length (p' :: fnodes t3) = 4%nat /\
  exists J, posterior o (rev (p' :: fnodes t3)) (flat_map (fun q => dvals (cl_recv q)) (p' :: fnodes t3)) = Ok (FG J).
Proof.
  destruct ex_spread as (o & f1 & f2 & f3 & p' & t' & t3 & Ho & M1 & M2 & M3 & Rp & T & C & ND & Dp & NE & Ev & _ & Er & L). exists o, f1, f2, f3, p', t', t3. do 8 (split; [assumption|]). split; [reflexivity|]. do 3 (split; [assumption|]).
  split; [cbn [length]; now rewrite L|]. destruct (posterior_ok o _ _ (rev (p' :: fnodes t3)) (flat_map (fun q => dvals (cl_recv q)) (p' :: fnodes t3)) p' t' t3 Ho Rp T C ND eq_refl NE Ev Er) as (J & c & E & _); [|apply Permutation_flat_map, Permutation_rev|now exists J].
  apply Permutation_sym, Permutation_rev.
Qed.
