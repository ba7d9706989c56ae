(** Messages away from the root after a visit: every cluster of a tree holds the integral of the
    product of all factors. *)
From Verif Require Export NlgSpread2.
Local Open Scope string_scope.
Local Open Scope list_scope.
Local Open Scope R_scope.

(** A second message down an edge. *)
Lemma send_again o p d d2 S a b X B : oracle_ok o -> nready (cl_fac p) -> edge p d S -> same_cl d d2 -> nready (cl_fac d2) -> heard (cl_fac d2) a ->
  dget (cl_recv d2) (cl_id p) = Some (FG a) -> dget (cl_recv p) (cl_id d) = Some (FG b) -> solid a -> posg a -> ga_vars a = S -> ggood false b -> (forall v, In v (ga_vars b) <-> In v S) ->
  gf (cvars d) B -> (forall e, own d2 e = own d e * gval a e * B e) -> gd (cvars p) X -> (forall e, own p e = X e * gval b e) ->
  exists m d3, send (nfac_ops o) p d2 = Ok d3 /\ same_cl d d3 /\ nready (cl_fac d3) /\ heard (cl_fac d3) m /\ cl_recv d3 = dset (cl_recv d2) (cl_id p) (FG m) /\
    solid m /\ posg m /\ ga_vars m = S /\ (forall e, own d3 e = own d e * gval m e * B e) /\ down (cvars p) S (own p) (fun e => gval m e * gval b e).
Proof.
  intros Ho R E SC Rd He Ra Rb Sa Pa Va Gb Vb GB Hd GX HX. destruct E. pose proof SC as (Ci & Cs & Csp & Ck). pose proof (takes_free _ _ ed_takes) as ISp. destruct (solid_proper a Sa Pa) as (Ga & Fa).
  destruct (ready_message o _ S Ho R ed_ne ed_nd ISp) as (x1 & r & J & E1 & E2 & Vr & Sr & Pr & SJ & PJ & VJ & GJ & EJ).
  destruct (solid_proper r Sr Pr) as (Gr & _). destruct (solid_proper J SJ PJ) as (GJt & VaJ).
  assert (Dr : down (cvars p) S (own p) (gval r)).
  { apply (down_same (ga_vars J) _ S _ (gval J) _ (gval r)); auto; try tauto. apply (down_marg o); auto; [now apply (ggood_weak true)|]. intros v Hv. now apply VJ, ISp. }
  destruct (gd_down (cvars p) S X GX ed_ne ed_nd ISp) as (m0 & Gm0 & Vm0 & Dm0). pose proof Gb as (_ & _ & Pb & _).
  assert (Dmb : down (cvars p) S (own p) (fun e => gval m0 e * gval b e)).
  { apply (down_same (cvars p) _ S _ (fun e => X e * gval b e) _ (fun e => gval m0 e * gval b e)); try tauto; try reflexivity. apply down_mul; [intros e; exact (gf_pos _ _ e (gd_gf _ _ GX))|exact Pb| |exact Dm0].
    intros e e' A. apply FactMarg.gval_ext. intros v Hv. apply Vb in Hv. destruct (A v) as [(_ & C)|C]; [contradiction|exact C]. }
  pose proof (down_unique _ _ _ _ _ Dr Dmb) as Er.
  destruct (div_definite r b (gval m0) (ggood_weak true r Gr) Gb) as (m & Em & Sm & Pm & Vm & Lm).
  { exists m0. split; [exact Gm0|]. split; [intros v; now rewrite Vm0, Vr|reflexivity]. } { rewrite Vr. intros v Hv. now apply Vb. } { exact Er. }
  rewrite Vr in Vm.
  destruct (renew o (cl_fac d) (cl_fac d2) S a m B Ho ed_wait ed_ne Rd Ck He Ga Va Fa GB Hd Sm Pm Vm) as (z1 & z & Z1 & Z2 & Rz & Kz & Hz & Gz).
  unfold send, make_message, receive_message. cbn [nfac_ops f_reduce f_marg f_mul f_cancel]. unfold dget_r. rewrite Ci, ed_p, ed_sp. cbn [bind dkeys dvals map]. rewrite E1. cbn [bind]. rewrite E2. cbn [bind]. rewrite Rb.
  cbn [nf_cancel]. rewrite Em. cbn [bind m_rcv m_fac m_snd]. rewrite BaseFacts.eqb_refl. cbn [py_assert bind]. rewrite Z1. cbn [bind]. rewrite Ra, Z2. cbn [bind].
  exists m. eexists. split; [reflexivity|]. split; [split; [reflexivity|split; [exact Cs|split; [exact Csp|exact (nkind_trans _ _ _ Ck Kz)]]]|]. split; [exact Rz|]. split; [exact Hz|]. split; [reflexivity|]. split; [exact Sm|]. split; [exact Pm|]. split; [exact Vm|]. split; [exact Gz|].
  apply (down_same (cvars p) _ S _ (own p) _ (fun e => gval m0 e * gval b e)); try tauto; try reflexivity; try exact Dmb; intros e; now rewrite Lm.
Qed.

Theorem resend_ok o t : oracle_ok o -> forall t2 P p', post P p' t t2 -> tree p' t -> NoDup (cl_id p' :: fids t) ->
  forall p V T c u VQ Q, same_cl p' p -> nready (cl_fac p) -> (forall i, In i (fids t) -> dget (cl_recv p) i = dget (cl_recv p') i) ->
  (forall e, own p e = own p' e * u e) -> gd (cvars p) (fun e => P e * u e) -> gf VQ Q -> incl (cvars p) VQ -> (forall v, In v VQ -> In v (fvars t) -> In v (cvars p)) ->
  (forall v, In v V <-> In v VQ \/ In v (fvars t)) -> (forall e, T e = Q e * fpot t e) -> 0 < c -> down V (cvars p) T (fun e => c * own p e) ->
  exists t3, resend (nfac_ops o) p t2 = Ok t3 /\ fids t3 = fids t /\ calm p t t3 /\
    forall q, In q (fnodes t3) -> nready (cl_fac q) /\ cvars q <> [] /\ down V (cvars q) T (fun e => c * own q e).
Proof.
  intros Ho. induction t as [|d k IHk s IHs]; intros t2 P p' Po Tr ND p V T c u VQ Q SC R HR Hu GPu GQ IQ ShQ HV HT Hc D.
  - destruct t2; [|destruct Po]. exists FNil. split; [reflexivity|]. split; [reflexivity|]. split; [exact I|]. intros q [].
  - destruct t2 as [|d2 k2 s2]; [destruct Po|]. cbn [post] in Po.
    destruct Po as ((S & a & b & B & C & c' & A1 & A2 & A3 & A4 & A5 & A6 & A7 & A8 & A9 & A10 & A10' & A11 & A12 & A13 & A14 & A15 & A16 & A17 & A18 & A19) & Ps).
    cbn [tree] in Tr. destruct Tr as ((S' & E' & HS) & HF & Rd & T1 & T2). assert (S' = S) as -> by (pose proof (ed_p _ _ _ E') as X1; rewrite (ed_p _ _ _ A1) in X1; congruence). clear E'.
    cbn [fids] in ND, HR. inversion_clear ND as [|? ? Np ND']. inversion_clear ND' as [|? ? Nd ND]. cbn [fvars fpot] in *.
    pose proof (edge_same p' p d S SC A1) as E. pose proof SC as (Cip & _). pose proof A2 as (Ci2 & _).
    pose proof (ed_ne _ _ _ E) as NES. pose proof (takes_free _ _ (ed_takes _ _ _ E)) as ISp. pose proof (wait_free _ _ (ed_wait _ _ _ E)) as ISd.
    assert (VP : forall v, In v (cvars p) <-> In v (cvars p')) by (intros v; now apply same_vars).
    assert (GX : gd (cvars p) (fun e => P e * u e * C e)).
    { apply gd_times; [exact GPu|]. apply (gf_same (cvars p') _ C); [intros v; now rewrite VP|reflexivity|exact A17]. }
    rewrite <- Cip in A5.
    assert (Rb : dget (cl_recv p) (cl_id d) = Some (FG b)) by (rewrite HR; [exact A6|now left]).
    destruct (send_again o p d d2 S a b _ B Ho R E A2 A3 A4 A5 Rb A7 A8 A9 A10 A11 A12 A13 GX) as (m & d3 & Es & SC3 & R3 & He3 & Rc3 & Sm & Pm & Vm & G3 & Dm); [intros e; rewrite Hu, A18; ring|].
    pose proof SC3 as (Ci3 & _ & _ & K3). pose proof A10 as (_ & _ & Pb & _).
    pose proof (wait_gf o _ S Ho (ed_wait _ _ _ E)) as Gd. pose proof (forest_gf o d k _ _ Ho T1 Gd) as GU. pose proof (forest_gf o p' s _ _ Ho T2 GQ) as GR.
    pose proof (fun e => gf_pos _ _ e Gd) as Pd. pose proof (fun e => gf_pos _ _ e A12) as PB. pose proof (fun e => gf_pos _ _ e GU) as PU.
    set (U := fun e => own d e * fpot k e) in *. set (vd := cvars d ++ fvars k) in *. set (r := fun e => Q e * fpot s e) in *. set (vr := VQ ++ fvars s) in *.
    assert (HV' : forall v, In v V <-> In v (vr ++ vd)) by (intros v; rewrite HV; unfold vr, vd; rewrite !in_app_iff; tauto).
    assert (HT' : forall e, T e = r e * U e) by (intros e; rewrite HT; unfold r, U; ring).
    assert (GT : gf V T) by (apply (gf_same (vr ++ vd) _ (fun e => r e * U e)); [intros v; now rewrite HV'|exact HT'|now apply gf_mul]).
    assert (Sh : forall v, In v vr -> In v vd -> In v S).
    { intros v H1 H2. apply HS; [|exact H2]. unfold vr in H1. apply in_app_or in H1. destruct H1 as [H1|H1]; [|now apply HF]. apply VP, ShQ; [exact H1|]. unfold vd in H2. rewrite in_app_iff in H2. rewrite !in_app_iff. tauto. }
    assert (Ir : incl S vr) by (intros v Hv; apply in_or_app; left; now apply IQ, ISp).
    assert (Id : incl S vd) by (intros v Hv; apply in_or_app; left; now apply ISd).
    assert (DS : down V S T (fun e => c * (gval m e * gval b e))).
    { apply (down_trans _ (cvars p) _ _ (fun e => c * own p e)); [exact GT|exact NES|exact D|]. apply down_const; [|exact Hc|exact Dm].
      intros e. rewrite Hu, A18. replace (P e * C e * gval b e * u e) with (P e * u e * C e * gval b e) by ring. apply Rmult_lt_0_compat; [exact (gf_pos _ _ e (gd_gf _ _ GX))|apply Pb]. }
    destruct (down_split vr vd S r U (fun e => c * (gval m e * gval b e)) GR GU NES Ir Sh) as (rho & Dr & Gr).
    { apply (down_same V _ S _ T _ (fun e => c * (gval m e * gval b e))); try tauto; try reflexivity; try exact DS; try exact HV'; intros e; now rewrite HT'. }
    pose proof (fun e => gf_pos _ _ e Gr) as Pr.
    assert (D1 : down V vd T (fun e => U e * rho e)).
    { apply (down_same (vr ++ vd) _ (S ++ vd) _ (fun e => r e * U e) _ (fun e => rho e * U e)); [intros v; now rewrite HV'|intros v; rewrite in_app_iff; split; [intros [H|H]; auto|now right]|exact HT'|intros e; ring|].
      apply down_join; auto. intros e. exact (gf_pos _ _ e GR). }
    assert (dep : forall vs ws, incl S ws -> forall e e', (forall v, In v vs /\ ~ In v ws \/ e v = e' v) -> rho e = rho e').
    { intros vs ws I e e' A. apply (gf_dep S rho e e' Gr). intros v Hv. destruct (A v) as [(_ & X)|X]; [exfalso; apply X; now apply I|exact X]. }
    assert (D2 : down V (cvars d) T (fun e => c' * (own d e * B e) * rho e)).
    { apply (down_trans _ vd _ _ (fun e => U e * rho e)); [exact GT| |exact D1|].
      - intros X. rewrite X in ISd. destruct S as [|v S0]; [congruence|]. exact (ISd v (or_introl eq_refl)).
      - apply (down_mul vd (cvars d) U (fun e => c' * (own d e * B e)) rho); auto. now apply dep. }
    assert (D3 : down V S T (fun e => c' * gval b e * rho e)).
    { apply (down_trans _ (cvars d) _ _ (fun e => c' * (own d e * B e) * rho e)); [exact GT|exact NES|exact D2|]. apply (down_mul (cvars d) S (fun e => c' * (own d e * B e)) (fun e => c' * gval b e) rho); auto.
      - intros e. apply Rmult_lt_0_compat; [exact A15|now apply Rmult_lt_0_compat].
      - apply dep, incl_refl.
      - apply down_const; auto. intros e. now apply Rmult_lt_0_compat. }
    assert (Erho : forall e, c' * rho e = c * gval m e).
    { intros e. pose proof (down_unique _ _ _ _ _ DS D3 e) as X. cbn beta in X. apply (Rmult_eq_reg_l (gval b e)); [|apply Rgt_not_eq, Pb]. lra. }
    assert (V3 : forall v, In v (cvars d) <-> In v (cvars d3)) by (intros v; now rewrite (same_vars d d3 v SC3)).
    assert (D4 : down V (cvars d3) T (fun e => c * own d3 e)).
    { apply (down_same V _ (cvars d) _ T _ (fun e => c' * (own d e * B e) * rho e)); try tauto; auto. intros e. rewrite G3. transitivity (own d e * B e * (c' * rho e)); [rewrite Erho; ring|ring]. }
    assert (N3 : cvars d3 <> []).
    { intros X. destruct S as [|v S0]; [congruence|]. assert (Hv : In v (cvars d3)) by (apply V3, ISd; now left). now rewrite X in Hv. }
    pose proof A2 as (_ & _ & _ & K2).
    assert (SC23 : same_cl d2 d3).
    { destruct A2 as (X1 & X2 & X3 & X4), SC3 as (Y1 & Y2 & Y3 & Y4). repeat split; try congruence. unfold send in Es. apply bind_ok in Es. destruct Es as (mm & _ & Es).
      destruct (cl_fac d), (cl_fac d2), (cl_fac d3); cbn in *; try contradiction; [intros v; now rewrite Y4, X4|]. destruct X4 as ((Z1 & Z2 & Z3 & Z4 & Z5) & Z6), Y4 as ((W1 & W2 & W3 & W4 & W5) & W6). repeat split; congruence. }
    destruct (IHk k2 _ d2 A19 (same_tree d d2 k A2 T1)) with (p := d3) (V := V) (T := T) (c := c) (u := fun e => gval m e * / gval a e) (VQ := vr ++ cvars d) (Q := fun e => r e * own d e) as (k3 & Ek & Ik & Ck & Hk); auto.
    { rewrite Ci2. constructor; [intros X; apply Nd, in_or_app; now left|]. exact (proj1 (NoDup_app_elim _ _ ND)). }
    { intros i Hi. rewrite Rc3. apply dget_dset_ne. intros ->. apply Np. right. apply in_or_app. left. now rewrite <- Cip. }
    { intros e. rewrite G3, A13. field. apply Rgt_not_eq, A8. }
    { destruct (wait_receive o _ S m (ed_wait _ _ _ E) Sm Pm Vm) as (y & _ & Ry & Ky & Gy). destruct S as [|v S0] eqn:ES; [congruence|].
      apply (gd_same (nfree y) _ (npot y)); [intros w; rewrite (nkind_free _ _ w Ky); apply V3|intros e; rewrite Gy; field; apply Rgt_not_eq, A8|]. apply (ready_gd o y v Ho Ry). apply (nkind_free _ _ v Ky), ISd. now left. }
    { now apply gf_mul. }
    { intros v Hv. apply in_or_app. right. now apply V3. }
    { intros v H1 H2. apply V3. apply in_app_or in H1. destruct H1 as [H1|H1]; [|exact H1]. apply ISd, Sh; [exact H1|]. apply in_or_app. now right. }
    { intros v. rewrite HV'. unfold vd. rewrite !in_app_iff. tauto. }
    { intros e. rewrite HT'. unfold U. ring. }
    destruct (IHs s2 P p' Ps T2) with (p := p) (V := V) (T := T) (c := c) (u := u) (VQ := VQ ++ vd) (Q := fun e => Q e * U e) as (s3 & Es3 & Is & Cs & Hs); auto.
    { constructor; [intros X; apply Np; right; apply in_or_app; now right|exact (proj1 (proj2 (NoDup_app_elim _ _ ND)))]. }
    { intros i Hi. apply HR. right. apply in_or_app. now right. }
    { now apply gf_mul. }
    { intros v Hv. apply in_or_app. left. now apply IQ. }
    { intros v H1 H2. apply in_app_or in H1. destruct H1 as [H1|H1]; [apply ShQ; [exact H1|rewrite !in_app_iff; tauto]|]. apply VP. now apply HF. }
    { intros v. rewrite HV'. unfold vr. rewrite !in_app_iff. tauto. }
    { intros e. rewrite HT'. unfold r. ring. }
    cbn [resend]. rewrite Es. cbn [bind]. rewrite Ek. cbn [bind]. rewrite Es3. cbn [bind]. exists (FCons d3 k3 s3). split; [reflexivity|]. split; [cbn [fids]; now rewrite Ci3, Ik, Is|].
    split.
    { cbn [calm]. split; [|now split]. exists S, m, b, B, (fun e => P e * u e * C e). split; [exact E|]. split; [exact SC3|]. split; [exact R3|]. split; [exact He3|]. split; [rewrite Rc3; apply dget_dset_eq|]. split; [exact Rb|].
      do 8 (split; [assumption|]). split; [exact GX|]. split; [intros e; rewrite Hu, A18; ring|]. split; [|exact Dm].
      apply (down_same (cvars d) _ S _ (fun e => own d e * B e * gval m e) _ (fun e => gval b e * gval m e)); try tauto; [intros e; rewrite G3; ring|intros e; ring|].
      apply down_mul; [intros e; now apply Rmult_lt_0_compat|exact Pm| |exact A14]. intros e e' A. apply FactMarg.gval_ext. rewrite Vm. intros v Hv. destruct (A v) as [(_ & X)|X]; [contradiction|exact X]. }
    intros q Hq. cbn [fnodes] in Hq. destruct Hq as [<-|Hq]; [split; [exact R3|split; [exact N3|exact D4]]|]. apply in_app_or in Hq. destruct Hq; auto.
Qed.
