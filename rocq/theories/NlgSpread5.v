(** Any further messages over the edges of a tree, in any order. *)
From Verif Require Export NlgSpread4.
Local Open Scope string_scope.
Local Open Scope list_scope.
Local Open Scope R_scope.

Lemma fresh_same b b' : ggood false b -> ggood false b' -> fresh_flag b -> fresh_flag b' -> (forall v, In v (ga_vars b') <-> In v (ga_vars b)) -> (forall e, gval b' e = gval b e) -> ga_vac b' = ga_vac b.
Proof.
  intros G G' F F' V L. assert (H : gsound b' <-> gsound b).
  { assert (C : forall x, curv (gval b') x = curv (gval b) x) by (intros x; unfold curv; now rewrite !L).
    unfold gsound. split; (intros [H|(v & x & H1 & H2 & H3 & H4)]; [left|right; exists v, x; split; [now apply V|]; rewrite C in *; now split]).
    - apply (summ_fun (gval b')); [intros e; now rewrite L|]. apply (summ_same _ (ga_vars b')); [intros v; now rewrite V|exact H].
    - apply (summ_fun (gval b)); [exact L|]. apply (summ_same _ (ga_vars b)); [exact V|exact H]. }
  pose proof (fresh_ready false b G F) as A. pose proof (fresh_ready false b' G' F') as A'. unfold gready in *. destruct (ga_vac b), (ga_vac b'); try reflexivity; exfalso.
  - assert (true = false) by (apply A, H, A'; reflexivity). discriminate.
  - assert (true = false) by (apply A', H, A; reflexivity). discriminate.
Qed.
(** Another message up an edge whose ends agree. *)
Lemma send_back o p d d2 S m b : oracle_ok o -> nready (cl_fac p) -> edge p d S -> same_cl d d2 -> nready (cl_fac d2) -> dget (cl_recv d2) (cl_id p) = Some (FG m) -> dget (cl_recv p) (cl_id d) = Some (FG b) ->
  solid m -> posg m -> ga_vars m = S -> ggood false b -> fresh_flag b -> (forall v, In v (ga_vars b) <-> In v S) -> down (cvars d) S (own d2) (fun e => gval m e * gval b e) ->
  exists b' p2, send (nfac_ops o) d2 p = Ok p2 /\ same_cl p p2 /\ nready (cl_fac p2) /\ cl_recv p2 = dset (cl_recv p) (cl_id d) (FG b') /\ ggood false b' /\ fresh_flag b' /\ (forall v, In v (ga_vars b') <-> In v S) /\
    (forall e, gval b' e = gval b e) /\ (forall a, heard (cl_fac p) a -> heard (cl_fac p2) a) /\ forall e, own p2 e = own p e.
Proof.
  intros Ho Rp E SC Rd Ra Rb Sm Pm Vm Gb Fb Vb D. destruct E. pose proof SC as (Ci & Cs & Csp & Ck). pose proof (wait_free _ _ ed_wait) as ISd. destruct (solid_proper m Sm Pm) as (Gm & Fm).
  assert (ISd2 : incl S (cvars d2)) by (intros v Hv; now apply (same_vars d d2 v SC), ISd).
  destruct (ready_message o _ S Ho Rd ed_ne ed_nd ISd2) as (x1 & r & J & E1 & E2 & Vr & Sr & Pr & SJ & PJ & VJ & GJ & EJ).
  destruct (solid_proper r Sr Pr) as (Gr & _). destruct (solid_proper J SJ PJ) as (GJt & VaJ).
  assert (Dr : down (cvars d) S (own d2) (gval r)).
  { apply (down_same (ga_vars J) _ S _ (gval J) _ (gval r)); auto; try tauto; [intros v; rewrite VJ; now apply same_vars|]. apply (down_marg o); auto; [now apply (ggood_weak true)|]. intros v Hv. now apply VJ, ISd2. }
  pose proof (down_unique _ _ _ _ _ Dr D) as Er. cbn beta in Er.
  destruct (gdiv_law false r m b (ggood_weak true r Gr) (ggood_weak true m Gm) Gb) as (b' & Eb & Gb' & Vb1 & Lb); [intros v; now rewrite Vb, Vr|rewrite Vm, Vr; apply incl_refl|intros e; rewrite Er; ring|].
  assert (Vb' : forall v, In v (ga_vars b') <-> In v S) by (intros v; now rewrite Vb1, Vr). pose proof (absorb_flag _ _ _ _ _ Eb) as Fb'.
  assert (FF : ga_vac b' = ga_vac b) by (apply fresh_same; auto; intros v; now rewrite Vb', Vb).
  destruct (repeat_up o (cl_fac p) S b b' Ho Rp ed_takes ed_ne Gb Gb' Vb Vb' Lb FF) as (z1 & z & Z1 & Z2 & Rz & Kz & Hz & Gz).
  unfold send, make_message, receive_message. cbn [nfac_ops f_reduce f_marg f_mul f_cancel]. unfold dget_r. rewrite Cs, ed_d, Csp, ed_sd. cbn [bind dkeys dvals map]. rewrite E1. cbn [bind]. rewrite E2. cbn [bind]. rewrite Ra.
  cbn [nf_cancel]. rewrite Eb. cbn [bind m_rcv m_fac m_snd]. rewrite BaseFacts.eqb_refl. cbn [py_assert bind]. rewrite Z1. cbn [bind]. rewrite Ci, Rb, Z2. cbn [bind].
  exists b'. eexists. split; [reflexivity|]. split; [repeat split; exact Kz|]. do 6 (split; [assumption || reflexivity|]). now split.
Qed.

Lemma calm_swap p q : same_cl p q -> (forall e, own q e = own p e) -> forall t t2, (forall i, In i (fids t) -> dget (cl_recv q) i = dget (cl_recv p) i) -> calm p t t2 -> calm q t t2.
Proof.
  intros SC Ho. pose proof SC as (Ci & _). assert (V : forall v, In v (cvars p) <-> In v (cvars q)) by (intros v; now rewrite (same_vars p q v SC)).
  induction t as [|d k IHk s IHs]; intros [|d2 k2 s2] HR; cbn [calm]; try tauto. cbn [fids] in HR.
  intros ((S & m & b & B & X & A1 & A2 & A3 & A4 & A5 & A6 & A7 & A8 & A9 & A10 & A11 & A12 & A13 & A14 & A15 & A16 & A17 & A18) & Hk & Hs).
  split; [|split; [exact Hk|apply IHs; [intros i Hi; apply HR; right; apply in_or_app; now right|exact Hs]]].
  exists S, m, b, B, X. split; [now apply (edge_same p)|]. do 3 (split; [assumption|]). split; [now rewrite Ci|]. split; [rewrite HR; [exact A6|now left]|]. do 8 (split; [assumption|]).
  split; [apply (gd_same (cvars p) _ X); [exact V|reflexivity|exact A15]|]. split; [intros e; now rewrite Ho|]. split; [exact A17|].
  apply (down_same (cvars p) _ S _ (own p) _ (fun e => gval m e * gval b e)); try tauto; try reflexivity; first [exact Ho|exact A18].
Qed.
Definition unmoved (q q' : ncl) : Prop := cl_id q' = cl_id q /\ nready (cl_fac q') /\ (forall v, In v (cvars q') <-> In v (cvars q)) /\ forall e, own q' e = own q e.
Lemma calm_ready : forall t t2 p, calm p t t2 -> Forall2 unmoved (fnodes t2) (fnodes t2) /\ fids t2 = fids t.
Proof.
  induction t as [|d k IHk s IHs]; intros [|d2 k2 s2] p; cbn [calm]; try tauto; [intros _; split; [constructor|reflexivity]|].
  intros ((S & m & b & B & X & A1 & (A2 & _) & A3 & _) & Hk & Hs). destruct (IHk _ _ Hk) as (F1 & I1). destruct (IHs _ _ Hs) as (F2 & I2). cbn [fnodes fids]. split; [|now rewrite A2, I1, I2].
  constructor; [split; [reflexivity|split; [exact A3|split; [tauto|reflexivity]]]|]. now apply Forall2_app.
Qed.
Theorem stir_calm o up : oracle_ok o -> forall path t t2 p, calm p t t2 -> nready (cl_fac p) -> NoDup (cl_id p :: fids t) ->
  exists p' t3, stir (nfac_ops o) path up p t2 = Ok (p', t3) /\ calm p' t t3 /\ nready (cl_fac p') /\ same_cl p p' /\ (forall e, own p' e = own p e) /\
    (forall i, ~ In i (fids t) -> dget (cl_recv p') i = dget (cl_recv p) i) /\ (forall a, heard (cl_fac p) a -> heard (cl_fac p') a) /\ Forall2 unmoved (fnodes t2) (fnodes t3).
Proof.
  intros Ho. induction path as [|[] path IH]; intros [|d k s] [|d2 k2 s2] p; cbn [calm]; try tauto.
  1, 3, 5: intros _ R _; exists p, FNil; cbn [stir]; split; [reflexivity|]; split; [exact I|]; split; [exact R|]; split; [apply same_refl|]; do 3 (split; [auto|]); constructor.
  - intros C R ND. pose proof (calm_ready (FCons d k s) (FCons d2 k2 s2) p C) as (FU & _). cbn [fnodes] in FU. inversion_clear FU as [|? ? ? ? _ FU'].
    destruct C as ((S & m & b & B & X & A1 & A2 & A3 & A4 & A5 & A6 & A7 & A8 & A9 & A10 & A11 & A12 & A13 & A14 & A15 & A16 & A17 & A18) & Hk & Hs).
    cbn [fids] in ND. inversion_clear ND as [|? ? Np ND']. inversion_clear ND' as [|? ? Nd ND]. pose proof A2 as (Ci & _). destruct up.
    + destruct (send_back o p d d2 S m b Ho R A1 A2 A3 A5 A6 A7 A8 A9 A10 A11 A12 A17) as (b' & p2 & Es & SC & R2 & Rc & Gb' & Fb' & Vb' & Lb & He & Hp). pose proof SC as (Cp & _).
      cbn [stir]. rewrite Es. cbn [bind]. exists p2, (FCons d2 k2 s2). split; [reflexivity|].
      assert (V : forall v, In v (cvars p) <-> In v (cvars p2)) by (intros v; now rewrite (same_vars p p2 v SC)).
      split. { cbn [calm]. split; [|split; [exact Hk|]].
        - exists S, m, b', B, X. split; [now apply (edge_same p)|]. do 3 (split; [assumption|]). split; [now rewrite Cp|]. split; [rewrite Rc; apply dget_dset_eq|]. do 8 (split; [assumption|]).
          split; [apply (gd_same (cvars p) _ X); [exact V|reflexivity|exact A15]|]. split; [intros e; now rewrite Hp, A16, Lb|].
          split; [apply (down_same (cvars d) _ S _ (own d2) _ (fun e => gval m e * gval b e)); try tauto; try reflexivity; first [exact A17|intros e; now rewrite Lb]|].
          apply (down_same (cvars p) _ S _ (own p) _ (fun e => gval m e * gval b e)); try tauto; try reflexivity; first [exact A18|intros e; now rewrite Lb].
        - apply (calm_swap p); auto. intros i Hi. rewrite Rc. apply dget_dset_ne. intros ->. apply Nd, in_or_app. now right. }
      split; [exact R2|]. split; [exact SC|]. split; [exact Hp|]. split; [intros i Hi; rewrite Rc; apply dget_dset_ne; intros ->; apply Hi; now left|]. split; [exact He|].
      cbn [fnodes]. constructor; [|exact FU']. split; [reflexivity|split; [exact A3|split; [tauto|reflexivity]]].
    + destruct (send_again o p d d2 S m b X B Ho R A1 A2 A3 A4 A5 A6 A7 A8 A9 A10 A12 A13 A14 A15 A16) as (m' & d3 & Es & SC3 & R3 & He3 & Rc3 & Sm & Pm & Vm & G3 & Dm). pose proof SC3 as (Ci3 & Cs3 & Csp3 & Ck3).
      assert (Em : forall e, gval m' e = gval m e).
      { intros e. pose proof (down_unique _ _ _ _ _ Dm A18 e) as H. cbn beta in H. apply (Rmult_eq_reg_r (gval b e)); [exact H|]. apply Rgt_not_eq, A10. }
      assert (E3 : forall e, own d3 e = own d2 e) by (intros e; now rewrite G3, A14, Em).
      assert (SC23 : same_cl d2 d3).
      { destruct A2 as (_ & X2 & X3 & X4). repeat split; try congruence.
        destruct (cl_fac d), (cl_fac d2), (cl_fac d3); cbn in *; try contradiction; [intros v; now rewrite Ck3, X4|]. destruct X4 as ((Z1 & Z2 & Z3 & Z4 & Z5) & Z6), Ck3 as ((W1 & W2 & W3 & W4 & W5) & W6). repeat split; congruence. }
      cbn [stir]. rewrite Es. cbn [bind]. exists p, (FCons d3 k2 s2). split; [reflexivity|]. split.
      { cbn [calm]. split; [|split; [|exact Hs]].
        - exists S, m', b, B, X. split; [exact A1|]. split; [exact SC3|]. split; [exact R3|]. split; [exact He3|]. split; [rewrite Rc3; apply dget_dset_eq|]. split; [exact A6|]. do 10 (split; [assumption|]). split; [|exact Dm].
          apply (down_same (cvars d) _ S _ (own d2) _ (fun e => gval m e * gval b e)); try tauto; try reflexivity; first [exact E3|exact A17|intros e; now rewrite Em].
        - apply (calm_swap d2); auto. intros i Hi. rewrite Rc3. apply dget_dset_ne. intros ->. apply Np. right. apply in_or_app. now left. }
      split; [exact R|]. split; [apply same_refl|]. do 3 (split; [auto|]). cbn [fnodes]. constructor; [|exact FU']. split; [congruence|]. split; [exact R3|]. split; [intros v; now apply same_vars|exact E3].
  - intros C R ND. pose proof (calm_ready (FCons d k s) (FCons d2 k2 s2) p C) as (FU & _). cbn [fnodes] in FU. inversion_clear FU as [|? ? ? ? _ FU'].
    destruct C as ((S & m & b & B & X & A1 & A2 & A3 & A4 & A5 & A6 & A7 & A8 & A9 & A10 & A11 & A12 & A13 & A14 & A15 & A16 & A17 & A18) & Hk & Hs).
    cbn [fids] in ND. inversion_clear ND as [|? ? Np ND']. inversion_clear ND' as [|? ? Nd ND]. pose proof A2 as (Ci & _).
    destruct (IH k k2 d2 Hk A3) as (d3 & k3 & Ek & Ck & R3 & SC3 & H3 & Fr & He & Fo).
    { rewrite Ci. constructor; [intros Y; apply Nd, in_or_app; now left|exact (proj1 (NoDup_app_elim _ _ ND))]. }
    cbn [stir]. rewrite Ek. cbn [bind fst snd]. exists p, (FCons d3 k3 s2). split; [reflexivity|]. pose proof SC3 as (Ci3 & _).
    split. { cbn [calm]. split; [|now split]. exists S, m, b, B, X. split; [exact A1|]. split; [exact (same_trans _ _ _ A2 SC3)|]. split; [exact R3|]. split; [now apply He|].
      split; [rewrite Fr; [exact A5|]; intros Y; apply Np; right; apply in_or_app; now left|]. do 8 (split; [assumption|]). split; [intros e; now rewrite H3|]. do 2 (split; [assumption|]). split; [|exact A18].
      apply (down_same (cvars d) _ S _ (own d2) _ (fun e => gval m e * gval b e)); try tauto; try reflexivity; first [exact H3|exact A17]. }
    split; [exact R|]. split; [apply same_refl|]. do 3 (split; [auto|]). cbn [fnodes]. constructor; [split; [exact Ci3|split; [exact R3|split; [intros v; now apply same_vars|exact H3]]]|].
    apply Forall2_app; [exact Fo|]. exact (proj1 (calm_ready s s2 p Hs)).
  - intros C R ND. pose proof (calm_ready (FCons d k s) (FCons d2 k2 s2) p C) as (FU & _).
    destruct C as ((S & m & b & B & X & A1 & A2 & A3 & A4 & A5 & A6 & A7 & A8 & A9 & A10 & A11 & A12 & A13 & A14 & A15 & A16 & A17 & A18) & Hk & Hs).
    cbn [fids] in ND. inversion_clear ND as [|? ? Np ND']. inversion_clear ND' as [|? ? Nd ND].
    destruct (IH s s2 p Hs R) as (p2 & s3 & Ek & Ck & R3 & SC3 & H3 & Fr & He & Fo).
    { constructor; [intros Y; apply Np; right; apply in_or_app; now right|exact (proj1 (proj2 (NoDup_app_elim _ _ ND)))]. }
    cbn [stir]. rewrite Ek. cbn [bind fst snd]. exists p2, (FCons d2 k2 s3). split; [reflexivity|]. pose proof SC3 as (Ci3 & _).
    assert (V : forall v, In v (cvars p) <-> In v (cvars p2)) by (intros v; now rewrite (same_vars p p2 v SC3)).
    split. { cbn [calm]. split; [|now split]. exists S, m, b, B, X. split; [now apply (edge_same p)|]. do 3 (split; [assumption|]). split; [now rewrite Ci3|].
      split; [rewrite Fr; [exact A6|]; intros Y; apply Nd, in_or_app; now right|]. do 8 (split; [assumption|]). split; [apply (gd_same (cvars p) _ X); [exact V|reflexivity|exact A15]|]. split; [intros e; now rewrite H3|]. split; [exact A17|].
      apply (down_same (cvars p) _ S _ (own p) _ (fun e => gval m e * gval b e)); try tauto; try reflexivity; first [exact H3|exact A18]. }
    split; [exact R3|]. split; [exact SC3|]. split; [exact H3|]. split; [intros i Hi; apply Fr; intros Y; apply Hi; right; apply in_or_app; now right|]. split; [exact He|].
    cbn [fnodes] in *. constructor; [split; [reflexivity|split; [exact A3|split; [tauto|reflexivity]]]|]. apply Forall2_app; [exact (proj1 (calm_ready k k2 d2 Hk))|exact Fo].
Qed.
