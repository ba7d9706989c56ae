(** What a visit leaves behind at every edge of a tree. *)
From Verif Require Export NlgSpreadModel NlgSpread1.
Local Open Scope string_scope.
Local Open Scope list_scope.
Local Open Scope R_scope.

Lemma edge_same p q d S : same_cl p q -> edge p d S -> edge q d S.
Proof. intros (A & B & C & K) E. destruct E. split; try rewrite A; try rewrite B; try rewrite C; auto. now apply (nkind_takes (cl_fac p)). Qed.
(** The first message down an edge. *)
Lemma send_first o p d S : oracle_ok o -> nready (cl_fac p) -> edge p d S -> cl_recv d = [] -> dget (cl_recv p) (cl_id d) = None ->
  exists a d1, send (nfac_ops o) p d = Ok d1 /\ same_cl d d1 /\ nready (cl_fac d1) /\ cl_recv d1 = [(cl_id p, FG a)] /\
    solid a /\ posg a /\ ga_vars a = S /\ (forall e, own d1 e = own d e * gval a e) /\ down (cvars p) S (own p) (gval a) /\ heard (cl_fac d1) a.
Proof.
  intros Ho R E Rd Rp. destruct E. destruct (ready_message o _ S Ho R ed_ne ed_nd (takes_free _ _ ed_takes)) as (x1 & a & J & E1 & E2 & Va & Sa & Pa & SJ & PJ & VJ & GJ & EJ).
  destruct (wait_receive o _ S a ed_wait Sa Pa Va) as (y & Ey & Ry & Ky & Gy).
  unfold send, make_message, receive_message. cbn [nfac_ops f_reduce f_marg f_mul f_cancel]. unfold dget_r. rewrite ed_p, ed_sp. cbn [bind dkeys dvals map]. rewrite E1. cbn [bind]. rewrite E2. cbn [bind]. rewrite Rp. cbn [bind m_rcv m_fac m_snd].
  rewrite BaseFacts.eqb_refl. cbn [py_assert bind]. rewrite Ey. cbn [bind]. rewrite Rd. cbn [dget bind dset find].
  exists a. eexists. split; [reflexivity|]. split; [repeat split; exact Ky|]. split; [exact Ry|]. split; [reflexivity|]. split; [exact Sa|]. split; [exact Pa|]. split; [exact Va|]. split; [exact Gy|].
  split; [|exact (wait_heard o _ S a y ed_wait Sa Pa Va Ey)].
  apply (down_same (ga_vars J) _ S _ (gval J) _ (gval a)); auto; try tauto. destruct (solid_proper J SJ PJ) as (GJt & VaJ).
  apply (down_marg o); auto; [now apply (ggood_weak true)|]. intros v Hv. apply VJ. now apply (takes_free _ _ ed_takes).
Qed.
Lemma send_inv o c d d' : send (nfac_ops o) c d = Ok d' -> dget (cl_recv d) (cl_id c) = None ->
  exists x, nf_mul o (cl_fac d) x = Ok (cl_fac d') /\ cl_recv d' = dset (cl_recv d) (cl_id c) x.
Proof.
  unfold send. intros H N. apply bind_ok in H. destruct H as (m & Hm & H).
  assert (Em : m_snd m = cl_id c).
  { unfold make_message in Hm. repeat (apply bind_ok in Hm; destruct Hm as (? & _ & Hm)). now injection Hm as <-. }
  unfold receive_message in H. apply bind_ok in H. destruct H as (_ & _ & H). apply bind_ok in H. destruct H as (f1 & E1 & H). rewrite Em, N in H. cbn [bind] in H. injection H as <-.
  exists (m_fac m). now split.
Qed.

(** [P]: what the parent said of its own accord, with what it heard from above. *)
Fixpoint post (P : renv -> R) (p' : ncl) (t t' : nforest) : Prop :=
  match t, t' with
  | FNil, FNil => True
  | FCons d k s, FCons d2 k2 s2 =>
      (exists S a b B C c, edge p' d S /\ same_cl d d2 /\ nready (cl_fac d2) /\ heard (cl_fac d2) a /\
        dget (cl_recv d2) (cl_id p') = Some (FG a) /\ dget (cl_recv p') (cl_id d) = Some (FG b) /\
        solid a /\ posg a /\ ga_vars a = S /\ ggood false b /\ fresh_flag b /\ (forall v, In v (ga_vars b) <-> In v S) /\
        gf (cvars d) B /\ (forall e, own d2 e = own d e * gval a e * B e) /\ down (cvars d) S (fun e => own d e * B e) (gval b) /\
        0 < c /\ down (cvars d ++ fvars k) (cvars d) (fun e => own d e * fpot k e) (fun e => c * (own d e * B e)) /\
        gf (cvars p') C /\ (forall e, own p' e = P e * C e * gval b e) /\
        post (fun e => own d e * gval a e) d2 k k2) /\
      post P p' s s2
  | _, _ => False
  end.
Lemma post_shift P P' bb p' : gf (cvars p') bb -> (forall e, P' e = P e * bb e) -> forall t t', post P' p' t t' -> post P p' t t'.
Proof.
  intros Gb H. induction t as [|d k IHk s IHs]; intros [|d2 k2 s2]; cbn [post]; try tauto.
  intros ((S & a & b & B & C & c & A1 & A2 & A3 & A4 & A5 & A6 & A7 & A8 & A9 & A10 & A10' & A11 & A12 & A13 & A14 & A15 & A16 & A17 & A18 & A19) & Ps). split; [|now apply IHs].
  exists S, a, b, B, (fun e => bb e * C e), c. do 17 (split; [assumption|]). split; [now apply gf_times|]. split; [|exact A19]. intros e. rewrite A18, H. ring.
Qed.

(** Both ends of every edge agree, and hold each other's messages. *)
Fixpoint calm (p : ncl) (t t2 : nforest) : Prop :=
  match t, t2 with
  | FNil, FNil => True
  | FCons d k s, FCons d2 k2 s2 =>
      (exists S m b B X, edge p d S /\ same_cl d d2 /\ nready (cl_fac d2) /\ heard (cl_fac d2) m /\
        dget (cl_recv d2) (cl_id p) = Some (FG m) /\ dget (cl_recv p) (cl_id d) = Some (FG b) /\
        solid m /\ posg m /\ ga_vars m = S /\ ggood false b /\ fresh_flag b /\ (forall v, In v (ga_vars b) <-> In v S) /\
        gf (cvars d) B /\ (forall e, own d2 e = own d e * gval m e * B e) /\ gd (cvars p) X /\ (forall e, own p e = X e * gval b e) /\
        down (cvars d) S (own d2) (fun e => gval m e * gval b e) /\ down (cvars p) S (own p) (fun e => gval m e * gval b e)) /\
      calm d2 k k2 /\ calm p s s2
  | _, _ => False
  end.

Theorem visit_post o t : oracle_ok o -> forall p, nready (cl_fac p) -> tree p t -> clear p t -> NoDup (cl_id p :: fids t) -> (forall i, In i (fids t) -> dget (cl_recv p) i = None) -> cvars p <> [] ->
  exists p' t', visit (nfac_ops o) p t = Ok (p', t') /\ post (own p) p' t t' /\ forall a, heard (cl_fac p) a -> heard (cl_fac p') a.
Proof.
  intros Ho. induction t as [|d k IHk s IHs]; intros p Rp T CL ND Dp NE.
  - exists p, FNil. cbn [visit post]. split; [reflexivity|]. now split.
  - cbn [tree] in T. destruct T as ((S & E & HS) & HF & Rd & T1 & T2). cbn [fids] in ND, Dp. inversion_clear ND as [|? ? Np ND']. inversion_clear ND' as [|? ? Nd ND].
    pose proof (ed_ne _ _ _ E) as NES. pose proof (takes_free _ _ (ed_takes _ _ _ E)) as ISp. pose proof (wait_free _ _ (ed_wait _ _ _ E)) as ISd. cbn [clear] in CL. destruct CL as (Cp & Ck & Cs).
    destruct (send_first o p d S Ho Rp E Rd (Dp _ (or_introl eq_refl))) as (a & d1 & Esd & SC1 & Rd1 & Rc1 & Sa & Pa & Va & Gd1 & Dap & Ha). pose proof SC1 as (Ci1 & _). destruct (solid_proper a Sa Pa) as (Ga & Fa).
    assert (H1 : NoDup (cl_id d1 :: fids k)) by (rewrite Ci1; constructor; [intros C; apply Nd, in_or_app; now left|exact (proj1 (NoDup_app_elim _ _ ND))]).
    assert (H2 : forall i, In i (fids k) -> dget (cl_recv d1) i = None).
    { intros i Hi. rewrite Rc1. cbn [dget]. destruct (eq_dec i (cl_id p)) as [Ei|]; [|reflexivity]. exfalso. apply Np. right. apply in_or_app. left. congruence. }
    assert (H3 : cvars d1 <> []).
    { intros C. destruct S as [|v l]; [congruence|]. assert (Hv : In v (cvars d1)) by (apply (same_vars d d1 v SC1), ISd; now left). now rewrite C in Hv. }
    pose proof (same_tree d d1 k SC1 T1) as T1'. pose proof (same_clear d d1 k SC1 Ck) as Ck'.
    destruct (visit_ok o k Ho d1 Rd1 T1' H1 H2 H3) as (d2 & k2 & B1 & Ev1 & SC2 & Rd2 & Fk & HB1 & GB1 & Fr1 & Id1 & Nd1 & Ex1). specialize (Ex1 Ck').
    destruct (IHk d1 Rd1 T1' Ck' H1 H2 H3) as (d2' & k2' & Ev1' & Po1 & He1). rewrite Ev1 in Ev1'. injection Ev1' as <- <-.
    pose proof (same_trans _ _ _ SC1 SC2) as SC. pose proof SC as (Ci & _).
    pose proof (wait_gf o _ S Ho (ed_wait _ _ _ E)) as Gd.
    assert (GB : gf (cvars d) B1). { apply (gf_same (cvars d) _ (fun e => 1 * B1 e)); [tauto|intros e; ring|]. apply GB1; [intros v Hv; now apply (same_vars d d1 v SC1)|apply gf_const; lra]. }
    pose proof (gf_times _ _ _ Gd GB) as GdB.
    assert (Ra2 : dget (cl_recv d2) (cl_id p) = Some (FG a)).
    { rewrite Fr1; [rewrite Rc1; cbn [dget]; now destruct (eq_dec (cl_id p) (cl_id p))|]. intros C. apply Np. right. apply in_or_app. now left. }
    assert (Np2 : dget (cl_recv p) (cl_id d2) = None) by (rewrite Ci; apply Dp; now left).
    destruct (send_up o p d2 S a B1 d Ho Rp Rd2 E SC Ra2 Np2 Ga Va) as (b & p2 & Esu & SCp & Rp2 & Rcp & Gb & Fb & Vb & Gp2 & Dbd).
    { apply (gf_same (cvars d) _ (fun e => own d e * B1 e)); auto. intros v. now rewrite (same_vars d d2 v SC). }
    { intros e. now rewrite HB1, Gd1. }
    pose proof SCp as (Cip & _ & _ & Ckp).
    assert (H4 : NoDup (cl_id p2 :: fids s)) by (rewrite Cip; constructor; [intros C; apply Np; right; apply in_or_app; now right|exact (proj1 (proj2 (NoDup_app_elim _ _ ND)))]).
    assert (H5 : forall i, In i (fids s) -> dget (cl_recv p2) i = None).
    { intros i Hi. rewrite Rcp, Ci, dget_dset_ne; [apply Dp; right; apply in_or_app; now right|]. intros ->. apply Nd, in_or_app. now right. }
    assert (H6 : cvars p2 <> []).
    { intros C. destruct (cvars p) as [|v l] eqn:Ec; [congruence|]. assert (Hv : In v (cvars p2)) by (apply (same_vars p p2 v SCp); rewrite Ec; now left). now rewrite C in Hv. }
    pose proof (same_tree p p2 s SCp T2) as T2'. pose proof (same_clear p p2 s SCp Cs) as Cs'.
    destruct (visit_ok o s Ho p2 Rp2 T2' H4 H5 H6) as (p3 & s2 & B2 & Ev2 & SC3 & Rp3 & Fs & HB2 & GB2 & Fr2 & Id2 & Nd2 & Ex2).
    destruct (IHs p2 Rp2 T2' Cs' H4 H5 H6) as (p3' & s2' & Ev2' & Po2 & He2). rewrite Ev2 in Ev2'. injection Ev2' as <- <-.
    pose proof (same_trans _ _ _ SCp SC3) as SCpp. pose proof SCpp as (Cip3 & _).
    set (bb := fun e => if dropped (cl_fac p) b then 1 else gval b e).
    assert (Gbb : gf (cvars p) bb).
    { unfold bb. destruct (dropped (cl_fac p) b); [apply gf_const; lra|]. apply (gf_sub S); [now exists b|exact ISp]. }
    assert (V3 : forall v, In v (cvars p) <-> In v (cvars p3)) by (intros v; now rewrite (same_vars p p3 v SCpp)).
    exists p3, (FCons d2 k2 s2). cbn [visit]. rewrite Esd. cbn [bind]. rewrite Ev1. cbn [bind fst snd]. rewrite Esu. cbn [bind]. rewrite Ev2. cbn [bind fst snd].
    split; [reflexivity|]. split; [cbn [post]; split|].
    + assert (Gag : gf S (gval a)) by (exists a; split; [now apply (ggood_weak true)|split; [intros v; now rewrite Va|reflexivity]]).
      pose proof (forest_gf o d k _ _ Ho T1 Gd) as Gdk.
      assert (DD : exists c, 0 < c /\ down (cvars d ++ fvars k) (cvars d) (fun e => own d e * fpot k e) (fun e => c * (own d e * B1 e))).
      { destruct (Ex1 d2 (or_introl eq_refl)) as (_ & c & Hc & D). exists c. split; [exact Hc|].
        apply (down_div _ _ _ _ (gval a)); [intros e; exact (gf_pos _ _ e Gdk)|exact Pa| |].
        + intros e e' H. apply (gf_dep S _ e e' Gag). intros v Hv. now apply H, ISd.
        + apply (down_same (tvars d1 k) _ (cvars d2) _ (tpot d1 k) _ (fun e => c * own d2 e)); [| | | |exact D].
          * intros v. unfold tvars. rewrite !in_app_iff. now rewrite (same_vars d d1 v SC1).
          * intros v. now rewrite (same_vars d d2 v SC).
          * intros e. unfold tpot. rewrite Gd1. ring.
          * intros e. rewrite HB1, Gd1. ring. }
      destruct DD as (c & Hc & DD).
      assert (Dbd' : down (cvars d) S (fun e => own d e * B1 e) (gval b)).
      { apply (down_same (cvars d2) _ S _ (fun e => own d e * B1 e) _ (gval b)); auto; try tauto. intros v. now rewrite (same_vars d d2 v SC). }
      assert (DB : down (cvars d ++ fvars k) S (fun e => own d e * fpot k e) (fun e => c * gval b e)).
      { apply (down_trans _ (cvars d) S _ (fun e => c * (own d e * B1 e))); [exact Gdk|exact NES|exact DD|]. apply down_const; [intros e; exact (gf_pos _ _ e GdB)|exact Hc|exact Dbd']. }
      assert (CB : exists c0, 0 < c0 /\ forall e, gval b e = c0 * bb e).
      { unfold bb. destruct (dropped (cl_fac p) b) eqn:Eb; [|exists 1; split; [lra|intros e; ring]]. pose proof Gb as (_ & _ & Pb & _). exists (gval b (fun _ => 0)). split; [apply Pb|]. intros e. rewrite Rmult_1_r.
        destruct (cl_fac p) as [|f]; [discriminate|]. cbn [dropped] in Eb. destruct Cp as (S' & m & ES' & Dm & Cm). rewrite (ed_p _ _ _ E) in ES'. injection ES' as <-.
        assert (Em : forall e', m e' = c * gval b e') by exact (down_unique _ _ _ _ _ Dm DB).
        destruct Cm as [Cm|Cm]; [apply (Rmult_eq_reg_l c); [rewrite <- !Em; apply Cm|apply Rgt_not_eq, Hc]|]. exfalso.
        assert (Q : forall x, curv m x = curv (gval b) x). { intros x. rewrite (curv_mul m (fun _ => c) (gval b) x); [|intros _; exact Hc|exact Pb|exact Em]. unfold curv at 1. lra. }
        assert (Gs : gsound b).
        { pose proof Gb as (Wb & _). destruct Cm as [Cm|(v & x & Hv & X1 & X2 & Cm)]; [left|right].
          - apply (summ_posdef b Wb). intros x (v & Hv & Hx). rewrite <- Q. apply Cm. exists v. split; [now apply Vb|exact Hx].
          - exists v, x. split; [now apply Vb|]. split; [exact X1|]. split; [exact X2|]. now rewrite <- Q. }
        rewrite (proj1 (fresh_ready false b Gb Fb) Gs) in Eb. discriminate. }
      destruct CB as (c0 & Hc0 & CB).
      exists S, a, b, B1, (fun e => B2 e * / c0), c. split; [now apply (edge_same p)|]. split; [exact SC|]. split; [exact Rd2|]. split; [now apply He1|]. rewrite Cip3. split; [exact Ra2|].
      split. { rewrite Fr2; [rewrite Rcp, Ci; apply dget_dset_eq|]. intros C. apply Nd, in_or_app. now right. }
      split; [exact Sa|]. split; [exact Pa|]. split; [exact Va|]. split; [exact Gb|]. split; [exact Fb|]. split; [exact Vb|]. split; [exact GB|]. split; [intros e; now rewrite HB1, Gd1|]. split; [exact Dbd'|]. split; [exact Hc|]. split; [exact DD|].
      split. { apply (gf_same (cvars p) _ (fun e => B2 e * / c0)); [exact V3|reflexivity|]. apply gf_times; [|apply gf_const; now apply Rinv_0_lt_compat].
        apply (gf_same (cvars p) _ (fun e => 1 * B2 e)); [tauto|intros e; ring|]. apply GB2; [intros v Hv; now apply (same_vars p p2 v SCp)|apply gf_const; lra]. }
      split. { intros e. rewrite HB2, Gp2. fold (bb e). rewrite CB. field. lra. }
      apply (post_shift (fun e => own d e * gval a e) (own d1) (fun _ => 1)); [apply gf_const; lra|intros e; rewrite Gd1; ring|exact Po1].
    + apply (post_shift (own p) (own p2) bb); [apply (gf_same (cvars p) _ bb); [exact V3|reflexivity|exact Gbb]|intros e; exact (Gp2 e)|exact Po2].
    + intros a' Ha'. apply He2. destruct (send_inv o d2 p p2 Esu Np2) as (x & Ex & Rx). rewrite Rcp in Rx.
      assert (Hx : Some x = Some (FG b)) by (rewrite <- (dget_dset_eq (cl_recv p) (cl_id d2) x), <- Rx; apply dget_dset_eq). injection Hx as ->.
      apply (receive_heard o (cl_fac p) S b a'); auto; [exact (ed_takes _ _ _ E)|apply Gb].
Qed.
