(** What every cluster of a tree holds: its factor times the messages it has received. *)
From Verif Require Export NlgJointModel NlgSpread6.
Local Open Scope string_scope.
Local Open Scope list_scope.
Local Open Scope R_scope.

Definition mprod (l : list nfac) (e : renv) : R := fold_right (fun x acc => npot x e * acc) 1 l.
Notation inbox q := (dvals (cl_recv q)).
Definition posted (q : ncl) (x : nfac) : Prop := exists g, x = FG g /\ ggood false g /\ ga_vars g <> [] /\ incl (ga_vars g) (cvars q).
(** [q] holds what [f] says and what it was told, up to a constant. *)
Definition holds (f : renv -> R) (q : ncl) : Prop :=
  (exists k, 0 < k /\ forall e, own q e = k * f e * mprod (inbox q) e) /\ forall x, In x (inbox q) -> posted q x.

Lemma mprod_new (l : dict string nfac) i x e : dget l i = None -> mprod (dvals (dset l i x)) e = mprod (dvals l) e * npot x e.
Proof.
  induction l as [|(j & y) l IH]; cbn [dget dset dvals map snd mprod fold_right]; [intros _; ring|]. destruct (eq_dec i j) as [->|N]; [discriminate|].
  intros H. cbn [map snd fold_right]. specialize (IH H). unfold mprod, dvals in IH. rewrite IH. ring.
Qed.
Lemma mprod_old (l : dict string nfac) i x y e : dget l i = Some y -> mprod (dvals (dset l i x)) e * npot y e = mprod (dvals l) e * npot x e.
Proof.
  induction l as [|(j & z) l IH]; cbn [dget dset dvals map snd mprod fold_right]; [discriminate|]. destruct (eq_dec i j) as [->|N]; cbn [map snd fold_right].
  - intros [= ->]. ring.
  - intros H. specialize (IH H). unfold mprod, dvals in IH. rewrite !Rmult_assoc, IH. ring.
Qed.
Lemma dvals_dset (l : dict string nfac) i x y : In y (dvals (dset l i x)) -> y = x \/ In y (dvals l).
Proof.
  induction l as [|(j & z) l IH]; cbn [dset dvals map snd]; [intros [<-|[]]; now left|]. destruct (eq_dec i j) as [->|N]; cbn [map snd In].
  - intros [<-|H]; auto.
  - intros [<-|H]; auto. destruct (IH H); auto.
Qed.
Lemma posted_kind p q x : (forall v, In v (cvars p) -> In v (cvars q)) -> posted p x -> posted q x.
Proof. intros H (g & E & G & N & I). exists g. split; [exact E|]. split; [exact G|]. split; [exact N|]. intros v Hv. now apply H, I. Qed.

Theorem visit_holds o t : oracle_ok o -> forall f p, nready (cl_fac p) -> tree p t -> clear p t -> NoDup (cl_id p :: fids t) -> (forall i, In i (fids t) -> dget (cl_recv p) i = None) -> cvars p <> [] -> holds f p ->
  exists p' t', visit (nfac_ops o) p t = Ok (p', t') /\ holds f p' /\ Forall2 (fun d q => holds (own d) q) (fnodes t) (fnodes t').
Proof.
  intros Ho. induction t as [|d k IHk s IHs]; intros f p Rp T CL ND Dp NE Hp.
  - exists p, FNil. cbn [visit fnodes]. split; [reflexivity|]. split; [exact Hp|constructor].
  - cbn [tree] in T. destruct T as ((S & E & HS) & HF & Rd & T1 & T2). cbn [fids] in ND, Dp. inversion_clear ND as [|? ? Np ND']. inversion_clear ND' as [|? ? Nd ND].
    pose proof (ed_ne _ _ _ E) as NES. pose proof (takes_free _ _ (ed_takes _ _ _ E)) as ISp. pose proof (wait_free _ _ (ed_wait _ _ _ E)) as ISd. cbn [clear] in CL. destruct CL as (Cp & Ck & Cs).
    destruct (send_first o p d S Ho Rp E Rd (Dp _ (or_introl eq_refl))) as (a & d1 & Esd & SC1 & Rd1 & Rc1 & Sa & Pa & Va & Gd1 & Dap & Ha). pose proof SC1 as (Ci1 & _). destruct (solid_proper a Sa Pa) as (Ga & Fa).
    assert (H1 : NoDup (cl_id d1 :: fids k)) by (rewrite Ci1; constructor; [intros C; apply Nd, in_or_app; now left|exact (proj1 (NoDup_app_elim _ _ ND))]).
    assert (H2 : forall i, In i (fids k) -> dget (cl_recv d1) i = None).
    { intros i Hi. rewrite Rc1. cbn [dget]. destruct (eq_dec i (cl_id p)) as [Ei|]; [|reflexivity]. exfalso. apply Np. right. apply in_or_app. left. congruence. }
    assert (H3 : cvars d1 <> []).
    { intros C. destruct S as [|v l]; [congruence|]. assert (Hv : In v (cvars d1)) by (apply (same_vars d d1 v SC1), ISd; now left). now rewrite C in Hv. }
    assert (Hd1 : holds (own d) d1).
    { split; [exists 1; split; [lra|]; intros e; rewrite Gd1, Rc1; cbn [dvals map snd mprod fold_right npot]; ring|]. rewrite Rc1. cbn [dvals map snd]. intros x [<-|[]]. exists a. split; [reflexivity|]. split; [now apply (ggood_weak true)|]. rewrite Va. split; [exact NES|]. intros v Hv. now apply (same_vars d d1 v SC1), ISd. }
    pose proof (same_tree d d1 k SC1 T1) as T1'. pose proof (same_clear d d1 k SC1 Ck) as Ck'.
    destruct (visit_ok o k Ho d1 Rd1 T1' H1 H2 H3) as (d2 & k2 & B1 & Ev1 & SC2 & Rd2 & Fk & HB1 & GB1 & Fr1 & Id1 & Nd1 & Ex1). specialize (Ex1 Ck').
    destruct (IHk (own d) d1 Rd1 T1' Ck' H1 H2 H3 Hd1) as (d2' & k2' & Ev1' & Hd2 & Hk2). rewrite Ev1 in Ev1'. injection Ev1' as <- <-.
    pose proof (same_trans _ _ _ SC1 SC2) as SC. pose proof SC as (Ci & _).
    pose proof (wait_gf o _ S Ho (ed_wait _ _ _ E)) as Gd.
    assert (GB : gf (cvars d) B1). { apply (gf_same (cvars d) _ (fun e => 1 * B1 e)); [tauto|intros e; ring|]. apply GB1; [intros v Hv; now apply (same_vars d d1 v SC1)|apply gf_const; lra]. }
    pose proof (gf_times _ _ _ Gd GB) as GdB.
    assert (Ra2 : dget (cl_recv d2) (cl_id p) = Some (FG a)).
    { rewrite Fr1; [rewrite Rc1; cbn [dget]; now destruct (eq_dec (cl_id p) (cl_id p))|]. intros C. apply Np. right. apply in_or_app. now left. }
    assert (Np2 : dget (cl_recv p) (cl_id d2) = None) by (rewrite Ci; apply Dp; now left).
    destruct (send_up o p d2 S a B1 d Ho Rp Rd2 E SC Ra2 Np2 Ga Va) as (b & p2 & Esu & SCp & Rp2 & Rcp & Gb & Fb & Vb & Gp2 & Dbd).
    { apply (gf_same (cvars d) _ (fun e => own d e * B1 e)); auto. intros v. now rewrite (same_vars d d2 v SC). }
    { intros e. now rewrite HB1, Gd1. }
    pose proof SCp as (Cip & _ & _ & Ckp).
    assert (H4 : NoDup (cl_id p2 :: fids s)) by (rewrite Cip; constructor; [intros C; apply Np; right; apply in_or_app; now right|exact (proj1 (proj2 (NoDup_app_elim _ _ ND)))]).
    assert (H5 : forall i, In i (fids s) -> dget (cl_recv p2) i = None).
    { intros i Hi. rewrite Rcp, Ci, dget_dset_ne; [apply Dp; right; apply in_or_app; now right|]. intros ->. apply Nd, in_or_app. now right. }
    assert (H6 : cvars p2 <> []).
    { intros C. destruct (cvars p) as [|v l] eqn:Ec; [congruence|]. assert (Hv : In v (cvars p2)) by (apply (same_vars p p2 v SCp); rewrite Ec; now left). now rewrite C in Hv. }
    pose proof (same_tree p p2 s SCp T2) as T2'. pose proof (same_clear p p2 s SCp Cs) as Cs'.
    set (bb := fun e => if dropped (cl_fac p) b then 1 else gval b e).
    assert (Gag : gf S (gval a)) by (exists a; split; [now apply (ggood_weak true)|split; [intros v; now rewrite Va|reflexivity]]).
    pose proof (forest_gf o d k _ _ Ho T1 Gd) as Gdk.
    assert (DD : exists c, 0 < c /\ down (cvars d ++ fvars k) (cvars d) (fun e => own d e * fpot k e) (fun e => c * (own d e * B1 e))).
    { destruct (Ex1 d2 (or_introl eq_refl)) as (_ & c & Hc & D). exists c. split; [exact Hc|].
      apply (down_div _ _ _ _ (gval a)); [intros e; exact (gf_pos _ _ e Gdk)|exact Pa| |].
      + intros e e' H. apply (gf_dep S _ e e' Gag). intros v Hv. now apply H, ISd.
      + apply (down_same (tvars d1 k) _ (cvars d2) _ (tpot d1 k) _ (fun e => c * own d2 e)); [| | | |exact D].
        * intros v. unfold tvars. rewrite !in_app_iff. now rewrite (same_vars d d1 v SC1).
        * intros v. now rewrite (same_vars d d2 v SC).
        * intros e. unfold tpot. rewrite Gd1. ring.
        * intros e. rewrite HB1, Gd1. ring. }
    destruct DD as (c & Hc & DD).
    assert (Dbd' : down (cvars d) S (fun e => own d e * B1 e) (gval b)).
    { apply (down_same (cvars d2) _ S _ (fun e => own d e * B1 e) _ (gval b)); auto; try tauto. intros v. now rewrite (same_vars d d2 v SC). }
    assert (DB : down (cvars d ++ fvars k) S (fun e => own d e * fpot k e) (fun e => c * gval b e)).
    { apply (down_trans _ (cvars d) S _ (fun e => c * (own d e * B1 e))); [exact Gdk|exact NES|exact DD|]. apply down_const; [intros e; exact (gf_pos _ _ e GdB)|exact Hc|exact Dbd']. }
    assert (CB : exists c0, 0 < c0 /\ forall e, gval b e = c0 * bb e).
    { unfold bb. destruct (dropped (cl_fac p) b) eqn:Eb; [|exists 1; split; [lra|intros e; ring]]. pose proof Gb as (_ & _ & Pb & _). exists (gval b (fun _ => 0)). split; [apply Pb|]. intros e. rewrite Rmult_1_r.
      destruct (cl_fac p) as [|f0]; [discriminate|]. cbn [dropped] in Eb. destruct Cp as (S' & m & ES' & Dm & Cm). rewrite (ed_p _ _ _ E) in ES'. injection ES' as <-.
      assert (Em : forall e', m e' = c * gval b e') by exact (down_unique _ _ _ _ _ Dm DB).
      destruct Cm as [Cm|Cm]; [apply (Rmult_eq_reg_l c); [rewrite <- !Em; apply Cm|apply Rgt_not_eq, Hc]|]. exfalso.
      assert (Q : forall x, curv m x = curv (gval b) x). { intros x. rewrite (curv_mul m (fun _ => c) (gval b) x); [|intros _; exact Hc|exact Pb|exact Em]. unfold curv at 1. lra. }
      assert (Gs : gsound b).
      { pose proof Gb as (Wb & _). destruct Cm as [Cm|(v & x & Hv & X1 & X2 & Cm)]; [left|right].
        - apply (summ_posdef b Wb). intros x (v & Hv & Hx). rewrite <- Q. apply Cm. exists v. split; [now apply Vb|exact Hx].
        - exists v, x. split; [now apply Vb|]. split; [exact X1|]. split; [exact X2|]. now rewrite <- Q. }
      rewrite (proj1 (fresh_ready false b Gb Fb) Gs) in Eb. discriminate. }
    destruct CB as (c0 & Hc0 & CB).
    assert (Hp2 : holds f p2).
    { destruct Hp as ((k0 & Hk0 & Hp) & Hm). split.
      - exists (k0 / c0). split; [now apply Rdiv_lt_0_compat|]. intros e. rewrite Gp2, Rcp, (mprod_new _ _ _ _ Np2), Hp. fold (bb e). cbn [npot]. rewrite CB. field. lra.
      - rewrite Rcp. intros x Hx. apply dvals_dset in Hx. destruct Hx as [->|Hx]; [|apply (posted_kind p); [intros v Hv; now apply (same_vars p p2 v SCp)|now apply Hm]].
        exists b. split; [reflexivity|]. split; [exact Gb|]. split; [|intros v Hv; now apply (same_vars p p2 v SCp), ISp, Vb]. intros C0. destruct S as [|v l]; [congruence|]. assert (Hv : In v (ga_vars b)) by (apply Vb; now left). now rewrite C0 in Hv. }
    destruct (IHs f p2 Rp2 T2' Cs' H4 H5 H6 Hp2) as (p3 & s2 & Ev2 & Hp3 & Hs2).
    exists p3, (FCons d2 k2 s2). cbn [visit fnodes]. rewrite Esd. cbn [bind]. rewrite Ev1. cbn [bind fst snd]. rewrite Esu. cbn [bind]. rewrite Ev2. cbn [bind fst snd].
    split; [reflexivity|]. split; [exact Hp3|]. constructor; [exact Hd2|now apply Forall2_app].
Qed.
