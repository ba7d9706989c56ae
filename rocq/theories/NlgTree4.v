(** Messages over a tree of Gaussians and nonlinear Gaussians: after one visit, clusters hold the
    integrals of the product of all factors. *)
From Verif Require Export NlgTree3.
Local Open Scope string_scope.
Local Open Scope list_scope.
Local Open Scope R_scope.

Notation ncl := (cluster nfac R).
Notation nforest := (forest nfac R).
Notation own c := (npot (cl_fac c)).
Notation cvars c := (nfree (cl_fac c)).

Fixpoint fids (t : nforest) : list string := match t with FNil => [] | FCons d k s => cl_id d :: fids k ++ fids s end.
Fixpoint fvars (t : nforest) : list string := match t with FNil => [] | FCons d k s => cvars d ++ fvars k ++ fvars s end.
Fixpoint fpot (t : nforest) (e : renv) : R := match t with FNil => 1 | FCons d k s => own d e * fpot k e * fpot s e end.
Fixpoint fnodes (t : nforest) : list ncl := match t with FNil => [] | FCons d k s => d :: fnodes k ++ fnodes s end.
(** The product of the factors of a tree with root [p]. *)
Definition tpot (p : ncl) (t : nforest) (e : renv) : R := own p e * fpot t e.
Definition tvars (p : ncl) (t : nforest) : list string := cvars p ++ fvars t.

Record edge (p d : ncl) (S : list string) : Prop := {
  ed_p : dget (cl_seps p) (cl_id d) = Some S;
  ed_d : dget (cl_seps d) (cl_id p) = Some S;
  ed_sp : cl_spec p = [];
  ed_sd : cl_spec d = [];
  ed_ne : S <> [];
  ed_nd : NoDup S;
  ed_takes : takes (cl_fac p) S;
  ed_wait : nwait (cl_fac d) S }.
(** Clusters in a tree: each waits for what its parent says about the variables they share, and
    what is below a cluster shares no other variables with the rest. *)
Fixpoint tree (p : ncl) (t : nforest) : Prop :=
  match t with
  | FNil => True
  | FCons d k s =>
      (exists S, edge p d S /\ forall v, In v (cvars p) -> In v (cvars d ++ fvars k) -> In v S) /\
      (forall v, In v (cvars d ++ fvars k) -> In v (fvars s) -> In v (cvars p)) /\
      cl_recv d = [] /\ tree d k /\ tree p s
  end.
(** What is below a child of a nonlinear Gaussian says nothing about the variables of the edge, or
    something about each direction, or about one variable with a precision above 1e-8.  (A message
    whose precision matrix is singular and has entries of at most 1e-8 is marked as carrying no
    information, and a nonlinear Gaussian leaves it out.) *)
Fixpoint clear (p : ncl) (t : nforest) : Prop :=
  match t with
  | FNil => True
  | FCons d k s =>
      match cl_fac p with
      | FG _ => True
      | FN _ => exists S m, dget (cl_seps p) (cl_id d) = Some S /\ down (cvars d ++ fvars k) S (fun e => own d e * fpot k e) m /\
          ((forall e e', m e = m e') \/ (forall x, (exists v, In v S /\ x v <> 0) -> 0 < curv m x) \/
           (exists v x, In v S /\ x v = 1 /\ (forall u, u <> v -> x u = 0) /\ 1 / 100000000 < curv m x))
      end /\ clear d k /\ clear p s
  end.
(** The clusters that nothing was sent from after their last message arrived: the root, its last
    child, the last child of that, and so on. *)
Fixpoint lasts (t : nforest) : list ncl :=
  match t with FNil => [] | FCons d k FNil => d :: lasts k | FCons _ _ s => lasts s end.
Lemma lasts_nodes t q : In q (lasts t) -> In q (fnodes t).
Proof.
  induction t as [|d k IHk s IHs]; cbn [lasts fnodes]; [tauto|]. destruct s as [|d' k' s']; [intros [<-|H]; [now left|right; apply in_or_app; left; now apply IHk]|].
  intros H. right. apply in_or_app. right. now apply IHs.
Qed.
Definition same_cl (p q : ncl) : Prop := cl_id q = cl_id p /\ cl_seps q = cl_seps p /\ cl_spec q = cl_spec p /\ nkind (cl_fac p) (cl_fac q).

Lemma same_refl p : same_cl p p.
Proof. repeat split. apply nkind_refl. Qed.
Lemma same_trans p q r : same_cl p q -> same_cl q r -> same_cl p r.
Proof. intros (A & B & C & D) (A' & B' & C' & D'). repeat split; try congruence. now apply (nkind_trans _ (cl_fac q)). Qed.
Lemma same_vars p q v : same_cl p q -> (In v (cvars q) <-> In v (cvars p)).
Proof. intros (_ & _ & _ & K). now apply nkind_free. Qed.
Lemma same_tree p q t : same_cl p q -> tree p t -> tree q t.
Proof.
  intros SC. induction t as [|d k IHk s IHs]; cbn [tree]; [tauto|]. intros ((S & E & H) & H2 & R & T1 & T2). pose proof SC as (A & B & C & K).
  split; [exists S; split|].
  - destruct E. split; try rewrite A; try rewrite B; try rewrite C; auto. now apply (nkind_takes (cl_fac p)).
  - intros v Hv. apply H. now apply (same_vars p q).
  - split; [intros v H3 H4; apply (same_vars p q v SC); now apply H2|]. split; [exact R|]. split; [exact T1|now apply IHs].
Qed.
Lemma same_clear p q t : same_cl p q -> clear p t -> clear q t.
Proof.
  intros SC. induction t as [|d k IHk s IHs]; cbn [clear]; [tauto|]. intros (H & K & Sb). pose proof SC as (_ & B & _ & Kd). split; [|split; [exact K|now apply IHs]].
  rewrite B. destruct (cl_fac p), (cl_fac q); try exact I; try exact H. destruct Kd.
Qed.
Lemma dropped_kind x y m : nkind x y -> dropped y m = dropped x m.
Proof. now destruct x, y. Qed.

Lemma wait_gf o x S : oracle_ok o -> nwait x S -> gf (nfree x) (npot x).
Proof. intros Ho W. destruct (wait_gauss o x S Ho W) as (N & G & V & L). now exists N. Qed.
Lemma ready_gf o x v : oracle_ok o -> nready x -> In v (nfree x) -> gf (nfree x) (npot x).
Proof.
  intros Ho R Hv. destruct (ready_message o x [v] Ho R) as (x1 & r & J & _ & _ & _ & _ & _ & SJ & PJ & VJ & GJ & _); [discriminate|repeat constructor; intros []|now intros w [<-|[]]|].
  exists J. split; [|now split]. apply (ggood_weak true). now apply solid_proper.
Qed.
Lemma forest_gf o p t vs f : oracle_ok o -> tree p t -> gf vs f -> gf (vs ++ fvars t) (fun e => f e * fpot t e).
Proof.
  intros Ho. revert p vs f. induction t as [|d k IHk s IHs]; intros p vs f; cbn [tree fvars fpot].
  - intros _ G. apply (gf_same vs _ f); [intros v; rewrite app_nil_r; tauto|intros e; ring|exact G].
  - intros ((S & E & _) & _ & _ & T1 & T2) G. pose proof (wait_gf o _ S Ho (ed_wait _ _ _ E)) as Gd.
    apply (gf_same ((vs ++ cvars d) ++ fvars k ++ fvars s) _ (fun e => (f e * own d e) * (fpot k e) * (fpot s e))); [intros v; now rewrite !app_assoc|intros e; ring|].
    pose proof (IHs p _ _ T2 (IHk d _ _ T1 (gf_mul _ _ _ _ G Gd))) as H. now rewrite <- app_assoc in H.
Qed.

(** A message down an edge. *)
Lemma send_down o p d S : oracle_ok o -> nready (cl_fac p) -> edge p d S -> cl_recv d = [] -> dget (cl_recv p) (cl_id d) = None ->
  exists a d1, send (nfac_ops o) p d = Ok d1 /\ same_cl d d1 /\ nready (cl_fac d1) /\ cl_recv d1 = [(cl_id p, FG a)] /\
    ggood true a /\ ga_vars a = S /\ (forall e, own d1 e = own d e * gval a e) /\ down (cvars p) S (own p) (gval a).
Proof.
  intros Ho R E Rd Rp. destruct E. destruct (ready_message o _ S Ho R ed_ne0 ed_nd0 (takes_free _ _ ed_takes0)) as (x1 & a & J & E1 & E2 & Va & Sa & Pa & SJ & PJ & VJ & GJ & EJ).
  destruct (wait_receive o _ S a ed_wait0 Sa Pa Va) as (y & Ey & Ry & Ky & Gy).
  unfold send, make_message, receive_message. cbn [nfac_ops f_reduce f_marg f_mul f_cancel]. unfold dget_r. rewrite ed_p0, ed_sp0. cbn [bind dkeys dvals map]. rewrite E1. cbn [bind]. rewrite E2. cbn [bind]. rewrite Rp. cbn [bind m_rcv m_fac m_snd].
  rewrite BaseFacts.eqb_refl. cbn [py_assert bind]. rewrite Ey. cbn [bind]. rewrite Rd. cbn [dget bind dset find].
  exists a. eexists. split; [reflexivity|]. split; [repeat split; exact Ky|]. split; [exact Ry|]. split; [reflexivity|]. split; [now apply solid_proper|]. split; [exact Va|]. split; [exact Gy|].
  apply (down_same (ga_vars J) _ S _ (gval J) _ (gval a)); auto; try tauto. destruct (solid_proper J SJ PJ) as (GJt & VaJ).
  apply (down_marg o); auto; [now apply (ggood_weak true)|]. intros v Hv. apply VJ. now apply (takes_free _ _ ed_takes0).
Qed.
(** A message up an edge: what came down is cancelled. *)
Lemma send_up o p d S a (B : renv -> R) d0 : oracle_ok o -> nready (cl_fac p) -> nready (cl_fac d) -> edge p d0 S -> same_cl d0 d -> dget (cl_recv d) (cl_id p) = Some (FG a) ->
  dget (cl_recv p) (cl_id d) = None -> ggood true a -> ga_vars a = S -> gf (cvars d) (fun e => own d0 e * B e) -> (forall e, own d e = own d0 e * gval a e * B e) ->
  exists b p2, send (nfac_ops o) d p = Ok p2 /\ same_cl p p2 /\ nready (cl_fac p2) /\ cl_recv p2 = dset (cl_recv p) (cl_id d) (FG b) /\
    ggood false b /\ fresh_flag b /\ (forall v, In v (ga_vars b) <-> In v S) /\ (forall e, own p2 e = own p e * if dropped (cl_fac p) b then 1 else gval b e) /\
    down (cvars d) S (fun e => own d0 e * B e) (gval b).
Proof.
  intros Ho Rp Rd E SC Ed Ep Ga Va GB HB. pose proof SC as (Ci & Cs & Csp & Ck). destruct E.
  assert (IS : incl S (cvars d)) by (intros v Hv; apply (same_vars d0 d v SC); now apply (wait_free _ S)).
  destruct (ready_message o _ S Ho Rd ed_ne0 ed_nd0 IS) as (x1 & r & J & E1 & E2 & Vr & Sr & Pr & SJ & PJ & VJ & GJ & EJ).
  destruct (solid_proper J SJ PJ) as (GJt & VaJ). pose proof (ggood_weak true J GJt) as GJf. pose proof (ggood_weak true a Ga) as Gaf. destruct (solid_proper r Sr Pr) as (Grt & _). pose proof (ggood_weak true r Grt) as Grf.
  assert (IJ : incl S (ga_vars J)) by (intros v Hv; now apply VJ, IS).
  pose proof GB as (N & GN & VN & LN).
  destruct (pl_split _ _ _ _ _ (gauss_plaws false o Ho) J N a S r GJf VaJ GN Gaf ed_ne0 ed_nd0 IJ) as (c & Gc & Vc & Lc); cbn [gauss_ops f_vars f_marg].
  { intros v. now rewrite VN, VJ. } { rewrite Va. apply incl_refl. } { intros e. rewrite GJ, HB, LN. ring. } { exact EJ. }
  cbn [gauss_ops f_vars] in Vc.
  destruct (gdiv_law false r a c Grf Gaf Gc) as (b & Eb & Gb & Vb & Lb); [intros v; now rewrite Vc, Vr|rewrite Va, Vr; apply incl_refl|exact Lc|].
  assert (Vb' : forall v, In v (ga_vars b) <-> In v S) by (intros v; now rewrite Vb, Vr).
  destruct (ready_receive o _ S b Rp ed_takes0 Gb Vb') as (y & Ey & Ry & Ky & Gy).
  unfold send, make_message, receive_message. cbn [nfac_ops f_reduce f_marg f_mul f_cancel]. unfold dget_r. rewrite Cs, ed_d0, Csp, ed_sd0. cbn [bind dkeys dvals map]. rewrite E1. cbn [bind]. rewrite E2. cbn [bind].
  rewrite Ed. cbn [nf_cancel]. rewrite Eb. cbn [bind m_rcv m_fac m_snd].
  rewrite BaseFacts.eqb_refl. cbn [py_assert bind]. rewrite Ey. cbn [bind]. rewrite Ep. cbn [bind].
  exists b. eexists. split; [reflexivity|]. split; [repeat split; exact Ky|]. split; [exact Ry|]. split; [reflexivity|]. split; [exact Gb|]. split; [exact (absorb_flag _ _ _ _ _ Eb)|]. split; [exact Vb'|]. split; [exact Gy|].
  apply (down_div _ _ _ _ (gval a)).
  - intros e. exact (gf_pos _ _ e GB).
  - intros e. apply Ga.
  - intros e e' H. apply FactMarg.gval_ext. now rewrite Va.
  - apply (down_same (ga_vars J) _ S _ (gval J) _ (gval r)); auto; try tauto.
    + intros e. rewrite GJ, HB. ring.
    + intros e. now rewrite Lb, Lc.
    + now apply (down_marg o).
Qed.

Definition settled (p : ncl) (t : nforest) (q : ncl) : Prop := exists k, 0 < k /\ down (tvars p t) (cvars q) (tpot p t) (fun e => k * own q e).

(** One visit. *)
Theorem visit_ok o t : oracle_ok o -> forall p, nready (cl_fac p) -> tree p t -> NoDup (cl_id p :: fids t) -> (forall i, In i (fids t) -> dget (cl_recv p) i = None) -> cvars p <> [] ->
  exists p' t' B, visit (nfac_ops o) p t = Ok (p', t') /\ same_cl p p' /\ nready (cl_fac p') /\ (t' = FNil <-> t = FNil) /\
    (forall e, own p' e = own p e * B e) /\ (forall vs a, (forall v, In v (cvars p) -> In v vs) -> gf vs a -> gf vs (fun e => a e * B e)) /\
    (forall i, ~ In i (fids t) -> dget (cl_recv p') i = dget (cl_recv p) i) /\
    fids t' = fids t /\ (forall q, In q (fnodes t') -> nready (cl_fac q)) /\
    (clear p t -> forall q, In q (p' :: lasts t') -> cvars q <> [] /\ settled p t q).
Proof.
  intros Ho. induction t as [|d k IHk s IHs]; intros p Rp T ND Dp NE.
  - cbn [visit]. exists p, FNil, (fun _ => 1). split; [reflexivity|]. split; [apply same_refl|]. split; [exact Rp|]. split; [tauto|]. split; [intros e; ring|].
    split; [intros vs a _; apply gf_same; [tauto|intros e; ring]|]. split; [reflexivity|]. split; [reflexivity|]. split; [intros q []|]. intros _ q [<-|[]]. split; [exact NE|].
    exists 1. split; [lra|]. apply (down_same (cvars p) _ (cvars p) _ (own p) _ (own p)); try tauto.
    + intros v. unfold tvars. cbn [fvars]. now rewrite app_nil_r.
    + intros e. unfold tpot. cbn [fpot]. ring.
    + intros e. ring.
    + apply down_refl.
  - cbn [tree] in T. destruct T as ((S & E & HS) & HF & Rd & T1 & T2). cbn [fids] in ND, Dp. inversion_clear ND as [|? ? Np ND']. inversion_clear ND' as [|? ? Nd ND].
    pose proof (ed_ne _ _ _ E) as NES. pose proof (ed_nd _ _ _ E) as NDS. pose proof (takes_free _ _ (ed_takes _ _ _ E)) as ISp. pose proof (wait_free _ _ (ed_wait _ _ _ E)) as ISd.
    assert (NEd : cvars d <> []). { intros C. rewrite C in ISd. destruct S as [|v S]; [congruence|]. exact (ISd v (or_introl eq_refl)). }
    assert (Ndk : cl_id d <> cl_id p) by (intros C; apply Np; left; congruence).
    destruct (send_down o p d S Ho Rp E Rd (Dp _ (or_introl eq_refl))) as (a & d1 & Esd & SC1 & Rd1 & Rc1 & Ga & Va & Gd1 & Dap). pose proof SC1 as (Ci1 & _).
    destruct (IHk d1 Rd1 (same_tree d d1 k SC1 T1)) as (d2 & k2 & B1 & Ev1 & SC2 & Rd2 & Fk & HB1 & GB1 & Fr1 & Id1 & Nd1 & Ex1).
    { rewrite Ci1. constructor; [intros C; apply Nd, in_or_app; now left|]. exact (proj1 (NoDup_app_elim _ _ ND)). }
    { intros i Hi. rewrite Rc1. cbn [dget]. destruct (eq_dec i (cl_id p)) as [Ei|]; [|reflexivity]. exfalso. apply Np. right. apply in_or_app. left. congruence. }
    { intros C. destruct (cvars d) as [|v l] eqn:Ec; [congruence|]. assert (Hv : In v (cvars d1)) by (apply (same_vars d d1 v SC1); rewrite Ec; now left). now rewrite C in Hv. }
    pose proof (same_trans _ _ _ SC1 SC2) as SC. pose proof SC as (Ci & _).
    pose proof (wait_gf o _ S Ho (ed_wait _ _ _ E)) as Gd.
    assert (GdB : gf (cvars d) (fun e => own d e * B1 e)) by (apply GB1; [intros v Hv; now apply (same_vars d d1 v SC1)|exact Gd]).
    destruct (send_up o p d2 S a B1 d Ho Rp Rd2 E SC) as (b & p2 & Esu & SCp & Rp2 & Rcp & Gb & Fb & Vb & Gp2 & Dbd).
    { rewrite Fr1; [rewrite Rc1; cbn [dget]; now destruct (eq_dec (cl_id p) (cl_id p))|]. intros C. apply Np. right. apply in_or_app. now left. }
    { rewrite Ci. apply Dp. now left. } { exact Ga. } { exact Va. }
    { apply (gf_same (cvars d) _ (fun e => own d e * B1 e)); auto. intros v. now rewrite (same_vars d d2 v SC). }
    { intros e. now rewrite HB1, Gd1. }
    pose proof SCp as (Cip & _ & _ & Ckp).
    destruct (IHs p2 Rp2 (same_tree p p2 s SCp T2)) as (p3 & s2 & B2 & Ev2 & SC3 & Rp3 & Fs & HB2 & GB2 & Fr2 & Id2 & Nd2 & Ex2).
    { rewrite Cip. constructor; [intros C; apply Np; right; apply in_or_app; now right|]. exact (proj1 (proj2 (NoDup_app_elim _ _ ND))). }
    { intros i Hi. rewrite Rcp, Ci, dget_dset_ne; [apply Dp; right; apply in_or_app; now right|]. intros ->. apply Nd, in_or_app. now right. }
    { intros C. destruct (cvars p) as [|v l] eqn:Ec; [congruence|]. assert (Hv : In v (cvars p2)) by (apply (same_vars p p2 v SCp); rewrite Ec; now left). now rewrite C in Hv. }
    pose proof (same_trans _ _ _ SCp SC3) as SCpp.
    set (bb := fun e => if dropped (cl_fac p) b then 1 else gval b e).
    exists p3, (FCons d2 k2 s2), (fun e => bb e * B2 e). cbn [visit]. rewrite Esd. cbn [bind]. rewrite Ev1. cbn [bind fst snd]. rewrite Esu. cbn [bind]. rewrite Ev2. cbn [bind fst snd].
    split; [reflexivity|]. split; [exact SCpp|]. split; [exact Rp3|]. split; [split; discriminate|]. split; [intros e; rewrite HB2, Gp2; unfold bb; ring|].
    split; [|split; [|]].
    { intros vs f Hf Gf. apply (gf_same vs _ (fun e => (f e * bb e) * B2 e)); [tauto|intros e; ring|]. apply GB2; [intros v Hv; apply Hf; now apply (same_vars p p2)|].
      unfold bb. destruct (dropped (cl_fac p) b); [apply (gf_same vs _ f); [tauto|intros e; ring|exact Gf]|].
      apply (gf_same (vs ++ S) _ (fun e => f e * gval b e)); [|reflexivity|apply gf_mul; [exact Gf|now exists b]]. intros v. rewrite in_app_iff. split; [intros [H|H]; [exact H|now apply Hf, ISp]|now left]. }
    { intros i Hi. cbn [fids] in Hi. rewrite Fr2; [|intros C; apply Hi; right; apply in_or_app; now right]. rewrite Rcp, Ci. apply dget_dset_ne. intros ->. apply Hi. now left. }
    split; [cbn [fids]; now rewrite Ci, Id1, Id2|].
    split; [intros q [<-|Hq]; [exact Rd2|]; apply in_app_or in Hq; destruct Hq; [now apply Nd1|now apply Nd2]|].
    intros (Cp & Ck & Cs). specialize (Ex1 (same_clear d d1 k SC1 Ck)). specialize (Ex2 (same_clear p p2 s SCp Cs)).
    (* the functions involved *)
    destruct S as [|v0 S0] eqn:ES; [congruence|]. rewrite <- ES in *. assert (Hv0 : In v0 (cvars p)) by (apply ISp; rewrite ES; now left).
    pose proof (ready_gf o _ v0 Ho Rp Hv0) as Gp. pose proof (forest_gf o d k _ _ Ho T1 Gd) as Gdk. pose proof (forest_gf o p s _ _ Ho T2 Gp) as Gps.
    assert (GT : gf (tvars p (FCons d k s)) (tpot p (FCons d k s))).
    { unfold tpot, tvars. apply (forest_gf o p (FCons d k s) _ _ Ho); [|exact Gp]. cbn [tree]. split; [now exists S|]. now split. }
    assert (Gag : gf S (gval a)) by (exists a; split; [now apply (ggood_weak true)|split; [intros v; now rewrite Va|reflexivity]]).
    (* everything below [d], through [d], down to the variables of the edge *)
    assert (DB : exists c, 0 < c /\ down (cvars d ++ fvars k) S (fun e => own d e * fpot k e) (fun e => c * gval b e)).
    { destruct (Ex1 d2 (or_introl eq_refl)) as (_ & c & Hc & D). exists c. split; [exact Hc|].
      apply (down_trans _ (cvars d) S _ (fun e => c * (own d e * B1 e))); [exact Gdk|exact NES| |].
      - apply (down_div _ _ _ _ (gval a)); [intros e; exact (gf_pos _ _ e Gdk)| | |].
        + intros e. apply Ga.
        + intros e e' H. apply (gf_dep S _ e e' Gag). intros v Hv. now apply H, ISd.
        + apply (down_same (tvars d1 k) _ (cvars d2) _ (tpot d1 k) _ (fun e => c * own d2 e)); [| | | |exact D].
          * intros v. unfold tvars. rewrite !in_app_iff. now rewrite (same_vars d d1 v SC1).
          * intros v. now rewrite (same_vars d d2 v SC).
          * intros e. unfold tpot. rewrite Gd1. ring.
          * intros e. rewrite HB1, Gd1. ring.
      - apply down_const; [intros e; exact (gf_pos _ _ e GdB)|exact Hc|].
        apply (down_same (cvars d2) _ S _ (fun e => own d e * B1 e) _ (gval b)); auto; try tauto. intros v. now rewrite (same_vars d d2 v SC). }
    destruct DB as (c & Hc & DB).
    (* all of the tree, down to [p] and its other children *)
    assert (DT : exists c', 0 < c' /\ down (tvars p (FCons d k s)) (tvars p2 s) (tpot p (FCons d k s)) (fun e => c' * tpot p2 s e)).
    { assert (DJ : down ((cvars d ++ fvars k) ++ (cvars p ++ fvars s)) (S ++ (cvars p ++ fvars s)) (fun e => own d e * fpot k e * (own p e * fpot s e)) (fun e => c * gval b e * (own p e * fpot s e))).
      { apply (down_join _ S); [intros e; exact (gf_pos _ _ e Gdk)|exact Gps| |exact DB]. intros v H1 H2. apply HS; [|exact H1]. apply in_app_or in H2. destruct H2 as [H2|H2]; [exact H2|now apply HF]. }
      assert (CB : exists c0, 0 < c0 /\ forall e, gval b e = c0 * bb e).
      { unfold bb. destruct (dropped (cl_fac p) b) eqn:Eb; [|exists 1; split; [lra|intros e; ring]]. pose proof Gb as (_ & _ & Pb & _). exists (gval b (fun _ => 0)). split; [apply Pb|]. intros e. rewrite Rmult_1_r.
        destruct (cl_fac p) as [|f]; [discriminate|]. cbn [dropped] in Eb. destruct Cp as (S' & m & ES' & Dm & Cm). rewrite (ed_p _ _ _ E) in ES'. injection ES' as <-.
        assert (Em : forall e', m e' = c * gval b e').
        { intros e'. destruct (enum (cvars d ++ fvars k) S) as (rem & Nr & Hr). apply (iint_unique rem (fun e => own d e * fpot k e) e'); [apply (proj2 Dm rem Nr Hr)|apply (proj2 DB rem Nr Hr)]. }
        destruct Cm as [Cm|Cm]; [apply (Rmult_eq_reg_l c); [rewrite <- !Em; apply Cm|apply Rgt_not_eq, Hc]|]. exfalso.
        assert (Q : forall x, curv m x = curv (gval b) x). { intros x. rewrite (curv_mul m (fun _ => c) (gval b) x); [|intros _; exact Hc|exact Pb|exact Em]. unfold curv at 1. lra. }
        assert (Gs : gsound b).
        { pose proof Gb as (Wb & _). destruct Cm as [Cm|(v & x & Hv & X1 & X2 & Cm)]; [left|right].
          - apply (summ_posdef b Wb). intros x (v & Hv & Hx). rewrite <- Q. apply Cm. exists v. split; [now apply Vb|exact Hx].
          - exists v, x. split; [now apply Vb|]. split; [exact X1|]. split; [exact X2|]. now rewrite <- Q. }
        rewrite (proj1 (fresh_ready false b Gb Fb) Gs) in Eb. discriminate. }
      destruct CB as (c0 & Hc0 & CB). exists (c * c0). split; [now apply Rmult_lt_0_compat|].
      apply (down_same _ (tvars p (FCons d k s)) _ (tvars p2 s) _ (tpot p (FCons d k s)) _ (fun e => c * c0 * tpot p2 s e)) in DJ; [exact DJ| | | |].
      - intros v. unfold tvars. cbn [fvars]. rewrite !in_app_iff. tauto.
      - intros v. unfold tvars. rewrite !in_app_iff, (same_vars p p2 v SCp). split; [intros [H|H]; [left; now apply ISp|exact H]|tauto].
      - intros e. unfold tpot. cbn [fpot]. ring.
      - intros e. unfold tpot. rewrite Gp2. fold (bb e). rewrite CB. ring. }
    destruct DT as (c' & Hc' & DT).
    assert (VIA : forall q, cvars q <> [] -> settled p2 s q -> settled p (FCons d k s) q).
    { intros q Nq (c2 & Hc2 & D2). exists (c' * c2). split; [now apply Rmult_lt_0_compat|]. apply (down_trans _ (tvars p2 s) _ _ (fun e => c' * tpot p2 s e)); [exact GT|exact Nq|exact DT|].
      apply (down_same (tvars p2 s) _ (cvars q) _ (fun e => c' * tpot p2 s e) _ (fun e => c' * (c2 * own q e))); try reflexivity; [intros e; ring|]. apply down_const; [|exact Hc'|exact D2].
      intros e. unfold tpot. rewrite Gp2. apply Rmult_lt_0_compat; [apply Rmult_lt_0_compat|].
      - exact (gf_pos _ _ e Gp).
      - destruct (dropped (cl_fac p) b); [lra|]. pose proof Gb as (_ & _ & Pb & _). apply Pb.
      - pose proof (gf_pos _ _ e Gps) as H. pose proof (gf_pos _ _ e Gp) as H'. apply (Rmult_lt_reg_l _ _ _ H'). now rewrite Rmult_0_r. }
    assert (LAST : s = FNil -> forall q, cvars q <> [] -> settled d1 k q -> settled p (FCons d k s) q).
    { intros -> q Nq (c2 & Hc2 & D2). exists c2. split; [exact Hc2|]. apply (down_trans _ (tvars d1 k) _ _ (tpot d1 k)); [exact GT|exact Nq| |exact D2].
      assert (DJ : down (cvars p ++ (cvars d ++ fvars k)) (S ++ (cvars d ++ fvars k)) (fun e => own p e * (own d e * fpot k e)) (fun e => gval a e * (own d e * fpot k e))).
      { apply down_join; [intros e; exact (gf_pos _ _ e Gp)|exact Gdk|exact HS|exact Dap]. }
      apply (down_same _ (tvars p (FCons d k FNil)) _ (tvars d1 k) _ (tpot p (FCons d k FNil)) _ (tpot d1 k)) in DJ; [exact DJ| | | |].
      - intros v. unfold tvars. cbn [fvars]. rewrite app_nil_r. tauto.
      - intros v. unfold tvars. rewrite !in_app_iff, (same_vars d d1 v SC1). split; [intros [H|H]; [left; now apply ISd|exact H]|tauto].
      - intros e. unfold tpot. cbn [fpot]. ring.
      - intros e. unfold tpot. rewrite Gd1. ring. }
    intros q [<-|Hq].
    + destruct (Ex2 p3 (or_introl eq_refl)) as (Nq & Xq). split; [exact Nq|now apply VIA].
    + cbn [lasts] in Hq. destruct s2 as [|d' k' s'].
      * destruct (Ex1 q Hq) as (Nq & Xq). split; [exact Nq|]. apply LAST; auto. now apply Fs.
      * destruct (Ex2 q (or_intror Hq)) as (Nq & Xq). split; [exact Nq|now apply VIA].
Qed.

(** The marginals of the clusters that hold the integrals, on any of their variables. *)
Theorem visit_marginal o p t p' t' q xs : oracle_ok o -> nready (cl_fac p) -> tree p t -> clear p t -> NoDup (cl_id p :: fids t) -> (forall i, In i (fids t) -> dget (cl_recv p) i = None) -> cvars p <> [] ->
  visit (nfac_ops o) p t = Ok (p', t') -> In q (p' :: lasts t') -> xs <> [] -> NoDup xs -> incl xs (cvars q) ->
  exists x1 r k, nf_reduce (cl_fac q) [] [] = Ok x1 /\ nf_marg o x1 xs = Ok (FG r) /\ ga_vars r = xs /\ solid r /\ posg r /\ 0 < k /\
    incl xs (tvars p t) /\ forall rem, NoDup rem -> (forall v, In v rem <-> In v (tvars p t) /\ ~ In v xs) -> forall e, iint rem (tpot p t) e (k * gval r e).
Proof.
  intros Ho Rp T C ND Dp NE Ev Hq Nx Dx Ix. destruct (visit_ok o t Ho p Rp T ND Dp NE) as (p1 & t1 & B & Ev1 & SC & Rp1 & _ & _ & _ & _ & _ & Rn & Ex). rewrite Ev in Ev1. injection Ev1 as <- <-.
  destruct (Ex C q Hq) as (_ & k & Hk & D). assert (Rq : nready (cl_fac q)) by (destruct Hq as [<-|Hq]; [exact Rp1|now apply Rn, lasts_nodes]).
  destruct (ready_message o _ xs Ho Rq Nx Dx Ix) as (x1 & r & J & E1 & E2 & Vr & Sr & Pr & SJ & PJ & VJ & GJ & EJ). destruct (solid_proper J SJ PJ) as (GJt & VaJ).
  assert (D2 : down (cvars q) xs (own q) (gval r)).
  { apply (down_same (ga_vars J) _ xs _ (gval J) _ (gval r)); auto; try tauto. apply (down_marg o); auto; [now apply (ggood_weak true)|]. intros v Hv. now apply VJ, Ix. }
  destruct (cvars p) as [|v0 l] eqn:Ec; [congruence|]. assert (Gp : gf (cvars p) (own p)) by (apply (ready_gf o _ v0 Ho Rp); rewrite Ec; now left).
  assert (D3 : down (tvars p t) xs (tpot p t) (fun e => k * gval r e)).
  { apply (down_trans _ (cvars q) _ _ (fun e => k * own q e)); [exact (forest_gf o p t _ _ Ho T Gp)|exact Nx|exact D|]. apply down_const; [|exact Hk|exact D2]. intros e. rewrite <- GJ. apply PJ. }
  exists x1, r, k. do 6 (split; [assumption|]). destruct D3 as (I3 & D3). split; [exact I3|]. intros rem N H. now apply D3.
Qed.
(** One direction only, along a chain: no constant, and no condition on what is below. *)
Fixpoint line (ds : list ncl) : nforest := match ds with [] => FNil | d :: ds => FCons d (line ds) FNil end.
Lemma last_indep {A} (a b : A) l : l <> [] -> last l a = last l b.
Proof. induction l as [|x l IH]; [congruence|]. destruct l; [reflexivity|]. intros _. now apply IH. Qed.
Theorem forward_ok o ds : oracle_ok o -> forall p, nready (cl_fac p) -> tree p (line ds) -> NoDup (cl_id p :: map cl_id ds) -> (forall i, In i (map cl_id ds) -> dget (cl_recv p) i = None) -> cvars p <> [] ->
  exists q, forward (nfac_ops o) p ds = Ok q /\ nready (cl_fac q) /\ same_cl (last ds p) q /\ cvars q <> [] /\ down (tvars p (line ds)) (cvars q) (tpot p (line ds)) (own q).
Proof.
  intros Ho. induction ds as [|d ds IH]; intros p Rp T ND Dp NE.
  - exists p. split; [reflexivity|]. split; [exact Rp|]. split; [apply same_refl|]. split; [exact NE|]. apply (down_same (cvars p) _ (cvars p) _ (own p) _ (own p)); try tauto.
    + intros v. unfold tvars. cbn [line fvars]. now rewrite app_nil_r.
    + intros e. unfold tpot. cbn [line fpot]. ring.
    + apply down_refl.
  - pose proof T as T0. cbn [line tree] in T. destruct T as ((S & E & HS) & _ & Rd & T1 & _). cbn [map] in ND, Dp. inversion_clear ND as [|? ? Np ND'].
    pose proof (wait_free _ _ (ed_wait _ _ _ E)) as ISd. pose proof (ed_ne _ _ _ E) as NES.
    destruct (send_down o p d S Ho Rp E Rd (Dp _ (or_introl eq_refl))) as (a & d1 & Esd & SC1 & Rd1 & Rc1 & Ga & Va & Gd1 & Dap). pose proof SC1 as (Ci1 & _).
    destruct (IH d1 Rd1 (same_tree d d1 _ SC1 T1)) as (q & Eq & Rq & Sq & Nq & Dq).
    { now rewrite Ci1. }
    { intros i Hi. rewrite Rc1. cbn [dget]. destruct (eq_dec i (cl_id p)) as [Ei|]; [|reflexivity]. exfalso. apply Np. right. congruence. }
    { intros C. destruct S as [|v S]; [congruence|]. assert (Hv : In v (cvars d1)) by (apply (same_vars d d1 v SC1), ISd; now left). now rewrite C in Hv. }
    exists q. cbn [forward]. rewrite Esd. cbn [bind]. split; [exact Eq|]. split; [exact Rq|]. split.
    { destruct ds as [|d' ds']; [exact (same_trans _ _ _ SC1 Sq)|]. rewrite (last_indep d1 p) in Sq by discriminate. exact Sq. }
    split; [exact Nq|]. destruct (cvars p) as [|v0 l] eqn:Ec; [congruence|]. assert (Gp : gf (cvars p) (own p)) by (apply (ready_gf o _ v0 Ho Rp); rewrite Ec; now left). rewrite <- Ec in *.
    apply (down_trans _ (tvars d1 (line ds)) _ _ (tpot d1 (line ds))); [exact (forest_gf o p _ _ _ Ho T0 Gp)|exact Nq| |exact Dq].
    pose proof (forest_gf o d _ _ _ Ho T1 (wait_gf o _ S Ho (ed_wait _ _ _ E))) as Gdk.
    assert (DJ : down (cvars p ++ (cvars d ++ fvars (line ds))) (S ++ (cvars d ++ fvars (line ds))) (fun e => own p e * (own d e * fpot (line ds) e)) (fun e => gval a e * (own d e * fpot (line ds) e))).
    { apply down_join; [intros e; exact (gf_pos _ _ e Gp)|exact Gdk|exact HS|exact Dap]. }
    apply (down_same _ (tvars p (line (d :: ds))) _ (tvars d1 (line ds)) _ (tpot p (line (d :: ds))) _ (tpot d1 (line ds))) in DJ; [exact DJ| | | |].
    + intros v. unfold tvars. cbn [line fvars]. rewrite app_nil_r. tauto.
    + intros v. unfold tvars. rewrite !in_app_iff, (same_vars d d1 v SC1). split; [intros [H|H]; [left; now apply ISd|exact H]|tauto].
    + intros e. unfold tpot. cbn [line fpot]. ring.
    + intros e. unfold tpot. rewrite Gd1. ring.
Qed.
(** Chains have no other clusters than the last ones. *)
Lemma lasts_line ds : lasts (line ds) = ds.
Proof. induction ds as [|d ds IH]; [reflexivity|]. cbn [line lasts]. now rewrite IH. Qed.
