(** The statements for whole trees. *)
From Verif Require Export NlgSpread5.
Local Open Scope string_scope.
Local Open Scope list_scope.
Local Open Scope R_scope.

Definition alike (d q : ncl) : Prop := cl_id q = cl_id d /\ forall v, In v (cvars q) <-> In v (cvars d).
Lemma calm_alike : forall t t2 p, calm p t t2 -> Forall2 alike (fnodes t) (fnodes t2).
Proof.
  induction t as [|d k IHk s IHs]; intros [|d2 k2 s2] p; cbn [calm]; try tauto; [constructor|].
  intros ((S & m & b & B & X & _ & A2 & _) & Hk & Hs). cbn [fnodes]. constructor; [split; [apply A2|intros v; now apply same_vars]|]. apply Forall2_app; [now apply (IHk k2 d2)|now apply (IHs s2 p)].
Qed.
Theorem spread_calm o p t : oracle_ok o -> nready (cl_fac p) -> tree p t -> clear p t -> NoDup (cl_id p :: fids t) -> (forall i, In i (fids t) -> dget (cl_recv p) i = None) -> cvars p <> [] ->
  exists p' t' t3 c, visit (nfac_ops o) p t = Ok (p', t') /\ resend (nfac_ops o) p' t' = Ok t3 /\ calm p' t t3 /\ same_cl p p' /\ 0 < c /\
    forall q, In q (p' :: fnodes t3) -> nready (cl_fac q) /\ cvars q <> [] /\ down (tvars p t) (cvars q) (tpot p t) (fun e => c * own q e).
Proof.
  intros Ho Rp T C ND Dp NE. destruct (visit_ok o t Ho p Rp T ND Dp NE) as (p' & t' & B & Ev & SC & Rp' & _ & HB & GB & Fr & _ & _ & Ex). destruct (visit_post o t Ho p Rp T C ND Dp NE) as (p1 & t1 & Ev1 & Po & _). rewrite Ev in Ev1. injection Ev1 as <- <-.
  destruct (Ex C p' (or_introl eq_refl)) as (NE' & c & Hc & D). destruct (cvars p) as [|v0 l] eqn:Ec; [congruence|]. assert (Hv0 : In v0 (cvars p)) by (rewrite Ec; now left). rewrite <- Ec in *. pose proof (ready_gd o _ v0 Ho Rp Hv0) as Gp. pose proof SC as (Ci & _).
  destruct (resend_ok o t Ho t' (own p) p' Po (same_tree p p' t SC T)) with (p := p') (V := tvars p t) (T := tpot p t) (c := c) (u := fun _ : renv => 1) (VQ := cvars p) (Q := own p) as (t3 & Er & _ & Ca & Hq); auto.
  { now rewrite Ci. } { apply same_refl. } { intros e. ring. }
  { apply (gd_same (cvars p) _ (own p)); [intros v; now rewrite (same_vars p p' v SC)|intros e; ring|exact Gp]. }
  { now apply gd_gf. } { intros v Hv. now apply (same_vars p p' v SC). } { intros v Hv _. now apply (same_vars p p' v SC). } { intros v. unfold tvars. now rewrite in_app_iff. }
  exists p', t', t3, c. do 5 (split; [assumption|]). intros q [<-|H]; [now split|now apply Hq].
Qed.
Theorem spread_marginal o p t : oracle_ok o -> nready (cl_fac p) -> tree p t -> clear p t -> NoDup (cl_id p :: fids t) -> (forall i, In i (fids t) -> dget (cl_recv p) i = None) -> cvars p <> [] ->
  exists p' t' t3 c, visit (nfac_ops o) p t = Ok (p', t') /\ resend (nfac_ops o) p' t' = Ok t3 /\ 0 < c /\
    Forall2 (fun d q => cl_id q = cl_id d /\ forall v, In v (cvars q) <-> In v (cvars d)) (p :: fnodes t) (p' :: fnodes t3) /\
    forall q xs, In q (p' :: fnodes t3) -> xs <> [] -> NoDup xs -> incl xs (cvars q) ->
      exists x1 r, nf_reduce (cl_fac q) [] [] = Ok x1 /\ nf_marg o x1 xs = Ok (FG r) /\ ga_vars r = xs /\ solid r /\ posg r /\
        forall rem, NoDup rem -> (forall v, In v rem <-> In v (tvars p t) /\ ~ In v xs) -> forall e, iint rem (tpot p t) e (c * gval r e).
Proof.
  intros Ho Rp T C ND Dp NE. destruct (spread_calm o p t Ho Rp T C ND Dp NE) as (p' & t' & t3 & c & Ev & Er & Ca & SC & Hc & H). exists p', t', t3, c. do 3 (split; [assumption|]).
  split; [constructor; [split; [apply SC|intros v; now apply same_vars]|exact (calm_alike t t3 p' Ca)]|]. intros q xs Hq Nx Dx Ix. destruct (H q Hq) as (Rq & _ & D).
  destruct (ready_message o _ xs Ho Rq Nx Dx Ix) as (x1 & r & J & E1 & E2 & Vr & Sr & Pr & SJ & PJ & VJ & GJ & EJ). destruct (solid_proper J SJ PJ) as (GJt & VaJ).
  assert (D2 : down (cvars q) xs (own q) (gval r)).
  { apply (down_same (ga_vars J) _ xs _ (gval J) _ (gval r)); auto; try tauto. apply (down_marg o); auto; [now apply (ggood_weak true)|]. intros v Hv. now apply VJ, Ix. }
  destruct (cvars p) as [|v0 l] eqn:Ec; [congruence|]. assert (Gp : gf (cvars p) (own p)) by (apply (ready_gf o _ v0 Ho Rp); rewrite Ec; now left).
  assert (D3 : down (tvars p t) xs (tpot p t) (fun e => c * gval r e)).
  { apply (down_trans _ (cvars q) _ _ (fun e => c * own q e)); [exact (forest_gf o p t _ _ Ho T Gp)|exact Nx|exact D|]. apply down_const; [|exact Hc|exact D2]. intros e. rewrite <- GJ. apply PJ. }
  exists x1, r. do 5 (split; [assumption|]). intros rem N Hr. now apply D3.
Qed.
Lemma unmoved_trans : forall l1 l2 l3 : list ncl, Forall2 unmoved l1 l2 -> Forall2 unmoved l2 l3 -> Forall2 unmoved l1 l3.
Proof.
  intros l1 l2 l3 H. revert l3. induction H as [|a b l l' Hab Hl IH]; intros l3 H3; inversion H3; subst; constructor; [|now apply IH].
  destruct Hab as (A1 & A2 & A3 & A4). match goal with X : unmoved b _ |- _ => destruct X as (B1 & B2 & B3 & B4) end. split; [congruence|]. split; [exact B2|]. split; [intros v; now rewrite B3, A3|intros e; now rewrite B4, A4].
Qed.
Theorem stirs_calm o t : oracle_ok o -> forall l p t2, calm p t t2 -> nready (cl_fac p) -> NoDup (cl_id p :: fids t) ->
  exists p' t3, stirs (nfac_ops o) l p t2 = Ok (p', t3) /\ calm p' t t3 /\ same_cl p p' /\ Forall2 unmoved (p :: fnodes t2) (p' :: fnodes t3).
Proof.
  intros Ho. induction l as [|[a u] l IH]; intros p t2 C R ND.
  - exists p, t2. split; [reflexivity|]. split; [exact C|]. split; [apply same_refl|]. constructor; [split; [reflexivity|split; [exact R|split; [tauto|reflexivity]]]|exact (proj1 (calm_ready t t2 p C))].
  - destruct (stir_calm o u Ho a t t2 p C R ND) as (p1 & t1 & E1 & C1 & R1 & SC1 & H1 & _ & _ & F1). pose proof SC1 as (Ci & _).
    destruct (IH p1 t1 C1 R1) as (p' & t3 & E3 & C3 & SC3 & F3); [now rewrite Ci|]. exists p', t3. unfold stirs in *. cbn [foldM fst snd]. rewrite E1. cbn [bind]. split; [exact E3|]. split; [exact C3|]. split; [exact (same_trans _ _ _ SC1 SC3)|].
    apply (unmoved_trans _ (p1 :: fnodes t1)); [|exact F3]. constructor; [|exact F1]. split; [exact Ci|]. split; [exact R1|]. split; [intros v; now apply same_vars|exact H1].
Qed.
Theorem spread_still o p t p' t' t3 l : oracle_ok o -> nready (cl_fac p) -> tree p t -> clear p t -> NoDup (cl_id p :: fids t) -> (forall i, In i (fids t) -> dget (cl_recv p) i = None) -> cvars p <> [] ->
  visit (nfac_ops o) p t = Ok (p', t') -> resend (nfac_ops o) p' t' = Ok t3 ->
  exists p2 t4, stirs (nfac_ops o) l p' t3 = Ok (p2, t4) /\
    Forall2 (fun q q' => cl_id q' = cl_id q /\ nready (cl_fac q') /\ (forall v, In v (cvars q') <-> In v (cvars q)) /\ forall e, own q' e = own q e) (p' :: fnodes t3) (p2 :: fnodes t4).
Proof.
  intros Ho Rp T C ND Dp NE Ev Er. destruct (spread_calm o p t Ho Rp T C ND Dp NE) as (p1 & t1 & t2 & c & Ev1 & Er1 & Ca & SC & Hc & H). rewrite Ev in Ev1. injection Ev1 as <- <-. rewrite Er in Er1. injection Er1 as <-. pose proof SC as (Ci & _).
  destruct (stirs_calm o t Ho l p' t3 Ca) as (p2 & t4 & E & _ & _ & F); [apply H; now left|now rewrite Ci|]. exists p2, t4. now split.
Qed.

Lemma ex_spread : exists o f1 f2 f3 p' t' t3, oracle_ok o /\ is_link "x0" "x1" [] f1 /\ is_link "x1" "z" [("z", 3)] f2 /\ is_link "x1" "x2" [] f3 /\
  nready (cl_fac ex_root) /\ tree ex_root (ex_kids f1 f2 f3) /\ clear ex_root (ex_kids f1 f2 f3) /\ NoDup (cl_id ex_root :: fids (ex_kids f1 f2 f3)) /\
  (forall i, In i (fids (ex_kids f1 f2 f3)) -> dget (cl_recv ex_root) i = None) /\ cvars ex_root <> [] /\
  visit (nfac_ops o) ex_root (ex_kids f1 f2 f3) = Ok (p', t') /\ length (lasts t') = 2%nat /\ resend (nfac_ops o) p' t' = Ok t3 /\ length (fnodes t3) = 3%nat.
Proof.
  destruct ex_tree as (o & f1 & f2 & f3 & Ho & M1 & M2 & M3 & Rp & T & C & ND & Dp & NE). destruct (spread_calm o _ _ Ho Rp T C ND Dp NE) as (p' & t' & t3 & c & Ev & Er & Ca & _).
  exists o, f1, f2, f3, p', t', t3. do 10 (split; [assumption|]). split; [exact Ev|]. split; [|split; [exact Er|]].
  - unfold ex_kids in Ev. cbn [visit] in Ev. apply bind_ok in Ev. destruct Ev as (a1 & _ & Ev). apply bind_ok in Ev. destruct Ev as ((a2 & k2) & Hk & Ev). apply bind_ok in Ev. destruct Ev as (a3 & _ & Ev).
    cbn [bind fst snd] in Ev. injection Ev as _ <-. apply bind_ok in Hk. destruct Hk as (b1 & _ & Hk). cbn [bind fst snd] in Hk. apply bind_ok in Hk. destruct Hk as (b2 & _ & Hk).
    apply bind_ok in Hk. destruct Hk as ((b3 & k3) & Hk & Hk'). cbn [fst snd] in Hk'. injection Hk' as _ <-. apply bind_ok in Hk. destruct Hk as (b4 & _ & Hk). cbn [bind fst snd] in Hk. apply bind_ok in Hk. destruct Hk as (b5 & _ & Hk).
    cbn [bind fst snd] in Hk. injection Hk as _ <-. reflexivity.
  - pose proof (Forall2_length _ _ _ (calm_alike _ _ _ Ca)) as L. rewrite <- L. reflexivity.
Qed.
