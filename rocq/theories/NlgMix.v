(** Mixtures of nonlinear Gaussians. *)
From Verif Require Export NlgGeneral.
From Verif Require Import MixExamples.
Local Open Scope string_scope.
Local Open Scope list_scope.
Local Open Scope R_scope.

(** A nonlinear Gaussian whose joint can be computed. *)
Definition nl_good (A : string -> string -> R) (b : string -> R) (c : gauss) (f : nlg) : Prop := nl_wf f /\ nl_ok f A b /\ nl_cond f = Some c /\ informed f c.
Lemma cond_copy_id f d c : nl_copy f = Ok d -> nl_cond f = Some c -> solid c -> nl_cond d = Some c.
Proof.
  intros Ed Ec Sc. unfold nl_copy, mk_nlg in Ed. repeat (apply bind_ok in Ed; destruct Ed as (? & ? & Ed)). injection Ed as <-. cbn [nl_cond].
  match goal with H : opt_copy (nl_cond f) = Ok _ |- _ => rewrite Ec in H; unfold opt_copy in H; rewrite (copy_solid_id c Sc) in H; cbn [bind] in H; congruence end.
Qed.
Lemma nl_joint_order o f A b c j : oracle_ok o -> nl_good A b c f -> nl_joint_distribution o f = Ok j -> ga_vars j = jorder o (ga_vars c) (nl_cal f) (nl_ev f).
Proof.
  intros Ho (Wf & OK & Ec & IN) Ej. unfold nl_joint_distribution in Ej. apply bind_ok in Ej. destruct Ej as (d & Ed & Ej). destruct (nl_copy_spec f Wf) as (d' & Ed' & CD).
  rewrite Ed in Ed'. injection Ed' as <-. destruct (informed_copy f d c Ec IN CD) as (c' & Ec' & IN' & V' & _). pose proof CD as ((K1 & K2 & _) & K6 & _).
  destruct (nl_recompute_strong o d A b c' Ho (nl_ok_copy f d A b OK CD) Ec' IN') as (jd & Ejd & O & _). rewrite Ejd in Ej. cbn [bind] in Ej. injection Ej as <-. cbn [set_joint nl_joint].
  now rewrite O, V', K2, K6.
Qed.
Lemma good_copy o f A b c : oracle_ok o -> nl_good A b c f -> exists d j jd, nl_copy f = Ok d /\ nl_good A b c d /\ nl_cing d = nl_cing f /\ nl_cal d = nl_cal f /\ nl_ev d = nl_ev f /\
  nl_joint_distribution o f = Ok j /\ nl_joint_distribution o d = Ok jd /\ forall e, obeys (nl_ev f) e -> lp jd e = lp j e.
Proof.
  intros Ho (Wf & OK & Ec & IN). destruct (nl_copy_spec f Wf) as (d & Ed & CD). pose proof CD as (SK & K6 & K7 & K8 & K9). pose proof SK as (K1 & K2 & K3 & K4 & K5).
  destruct (nl_joint_spec o f A b c Ho Wf OK Ec IN) as (j & Ej & (_ & _ & _ & Lj) & _). pose proof (cond_copy_id f d c Ed Ec (proj1 IN)) as Ecd.
  assert (INd : informed d c) by (destruct IN as (I1 & I2 & I3 & I4); unfold informed; rewrite K1, K6; do 3 (split; [assumption|]); exact I4).
  destruct (nl_joint_spec o d A b c Ho (nl_wf_copy f d Wf CD) (nl_ok_copy f d A b OK CD) Ecd INd) as (jd & Ejd & (_ & _ & _ & Ljd) & _).
  exists d, j, jd. split; [exact Ed|]. split; [split; [now apply (nl_wf_copy f)|split; [now apply (nl_ok_copy f)|now split]]|]. do 5 (split; [assumption|]). intros e He.
  destruct (Lj e He) as (l1 & l2 & l3 & L1 & L2 & L3 & L). rewrite K6 in Ljd. destruct (Ljd e He) as (m1 & m2 & m3 & M1 & M2 & M3 & M). rewrite L, M.
  rewrite L1 in M1. injection M1 as <-. rewrite (noise_lp_copy f d A b e SK), L2 in M2. injection M2 as <-. rewrite (upd_lp_copy f d e K8), L3 in M3. injection M3 as <-. reflexivity.
Qed.
(** A message over the conditional variables, or over some of those with a distribution. *)
Definition message_for (f : nlg) (cvs gvs : list string) : Prop := incl gvs (nl_cal f) \/ (incl gvs (nl_cing f) /\ incl gvs cvs /\ gvs <> []).
Lemma good_multiply o f A b c g j : oracle_ok o -> nl_good A b c f -> nl_joint_distribution o f = Ok j -> solid g -> message_for f (ga_vars c) (ga_vars g) ->
  exists r c' jr, nl_multiply_gauss f g = Ok r /\ nl_good A b c' r /\ ga_vars c' = ga_vars c /\ nl_cing r = nl_cing f /\ nl_cal r = nl_cal f /\ nl_ev r = nl_ev f /\
    nl_joint_distribution o r = Ok jr /\ forall e, obeys (nl_ev f) e -> exists l lg, lp j e = Ok l /\ lp g e = Ok lg /\ lp jr e = Ok (vadd l lg).
Proof.
  intros Ho (Wf & OK & Ec & IN) Ej Sg HG. destruct (nl_multiply_joint o f g A b c j Ho Wf OK Ec IN Ej Sg HG) as (r & jr & Er & Ejr & K6 & _ & L).
  pose proof Sg as (Wg & Vg & _). pose proof IN as (Sc & Ic & Ha & Hn). destruct HG as [Ig|(Ig & Igc & Ng)].
  - destruct (nl_multiply_cal f g Wf Wg Vg Ig) as (r' & Er' & Wr & SK & _ & KC & OKr & _). rewrite Er in Er'. injection Er' as <-. pose proof SK as (K1 & K2 & K3 & K4 & K5).
    unfold opt_same in KC. rewrite Ec in KC. destruct (nl_cond r) as [c'|] eqn:Ec'; [|contradiction]. destruct KC as (SO & HS). pose proof SO as (_ & V & _).
    assert (IN' : informed r c') by (split; [now apply HS|]; rewrite V, K1, K6; now repeat split).
    exists r, c', jr. split; [exact Er|]. split; [split; [exact Wr|split; [exact (OKr A b (solid_sym g Sg) OK)|now split]]|]. now repeat split.
  - destruct (nl_multiply_cing f g Wf Wg Vg Ig Ng) as (r' & c' & Er' & Wr & SK & _ & KU & Ec' & Vc & Scr & OKr & Lr). rewrite Er in Er'. injection Er' as <-. pose proof SK as (K1 & K2 & K3 & K4 & K5).
    assert (V : ga_vars c' = ga_vars c).
    { unfold nl_multiply_gauss in Er. apply bind_ok in Er. destruct Er as (d & Ed & Er). rewrite Vg in Er. destruct (nl_copy_spec f Wf) as (d' & Ed' & ((Q1 & Q2 & _) & _)). rewrite Ed in Ed'. injection Ed' as <-.
      assert (NS : subsetb (ga_vars g) (nl_cal f) = false).
      { destruct (subsetb (ga_vars g) (nl_cal f)) eqn:E; [|reflexivity]. exfalso. apply subsetb_incl in E. destruct (ga_vars g) as [|v l]; [congruence|].
        destruct Wf as (Hd & _). exact (proj2 (proj2 (NoDup_app_elim _ _ Hd)) v (Ig v (or_introl eq_refl)) (E v (or_introl eq_refl))). }
      rewrite Q2, NS, Q1, (proj2 (subsetb_incl _ _) Ig), (cond_copy_id f d c Ed Ec Sc) in Er. apply bind_ok in Er. destruct Er as (u & Eu & [= <-]). cbn [set_cond nl_cond] in Ec'. injection Ec' as <-.
      destruct (multiply_symm c g (proj1 Sc) Wg (solid_sym c Sc) (solid_sym g Sg)) as (u' & Eu' & _ & _ & Vu & _). rewrite Eu in Eu'. injection Eu' as <-. rewrite Vu.
      unfold new_vars. now rewrite (proj2 (subsetb_incl _ _) Igc). }
    assert (IN' : informed r c').
    { split; [apply Scr; [exact Sg|intros c0 E0; rewrite Ec in E0; injection E0 as <-; exact Sc]|]. rewrite K1, K6, V. now repeat split. }
    exists r, c', jr. split; [exact Er|]. split; [split; [exact Wr|split; [exact (OKr A b OK)|now split]]|]. now repeat split.
Qed.

(** The components agree on the names, the evidence and the variables with a distribution. *)
Definition like (f : nlg) (A : string -> string -> R) (b : string -> R) (cvs : list string) (h : nlg) : Prop :=
  nl_cing h = nl_cing f /\ nl_cal h = nl_cal f /\ nl_ev h = nl_ev f /\ exists c, ga_vars c = cvs /\ nl_good A b c h.
Definition nm_good (f : nlg) A b cvs (a : nlgm) : Prop := nm_nlgs a <> [] /\ nm_vars a = nl_vars f /\ forall h, In h (nm_nlgs a) -> like f A b cvs h.
(** The values of the joints at a point. *)
Definition joint_lp (o : oracle) (h : nlg) (e : string -> R) : res val := let* j := nl_joint_distribution o h in lp j e.
Lemma F2_length {X Y} (P : X -> Y -> Prop) l m : Forall2 P l m -> length l = length m.
Proof. induction 1; cbn; congruence. Qed.
Lemma mk_nlgm_ok o f A b cvs hs split : oracle_ok o -> NoDup (nl_vars f) -> hs <> [] -> (forall h, In h hs -> like f A b cvs h) ->
  exists r, mk_nlgm hs split = Ok r /\ nm_split r = split /\ nm_good f A b cvs r /\
    Forall2 (fun h d => forall e l, obeys (nl_ev f) e -> joint_lp o h e = Ok l -> joint_lp o d e = Ok l) hs (nm_nlgs r).
Proof.
  intros Ho Hd Hn H. destruct hs as [|h0 hs0] eqn:Eh; [congruence|]. rewrite <- Eh in *. assert (V00 : nl_vars h0 = nl_vars f).
  { destruct (H h0) as (K1 & K2 & _); [rewrite Eh; now left|]. unfold nl_vars. now rewrite K1, K2. }
  assert (EM : mk_nlgm hs split = let* cs := mapM (fun g => let* _ := raise_if (negb (seteqb (nl_vars f) (nl_vars g))) ValueError in nl_copy g) hs in
    Ok {| nm_vars := nl_vars f; nm_nlgs := cs; nm_split := split |}).
  { rewrite Eh. unfold mk_nlgm. rewrite V00, (proj2 (nodupb_iff _) Hd). reflexivity. }
  rewrite EM. clear EM.
  destruct (mapM_F2 (fun g => let* _ := raise_if (negb (seteqb (nl_vars f) (nl_vars g))) ValueError in nl_copy g)
    (fun h d => like f A b cvs d /\ forall e l, obeys (nl_ev f) e -> joint_lp o h e = Ok l -> joint_lp o d e = Ok l) hs) as (ds & Ed & F).
  { intros h Hh. destruct (H h Hh) as (K1 & K2 & K3 & c & Vc & G). destruct (good_copy o h A b c Ho G) as (d & j & jd & Ed & Gd & Q1 & Q2 & Q3 & Ej & Ejd & L).
    exists d. assert (Vh : nl_vars h = nl_vars f) by (unfold nl_vars; now rewrite K1, K2). rewrite Vh, (NlgGeneral.seteqb_perm _ _ (Permutation_refl _)). cbn [negb raise_if bind]. split; [exact Ed|].
    split; [split; [congruence|split; [congruence|split; [congruence|exists c; now split]]]|]. intros e l He. unfold joint_lp. rewrite Ej, Ejd. cbn [bind]. rewrite L by now rewrite K3. tauto. }
  rewrite Ed. cbn [bind]. eexists. split; [reflexivity|]. split; [reflexivity|]. split.
  - split; [cbn [nm_nlgs]; apply F2_length in F; rewrite Eh in F; destruct ds; [discriminate F|discriminate]|]. split; [reflexivity|]. intros d Hin. cbn [nm_nlgs] in Hin. destruct (F2_in_r _ _ _ d F Hin) as (h & _ & L & _). exact L.
  - cbn [nm_nlgs]. apply (F2_imp (fun h d => like f A b cvs d /\ forall e l, obeys (nl_ev f) e -> joint_lp o h e = Ok l -> joint_lp o d e = Ok l)); [intros x y _ (_ & Hxy); exact Hxy|exact F].
Qed.
Lemma F2_compose {X Y Z} (P : X -> Y -> Prop) (Q : Y -> Z -> Prop) (S : X -> Z -> Prop) : (forall x y z, P x y -> Q y z -> S x z) ->
  forall l m, Forall2 P l m -> forall k, Forall2 Q m k -> Forall2 S l k.
Proof. intros H l m F. induction F as [|x y l m Hxy F IH]; intros k G; inversion G; subst; [constructor|]. constructor; [now apply (H x y)|now apply IH]. Qed.
Theorem nm_joint_spec o f A b cvs a : oracle_ok o -> nm_good f A b cvs a ->
  exists jm, nm_joint_distribution o a = Ok jm /\ wf_mix jm /\ gm_vars jm = jorder o cvs (nl_cal f) (nl_ev f) /\ length (gm_comps jm) = length (nm_nlgs a) /\
    (forall e ls, Forall2 (fun h l => joint_lp o h e = Ok l) (nm_nlgs a) ls -> (forall l, In l ls -> is_lp l) -> mixpot jm e = Ok (Fin (Rsum (map pot ls)))) /\
    (forall e p, mixpot jm e = Ok (Fin p) -> exists ls, Forall2 (fun h l => joint_lp o h e = Ok l) (nm_nlgs a) ls /\ (forall l, In l ls -> is_lp l) /\ p = Rsum (map pot ls)).
Proof.
  intros Ho (Hn & _ & H). destruct (mapM_F2 (nl_joint_distribution o) (fun h j => nl_joint_distribution o h = Ok j /\ wf_gauss j /\ ga_vars j = jorder o cvs (nl_cal f) (nl_ev f)) (nm_nlgs a)) as (js & Ej & F).
  { intros h Hh. destruct (H h Hh) as (K1 & K2 & K3 & c & Vc & G). pose proof G as (Wh & OKh & Ec & IN). destruct (nl_joint_spec o h A b c Ho Wh OKh Ec IN) as (j & E & (Wj & _) & _).
    exists j. split; [exact E|]. split; [exact E|]. split; [exact Wj|]. rewrite (nl_joint_order o h A b c j Ho G E). now rewrite Vc, K2, K3. }
  unfold nm_joint_distribution. rewrite Ej. cbn [bind]. destruct (mk_mix_ok js (jorder o cvs (nl_cal f) (nl_ev f))) as (r & Er & Vr & Wr & Fr).
  { apply F2_length in F. destruct js; [destruct (nm_nlgs a); [congruence|discriminate F]|discriminate]. }
  { intros j Hj. destruct (F2_in_r _ _ _ j F Hj) as (h & _ & _ & P). exact P. }
  exists r. split; [exact Er|]. split; [exact Wr|]. split; [exact Vr|]. split; [now rewrite <- (F2_length _ _ _ Fr), (F2_length _ _ _ F)|].
  assert (FC : Forall2 (fun h c => forall e, joint_lp o h e = lp c e) (nm_nlgs a) (gm_comps r)).
  { apply (F2_compose _ _ _ (fun h j c => fun (P : nl_joint_distribution o h = Ok j /\ wf_gauss j /\ ga_vars j = jorder o cvs (nl_cal f) (nl_ev f)) (Q : same_obj j c) =>
      (fun e => ltac:(unfold joint_lp; rewrite (proj1 P); cbn [bind]; symmetry; now apply same_obj_lp') : joint_lp o h e = lp c e)) _ _ F _ Fr). }
  split.
  - intros e ls Fl Hl. apply mixpot_of; [exact Wr| |exact Hl]. clear -FC Fl. revert ls Fl. induction FC as [|h c hs cs Hc FC IH]; intros ls Fl; inversion Fl; subst; constructor; [rewrite <- Hc; assumption|now apply IH].
  - intros e p Hp. destruct (mixpot_fin r e p Wr Hp) as (ls & Fl & Hl & ->). exists ls. split; [|now split]. revert Fl. generalize ls. clear -FC. induction FC as [|h c hs cs Hc FC IH]; intros ls Fl; inversion Fl; subst; constructor; [rewrite Hc; assumption|now apply IH].
Qed.

(** Products with mixtures: all pairs. *)
Lemma like_multiply o f A b cvs h g : oracle_ok o -> like f A b cvs h -> solid g -> message_for f cvs (ga_vars g) ->
  exists r, nl_multiply_gauss h g = Ok r /\ like f A b cvs r /\
    forall e l lg, obeys (nl_ev f) e -> joint_lp o h e = Ok l -> lp g e = Ok lg -> joint_lp o r e = Ok (vadd l lg).
Proof.
  intros Ho (K1 & K2 & K3 & c & Vc & G) Sg HM. pose proof G as (Wh & OKh & Ec & IN). destruct (nl_joint_spec o h A b c Ho Wh OKh Ec IN) as (j & Ej & _ & _).
  destruct (good_multiply o h A b c g j Ho G Ej Sg) as (r & c' & jr & Er & Gr & V & Q1 & Q2 & Q3 & Ejr & L); [unfold message_for in *; now rewrite K1, K2, Vc|].
  exists r. split; [exact Er|]. split; [split; [congruence|split; [congruence|split; [congruence|exists c'; split; [congruence|exact Gr]]]]|].
  intros e l lg He Hl Hg. unfold joint_lp in *. rewrite Ej in Hl. rewrite Ejr. cbn [bind] in *. rewrite <- K3 in He. destruct (L e He) as (l' & lg' & L1 & L2 & L3). congruence.
Qed.
Lemma Rsum_pairs (ls gs : list val) : (forall l, In l ls -> is_lp l) -> (forall g, In g gs -> is_lp g) ->
  (forall x, In x (concat (map (fun g => map (fun l => vadd l g) ls) gs)) -> is_lp x) /\
  Rsum (map pot (concat (map (fun g => map (fun l => vadd l g) ls) gs))) = Rsum (map pot ls) * Rsum (map pot gs).
Proof.
  intros Hl Hg. induction gs as [|g gs IH]; [split; [intros x []|cbn; ring]|]. destruct IH as (I1 & I2); [intros x Hx; apply Hg; now right|]. cbn [map concat].
  assert (G : (forall x, In x (map (fun l => vadd l g) ls) -> is_lp x) /\ Rsum (map pot (map (fun l => vadd l g) ls)) = Rsum (map pot ls) * pot g).
  { specialize (Hg g (or_introl eq_refl)). clear -Hl Hg. induction ls as [|l ls IH]; [split; [intros x []|cbn; ring]|]. destruct IH as (I1 & I2); [intros x Hx; apply Hl; now right|].
    destruct (pot_vadd l g (Hl l (or_introl eq_refl)) Hg) as (P2 & P1). split; [intros x [<-|Hx]; [exact P2|now apply I1]|]. cbn [map]. rewrite !Rsum_cons, I2, P1. ring. }
  destruct G as (G1 & G2). split; [intros x Hx; apply in_app_or in Hx; destruct Hx; [now apply G1|now apply I1]|]. rewrite map_app, Rsum_app, G2, I2, Rsum_cons. ring.
Qed.
(** The components of a nest of products, and the values of their joints. *)
Lemma pairs_ok o f A b cvs hs gs vs : oracle_ok o -> (forall h, In h hs -> like f A b cvs h) -> (forall g, In g gs -> solid g /\ ga_vars g = vs) -> message_for f cvs vs ->
  exists rs, mapM (fun g => mapM (fun h => nl_multiply_gauss h g) hs) gs = Ok rs /\ length (concat rs) = (length hs * length gs)%nat /\
    (forall r, In r (concat rs) -> like f A b cvs r) /\
    forall e ls lgs, obeys (nl_ev f) e -> Forall2 (fun h l => joint_lp o h e = Ok l) hs ls -> Forall2 (fun g l => lp g e = Ok l) gs lgs ->
      Forall2 (fun r l => joint_lp o r e = Ok l) (concat rs) (concat (map (fun lg => map (fun l => vadd l lg) ls) lgs)).
Proof.
  intros Ho H HG HM. induction gs as [|g gs IH].
  - exists []. split; [reflexivity|]. split; [cbn; lia|]. split; [intros r []|]. intros e ls lgs _ _ F. inversion F. constructor.
  - destruct IH as (rs & Ers & Lrs & Hrs & Frs); [intros x Hx; apply HG; now right|]. destruct (HG g (or_introl eq_refl)) as (Sg & Vg).
    destruct (mapM_F2 (fun h => nl_multiply_gauss h g) (fun h r => like f A b cvs r /\ forall e l lg, obeys (nl_ev f) e -> joint_lp o h e = Ok l -> lp g e = Ok lg -> joint_lp o r e = Ok (vadd l lg)) hs) as (r1 & E1 & F1).
    { intros h Hh. apply like_multiply; [exact Ho|now apply H|exact Sg|now rewrite Vg]. }
    exists (r1 :: rs). cbn [mapM]. rewrite E1. cbn [bind]. rewrite Ers. cbn [bind]. split; [reflexivity|]. cbn [concat]. split; [rewrite app_length, Lrs, <- (F2_length _ _ _ F1); cbn; lia|]. split.
    + intros r Hr. apply in_app_or in Hr. destruct Hr as [Hr|Hr]; [|now apply Hrs]. destruct (F2_in_r _ _ _ r F1 Hr) as (h & _ & P & _). exact P.
    + intros e ls lgs He Fl Fg. inversion Fg as [|? lg ? lgs' Hlg Fg']; subst. cbn [map concat]. apply Forall2_app; [|now apply Frs].
      clear -F1 Fl Hlg He. revert ls Fl. induction F1 as [|h r hs r1 (_ & P) F1 IH]; intros ls Fl; inversion Fl; subst; cbn [map]; constructor; [now apply P|now apply IH].
Qed.
Definition not_split (a : nlgm) (m : gmix) : Prop := nm_split a = false \/ length (gm_vars m) <> 1%nat \/ length (gm_comps m) <> 1%nat.
Theorem nm_multiply_mix o f A b cvs a m ja : oracle_ok o -> NoDup (nl_vars f) -> nm_good f A b cvs a -> nm_joint_distribution o a = Ok ja -> wf_mix m -> (forall g, In g (gm_comps m) -> solid g) ->
  message_for f cvs (gm_vars m) -> not_split a m ->
  exists r jr, nm_multiply a (AMix m) = Ok r /\ nm_good f A b cvs r /\ length (nm_nlgs r) = (length (nm_nlgs a) * length (gm_comps m))%nat /\
    nm_joint_distribution o r = Ok jr /\ gm_vars jr = gm_vars ja /\
    forall e p q, obeys (nl_ev f) e -> mixpot ja e = Ok (Fin p) -> mixpot m e = Ok (Fin q) -> mixpot jr e = Ok (Fin (p * q)).
Proof.
  intros Ho Hd Ga Eja Wm Sm HM NS. pose proof Ga as (Hn & Va & Ha). pose proof Wm as (Nm & Cm).
  destruct (pairs_ok o f A b cvs (nm_nlgs a) (gm_comps m) (gm_vars m) Ho Ha) as (rs & Ers & Lrs & Hrs & Frs); [intros g Hg; split; [now apply Sm|now apply Cm]|exact HM|].
  assert (Nrs : concat rs <> []). { intros E. rewrite E in Lrs. cbn in Lrs. destruct (nm_nlgs a); [congruence|]. destruct (gm_comps m); [congruence|]. cbn in Lrs. discriminate Lrs. }
  destruct (mk_nlgm_ok o f A b cvs (concat rs) true Ho Hd Nrs Hrs) as (r & Er & _ & Gr & Fr). destruct (nm_joint_spec o f A b cvs r Ho Gr) as (jr & Ejr & Wjr & Vjr & _ & Pjr & _).
  destruct (nm_joint_spec o f A b cvs a Ho Ga) as (ja' & Eja' & Wja & Vja & _ & _ & Pja). rewrite Eja in Eja'. injection Eja' as <-.
  exists r, jr. split.
  - unfold nm_multiply. cbn [bind].
    assert (SP : nm_split a && Nat.eqb (length (gm_vars m)) 1 && Nat.eqb (length (gm_comps m)) 1 = false).
    { destruct NS as [->|[N|N]]; [reflexivity| |]; apply Nat.eqb_neq in N; rewrite N; [now rewrite Bool.andb_false_r|apply Bool.andb_false_r]. }
    rewrite SP. cbn [bind]. rewrite Ers. cbn [bind]. exact Er.
  - split; [exact Gr|]. split; [now rewrite <- (F2_length _ _ _ Fr)|]. split; [exact Ejr|]. split; [congruence|]. intros e p q He Hp Hq.
    destruct (Pja e p Hp) as (ls & Fl & Il & ->). destruct (mixpot_fin m e q Wm Hq) as (lgs & Fg & Ig & ->). destruct (Rsum_pairs ls lgs Il Ig) as (R1 & R2). rewrite <- R2. apply Pjr; [|exact R1].
    specialize (Frs e ls lgs He Fl Fg). revert Frs. generalize (concat (map (fun lg => map (fun l => vadd l lg) ls) lgs)). clear -Fr He. induction Fr as [|h d hs ds P Fr IH]; intros ks F; inversion F; subst; constructor; [now apply P|now apply IH].
Qed.
(** The product of one nonlinear Gaussian with a mixture. *)
Lemma concat_single {X} (l : list X) : concat (map (fun x => [x]) l) = l.
Proof. induction l; cbn; congruence. Qed.
Theorem nl_multiply_mix o f A b c m j : oracle_ok o -> nl_good A b c f -> nl_joint_distribution o f = Ok j -> wf_mix m -> (forall g, In g (gm_comps m) -> solid g) ->
  message_for f (ga_vars c) (gm_vars m) ->
  exists r jr, nl_multiply f (AMix m) = Ok (Datatypes.inr r) /\ nm_good f A b (ga_vars c) r /\ length (nm_nlgs r) = length (gm_comps m) /\
    nm_joint_distribution o r = Ok jr /\ gm_vars jr = ga_vars j /\
    forall e l q, obeys (nl_ev f) e -> lp j e = Ok l -> is_lp l -> mixpot m e = Ok (Fin q) -> mixpot jr e = Ok (Fin (pot l * q)).
Proof.
  intros Ho Gf Ej Wm Sm HM. pose proof Gf as (Wf & OK & Ec & IN). pose proof Wf as (Hd & _). pose proof Wm as (Nm & Cm).
  assert (Lf : like f A b (ga_vars c) f) by (split; [reflexivity|split; [reflexivity|split; [reflexivity|now exists c]]]).
  destruct (mapM_F2 (nl_multiply_gauss f) (fun g r => like f A b (ga_vars c) r /\ forall e l lg, obeys (nl_ev f) e -> joint_lp o f e = Ok l -> lp g e = Ok lg -> joint_lp o r e = Ok (vadd l lg)) (gm_comps m)) as (rs & Ers & Frs).
  { intros g Hg. apply like_multiply; [exact Ho|exact Lf|now apply Sm|]. destruct (Cm g Hg) as (_ & ->). exact HM. }
  destruct (mk_nlgm_ok o f A b (ga_vars c) rs true Ho Hd) as (r & Er & _ & Gr & Fr).
  { apply F2_length in Frs. destruct rs; [destruct (gm_comps m); [congruence|discriminate Frs]|discriminate]. }
  { intros r Hr. destruct (F2_in_r _ _ _ r Frs Hr) as (h & _ & P & _). exact P. }
  destruct (nm_joint_spec o f A b (ga_vars c) r Ho Gr) as (jr & Ejr & Wjr & Vjr & _ & Pjr & _). exists r, jr. split; [unfold nl_multiply; rewrite Ers; cbn [bind]; now rewrite Er|].
  split; [exact Gr|]. split; [now rewrite <- (F2_length _ _ _ Fr), <- (F2_length _ _ _ Frs)|]. split; [exact Ejr|]. split; [rewrite Vjr; symmetry; now apply (nl_joint_order o f A b c j Ho Gf)|].
  intros e l q He Hl Il Hq. destruct (mixpot_fin m e q Wm Hq) as (lgs & Fg & Ig & ->). destruct (Rsum_pairs [l] lgs) as (R1 & R2); [intros x [<-|[]]; exact Il|exact Ig|].
  cbn [map] in R1, R2. assert (EC : forall gs, concat (map (fun g => [vadd l g]) gs) = map (vadd l) gs) by (induction gs; cbn; congruence). rewrite EC in R1, R2. rewrite Rsum_cons in R2. cbn [Rsum fold_right] in R2. rewrite Rplus_0_r in R2.
  rewrite <- R2. apply Pjr; [|exact R1]. assert (JF : joint_lp o f e = Ok l) by (unfold joint_lp; rewrite Ej; exact Hl).
  assert (F0 : Forall2 (fun r l => joint_lp o r e = Ok l) rs (map (vadd l) lgs)).
  { clear -Frs Fg JF He. revert lgs Fg. induction Frs as [|g r gs rs (_ & P) Frs IH]; intros lgs Fg; inversion Fg; subst; cbn [map]; constructor; [now apply P|now apply IH]. }
  revert F0. generalize (map (vadd l) lgs). clear -Fr He. induction Fr as [|h d hs ds P Fr IH]; intros ks F; inversion F; subst; constructor; [now apply P|now apply IH].
Qed.

(** What does not work. *)
Lemma nm_multiply_gauss_error a g : nm_multiply a (AGauss g) = Err TypeError.
Proof. reflexivity. Qed.
Lemma nm_marginalize_error o a vrs keep r : nm_marginalize o a vrs keep = Ok r -> False.
Proof. unfold nm_marginalize. destruct (mapM _ _) as [[|g gs]|]; cbn; discriminate. Qed.
Lemma nm_marginalize_type o f A b cvs a xs : oracle_ok o -> nm_good f A b cvs a -> (forall h, In h (nm_nlgs a) -> exists g, nl_marginalize o h xs true = Ok g) -> nm_marginalize o a xs true = Err TypeError.
Proof.
  intros Ho (Hn & _) H. destruct (mapM_F2 (fun h => nl_marginalize o h xs true) (fun _ _ => True) (nm_nlgs a)) as (gs & E & F); [intros h Hh; destruct (H h Hh) as (g & Eg); now exists g|].
  unfold nm_marginalize. rewrite E. cbn [bind]. destruct gs; [|reflexivity]. destruct (nm_nlgs a); [congruence|inversion F].
Qed.
Lemma nm_copy_split o f A b cvs a : oracle_ok o -> NoDup (nl_vars f) -> nm_good f A b cvs a -> exists r, nm_copy a = Ok r /\ nm_split r = true /\ nm_good f A b cvs r.
Proof. intros Ho Hd (Hn & Va & Ha). destruct (mk_nlgm_ok o f A b cvs (nm_nlgs a) true Ho Hd Hn Ha) as (r & Er & Sr & Gr & _). exists r. now split. Qed.
Lemma nl_divide_mix_error o f m : nl_wf f -> nl_divide o f (AMix m) = Err AttributeError.
Proof. intros Wf. destruct (nl_copy_spec f Wf) as (d & Ed & _). unfold nl_divide. now rewrite Ed. Qed.
Lemma nl_divide_no_update o f g : nl_wf f -> ga_vac g = false -> incl (ga_vars g) (nl_cal f) -> nl_upd f = None -> nl_divide_gauss o f g = Err AttributeError.
Proof.
  intros Wf Vg Ig Eu. destruct (nl_copy_spec f Wf) as (d & Ed & ((K1 & K2 & _) & _ & _ & K8 & _)). unfold nl_divide_gauss. rewrite Ed. cbn [bind]. rewrite Vg, K2, (proj2 (subsetb_incl _ _) Ig).
  unfold opt_same in K8. rewrite Eu in K8. destruct (nl_upd d); [contradiction|reflexivity].
Qed.
Lemma nl_divide_no_cond o f g : nl_wf f -> ga_vac g = false -> incl (ga_vars g) (nl_cing f) -> ga_vars g <> [] -> nl_cond f = None -> nl_divide_gauss o f g = Err NotImplementedError.
Proof.
  intros Wf Vg Ig Ng Eu. destruct (nl_copy_spec f Wf) as (d & Ed & ((K1 & K2 & _) & _ & _ & _ & K9)). unfold nl_divide_gauss. rewrite Ed. cbn [bind]. rewrite Vg, K1, K2.
  assert (NS : subsetb (ga_vars g) (nl_cal f) = false).
  { destruct (subsetb (ga_vars g) (nl_cal f)) eqn:E; [|reflexivity]. exfalso. apply subsetb_incl in E. destruct (ga_vars g) as [|v l]; [congruence|].
    destruct Wf as (Hd & _). exact (proj2 (proj2 (NoDup_app_elim _ _ Hd)) v (Ig v (or_introl eq_refl)) (E v (or_introl eq_refl))). }
  rewrite NS, (proj2 (subsetb_incl _ _) Ig). unfold opt_same in K9. rewrite Eu in K9. destruct (nl_cond d); [contradiction|reflexivity].
Qed.
