(** Mixtures: construction, potentials, products, quotients, restrictions. *)
From Verif Require Export MixModel GaussEq GaussExamples.
#[global] Set Bullet Behavior "Strict Subproofs".

Definition wf_mix (a : gmix) : Prop :=
  gm_comps a <> [] /\ forall c, In c (gm_comps a) -> wf_gauss c /\ ga_vars c = gm_vars a.
(** The value of the mixture at an assignment of values to names. *)
Definition mixpot (a : gmix) (e : string -> R) : res val := mix_potential a (map e (gm_vars a)).
Definition mixlp (a : gmix) (e : string -> R) : res val := mix_log_potential a (map e (gm_vars a)) None.

Lemma mapM_F2 {A B} (f : A -> res B) (P : A -> B -> Prop) l :
  (forall x, In x l -> exists y, f x = Ok y /\ P x y) -> exists ys, mapM f l = Ok ys /\ Forall2 P l ys.
Proof.
  induction l as [|x l IH]; intros H; [exists []; split; [reflexivity|constructor]|].
  destruct (H x (or_introl eq_refl)) as (y & Ey & Py). destruct IH as (ys & Eys & Pys); [intros z Hz; apply H; now right|].
  exists (y :: ys). cbn [mapM]. rewrite Ey. cbn [bind]. rewrite Eys. split; [reflexivity|]. now constructor.
Qed.
Lemma F2_in_r {A B} (P : A -> B -> Prop) l m y : Forall2 P l m -> In y m -> exists x, In x l /\ P x y.
Proof.
  induction 1 as [|x y' l m Hxy H IH]; intros Hy; [destruct Hy|]. destruct Hy as [<-|Hy]; [exists x; split; [now left|exact Hxy]|].
  destruct (IH Hy) as (x' & Hx & Px). exists x'. split; [now right|exact Px].
Qed.
Lemma F2_in_l {A B} (P : A -> B -> Prop) l m x : Forall2 P l m -> In x l -> exists y, In y m /\ P x y.
Proof.
  induction 1 as [|x' y l m Hxy H IH]; intros Hx; [destruct Hx|]. destruct Hx as [<-|Hx]; [exists y; split; [now left|exact Hxy]|].
  destruct (IH Hx) as (y' & Hy & Py). exists y'. split; [now right|exact Py].
Qed.
Lemma F2_imp {A B} (P Q : A -> B -> Prop) l m : (forall x y, In x l -> P x y -> Q x y) -> Forall2 P l m -> Forall2 Q l m.
Proof.
  intros H F. induction F as [|x y l m Hxy F IH]; [constructor|]. constructor; [apply H; [now left|exact Hxy]|].
  apply IH. intros x' y' Hx. apply H. now right.
Qed.

(** Construction *)
Definition same_obj (f c : gauss) : Prop := wf_gauss c /\ ga_vars c = ga_vars f /\ ga_can c = ga_can f /\ ga_cov c = ga_cov f.
Lemma same_obj_lp f c x vrs : same_obj f c -> log_potential c x vrs = log_potential f x vrs.
Proof. intros (_ & V & C & D). unfold log_potential. now rewrite V, C, D. Qed.
Lemma same_obj_lp' f c e : same_obj f c -> lp c e = lp f e.
Proof. intros H. unfold lp. rewrite (same_obj_lp f c _ _ H). destruct H as (_ & V & _). now rewrite V. Qed.
Lemma mk_mix_ok fs vs : fs <> [] -> (forall f, In f fs -> wf_gauss f /\ ga_vars f = vs) ->
  exists r, mk_mix fs = Ok r /\ gm_vars r = vs /\ wf_mix r /\ Forall2 same_obj fs (gm_comps r).
Proof.
  intros Hn H. destruct (mapM_F2 g_copy same_obj fs) as (cs & Ec & F).
  { intros f Hf. destruct (H f Hf) as (W & _). destruct (g_copy_ok f W) as (c & E & V & C & D & Wc). exists c. split; [exact E|].
    split; [exact Wc|]. now split. }
  destruct fs as [|f fs]; [congruence|]. unfold mk_mix. rewrite Ec. cbn [bind].
  destruct (H f (or_introl eq_refl)) as (Wf & Vf).
  assert (G : forall c, In c cs -> wf_gauss c /\ ga_vars c = vs).
  { intros c Hc. destruct (F2_in_r _ _ _ c F Hc) as (g & Hg & (Wc & V & _)). split; [exact Wc|]. rewrite V. now apply H. }
  assert (forallb (fun c => eqb (ga_vars f) (ga_vars c)) cs = true) as ->.
  { apply forallb_forall. intros c Hc. destruct (G c Hc) as (_ & ->). apply eqb_true. exact Vf. }
  eexists. split; [reflexivity|]. cbn [gm_vars gm_comps]. split; [exact Vf|]. split; [|exact F].
  split; cbn [gm_vars gm_comps]; [inversion F; subst; discriminate|]. intros c Hc. destruct (G c Hc) as (Wc & Vc). split; [exact Wc|]. congruence.
Qed.

(** Potentials *)
Lemma wf_mix_lps a e : wf_mix a -> exists ls, Forall2 (fun c l => lp c e = Ok l) (gm_comps a) ls /\
  ls <> [] /\ mixpot a e = Ok (vsum (map vexp ls)) /\ mixlp a e = Ok (lse ls).
Proof.
  intros (Hn & H). destruct (mapM_F2 (fun c => log_potential c (map e (gm_vars a)) None) (fun c l => lp c e = Ok l) (gm_comps a)) as (ls & E & F).
  { intros c Hc. destruct (H c Hc) as (W & V). destruct (lp_exists c e W) as (l & El). rewrite V in El. exists l. split; [exact El|]. unfold lp. now rewrite V. }
  assert (Hls : ls <> []) by (inversion F; congruence).
  exists ls. split; [exact F|]. split; [exact Hls|]. split.
  - unfold mixpot, mix_potential, vsum. generalize (Fin 0) as s. clear Hn E Hls. revert ls F.
    assert (HV : forall c, In c (gm_comps a) -> ga_vars c = gm_vars a) by (intros c Hc; apply H; exact Hc).
    clear H. revert HV. generalize (gm_comps a) as cs. induction cs as [|c cs IH]; intros HV ls F s.
    + inversion F. reflexivity.
    + inversion F as [|? l ? ls' Hl F']; subst. cbn [foldM map fold_left].
      unfold potential at 1. unfold lp in Hl. rewrite HV in Hl by now left. rewrite Hl. cbn [bind].
      apply IH; [intros c' Hc'; apply HV; now right|exact F'].
  - unfold mixlp, mix_log_potential. rewrite E. cbn [bind]. destruct ls; [congruence|reflexivity].
Qed.
Lemma vadd_fin_inv x y r : vadd x y = Fin r -> exists a b, x = Fin a /\ y = Fin b /\ r = (a + b)%R.
Proof. destruct x, y; cbn; intros E; try discriminate. injection E as <-. eauto. Qed.
Lemma vsum_fin_inv l : forall s p, fold_left vadd (map vexp l) s = Fin p -> (forall v, In v l -> is_lp v) /\ exists s', s = Fin s'.
Proof.
  induction l as [|v l IH]; cbn [map fold_left]; intros s p E; [split; [intros v []|eauto]|].
  destruct (IH _ _ E) as (H & s' & Es). destruct (vadd_fin_inv _ _ _ Es) as (a & b & -> & Ev & _). split; [|eauto].
  intros u [<-|Hu]; [|now apply H]. destruct v; cbn in *; try discriminate; exact I.
Qed.
Lemma vsum_lp l : (forall v, In v l -> is_lp v) -> vsum (map vexp l) = Fin (Rsum (map pot l)).
Proof.
  intros H. unfold vsum. enough (G : forall s, fold_left vadd (map vexp l) (Fin s) = Fin (s + Rsum (map pot l))) by (rewrite G; f_equal; ring).
  induction l as [|v l IH]; intros s; [cbn; f_equal; ring|]. cbn [map fold_left].
  assert (E : vadd (Fin s) (vexp v) = Fin (s + pot v)).
  { specialize (H v (or_introl eq_refl)). destruct v; cbn in *; try contradiction; reflexivity. }
  rewrite E, IH by (intros u Hu; apply H; now right). rewrite Rsum_cons. f_equal. ring.
Qed.
Lemma mixpot_fin a e p : wf_mix a -> mixpot a e = Ok (Fin p) -> exists ls, Forall2 (fun c l => lp c e = Ok l) (gm_comps a) ls /\
  (forall l, In l ls -> is_lp l) /\ p = Rsum (map pot ls).
Proof.
  intros W E. destruct (wf_mix_lps a e W) as (ls & F & _ & E1 & _). rewrite E in E1. injection E1 as E1. exists ls. split; [exact F|].
  destruct (vsum_fin_inv ls (Fin 0) p (eq_sym E1)) as (H & _). split; [exact H|]. rewrite (vsum_lp ls H) in E1. now injection E1.
Qed.
Lemma mixpot_of a e ls : wf_mix a -> Forall2 (fun c l => lp c e = Ok l) (gm_comps a) ls -> (forall l, In l ls -> is_lp l) ->
  mixpot a e = Ok (Fin (Rsum (map pot ls))).
Proof.
  intros W F H. destruct (wf_mix_lps a e W) as (ls' & F' & _ & E1 & _). rewrite E1.
  assert (ls' = ls) as ->.
  { clear -F F'. revert ls F. induction F' as [|c l cs ls' Hl F' IH]; intros ls F; inversion F; subst; [reflexivity|].
    f_equal; [congruence|]. now apply IH. }
  now rewrite vsum_lp.
Qed.
Lemma mixlp_rlog a e p : wf_mix a -> mixpot a e = Ok (Fin p) -> mixlp a e = Ok (rlog p).
Proof.
  intros W E. destruct (mixpot_fin a e p W E) as (ls & F & H & ->). destruct (wf_mix_lps a e W) as (ls' & F' & Hn & _ & E2).
  assert (ls' = ls) as ->.
  { clear -F F'. revert ls F. induction F' as [|c l cs ls' Hl F' IH]; intros ls F; inversion F; subst; [reflexivity|].
    f_equal; [congruence|]. now apply IH. }
  rewrite E2. unfold lse.
  assert (existsb is_nan ls = false) as ->.
  { apply not_true_iff_false. rewrite existsb_exists. intros (v & Hv & Hx). specialize (H v Hv). destruct v; cbn in *; try discriminate; tauto. }
  assert (existsb is_pinf ls = false) as ->; [|reflexivity].
  apply not_true_iff_false. rewrite existsb_exists. intros (v & Hv & Hx). specialize (H v Hv). destruct v; cbn in *; try discriminate; tauto.
Qed.
Lemma F2_lp_comp (cs ds : list gauss) e ls : Forall2 same_obj cs ds -> Forall2 (fun c l => lp c e = Ok l) cs ls -> Forall2 (fun c l => lp c e = Ok l) ds ls.
Proof.
  intros F. revert ls. induction F as [|c d cs ds H F IH]; intros ls G; inversion G; subst; [constructor|].
  constructor; [now rewrite (same_obj_lp' c d e H)|]. now apply IH.
Qed.
Lemma pot_vadd x y : is_lp x -> is_lp y -> is_lp (vadd x y) /\ pot (vadd x y) = (pot x * pot y)%R.
Proof.
  destruct x, y; cbn; intros H1 H2; try contradiction; (split; [exact I|]); try ring. now rewrite exp_plus.
Qed.

(** Products *)
Lemma mult_row ca (cs : list gauss) vs : wf_gauss ca -> (forall c, In c cs -> wf_gauss c /\ ga_vars c = vs) ->
  exists rs, mapM (g_multiply ca) cs = Ok rs /\ length rs = length cs /\
    (forall r, In r rs -> wf_gauss r /\ ga_vars r = new_vars (ga_vars ca) vs) /\
    forall e la ls, lp ca e = Ok la -> Forall2 (fun c l => lp c e = Ok l) cs ls -> Forall2 (fun r l => lp r e = Ok l) rs (map (vadd la) ls).
Proof.
  intros Wa H. destruct (mapM_F2 (g_multiply ca) (fun c r => wf_gauss r /\ ga_vars r = new_vars (ga_vars ca) vs /\
    forall e l1 l2, lp ca e = Ok l1 -> lp c e = Ok l2 -> lp r e = Ok (vadd l1 l2)) cs) as (rs & E & F).
  { intros c Hc. destruct (H c Hc) as (Wc & Vc). destruct (g_multiply_spec ca c Wa Wc) as (r & E & W & V & L). exists r.
    split; [exact E|]. split; [exact W|]. split; [congruence|exact L]. }
  exists rs. split; [exact E|]. split; [symmetry; eapply Forall2_length; exact F|]. split.
  - intros r Hr. destruct (F2_in_r _ _ _ r F Hr) as (c & _ & W & V & _). now split.
  - intros e la ls Hla. clear E H. revert ls. induction F as [|c r cs rs (_ & _ & L) F IH]; intros ls G; inversion G; subst; [constructor|].
    cbn [map]. constructor; [now apply L|]. now apply IH.
Qed.
Lemma Rsum_pot_row la ls : is_lp la -> (forall l, In l ls -> is_lp l) ->
  (forall l, In l (map (vadd la) ls) -> is_lp l) /\ Rsum (map pot (map (vadd la) ls)) = (pot la * Rsum (map pot ls))%R.
Proof.
  intros Ha H. split.
  - intros l Hl. apply in_map_iff in Hl. destruct Hl as (x & <- & Hx). apply pot_vadd; auto.
  - induction ls as [|l ls IH]; [cbn; ring|]. cbn [map]. rewrite !Rsum_cons, IH by (intros x Hx; apply H; now right).
    destruct (pot_vadd la l Ha (H l (or_introl eq_refl))) as (_ & ->). ring.
Qed.
Lemma mix_multiply_spec a b : wf_mix a -> wf_mix b ->
  exists r, mix_multiply a b = Ok r /\ wf_mix r /\ length (gm_comps r) = (length (gm_comps a) * length (gm_comps b))%nat /\
    gm_vars r = new_vars (gm_vars a) (gm_vars b) /\
    forall e p q, mixpot a e = Ok (Fin p) -> mixpot b e = Ok (Fin q) -> mixpot r e = Ok (Fin (p * q)).
Proof.
  intros Wa Wb. pose proof Wa as (Na & Ha). pose proof Wb as (Nb & Hb).
  assert (G : exists rows, mapM (fun ca => mapM (fun cb => g_multiply ca cb) (gm_comps b)) (gm_comps a) = Ok rows /\
    length (concat rows) = (length (gm_comps a) * length (gm_comps b))%nat /\
    (forall r, In r (concat rows) -> wf_gauss r /\ ga_vars r = new_vars (gm_vars a) (gm_vars b)) /\
    forall e lsa lsb, Forall2 (fun c l => lp c e = Ok l) (gm_comps a) lsa -> Forall2 (fun c l => lp c e = Ok l) (gm_comps b) lsb ->
      Forall2 (fun r l => lp r e = Ok l) (concat rows) (flat_map (fun la => map (vadd la) lsb) lsa)).
  { clear Na Wa. revert Ha. generalize (gm_vars a) as va. generalize (gm_comps a) as cas. intros cas va Ha. induction cas as [|ca cas IH].
    - exists []. split; [reflexivity|]. split; [reflexivity|]. split; [intros r []|]. intros e lsa lsb F _. inversion F. constructor.
    - destruct IH as (rows & E & Ln & H1 & H2); [intros c Hc; apply Ha; now right|]. destruct (Ha ca (or_introl eq_refl)) as (Wc & Vc).
      destruct (mult_row ca (gm_comps b) (gm_vars b) Wc Hb) as (rs & Er & Lr & R1 & R2). exists (rs :: rows). cbn [mapM].
      change (fun cb => g_multiply ca cb) with (g_multiply ca). rewrite Er. cbn [bind]. rewrite E. cbn [bind concat].
      split; [reflexivity|]. split; [rewrite app_length, Ln, Lr; cbn; lia|]. split.
      + intros r Hr. apply in_app_or in Hr. destruct Hr as [Hr|Hr]; [rewrite <- Vc; now apply R1|now apply H1].
      + intros e lsa lsb F Fb. inversion F as [|? la ? lsa' Hl F']; subst. cbn [flat_map]. apply Forall2_app; [now apply R2|now apply H2]. }
  destruct G as (rows & E & Ln & H1 & H2). unfold mix_multiply. rewrite E. cbn [bind].
  destruct (mk_mix_ok (concat rows) (new_vars (gm_vars a) (gm_vars b))) as (r & Er & Vr & Wr & F); [|exact H1|].
  { destruct (concat rows); [|discriminate]. cbn in Ln. destruct (gm_comps a); [congruence|]. destruct (gm_comps b); [congruence|]. cbn in Ln. lia. }
  exists r. split; [exact Er|]. split; [exact Wr|]. split; [rewrite <- Ln; symmetry; eapply Forall2_length; exact F|]. split; [exact Vr|].
  intros e p q Ep Eq. destruct (mixpot_fin a e p Wa Ep) as (lsa & Fa & La & ->). destruct (mixpot_fin b e q Wb Eq) as (lsb & Fb & Lb & ->).
  pose proof (H2 e lsa lsb Fa Fb) as F2. rewrite (mixpot_of r e _ Wr (F2_lp_comp _ _ e _ F F2)).
  - do 2 f_equal. clear -La Lb. induction lsa as [|la lsa IH]; [cbn; ring|]. cbn [flat_map map]. rewrite map_app, Rsum_app, Rsum_cons.
    destruct (Rsum_pot_row la lsb (La la (or_introl eq_refl)) Lb) as (_ & ->). rewrite IH by (intros x Hx; apply La; now right). ring.
  - intros l Hl. apply in_flat_map in Hl. destruct Hl as (la & Hla & Hl). destruct (Rsum_pot_row la lsb (La la Hla) Lb) as (Hx & _). now apply Hx.
Qed.
(** A component-wise operation given by its effect on the log potential. *)
Lemma mix_comp_spec (op : gauss -> res gauss) a nv (vop : (string -> R) -> val -> val) (D : (string -> R) -> Prop) :
  wf_mix a ->
  (forall c, In c (gm_comps a) -> exists r, op c = Ok r /\ wf_gauss r /\ ga_vars r = nv /\
     forall e l, D e -> lp c e = Ok l -> lp r e = Ok (vop e l)) ->
  exists r, (let* cs := mapM op (gm_comps a) in mk_mix cs) = Ok r /\ wf_mix r /\ gm_vars r = nv /\
    length (gm_comps r) = length (gm_comps a) /\
    forall e ls, D e -> Forall2 (fun c l => lp c e = Ok l) (gm_comps a) ls -> Forall2 (fun c l => lp c e = Ok l) (gm_comps r) (map (vop e) ls).
Proof.
  intros (Na & Ha) H. destruct (mapM_F2 op (fun c r => wf_gauss r /\ ga_vars r = nv /\
    forall e l, D e -> lp c e = Ok l -> lp r e = Ok (vop e l)) (gm_comps a)) as (cs & E & F).
  { intros c Hc. destruct (H c Hc) as (r & E & W & V & L). exists r. auto. }
  rewrite E. cbn [bind]. destruct (mk_mix_ok cs nv) as (r & Er & Vr & Wr & Fr).
  - inversion F; congruence.
  - intros c Hc. destruct (F2_in_r _ _ _ c F Hc) as (c0 & _ & W & V & _). now split.
  - exists r. split; [exact Er|]. split; [exact Wr|]. split; [exact Vr|].
    split; [transitivity (length cs); symmetry; eapply Forall2_length; eassumption|].
    intros e ls De G. apply (F2_lp_comp cs _ e _ Fr). clear -F G De. revert ls G.
    induction F as [|c r cs' rs (_ & _ & L) F IH]; intros ls G; inversion G; subst; [constructor|]. cbn [map]. constructor; [now apply L|]. now apply IH.
Qed.
Lemma mix_multiply_gauss_spec a f : wf_mix a -> wf_gauss f ->
  exists r, mix_multiply_gauss a f = Ok r /\ wf_mix r /\ gm_vars r = new_vars (gm_vars a) (ga_vars f) /\
    forall e p l, mixpot a e = Ok (Fin p) -> lp f e = Ok l -> is_lp l -> mixpot r e = Ok (Fin (p * pot l)).
Proof.
  intros Wa Wf. pose proof Wa as (Na & Ha).
  destruct (mapM_F2 (fun c => g_multiply c f) (fun c r => wf_gauss r /\ ga_vars r = new_vars (gm_vars a) (ga_vars f) /\
    forall e l1 l2, lp c e = Ok l1 -> lp f e = Ok l2 -> lp r e = Ok (vadd l1 l2)) (gm_comps a)) as (cs & E & F).
  { intros c Hc. destruct (Ha c Hc) as (Wc & Vc). destruct (g_multiply_spec c f Wc Wf) as (r & E & W & V & L). exists r.
    split; [exact E|]. split; [exact W|]. split; [congruence|exact L]. }
  unfold mix_multiply_gauss. rewrite E. cbn [bind]. destruct (mk_mix_ok cs (new_vars (gm_vars a) (ga_vars f))) as (r & Er & Vr & Wr & Fr).
  - inversion F; congruence.
  - intros c Hc. destruct (F2_in_r _ _ _ c F Hc) as (c0 & _ & W & V & _). now split.
  - exists r. split; [exact Er|]. split; [exact Wr|]. split; [exact Vr|]. intros e p l Ep El Hl.
    destruct (mixpot_fin a e p Wa Ep) as (ls & Fa & La & ->).
    rewrite (mixpot_of r e (map (fun x => vadd x l) ls) Wr).
    + do 2 f_equal. clear -La Hl. induction ls as [|x ls IH]; [cbn; ring|]. cbn [map]. rewrite !Rsum_cons, IH by (intros y Hy; apply La; now right).
      destruct (pot_vadd x l (La x (or_introl eq_refl)) Hl) as (_ & ->). ring.
    + apply (F2_lp_comp cs _ e _ Fr). clear -F Fa El. revert ls Fa.
      induction F as [|c r cs' rs (_ & _ & L) F IH]; intros ls G; inversion G; subst; [constructor|]. cbn [map]. constructor; [now apply L|]. now apply IH.
    + intros y Hy. apply in_map_iff in Hy. destruct Hy as (x & <- & Hx). apply pot_vadd; auto.
Qed.
Lemma mix_divide_gauss_spec a f : wf_mix a -> wf_gauss f ->
  exists r, mix_divide_gauss a f = Ok r /\ wf_mix r /\ gm_vars r = new_vars (gm_vars a) (ga_vars f) /\
    forall e p l, mixpot a e = Ok (Fin p) -> lp f e = Ok (Fin l) -> mixpot r e = Ok (Fin (p / exp l)).
Proof.
  intros Wa Wf. pose proof Wa as (Na & Ha).
  destruct (mapM_F2 (fun c => g_divide c f) (fun c r => wf_gauss r /\ ga_vars r = new_vars (gm_vars a) (ga_vars f) /\
    forall e l1 l2, lp c e = Ok l1 -> lp f e = Ok l2 -> lp r e = Ok (vsub l1 l2)) (gm_comps a)) as (cs & E & F).
  { intros c Hc. destruct (Ha c Hc) as (Wc & Vc). destruct (g_divide_spec c f Wc Wf) as (r & E & W & V & L). exists r.
    split; [exact E|]. split; [exact W|]. split; [congruence|exact L]. }
  unfold mix_divide_gauss. rewrite E. cbn [bind]. destruct (mk_mix_ok cs (new_vars (gm_vars a) (ga_vars f))) as (r & Er & Vr & Wr & Fr).
  - inversion F; congruence.
  - intros c Hc. destruct (F2_in_r _ _ _ c F Hc) as (c0 & _ & W & V & _). now split.
  - exists r. split; [exact Er|]. split; [exact Wr|]. split; [exact Vr|]. intros e p l Ep El.
    destruct (mixpot_fin a e p Wa Ep) as (ls & Fa & La & ->).
    rewrite (mixpot_of r e (map (fun x => vsub x (Fin l)) ls) Wr).
    + do 2 f_equal. clear -La. induction ls as [|x ls IH]; [cbn; unfold Rdiv; ring|]. cbn [map]. rewrite !Rsum_cons, IH by (intros y Hy; apply La; now right).
      destruct (pot_vadd x (Fin (- l)) (La x (or_introl eq_refl)) I) as (_ & Hp). unfold vsub. cbn [vopp]. rewrite Hp. cbn [pot]. rewrite exp_Ropp. unfold Rdiv. ring.
    + apply (F2_lp_comp cs _ e _ Fr). clear -F Fa El. revert ls Fa.
      induction F as [|c r cs' rs (_ & _ & L) F IH]; intros ls G; inversion G; subst; [constructor|]. cbn [map]. constructor; [now apply L|]. now apply IH.
    + intros y Hy. apply in_map_iff in Hy. destruct Hy as (x & <- & Hx). apply pot_vadd; [auto|exact I].
Qed.
Lemma mix_reduce_spec a vrs values : wf_mix a -> (forall c, In c (gm_comps a) -> sym_prec c) -> NoDup vrs -> incl vrs (gm_vars a) ->
  ~ incl (gm_vars a) vrs -> length values = length vrs ->
  exists r, mix_reduce a vrs values = Ok r /\ wf_mix r /\ (forall v, In v (gm_vars r) <-> In v (gm_vars a) /\ ~ In v vrs) /\
    forall e p, map e vrs = values -> mixpot a e = Ok (Fin p) -> mixpot r e = Ok (Fin p).
Proof.
  intros Wa HS Hd Hi Hn Hl. pose proof Wa as (Na & Ha).
  destruct (mix_comp_spec (fun c => g_reduce c vrs values) a (ssort (set_diff (gm_vars a) vrs)) (fun _ l => l) (fun e => map e vrs = values) Wa)
    as (r & Er & Wr & Vr & _ & L).
  { intros c Hc. destruct (Ha c Hc) as (Wc & Vc). rewrite <- Vc in Hi, Hn.
    destruct (g_reduce_spec c vrs values Wc (HS c Hc) Hd Hi Hn Hl) as (r & E & W & _ & V & Lr). exists r. split; [exact E|]. split; [exact W|].
    split; [rewrite V; unfold rest; congruence|]. intros e l He El. unfold lp. rewrite (Lr e He). exact El. }
  exists r. split; [exact Er|]. split; [exact Wr|]. split.
  - intros v. rewrite Vr. destruct (gm_comps a) as [|c cs] eqn:Ec; [congruence|]. destruct (Ha c (or_introl eq_refl)) as (_ & <-). apply rest_In.
  - intros e p He Ep. destruct (mixpot_fin a e p Wa Ep) as (ls & Fa & La & ->). specialize (L e ls He Fa). rewrite map_id in L. now apply mixpot_of.
Qed.
