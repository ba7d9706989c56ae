(** Observing a mixture of nonlinear Gaussians, failures of the joint, and more instances. *)
From Verif Require Export NlgExamples.
From Verif Require Import MixExamples.
Local Open Scope string_scope.
Local Open Scope list_scope.
Local Open Scope R_scope.

Definition with_values (f : nlg) (vrs : list string) (values : list R) : nlg := set_ev f (dupdate (nl_ev f) (dict_of (combine vrs values))).
Lemma like_reduce o f A b cvs h vrs values : oracle_ok o -> NoDup vrs -> length values = length vrs -> ~ incl cvs (vrs ++ dkeys (nl_ev f)) -> like f A b cvs h ->
  exists r, nl_reduce h vrs values = Ok r /\ like (with_values f vrs values) A b cvs r /\
    (forall e l, map e vrs = values -> obeys (nl_ev f) e -> joint_lp o h e = Ok l -> joint_lp o r e = Ok l) /\
    (forall v, In v (jorder o cvs (nl_cal f) (nl_ev (with_values f vrs values))) <-> In v (jorder o cvs (nl_cal f) (nl_ev f)) /\ ~ In v vrs) /\
    (forall e, map e vrs = values -> obeys (nl_ev f) e -> obeys (nl_ev (with_values f vrs values)) e).
Proof.
  intros Ho Hd Hl HN (K1 & K2 & K3 & c & Vc & G). pose proof G as (Wh & OKh & Ec & IN). destruct (nl_joint_spec o h A b c Ho Wh OKh Ec IN) as (j & Ej & _ & _).
  assert (HN' : ~ incl (ga_vars c) (vrs ++ dkeys (nl_ev h))) by now rewrite Vc, K3.
  destruct (nl_reduce_joint o h A b c j vrs values Ho Wh OKh Ec IN Ej Hd Hl HN') as (r & jr & Er & Ejr & Vjr & L).
  pose proof OKh as (O1 & O2 & O3 & O4 & O5 & O6 & O7 & O8).
  destruct (nl_reduce_spec h vrs values Wh O7 Hd Hl) as (r' & Er' & Wr & (Q1 & Q2 & Q3 & Q4 & Q5) & SU & SC & Nk & Ik & Ob). rewrite Er in Er'. injection Er' as <-.
  assert (D : exists d, nl_copy h = Ok d /\ r = with_values d vrs values).
  { unfold nl_reduce in Er. apply bind_ok in Er. destruct Er as (d & Ed & Er). injection Er as <-. now exists d. }
  destruct D as (d & Ed & Rd). pose proof (cond_copy_id h d c Ed Ec (proj1 IN)) as Ecd.
  destruct (nl_copy_spec h Wh) as (d' & Ed' & ((_ & _ & _ & _ & _) & K6 & _)). rewrite Ed in Ed'. injection Ed' as <-.
  assert (Ecr : nl_cond r = Some c) by (rewrite Rd; exact Ecd). assert (Evr : nl_ev r = nl_ev (with_values f vrs values)) by (rewrite Rd; cbn [with_values set_ev nl_ev]; now rewrite K6, K3).
  assert (Gr : nl_good A b c r).
  { split; [exact Wr|]. split; [|split; [exact Ecr|]].
    - unfold nl_ok, nl_vars in *. rewrite Q1, Q2, Q3, Q4. do 6 (split; [assumption|]). split; [exact Nk|]. refine (opt_upd_ok h r _ SU O8); repeat split; assumption.
    - destruct IN as (Sc & Ic & Ha & Hn). split; [exact Sc|]. rewrite Q1. split; [exact Ic|]. split.
      + intros v Hv. destruct (Ha v Hv) as [H|H]; [now left|right; apply Ik; now right].
      + intros HI. apply HN'. intros v Hv. apply in_or_app. apply Ik. now apply HI. }
  exists r. split; [exact Er|]. split; [|split; [|split]].
  - split; [cbn [with_values set_ev nl_cing]; congruence|]. split; [cbn [with_values set_ev nl_cal]; congruence|]. split; [exact Evr|]. now exists c.
  - intros e l He Hob. unfold joint_lp. rewrite Ej, Ejr. cbn [bind]. rewrite <- K3 in Hob. destruct (L e He Hob) as (l' & L1 & L2). congruence.
  - intros v. rewrite <- Evr, <- K3, <- K2, <- Vc. rewrite <- (nl_joint_order o h A b c j Ho G Ej), <- Q2, <- (nl_joint_order o r A b c jr Ho Gr Ejr). apply Vjr.
  - intros e He Hob. rewrite <- Evr. apply Ob. split; [exact He|]. rewrite <- K3 in Hob. intros v x Hv _. now apply Hob.
Qed.
Theorem nm_reduce_joint o f A b cvs a vrs values ja : oracle_ok o -> NoDup (nl_vars f) -> nm_good f A b cvs a -> nm_joint_distribution o a = Ok ja ->
  NoDup vrs -> length values = length vrs -> ~ incl cvs (vrs ++ dkeys (nl_ev f)) ->
  exists r jr, nm_reduce a vrs values = Ok r /\ nm_good (with_values f vrs values) A b cvs r /\ length (nm_nlgs r) = length (nm_nlgs a) /\ nm_joint_distribution o r = Ok jr /\
    (forall v, In v (gm_vars jr) <-> In v (gm_vars ja) /\ ~ In v vrs) /\
    forall e p, map e vrs = values -> obeys (nl_ev f) e -> mixpot ja e = Ok (Fin p) -> mixpot jr e = Ok (Fin p).
Proof.
  intros Ho Hd Ga Eja Hv Hl HN. pose proof Ga as (Hn & Va & Ha). set (f' := with_values f vrs values).
  destruct (mapM_F2 (fun h => nl_reduce h vrs values) (fun h r => like f' A b cvs r /\ (forall e l, map e vrs = values -> obeys (nl_ev f) e -> joint_lp o h e = Ok l -> joint_lp o r e = Ok l)) (nm_nlgs a)) as (rs & Ers & Frs).
  { intros h Hh. destruct (like_reduce o f A b cvs h vrs values Ho Hv Hl HN (Ha h Hh)) as (r & Er & Lr & Jr & _). exists r. now split. }
  assert (Nrs : rs <> []) by (apply F2_length in Frs; destruct rs; [destruct (nm_nlgs a); [congruence|discriminate Frs]|discriminate]).
  destruct (mk_nlgm_ok o f' A b cvs rs true Ho) as (r & Er & _ & Gr & Fr); [exact Hd|exact Nrs|intros r Hr; destruct (F2_in_r _ _ _ r Frs Hr) as (h & _ & P & _); exact P|].
  destruct (nm_joint_spec o f' A b cvs r Ho Gr) as (jr & Ejr & Wjr & Vjr & _ & Pjr & _).
  destruct (nm_joint_spec o f A b cvs a Ho Ga) as (ja' & Eja' & Wja & Vja & _ & _ & Pja). rewrite Eja in Eja'. injection Eja' as <-.
  assert (INFO : (forall v, In v (jorder o cvs (nl_cal f) (nl_ev f')) <-> In v (jorder o cvs (nl_cal f) (nl_ev f)) /\ ~ In v vrs) /\
    (forall e, map e vrs = values -> obeys (nl_ev f) e -> obeys (nl_ev f') e)).
  { destruct (nm_nlgs a) as [|h hs]; [congruence|]. destruct (like_reduce o f A b cvs h vrs values Ho Hv Hl HN (Ha h (or_introl eq_refl))) as (_ & _ & _ & _ & I1 & I2). now split. }
  destruct INFO as (I1 & I2). exists r, jr. split; [unfold nm_reduce; rewrite Ers; exact Er|]. split; [exact Gr|]. split; [now rewrite <- (F2_length _ _ _ Fr), (F2_length _ _ _ Frs)|]. split; [exact Ejr|].
  split; [rewrite Vjr, Vja; exact I1|]. intros e p He Hob Hp. destruct (Pja e p Hp) as (ls & Fl & Il & ->). apply Pjr; [|exact Il].
  assert (F0 : Forall2 (fun r l => joint_lp o r e = Ok l) rs ls).
  { clear -Frs Fl He Hob. revert ls Fl. induction Frs as [|h r hs rs (_ & P) Frs IH]; intros ls Fl; inversion Fl; subst; constructor; [now apply P|now apply IH]. }
  pose proof (I2 e He Hob) as Hob'. revert F0. clear -Fr Hob'. revert ls. induction Fr as [|h d hs ds P Fr IH]; intros ks F; inversion F; subst; constructor; [now apply P|now apply IH].
Qed.

(** With every conditioning variable observed there is no joint. *)
Theorem nl_joint_no_factor o f : nl_wf f -> NoDup (dkeys (nl_ev f)) -> nl_cond f = None -> incl (nl_cing f) (dkeys (nl_ev f)) -> nl_joint_distribution o f = Err UnboundLocalError.
Proof.
  intros Wf Hk Ec Hi. destruct (nl_copy_spec f Wf) as (d & Ed & ((K1 & _) & K6 & _ & _ & K9)). unfold nl_joint_distribution. rewrite Ed. cbn [bind].
  rewrite nl_all_observed; [reflexivity|now rewrite K6| |now rewrite K1, K6]. unfold opt_same in K9. rewrite Ec in K9. destruct (nl_cond d); [contradiction|reflexivity].
Qed.
Theorem nl_joint_observed o f c : oracle_ok o -> nl_wf f -> NoDup (dkeys (nl_ev f)) -> nl_cond f = Some c -> solid c -> ga_vars c <> [] -> incl (ga_vars c) (nl_cing f) ->
  incl (nl_cing f) (dkeys (nl_ev f)) -> nl_joint_distribution o f = Err AssertionError.
Proof.
  intros Ho Wf Hk Ec Sc Nc Ic Hi. destruct (nl_copy_spec f Wf) as (d & Ed & ((K1 & _) & K6 & _ & _ & K9)). unfold nl_joint_distribution. rewrite Ed. cbn [bind].
  rewrite (nl_cond_observed o d c Ho); [reflexivity|now rewrite K6|exact (cond_copy_id f d c Ed Ec Sc)|exact Sc|exact Nc|now rewrite K1|now rewrite K1, K6].
Qed.
Lemma nd_ev : NoDup (dkeys [("x1", 5); ("x2", 6)]). Proof. apply nd2. discriminate. Qed.
Theorem observed_refuted : exists o f g, oracle_ok o /\
  mk_nlg ["x1"; "x2"] ["y"] exT (meye 1) (Fin 0) None None None [("x1", 5); ("x2", 6)] = Ok f /\ nl_joint_distribution o f = Err UnboundLocalError /\
  mk_nlg ["x1"; "x2"] ["y"] exT (meye 1) (Fin 0) None None (Some exc) [("x1", 5); ("x2", 6)] = Ok g /\ nl_joint_distribution o g = Err AssertionError.
Proof.
  destruct id_oracle_ok as (o & Ho). assert (Sc : solid exc) by apply stdg_solid, nd_x21.
  destruct (nl_init_spec ["x1"; "x2"] ["y"] exT (meye 1) (Fin 0) None None [("x1", 5); ("x2", 6)] nd_xy eq_refl eq_refl) as (f & E & W & K1 & _ & _ & _ & _ & _ & K7 & K8 & _); [discriminate|discriminate|].
  destruct (nl_init_spec ["x1"; "x2"] ["y"] exT (meye 1) (Fin 0) None (Some exc) [("x1", 5); ("x2", 6)] nd_xy eq_refl eq_refl) as (g & E' & W' & K1' & _ & _ & _ & _ & _ & K7' & K8' & _); [discriminate|now intros c [= <-]|].
  exists o, f, g. split; [exact Ho|]. split; [exact E|]. split; [|split; [exact E'|]].
  - apply nl_joint_no_factor; [exact W|rewrite K8; exact nd_ev|exact K7|rewrite K1, K8; intros v Hv; exact Hv].
  - apply (nl_joint_observed o g exc); [exact Ho|exact W'|rewrite K8'; exact nd_ev|exact K7'|exact Sc|discriminate| |rewrite K1', K8'; intros v Hv; exact Hv].
    rewrite K1'. intros v [<-|[<-|[]]]; cbn; tauto.
Qed.

(** The joint depends on the conditioning factor's function only, if the transform goes by name. *)
Theorem nl_order_free o f1 f2 A b c1 c2 j1 j2 : oracle_ok o -> nl_good A b c1 f1 -> nl_good A b c2 f2 -> nl_cing f1 = nl_cing f2 -> nl_cal f1 = nl_cal f2 -> nl_Q f1 = nl_Q f2 -> nl_w f1 = nl_w f2 ->
  nl_upd f1 = nl_upd f2 -> nl_ev f1 = nl_ev f2 -> (forall e, lp c1 e = lp c2 e) -> nl_joint_distribution o f1 = Ok j1 -> nl_joint_distribution o f2 = Ok j2 ->
  forall e, obeys (nl_ev f1) e -> lp j1 e = lp j2 e.
Proof.
  intros Ho (W1 & O1 & C1 & I1) (W2 & O2 & C2 & I2) E1 E2 E3 E4 E5 E6 L J1 J2 e He.
  destruct (nl_joint_spec o f1 A b c1 Ho W1 O1 C1 I1) as (j & Ej & (_ & _ & _ & Lj) & _). rewrite J1 in Ej. injection Ej as <-.
  destruct (nl_joint_spec o f2 A b c2 Ho W2 O2 C2 I2) as (j & Ej & (_ & _ & _ & Lj') & _). rewrite J2 in Ej. injection Ej as <-.
  destruct (Lj e He) as (a1 & a2 & a3 & A1 & A2 & A3 & ->). rewrite E6 in He. destruct (Lj' e He) as (b1 & b2 & b3 & B1 & B2 & B3 & ->).
  unfold noise_lp in A2, B2. unfold upd_lp in A3, B3. rewrite E1, E2, E3, E4, B2 in A2. rewrite E5, B3 in A3. rewrite L, B1 in A1. congruence.
Qed.

(** After the joint was computed the comparison is the one of Gaussians. *)
Theorem nl_equals_fresh o f A b c f' g rtol atol x y : oracle_ok o -> nl_good A b c f -> nl_recompute o f = Ok f' -> wf_gauss g -> regular g -> ga_vac (nl_joint f') = false ->
  nl_equals f' g rtol atol = Ok (true, x, y) ->
  is_joint f A b c (nl_joint f') /\ Permutation (ga_vars (nl_joint f')) (ga_vars g) /\
  ((exists p g' q, ga_can (nl_joint f') = Some p /\ get_can g = Ok (g', q) /\ visclose (snd p) (snd q) rtol atol = true /\ close_params rtol atol (ga_vars (nl_joint f')) (ga_vars g) p q) \/
   (exists p g' q, ga_can (nl_joint f') = None /\ ga_cov (nl_joint f') = Some p /\ get_cov g = Ok (g', q) /\ visclose (vexp (snd p)) (vexp (snd q)) rtol atol = true /\
      close_params rtol atol (ga_vars (nl_joint f')) (ga_vars g) p q)).
Proof.
  intros Ho (Wf & OK & Ec & IN) Er Wg Rg Vac E. destruct (nl_recompute_spec o f A b c Ho OK Ec IN) as (j & Ej & Wj & Sj & _ & Vj & Lj). rewrite Er in Ej. injection Ej as ->.
  cbn [set_joint nl_joint] in *. unfold nl_equals in E. cbn [set_joint nl_joint] in E. apply bind_ok in E. destruct E as (((r & j') & g') & E & H). injection H as -> _ _.
  split; [split; [exact Wj|]; split; [exact Sj|]; split; [exact Vj|exact Lj]|]. exact (g_equals_true j g rtol atol j' g' Wj Wg (fun _ => Rg) E Vac).
Qed.

(** Instances. *)
Definition exg : gauss := stdg ["y"] [3] 1.
Lemma ex_mix : exists m, mk_mix [exu; exg] = Ok m /\ wf_mix m /\ gm_vars m = ["y"] /\ (forall g, In g (gm_comps m) -> solid g) /\ length (gm_comps m) = 2%nat.
Proof.
  assert (Su : solid exu) by apply stdg_solid, nd_y. assert (Sg : solid exg) by apply stdg_solid, nd_y.
  assert (E : mk_mix [exu; exg] = Ok {| gm_vars := ["y"]; gm_comps := [exu; exg] |}).
  { unfold mk_mix. cbn [mapM]. rewrite (copy_solid_id exu Su), (copy_solid_id exg Sg). reflexivity. }
  destruct (mk_mix_ok [exu; exg] ["y"]) as (m & Em & Vm & Wm & F); [discriminate|intros f [<-|[<-|[]]]; (split; [apply Su||apply Sg|reflexivity])|].
  exists m. split; [exact Em|]. split; [exact Wm|]. split; [exact Vm|]. rewrite E in Em. injection Em as <-. split; [|reflexivity]. intros g [<-|[<-|[]]]; assumption.
Qed.
Lemma ex_pair : exists o f1 f2 a A b, oracle_ok o /\ mk_nlg ["x1"; "x2"] ["y"] exT (meye 1) (Fin 0) None None (Some exc) [("x1", 5)] = Ok f1 /\
  mk_nlg ["x1"; "x2"] ["y"] exT (meye 1) (Fin 0) None (Some exu) (Some exc) [("x1", 5)] = Ok f2 /\ mk_nlgm [f1; f2] true = Ok a /\ NoDup (nl_vars f1) /\ nm_good f1 A b (ga_vars exc) a /\
  message_for f1 (ga_vars exc) ["y"] /\ message_for f1 (ga_vars exc) ["x2"] /\ nl_good A b exc f1 /\ nl_plain f1 exc /\ nl_good A b exc f2 /\ nl_plain f2 exc /\ A "y" "x1" = 2 /\ A "y" "x2" = 3 /\ dkeys (nl_ev f1) = ["x1"] /\ nl_ev f2 = nl_ev f1 /\
  Forall2 (fun h d => forall e l, obeys (nl_ev f1) e -> joint_lp o h e = Ok l -> joint_lp o d e = Ok l) [f1; f2] (nm_nlgs a).
Proof.
  destruct id_oracle_ok as (o & Ho).
  assert (H1 : NoDup (dkeys [("x1", 5)])) by (repeat constructor; intros []). assert (H2 : ~ (In "x1" (dkeys [("x1", 5)]) /\ In "x2" (dkeys [("x1", 5)]))) by (intros (_ & [H|[]]); discriminate H).
  destruct (ex_made None [("x1", 5)]) as (f1 & E1 & G1 & P1 & K1 & K2 & K8 & K6); [discriminate|exact H1|exact H2|].
  destruct (ex_made (Some exu) [("x1", 5)]) as (f2 & E2 & G2 & P2 & L1 & L2 & L8 & L6); [now intros u [= <-]|exact H1|exact H2|].
  assert (ND : NoDup (nl_vars f1)) by (unfold nl_vars; rewrite K1, K2; exact nd_xy).
  destruct (mk_nlgm_ok o f1 exA exb (ga_vars exc) [f1; f2] true Ho ND) as (a & Ea & _ & Ga & Fa); [discriminate| |].
  { intros h [<-|[<-|[]]]; (split; [congruence|split; [congruence|split; [congruence|exists exc; now split]]]). }
  exists o, f1, f2, a, exA, exb. split; [exact Ho|]. split; [exact E1|]. split; [exact E2|]. split; [exact Ea|]. split; [exact ND|]. split; [exact Ga|].
  split; [left; rewrite K2; intros v Hv; exact Hv|]. split; [right; rewrite K1; split; [intros v [<-|[]]; cbn; tauto|]; split; [intros v [<-|[]]; cbn; tauto|discriminate]|].
  split; [exact G1|]. split; [exact P1|]. split; [exact G2|]. split; [exact P2|]. split; [reflexivity|]. split; [reflexivity|]. split; [now rewrite K8|]. split; [congruence|exact Fa].
Qed.
