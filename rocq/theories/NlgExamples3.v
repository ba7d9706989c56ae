(** Instances for the properties of nonlinear Gaussians. *)
From Verif Require Export NlgExamples2.
From Verif Require Import MixExamples MixEq.
Local Open Scope string_scope.
Local Open Scope list_scope.
Local Open Scope R_scope.

Theorem nl_joint_explicit o f A b c w : oracle_ok o -> nl_good A b c f -> nl_w f = Fin w ->
  exists j, nl_joint_distribution o f = Ok j /\
    (forall v, In v (ga_vars j) <-> (In v (ga_vars c) \/ In v (nl_cal f)) /\ ~ In v (dkeys (nl_ev f))) /\
    (match nl_upd f with Some u => solid u | None => True end -> solid j) /\
    forall e, (forall v x, dget (nl_ev f) v = Some x -> e v = x) ->
      exists l u, lp c e = Ok l /\ match nl_upd f with Some g => lp g e | None => Ok (Fin 0) end = Ok u /\
        lp j e = Ok (vadd (vadd l (Fin (w - 1 / 2 * ln ((2 * PI) ^ length (nl_cal f) * mdet (nl_Q f)) -
          1 / 2 * qsum (length (nl_cal f)) (minv (nl_Q f)) (fun i =>
            e (nth i (nl_cal f) "") - (Rsum (map (fun v => A (nth i (nl_cal f) "") v * e v) (nl_cing f)) + b (nth i (nl_cal f) "")))))) u).
Proof.
  intros Ho (Wf & OK & Ec & IN) Ew. destruct (nl_joint_spec o f A b c Ho Wf OK Ec IN) as (j & Ej & (_ & _ & Vj & Lj) & Sj). exists j. split; [exact Ej|]. split; [exact Vj|].
  split; [intros Su; apply Sj; destruct (nl_upd f); [exact Su|exact I]|]. intros e He. destruct (Lj e He) as (l1 & l2 & l3 & L1 & L2 & L3 & L). exists l1, l3. split; [exact L1|]. split; [exact L3|].
  rewrite (nl_noise_explicit f A b e w OK Ew) in L2. apply ok_inj in L2. now rewrite L2.
Qed.

Definition sqT (X : mat) (names : list string) : res mat := Ok (Mat 1 (nc X) (fun _ k => ent X 0 k * ent X 0 k + ent X 1 k)).
Lemma square_instance : exists o T f c, oracle_ok o /\ mk_nlg ["x1"; "x2"] ["y"] T (meye 1) (Fin 0) None None (Some c) [] = Ok f /\
  (forall X names, exists Y, T X names = Ok Y /\ forall k, ent Y 0 k = ent X 0 k * ent X 0 k + ent X 1 k) /\
  nl_wf f /\ nl_cal f <> [] /\ posdef (nl_Q f) /\ shapes_by_name (nl_T f) (nl_cing f) (nl_cal f) /\ nl_ev f = [] /\ nl_upd f = None /\ nl_cond f = Some c /\ solid c /\
  Permutation (ga_vars c) (nl_cing f) /\ ga_vars c <> [].
Proof.
  destruct id_oracle_ok as (o & Ho). assert (Sc : solid exc) by apply stdg_solid, nd_x21.
  destruct (nl_init_spec ["x1"; "x2"] ["y"] sqT (meye 1) (Fin 0) None (Some exc) [] nd_xy eq_refl eq_refl) as (f & E & W & K1 & K2 & K3 & K4 & K5 & K6 & K7 & K8 & _); [discriminate|now intros c [= <-]|].
  exists o, sqT, f, exc. split; [exact Ho|]. split; [exact E|]. split; [intros X names; eexists; split; [reflexivity|reflexivity]|]. split; [exact W|]. rewrite K1, K2, K3, K4. split; [discriminate|]. split; [apply eye_posdef|].
  split; [intros X names _ _; eexists; split; [reflexivity|now split]|]. split; [exact K8|]. split; [exact K6|]. split; [exact K7|]. split; [exact Sc|]. split; [apply perm_swap|discriminate].
Qed.

Definition exd : gauss := stdg ["x1"; "x2"] [4; 1] 0.
Lemma good_any c ev : solid c -> Permutation (ga_vars c) ["x1"; "x2"] -> NoDup (dkeys ev) -> ~ (In "x1" (dkeys ev) /\ In "x2" (dkeys ev)) ->
  exists f, mk_nlg ["x1"; "x2"] ["y"] exT (meye 1) (Fin 0) None None (Some c) ev = Ok f /\ nl_good exA exb c f /\ nl_cing f = ["x1"; "x2"] /\ nl_cal f = ["y"] /\ nl_Q f = meye 1 /\ nl_w f = Fin 0 /\ nl_upd f = None /\ nl_ev f = ev.
Proof.
  intros Sc HP Hk Hn. destruct (nl_init_spec ["x1"; "x2"] ["y"] exT (meye 1) (Fin 0) None (Some c) ev nd_xy eq_refl eq_refl) as (f & E & W & K1 & K2 & K3 & K4 & K5 & K6 & K7 & K8 & _); [discriminate|now intros c0 [= <-]|].
  exists f. split; [exact E|]. split; [|now repeat split]. split; [exact W|]. split; [|split; [exact K7|]].
  - unfold nl_ok, nl_vars, upd_ok. rewrite K1, K2, K3, K4, K6, K8. split; [exact nd_xy|]. split; [discriminate|]. split; [reflexivity|]. split; [reflexivity|]. split; [apply eye_posdef|]. split; [exact exT_affine|]. now split.
  - split; [exact Sc|]. rewrite K1, K8. split; [intros v Hv; exact (Permutation_in _ HP Hv)|]. split; [intros v Hv; left; exact (Permutation_in _ (Permutation_sym HP) Hv)|].
    intros HI. apply Hn. split; apply HI; apply (Permutation_in _ (Permutation_sym HP)); cbn; tauto.
Qed.
Lemma order_instance : exists o A b c1 c2 f1 f2 j1 j2, oracle_ok o /\ nl_good A b c1 f1 /\ nl_good A b c2 f2 /\
  nl_cing f1 = nl_cing f2 /\ nl_cal f1 = nl_cal f2 /\ nl_Q f1 = nl_Q f2 /\ nl_w f1 = nl_w f2 /\ nl_upd f1 = nl_upd f2 /\ nl_ev f1 = nl_ev f2 /\
  (forall e, lp c1 e = lp c2 e) /\ nl_joint_distribution o f1 = Ok j1 /\ nl_joint_distribution o f2 = Ok j2 /\ ga_vars c1 = ["x2"; "x1"] /\ ga_vars c2 = ["x1"; "x2"].
Proof.
  destruct id_oracle_ok as (o & Ho). assert (S1 : solid exc) by apply stdg_solid, nd_x21. assert (S2 : solid exd) by apply stdg_solid, nd_x12.
  destruct (good_any exc [] S1 (perm_swap _ _ _)) as (f1 & E1 & G1 & A1 & A2 & A3 & A4 & A5 & A6); [constructor|intros ([] & _)|].
  destruct (good_any exd [] S2 (Permutation_refl _)) as (f2 & E2 & G2 & B1 & B2 & B3 & B4 & B5 & B6); [constructor|intros ([] & _)|].
  destruct (nl_joint_spec o f1 exA exb exc Ho (proj1 G1) (proj1 (proj2 G1)) (proj1 (proj2 (proj2 G1))) (proj2 (proj2 (proj2 G1)))) as (j1 & J1 & _).
  destruct (nl_joint_spec o f2 exA exb exd Ho (proj1 G2) (proj1 (proj2 G2)) (proj1 (proj2 (proj2 G2))) (proj2 (proj2 (proj2 G2)))) as (j2 & J2 & _).
  exists o, exA, exb, exc, exd, f1, f2, j1, j2. split; [exact Ho|]. split; [exact G1|]. split; [exact G2|]. do 6 (split; [congruence|]). split.
  - intros e. unfold exc, exd. rewrite !stdg_lp by (exact nd_x12 || exact nd_x21). do 2 f_equal. cbn [map length]. rewrite !Rsum_cons. unfold named_coord. cbn. ring.
  - split; [exact J1|]. split; [exact J2|]. now split.
Qed.
(** One object with an observation and a message. *)
Lemma made_instance : exists o A b f j, oracle_ok o /\ nl_good A b exc f /\ nl_plain f exc /\ nl_cing f = ["x1"; "x2"] /\ nl_cal f = ["y"] /\ nl_ev f = [("x1", 5)] /\ nl_upd f = Some exu /\ nl_joint_distribution o f = Ok j /\ NoDup (ga_vars j) /\
  (forall v, In v (ga_vars j) <-> v = "x2" \/ v = "y").
Proof.
  destruct id_oracle_ok as (o & Ho). destruct (ex_made (Some exu) [("x1", 5)]) as (f & E & G & P & K1 & K2 & K8 & K6); [now intros u [= <-]|repeat constructor; intros []|intros (_ & [H|[]]); discriminate H|].
  destruct (nl_joint_spec o f exA exb exc Ho (proj1 G) (proj1 (proj2 G)) (proj1 (proj2 (proj2 G))) (proj2 (proj2 (proj2 G)))) as (j & Ej & ((Dj & _) & _ & Vj & _) & _).
  exists o, exA, exb, f, j. do 8 (split; [assumption|]). split; [exact Dj|]. intros v. rewrite Vj, K2, K8. cbn. split.
  - intros ([[<-|[<-|[]]]|[<-|[]]] & H); [now left|exfalso; apply H; now left|now right].
  - intros [->| ->]; split; try tauto; intros [H|[]]; discriminate H.
Qed.
Lemma perm_of (l : list string) : NoDup l -> (forall v, In v l <-> v = "x2" \/ v = "y") -> Permutation ["y"; "x2"] l.
Proof. intros Hd H. apply NoDup_Permutation; [apply nd2; discriminate|exact Hd|]. intros v. rewrite H. cbn. intuition congruence. Qed.
Lemma su_y : solid exu. Proof. apply stdg_solid, nd_y. Qed.
Lemma marginal_instance : exists o A b c f j, oracle_ok o /\ nl_good A b c f /\ nl_plain f c /\ nl_joint_distribution o f = Ok j /\ Permutation (["y"] ++ ["x2"]) (ga_vars j) /\
  (exists x, In x (nl_vars f) /\ In x (dkeys (nl_ev f)) /\ ~ In x ["y"]) /\ match nl_upd f with Some u => solid u | None => True end /\
  nl_marginalize o f ["y"] false = Err ValueError.
Proof.
  destruct made_instance as (o & A & b & f & j & Ho & G & P & K1 & K2 & K8 & K6 & Ej & Dj & Vj).
  assert (X : exists x, In x (nl_vars f) /\ In x (dkeys (nl_ev f)) /\ ~ In x ["y"]).
  { exists "x1". unfold nl_vars. rewrite K1, K2, K8. split; [now left|]. split; [now left|]. intros [H|[]]; discriminate H. }
  assert (SU : match nl_upd f with Some u => solid u | None => True end) by (rewrite K6; exact su_y).
  exists o, A, b, exc, f, j. split; [exact Ho|]. split; [exact G|]. split; [exact P|]. split; [exact Ej|]. split; [now apply perm_of|]. split; [exact X|]. split; [exact SU|].
  now apply (nl_marginal_removed o f A b exc ["y"]).
Qed.
Lemma no_info_instance : exists f c u, mk_nlg ["x1"; "x2"] ["y"] exT (meye 1) (Fin 2) None (Some u) (Some c) [] = Ok f /\ nl_wf f /\ NoDup (dkeys (nl_ev f)) /\ no_info f /\
  nl_cond f = Some c /\ solid c /\ incl ["x1"] (nl_cing f) /\ incl ["x1"] (ga_vars c) /\ nl_upd f = Some u /\ solid u /\ incl ["y"] (nl_cal f) /\ incl ["y"] (ga_vars u).
Proof.
  assert (Sc : solid (stdg ["x1"] [4] 0)) by apply stdg_solid, nd1.
  destruct (nl_init_spec ["x1"; "x2"] ["y"] exT (meye 1) (Fin 2) (Some exu) (Some (stdg ["x1"] [4] 0)) [] nd_xy eq_refl eq_refl) as (f & E & W & K1 & K2 & K3 & K4 & K5 & K6 & K7 & K8 & _); [intros u [= <-]; exact su_y|now intros c [= <-]|].
  exists f, (stdg ["x1"] [4] 0), exu. split; [exact E|]. split; [exact W|]. rewrite K1, K2, K8. split; [constructor|]. split.
  { exists "x2". rewrite K1, K7, K8. split; [right; now left|]. split; [intros []|]. intros c [= <-] [H|[]]. discriminate H. }
  split; [exact K7|]. split; [exact Sc|]. split; [intros v [<-|[]]; now left|]. split; [intros v Hv; exact Hv|]. split; [exact K6|]. split; [exact su_y|]. split; intros v Hv; exact Hv.
Qed.
Lemma reduce_instance : exists o A b c f j, oracle_ok o /\ nl_good A b c f /\ nl_joint_distribution o f = Ok j /\ ~ incl (ga_vars c) (["y"] ++ dkeys (nl_ev f)) /\ dkeys (nl_ev f) = ["x1"].
Proof.
  destruct made_instance as (o & A & b & f & j & Ho & G & P & K1 & K2 & K8 & K6 & Ej & Dj & Vj). exists o, A, b, exc, f, j. split; [exact Ho|]. split; [exact G|]. split; [exact Ej|]. rewrite K8. split; [|reflexivity].
  intros H. destruct (H "x2") as [E|[E|[]]]; [now left|discriminate E|discriminate E].
Qed.
Lemma reduce_refuted : exists o f j r, oracle_ok o /\ mk_nlg ["x1"; "x2"] ["y"] exT (meye 1) (Fin 0) None None (Some exc) [] = Ok f /\ nl_joint_distribution o f = Ok j /\
  nl_reduce f ["x1"; "x2"] [5; 6] = Ok r /\ nl_joint_distribution o r = Err AssertionError.
Proof.
  destruct id_oracle_ok as (o & Ho). assert (Sc : solid exc) by apply stdg_solid, nd_x21. destruct (good_any exc [] Sc (perm_swap _ _ _)) as (f & E & G & K1 & K2 & K4 & K5 & K6 & K8); [constructor|intros ([] & _)|].
  pose proof G as (Wf & OK & Ec & IN). destruct (nl_joint_spec o f exA exb exc Ho Wf OK Ec IN) as (j & Ej & _).
  destruct (nl_reduce_spec f ["x1"; "x2"] [5; 6] Wf) as (r & Er & Wr & (Q1 & _) & _ & _ & Nk & Ik & _); [rewrite K8; constructor|exact nd_x12|reflexivity|].
  exists o, f, j, r. split; [exact Ho|]. split; [exact E|]. split; [exact Ej|]. split; [exact Er|].
  assert (Ecr : nl_cond r = Some exc). { unfold nl_reduce in Er. apply bind_ok in Er. destruct Er as (d & Ed & Er). injection Er as <-. exact (cond_copy_id f d exc Ed Ec Sc). }
  apply (nl_joint_observed o r exc Ho Wr Nk Ecr Sc); [discriminate| |]; rewrite Q1, K1; intros v Hv; [destruct Hv as [<-|[<-|[]]]; cbn; tauto|apply Ik; now left].
Qed.
Lemma vacuous_message : exists o f g r j jr e, oracle_ok o /\ mk_nlg ["x1"; "x2"] ["y"] exT (meye 1) (Fin 0) None None (Some exc) [] = Ok f /\ make_vacuous ["y"] (Fin 5) = Ok g /\
  nl_multiply_gauss f g = Ok r /\ nl_joint_distribution o f = Ok j /\ nl_joint_distribution o r = Ok jr /\ lp g e = Ok (Fin 5) /\ (exists l, lp j e = Ok (Fin l) /\ lp jr e = Ok (Fin l)).
Proof.
  destruct id_oracle_ok as (o & Ho). assert (Sc : solid exc) by apply stdg_solid, nd_x21. destruct (good_any exc [] Sc (perm_swap _ _ _)) as (f & E & G & K1 & K2 & K4 & K5 & K6 & K8); [constructor|intros ([] & _)|].
  pose proof G as (Wf & OK & Ec & IN). destruct (good_copy o f exA exb exc Ho G) as (d & j & jd & Ed & Gd & Q1 & Q2 & Q3 & Ej & Ejd & L).
  assert (MV : make_vacuous ["y"] (Fin 5) = Ok {| ga_vars := ["y"]; ga_vac := true; ga_can := Some (mzeros 1 1, mzeros 1 1, Fin 5); ga_cov := None |}).
  { unfold make_vacuous. rewrite mk_can_ok by (exact nd_y || now repeat split). change (length ["y"]) with 1%nat. now rewrite zeros_vacuous. }
  destruct (nl_joint_explicit o f exA exb exc 0 Ho G K5) as (j' & Ej' & _ & _ & Lj). rewrite Ej in Ej'. injection Ej' as <-.
  exists o, f. eexists. exists d, j, jd, (fun _ => 0). split; [exact Ho|]. split; [exact E|]. split; [exact MV|]. split; [unfold nl_multiply_gauss; rewrite Ed; reflexivity|]. split; [exact Ej|]. split; [exact Ejd|]. split.
  - unfold lp. cbn. unfold rsum, Rsum. cbn. do 2 f_equal. ring.
  - destruct (Lj (fun _ => 0)) as (l & u & L1 & L2 & L3); [rewrite K8; discriminate|]. rewrite K6 in L2. apply ok_inj in L2. subst u. unfold exc in L1. rewrite stdg_lp in L1 by exact nd_x21. apply ok_inj in L1. subst l.
    cbn [vadd] in L3. eexists. split; [exact L3|]. rewrite L; [exact L3|]. rewrite K8. intros v x H. discriminate H.
Qed.
Lemma multiply_instance : exists o A b c f j g, oracle_ok o /\ nl_good A b c f /\ nl_joint_distribution o f = Ok j /\ solid g /\ ga_vars g = ["x2"] /\
  (incl (ga_vars g) (nl_cal f) \/ (incl (ga_vars g) (nl_cing f) /\ incl (ga_vars g) (ga_vars c) /\ ga_vars g <> [])).
Proof.
  destruct made_instance as (o & A & b & f & j & Ho & G & P & K1 & K2 & K8 & K6 & Ej & Dj & Vj). exists o, A, b, exc, f, j, (stdg ["x2"] [8] 0). split; [exact Ho|]. split; [exact G|]. split; [exact Ej|].
  split; [apply stdg_solid, nd1|]. split; [reflexivity|]. right. rewrite K1. split; [intros v [<-|[]]; right; now left|]. split; [intros v [<-|[]]; now left|discriminate].
Qed.
Lemma divide_instance : exists o A b c f j g r, oracle_ok o /\ nl_good A b c f /\ nl_joint_distribution o f = Ok j /\ solid g /\ sym_prec g /\ incl (ga_vars g) (nl_cal f) /\
  nl_upd f = Some exu /\ nl_multiply_gauss f g = Ok r /\ forall e, exists lg, lp g e = Ok (Fin lg).
Proof.
  destruct made_instance as (o & A & b & f & j & Ho & G & P & K1 & K2 & K8 & K6 & Ej & Dj & Vj). assert (Sg : solid exg) by apply stdg_solid, nd_y.
  assert (Ig : incl (ga_vars exg) (nl_cal f)) by (rewrite K2; intros v Hv; exact Hv). destruct (nl_multiply_cal f exg (proj1 G) (proj1 Sg) eq_refl Ig) as (r & Er & _).
  exists o, A, b, exc, f, j, exg, r. split; [exact Ho|]. split; [exact G|]. split; [exact Ej|]. split; [exact Sg|]. split; [now apply solid_sym|]. split; [exact Ig|]. split; [exact K6|]. split; [exact Er|].
  intros e. unfold exg. rewrite stdg_lp by exact nd_y. now eexists.
Qed.
Lemma bare_instance : exists f, mk_nlg ["x1"; "x2"] ["y"] exT (meye 1) (Fin 0) None None None [] = Ok f /\ nl_wf f /\ nl_upd f = None /\ nl_cond f = None /\
  ga_vac exg = false /\ incl (ga_vars exg) (nl_cal f) /\ ga_vac exc = false /\ incl (ga_vars exc) (nl_cing f).
Proof.
  destruct (nl_init_spec ["x1"; "x2"] ["y"] exT (meye 1) (Fin 0) None None [] nd_xy eq_refl eq_refl) as (f & E & W & K1 & K2 & K3 & K4 & K5 & K6 & K7 & K8 & _); [discriminate|discriminate|].
  exists f. split; [exact E|]. split; [exact W|]. split; [exact K6|]. split; [exact K7|]. rewrite K1, K2. split; [reflexivity|]. split; [intros v Hv; exact Hv|]. split; [reflexivity|]. intros v [<-|[<-|[]]]; cbn; tauto.
Qed.
Lemma plain_joint o f A b c e : oracle_ok o -> nl_good A b c f -> nl_plain f c -> obeys (nl_ev f) e -> exists l, joint_lp o f e = Ok l /\ is_lp l.
Proof.
  intros Ho (Wf & OK & Ec & IN) (Pc & Pw & Pu) He. destruct (nl_joint_spec o f A b c Ho Wf OK Ec IN) as (j & Ej & (_ & _ & _ & Lj) & _). destruct (Lj e He) as (l1 & l2 & l3 & L1 & L2 & L3 & L).
  exists (vadd (vadd l1 l2) l3). unfold joint_lp. rewrite Ej. split; [exact L|]. pose proof (Pc e l1 L1) as I1. pose proof (noise_is_lp f A b e l2 OK Pw L2) as I2.
  assert (I3 : is_lp l3). { unfold upd_lp in L3. destruct (nl_upd f) as [u|]; [exact (proj2 Pu e l3 L3)|injection L3 as <-; exact I]. }
  apply pot_vadd; [now apply pot_vadd|exact I3].
Qed.
Lemma pair_instance : exists o f1 f2 a A b m ja, oracle_ok o /\ mk_nlgm [f1; f2] true = Ok a /\ NoDup (nl_vars f1) /\ nm_good f1 A b ["x2"; "x1"] a /\ nm_joint_distribution o a = Ok ja /\
  wf_mix m /\ (forall g, In g (gm_comps m) -> solid g) /\ message_for f1 ["x2"; "x1"] (gm_vars m) /\ not_split a m /\ length (gm_comps m) = 2%nat /\
  A "y" "x1" = 2 /\ ~ incl ["x2"; "x1"] (["y"] ++ dkeys (nl_ev f1)) /\ dkeys (nl_ev f1) = ["x1"] /\
  (forall e, obeys (nl_ev f1) e -> exists p q, mixpot ja e = Ok (Fin p) /\ mixpot m e = Ok (Fin q)).
Proof.
  destruct ex_pair as (o & f1 & f2 & a & A & b & Ho & E1 & E2 & Ea & ND & Ga & M1 & M2 & G1 & P1 & G2 & P2 & A1 & A2 & K8 & K8' & Fa). destruct ex_mix as (m & Em & Wm & Vm & Sm & Lm).
  destruct (nm_joint_spec o f1 A b (ga_vars exc) a Ho Ga) as (ja & Eja & Wja & _ & _ & Pja & _).
  exists o, f1, f2, a, A, b, m, ja. split; [exact Ho|]. split; [exact Ea|]. split; [exact ND|]. split; [exact Ga|]. split; [exact Eja|]. split; [exact Wm|]. split; [exact Sm|]. split; [rewrite Vm; exact M1|].
  split; [right; right; rewrite Lm; discriminate|]. split; [exact Lm|]. split; [exact A1|]. rewrite K8. split.
  { intros H. destruct (H "x2") as [E|[E|[]]]; [now left|discriminate E|discriminate E]. }
  split; [reflexivity|]. intros e He. destruct (plain_joint o f1 A b exc e Ho G1 P1 He) as (l1 & L1 & I1).
  destruct (plain_joint o f2 A b exc e Ho G2 P2) as (l2 & L2 & I2); [now rewrite K8'|].
  exists (Rsum (map pot [l1; l2])). assert (FM : exists ls, Forall2 (fun c l => lp c e = Ok l) (gm_comps m) ls /\ forall l, In l ls -> is_lp l).
  { unfold mk_mix in Em. cbn [mapM] in Em. rewrite (copy_solid_id exu su_y), (copy_solid_id exg (stdg_solid _ _ _ nd_y)) in Em. apply ok_inj in Em. subst m. cbn [gm_comps].
    unfold exu, exg. exists (map (fun g => match lp g e with Ok l => l | Err _ => NaN end) [stdg ["y"] [7] 0; stdg ["y"] [3] 1]). cbn [map]. rewrite !stdg_lp by exact nd_y. split; [|intros l [<-|[<-|[]]]; exact I].
    constructor; [now rewrite stdg_lp by exact nd_y|]. constructor; [now rewrite stdg_lp by exact nd_y|constructor]. }
  destruct FM as (ls & Fm & Im). exists (Rsum (map pot ls)). split; [|now apply mixpot_of]. apply Pja.
  - inversion Fa as [|? d1 ? ? D1 Fa']; subst. inversion Fa' as [|? d2 ? ? D2 Fa'']; subst. inversion Fa''; subst. constructor; [now apply D1|]. constructor; [now apply D2|constructor].
  - intros l [<-|[<-|[]]]; assumption.
Qed.
Lemma copy_flag : exists f a r, mk_nlgm [f] false = Ok a /\ nm_copy a = Ok r /\ nm_split a = false /\ nm_split r = true.
Proof.
  destruct made_instance as (o & A & b & f & j & Ho & G & P & K1 & K2 & K8 & K6 & Ej & Dj & Vj).
  destruct (mk_nlgm_ok o f A b (ga_vars exc) [f] false Ho (proj1 (proj1 G))) as (a & Ea & Sa & Ga & _); [discriminate|intros h [<-|[]]; repeat (split; [reflexivity|]); now exists exc|].
  destruct (nm_copy_split o f A b (ga_vars exc) a Ho (proj1 (proj1 G)) Ga) as (r & Er & Sr & _). exists f, a, r. now repeat split.
Qed.
Lemma fresh_instance : exists o A b c f f' g x y, oracle_ok o /\ nl_good A b c f /\ nl_recompute o f = Ok f' /\ wf_gauss g /\ regular g /\ ga_vac (nl_joint f') = false /\
  nl_equals f' g default_tol default_tol = Ok (true, x, y).
Proof.
  destruct id_oracle_ok as (o & Ho). assert (Sc : solid exc) by apply stdg_solid, nd_x21. destruct (good_any exc [] Sc (perm_swap _ _ _)) as (f & E & G & K1 & K2 & K4 & K5 & K6 & K8); [constructor|intros ([] & _)|].
  destruct (good_copy o f exA exb exc Ho G) as (d & j & jd & Ed & Gd & Q1 & Q2 & Q3 & Ej & _ & _). pose proof Ej as Ej0. unfold nl_joint_distribution in Ej0. rewrite Ed in Ej0. cbn [bind] in Ej0. apply bind_ok in Ej0. destruct Ej0 as (d' & Ed' & Ej0). apply ok_inj in Ej0.
  destruct (nl_joint_explicit o f exA exb exc 0 Ho G K5) as (j' & Ej' & _ & Sj & Lj). rewrite Ej in Ej'. injection Ej' as <-. rewrite K6 in Sj. specialize (Sj I). pose proof Sj as (Wj & Vacj & _ & PK & _).
  assert (Rj : regular j). { intros K h g HK. pose proof (PK K h g HK) as P. split; [apply P|now apply posdef_det]. }
  destruct (g_equals_step j j Wj Wj Rj Vacj Vacj eq_refl) as (r & j2 & Eq & _ & Hr).
  assert (SH : shapes_by_name (nl_T f) (nl_cing f) (nl_cal f)).
  { destruct G as (_ & OK & _). destruct OK as (_ & _ & _ & _ & _ & AF & _). intros X names HP HX. destruct (AF X names HP HX) as (Y & EY & M1 & M2 & _). exists Y. now split. }
  destruct (nl_general o f exc Ho (proj1 G)) as (c' & C & m & w & X & Y & j3 & J & mj & Gc & _ & _ & Ej3 & _ & _ & Gj & _); [now rewrite K2|rewrite K4; apply eye_posdef|exact SH|exact K8|exact K6|apply G|exact Sc|rewrite K1; apply perm_swap|discriminate|].
  rewrite Ej in Ej3. injection Ej3 as <-. unfold exc in Gc. rewrite stdg_get_cov in Gc. apply ok_inj in Gc. assert (w = Fin 0) as -> by congruence. rewrite K5 in Gj. cbn [vadd] in Gj. 
  assert (NN : no_nan j).
  { split; intros ((P1 & P2) & g) Hp Hg; cbn in Hg; subst g.
    - destruct (Lj (fun _ => 0)) as (l & u & L1 & L2 & L3); [rewrite K8; discriminate|]. rewrite K6 in L2. apply ok_inj in L2. subst u. unfold exc in L1. rewrite stdg_lp in L1 by exact nd_x21. apply ok_inj in L1. subst l.
      unfold lp in L3. rewrite (lp_canon j j P1 P2 NaN (fun _ => 0) Wj (get_can_some j _ _ _ Hp)) in L3. discriminate L3.
    - unfold get_cov in Gj. apply bind_ok in Gj. destruct Gj as (j4 & U & Gj). destruct (ga_cov j4) as [q|] eqn:Eq4; [|discriminate Gj]. apply ok_inj in Gj. assert (j4 = j) as -> by congruence. assert (q = (J, mj, Fin (0 + 0))) by congruence. congruence. }
  rewrite (Hr NN ltac:(now split)) in Eq. exists o, exA, exb, exc, d, d', j. do 2 eexists. split; [exact Ho|]. split; [exact Gd|]. split; [exact Ed'|]. split; [exact Wj|]. split; [exact Rj|]. split; [now rewrite Ej0|].
  unfold nl_equals. rewrite Ej0, Eq. reflexivity.
Qed.
Lemma nt_instance : exists t d, mk_nltemplate ["x{i}"] ["y{i}"] exT (meye 1) = Ok t /\ format_list_elements ["x{i}"] d = Ok ["x7"] /\ format_list_elements ["y{i}"] d = Ok ["y7"] /\
  NoDup (["x7"] ++ ["y7"]) /\ nr (meye 1) = 1%nat /\ nc (meye 1) = 1%nat.
Proof. eexists. exists [("i", "7")]. split; [reflexivity|]. split; [reflexivity|]. split; [reflexivity|]. split; [apply nd2; discriminate|now split]. Qed.
Lemma nt_ignored_names : exists t d f, mk_nltemplate ["x{i}"] ["y{i}"] exT (meye 1) = Ok t /\ nt_make_factor t (Some d) None (Some ["z"]) = Ok f /\ nl_cal f = ["y7"].
Proof.
  destruct nt_instance as (t & _ & Et & _). destruct (nt_factor_spec ["x{i}"] ["y{i}"] exT (meye 1) t [("i", "7")] ["x7"] ["y7"] (Some ["z"]) Et eq_refl eq_refl) as (f & Ef & _ & _ & K2 & _); [apply nd2; discriminate|reflexivity|reflexivity|].
  exists t, [("i", "7")], f. now repeat split.
Qed.
