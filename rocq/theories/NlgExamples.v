(** Instances of nonlinear Gaussians, explicit forms and counterexamples. *)
From Verif Require Export NlgMix.
From Verif Require Import MixExamples.
Local Open Scope string_scope.
Local Open Scope list_scope.
Local Open Scope R_scope.

(** The constructor. *)
Theorem nl_init_spec cing cal T Q w upd cond ev : NoDup (cing ++ cal) -> nr Q = length cal -> nc Q = length cal ->
  (forall u, upd = Some u -> solid u) -> (forall c, cond = Some c -> solid c) ->
  exists f, mk_nlg cing cal T Q w None upd cond ev = Ok f /\ nl_wf f /\ nl_cing f = cing /\ nl_cal f = cal /\ nl_T f = T /\ nl_Q f = Q /\ nl_w f = w /\
    nl_upd f = upd /\ nl_cond f = cond /\ nl_ev f = ev /\ make_vacuous (cing ++ cal) (Fin 0) = Ok (nl_joint f).
Proof.
  intros Hd Q1 Q2 Su Sc. unfold mk_nlg. rewrite (disjoint_inter _ _ Hd). cbn [length Nat.eqb negb raise_if bind]. rewrite (proj2 (nodupb_iff _) Hd). cbn [negb raise_if bind].
  rewrite Q1, Nat.eqb_refl. cbn [negb raise_if bind]. unfold make_square_matrix. rewrite Q1, Q2, Nat.eqb_refl. cbn [py_assert bind].
  assert (Ec : opt_copy cond = Ok cond) by (destruct cond as [c|]; [unfold opt_copy; rewrite (copy_solid_id c (Sc c eq_refl)); reflexivity|reflexivity]).
  assert (Eu : opt_copy upd = Ok upd) by (destruct upd as [c|]; [unfold opt_copy; rewrite (copy_solid_id c (Su c eq_refl)); reflexivity|reflexivity]).
  rewrite Ec, Eu. cbn [bind]. unfold make_vacuous. rewrite mk_can_ok by (exact Hd || now repeat split). cbn [bind]. eexists. split; [reflexivity|].
  split; [|now repeat split]. split; [exact Hd|]. split; [exact Q1|]. split; [exact Q2|]. split.
  - split; [exact Hd|]. split; [left; discriminate|]. split; intros q Hq; [|discriminate]. injection Hq as <-. now repeat split.
  - split; cbn; intros u E; [apply (Su u E)|apply (Sc u E)].
Qed.

(** The noise in explicit form. *)
Theorem nl_noise_explicit f A b e w : nl_ok f A b -> nl_w f = Fin w ->
  noise_lp f A b e = Ok (Fin (w - 1 / 2 * ln ((2 * PI) ^ length (nl_cal f) * mdet (nl_Q f)) -
    1 / 2 * qsum (length (nl_cal f)) (minv (nl_Q f)) (fun i => e (nth i (nl_cal f) "") - (Rsum (map (fun v => A (nth i (nl_cal f) "") v * e v) (nl_cing f)) + b (nth i (nl_cal f) ""))))).
Proof.
  intros (Hd & Hc & Q1 & Q2 & PQ & _) Ew. unfold noise_lp, lp, cov_obj. cbn [ga_vars]. rewrite lp_cov_only, Ew.
  rewrite (cov_log_potential_ok (length (nl_cal f))) by ((now repeat split) || apply map_length || (split; [apply PQ|now apply posdef_det])).
  cbn [vsub vopp vadd]. do 2 f_equal. set (n := length (nl_cal f)).
  assert (Q : forall u v, (forall i, (i < n)%nat -> u i = - v i) -> qsum n (minv (nl_Q f)) u = qsum n (minv (nl_Q f)) v).
  { intros u v H. unfold qsum. apply rsum_ext. intros i Hi. apply rsum_ext. intros j Hj. rewrite (H i Hi), (H j Hj). ring. }
  rewrite (Q _ (fun i => e (nth i (nl_cal f) "") - (Rsum (map (fun v => A (nth i (nl_cal f) "") v * e v) (nl_cing f)) + b (nth i (nl_cal f) "")))); [lra|].
  intros i Hi. cbn [cond_mean ent]. rewrite (nth_indep _ 0 (e "")) by (rewrite map_length; exact Hi). rewrite map_nth. ring.
Qed.

(** y = 2 x1 + 3 x2 + 1, by name. *)
Definition exA (y v : string) : R := if string_dec v "x1" then 2 else if string_dec v "x2" then 3 else 0.
Definition exb (y : string) : R := 1.
Definition exT (X : mat) (names : list string) : res mat :=
  Ok (Mat 1 (nc X) (fun _ k => rsum (length names) (fun l => exA "y" (nth l names "") * ent X l k) + 1)).
Lemma exT_affine : affine_by_name exT ["x1"; "x2"] ["y"] exA exb.
Proof. intros X names _ _. eexists. split; [reflexivity|]. split; [reflexivity|]. split; [reflexivity|]. reflexivity. Qed.
Lemma nd_x12 : NoDup ["x1"; "x2"]. Proof. apply nd2. discriminate. Qed.
Lemma nd_x21 : NoDup ["x2"; "x1"]. Proof. apply nd2. discriminate. Qed.
Lemma nd_xy : NoDup (["x1"; "x2"] ++ ["y"]).
Proof. apply (proj1 (nodupb_iff _)). reflexivity. Qed.
Lemma nd_y : NoDup ["y"]. Proof. repeat constructor. intros []. Qed.
Definition exc : gauss := stdg ["x2"; "x1"] [1; 4] 0.
Definition exu : gauss := stdg ["y"] [7] 0.
Lemma stdg_plain vars l w : NoDup vars -> plain (stdg vars l w).
Proof. intros Hd e v. rewrite stdg_lp by exact Hd. now intros [= <-]. Qed.
Lemma ex_made upd ev : (forall u, upd = Some u -> u = exu) -> NoDup (dkeys ev) -> ~ (In "x1" (dkeys ev) /\ In "x2" (dkeys ev)) ->
  exists f, mk_nlg ["x1"; "x2"] ["y"] exT (meye 1) (Fin 0) None upd (Some exc) ev = Ok f /\ nl_good exA exb exc f /\ nl_plain f exc /\ nl_cing f = ["x1"; "x2"] /\ nl_cal f = ["y"] /\ nl_ev f = ev /\ nl_upd f = upd.
Proof.
  intros Hu Hk Hn. assert (Sc : solid exc) by (apply stdg_solid, nd_x21). assert (Su : solid exu) by (apply stdg_solid, nd_y).
  destruct (nl_init_spec ["x1"; "x2"] ["y"] exT (meye 1) (Fin 0) upd (Some exc) ev nd_xy eq_refl eq_refl) as (f & E & W & K1 & K2 & K3 & K4 & K5 & K6 & K7 & K8 & _).
  { intros u Eu. now rewrite (Hu u Eu). } { now intros c [= <-]. }
  exists f. split; [exact E|]. split.
  - split; [exact W|]. split; [|split; [exact K7|]].
    + unfold nl_ok, nl_vars, upd_ok. rewrite K1, K2, K3, K4, K6, K8. split; [exact nd_xy|]. split; [discriminate|]. split; [reflexivity|]. split; [reflexivity|]. split; [apply eye_posdef|].
      split; [exact exT_affine|]. split; [exact Hk|]. destruct upd as [u|]; [|exact I]. rewrite (Hu u eq_refl). split; [apply Su|]. split; [now apply solid_sym|]. intros v Hv. exact Hv.
    + split; [exact Sc|]. rewrite K1, K8. split; [intros v [<-|[<-|[]]]; cbn; tauto|]. split; [intros v [<-|[<-|[]]]; left; cbn; tauto|].
      intros HI. apply Hn. split; apply HI; cbn; tauto.
  - split; [|now repeat split]. split; [apply stdg_plain, nd_x21|]. rewrite K5, K6. split; [exact I|]. destruct upd as [u|]; [|exact I]. rewrite (Hu u eq_refl). split; [exact Su|]. apply stdg_plain, nd_y.
Qed.
Lemma oracle_exists : exists o, oracle_ok o. Proof. exact id_oracle_ok. Qed.
Lemma good_instance : exists o A b c f, oracle_ok o /\ mk_nlg ["x1"; "x2"] ["y"] exT (meye 1) (Fin 0) None (Some exu) (Some exc) [("x1", 5)] = Ok f /\ nl_good A b c f /\ nl_plain f c /\
  A "y" "x1" = 2 /\ A "y" "x2" = 3 /\ b "y" = 1 /\ ga_vars c = ["x2"; "x1"] /\ dkeys (nl_ev f) = ["x1"] /\ nl_upd f = Some exu.
Proof.
  destruct id_oracle_ok as (o & Ho). destruct (ex_made (Some exu) [("x1", 5)]) as (f & E & G & P & K1 & K2 & K8 & K6); [now intros u [= <-]|repeat constructor; intros []|intros (_ & [H|[]]); discriminate H|].
  exists o, exA, exb, exc, f. split; [exact Ho|]. split; [exact E|]. split; [exact G|]. split; [exact P|]. rewrite K8. now repeat split.
Qed.

Lemma ok_inj {A} (x y : A) : Ok x = Ok y -> x = y. Proof. congruence. Qed.
Lemma fin_inj x y : Ok (Fin x) = Ok (Fin y) -> x = y. Proof. congruence. Qed.
(** A comparison uses the joint last computed: a new factor with an informative conditioning factor
    equals every vacuous factor over the same variables. *)
Theorem nl_equals_stale : exists o f g j x y, oracle_ok o /\ mk_nlg ["x1"; "x2"] ["y"] exT (meye 1) (Fin 0) None None (Some exc) [] = Ok f /\
  make_vacuous ["x1"; "x2"; "y"] (Fin 5) = Ok g /\ nl_equals f g default_tol default_tol = Ok (true, x, y) /\ nl_joint_distribution o f = Ok j /\ solid j /\ exists e, lp g e <> lp j e.
Proof.
  destruct id_oracle_ok as (o & Ho).
  destruct (nl_init_spec ["x1"; "x2"] ["y"] exT (meye 1) (Fin 0) None (Some exc) [] nd_xy eq_refl eq_refl) as (f & E & W & K1 & K2 & K3 & K4 & K5 & K6 & K7 & K8 & K9); [discriminate|intros c [= <-]; apply stdg_solid, nd_x21|].
  destruct (ex_made None []) as (f' & E' & (Wf & OK & Ec & IN) & _); [discriminate|constructor|intros ([] & _)|]. rewrite E in E'. injection E' as <-.
  destruct (nl_joint_spec o f exA exb exc Ho Wf OK Ec IN) as (j & Ej & _ & Sj). rewrite K6 in Sj. specialize (Sj I).
  assert (MV : forall g, make_vacuous ["x1"; "x2"; "y"] (Fin g) = Ok {| ga_vars := ["x1"; "x2"; "y"]; ga_vac := true; ga_can := Some (mzeros 3 3, mzeros 3 1, Fin g); ga_cov := None |}).
  { intros g. unfold make_vacuous. rewrite mk_can_ok by (exact nd_xy || now repeat split). change (length ["x1"; "x2"; "y"]) with 3%nat. now rewrite zeros_vacuous. }
  cbn [app] in K9. rewrite MV in K9. injection K9 as K9.
  assert (EQ : exists x y, nl_equals f {| ga_vars := ["x1"; "x2"; "y"]; ga_vac := true; ga_can := Some (mzeros 3 3, mzeros 3 1, Fin 5); ga_cov := None |} default_tol default_tol = Ok (true, x, y)).
  { unfold nl_equals. rewrite <- K9. unfold g_equals. cbn [ga_vars]. rewrite (NlgGeneral.seteqb_perm _ _ (Permutation_refl _)). cbn [negb]. unfold g_copy. cbn [ga_cov ga_can ga_vars].
    rewrite mk_can_ok by (exact nd_xy || now repeat split). cbn [bind ga_vac]. change (length ["x1"; "x2"; "y"]) with 3%nat. rewrite zeros_vacuous. cbn. do 2 eexists. reflexivity. }
  destruct EQ as (x & y & EQ). exists o, f. do 2 eexists. exists x, y. split; [exact Ho|]. split; [exact E|]. split; [apply MV|]. split; [exact EQ|]. split; [exact Ej|]. split; [exact Sj|].
  assert (LG : forall e, lp {| ga_vars := ["x1"; "x2"; "y"]; ga_vac := true; ga_can := Some (mzeros 3 3, mzeros 3 1, Fin 5); ga_cov := None |} e = Ok (Fin 5)).
  { intros e. set (z := {| ga_vars := _ |}). assert (Wz : wf_gauss z). { split; [exact nd_xy|]. split; [left; discriminate|]. split; intros q Hq; [|discriminate]. injection Hq as <-. now repeat split. }
    unfold lp. rewrite (lp_canon z z _ _ _ e Wz (get_can_some z _ _ _ eq_refl)). rewrite can_form_zero by exact nd_xy. unfold qsum. rewrite rsum_zero; [cbn; f_equal; f_equal; ring|].
    intros i _. apply rsum_zero. intros k _. cbn. ring. }
  pose proof (nl_joint_spec o f exA exb exc Ho Wf OK Ec IN) as (j' & Ej' & (_ & _ & _ & Lj) & _). rewrite Ej in Ej'. injection Ej' as <-.
  exists (fun v => if string_dec v "x2" then 1 else if string_dec v "x1" then 4 else 12). set (e := fun v => _). rewrite LG. destruct (Lj e) as (l1 & l2 & l3 & L1 & L2 & L3 & L); [intros v x0; rewrite K8; discriminate|].
  rewrite L. unfold upd_lp in L3. rewrite K6 in L3. injection L3 as <-. unfold exc in L1. rewrite stdg_lp in L1 by exact nd_x21. apply ok_inj in L1. subst l1.
  rewrite (nl_noise_explicit f exA exb e 0 OK K5) in L2. apply ok_inj in L2. subst l2. cbn [vadd]. intros C. apply fin_inj in C.
  assert (HP : 0 < ln ((2 * PI) ^ 2)). { rewrite <- ln_1. apply ln_increasing; [lra|]. pose proof PI2_1. assert (1 < PI) by lra. cbn. nra. }
  assert (HQ : 0 < ln ((2 * PI) ^ 1)). { rewrite <- ln_1. apply ln_increasing; [lra|]. pose proof PI2_1. cbn. lra. }
  rewrite K2, K4 in C. change (length ["x2"; "x1"]) with 2%nat in C. change (length ["y"]) with 1%nat in C.
  assert (D1 : mdet (meye 1) = 1) by apply mdet_eye. rewrite D1, Rmult_1_r in C.
  match type of C with context [qsum 1 (minv (meye 1)) ?u] => assert (QQ : 0 <= qsum 1 (minv (meye 1)) u) end.
  { apply qsum_nonneg; [apply posdef_minv, eye_posdef|reflexivity]. }
  match type of C with context [Rsum (map ?u ["x2"; "x1"])] => assert (RR : 0 <= Rsum (map u ["x2"; "x1"])) end.
  { cbn [map]. rewrite !Rsum_cons. apply Rplus_le_le_0_compat; [apply Rle_0_sqr|]. apply Rplus_le_le_0_compat; [apply Rle_0_sqr|apply Rle_refl]. }
  lra.
Qed.

(** A transform that works by position sees the rows in the conditioning factor's order. *)
Definition rowT (X : mat) (names : list string) : res mat := Ok (Mat 1 (nc X) (fun _ k => ent X 0 k)).
Lemma rowT_shapes : shapes_by_name rowT ["x1"; "x2"] ["y"].
Proof. intros X names _ _. eexists. split; [reflexivity|]. now split. Qed.
Lemma row_mean o c C m w : oracle_ok o -> solid c -> Permutation (ga_vars c) ["x1"; "x2"] -> get_cov c = Ok (c, (C, m, w)) ->
  exists f j J mj w, mk_nlg ["x1"; "x2"] ["y"] rowT (meye 1) (Fin 0) None None (Some c) [] = Ok f /\ nl_joint_distribution o f = Ok j /\ solid j /\
    get_cov j = Ok (j, (J, mj, w)) /\ named_coord mj (ga_vars j) "y" = ent m 0 0.
Proof.
  intros Ho Sc HP G.
  destruct (nl_init_spec ["x1"; "x2"] ["y"] rowT (meye 1) (Fin 0) None (Some c) [] nd_xy eq_refl eq_refl) as (f & E & W & K1 & K2 & K3 & K4 & K5 & K6 & K7 & K8 & K9); [discriminate|now intros c0 [= <-]|].
  assert (L2 : length (ga_vars c) = 2%nat) by (rewrite (Permutation_length HP); reflexivity).
  destruct (nl_general o f c Ho W) as (c' & C' & m' & w' & X & Y & j & J & mj & G' & EX & ET & Ej & Sj & Vj & Gj & X1 & Y1 & JP).
  { now rewrite K2. } { rewrite K4. apply eye_posdef. } { rewrite K1, K2, K3. exact rowT_shapes. } { exact K8. } { exact K6. } { exact K7. } { exact Sc. } { now rewrite K1. } { intros H. now rewrite H in L2. }
  rewrite G in G'. injection G' as <- <- <- <-. pose proof Sc as (W1 & _ & _ & PK1 & _). destruct (solid_lp_cov c c C m w Sc G) as (Sh & PC & LC).
  assert (R1 : regular c). { intros K h g HK. pose proof (PK1 K h g HK) as P. split; [apply P|now apply posdef_det]. }
  destruct (sigma_points_gauss c c C m w W1 R1 G PC) as (X' & EX' & _ & _ & (MX1 & MX2 & MX) & _). rewrite EX in EX'. injection EX' as <-.
  exists f, j, J, mj, (vadd (nl_w f) w). split; [exact E|]. split; [exact Ej|]. split; [exact Sj|]. split; [exact Gj|].
  destruct JP as (_ & _ & _ & _ & _ & M & _). rewrite K3 in ET. unfold rowT in ET. injection ET as <-. rewrite X1 in M. cbn [nr] in M. specialize (M 0%nat ltac:(lia)). rewrite Nat.add_0_r in M.
  assert (EY : "y" = nth (length (ga_vars c)) (ga_vars j) "") by (rewrite Vj, K2, app_nth2, Nat.sub_diag by lia; reflexivity).
  pose proof Sj as ((Dj & _) & _). rewrite EY, nth_name_coord; [|exact Dj|rewrite Vj, K2, app_length; cbn; lia]. rewrite M.
  rewrite <- (MX 0%nat 0%nat) by (cbn; lia). reflexivity.
Qed.
Lemma stdg_get_cov vars l w : get_cov (stdg vars l w) = Ok (stdg vars l w, (meye (length vars), Mat (length vars) 1 (fun i _ => nth i l 0), Fin w)).
Proof. reflexivity. Qed.
Theorem nl_positional : exists o T c1 c2 f1 f2 j1 j2 J1 J2 m1 m2 w1 w2, oracle_ok o /\ solid c1 /\ solid c2 /\ (forall e, lp c1 e = lp c2 e) /\
  mk_nlg ["x1"; "x2"] ["y"] T (meye 1) (Fin 0) None None (Some c1) [] = Ok f1 /\ mk_nlg ["x1"; "x2"] ["y"] T (meye 1) (Fin 0) None None (Some c2) [] = Ok f2 /\
  nl_joint_distribution o f1 = Ok j1 /\ nl_joint_distribution o f2 = Ok j2 /\ get_cov j1 = Ok (j1, (J1, m1, w1)) /\ get_cov j2 = Ok (j2, (J2, m2, w2)) /\
  named_coord m1 (ga_vars j1) "y" = 1 /\ named_coord m2 (ga_vars j2) "y" = 5.
Proof.
  destruct id_oracle_ok as (o & Ho). assert (S1 : solid (stdg ["x1"; "x2"] [1; 5] 0)) by apply stdg_solid, nd_x12. assert (S2 : solid (stdg ["x2"; "x1"] [5; 1] 0)) by apply stdg_solid, nd_x21.
  destruct (row_mean o _ _ _ _ Ho S1 (Permutation_refl _) (stdg_get_cov _ _ _)) as (f1 & j1 & J1 & m1 & w1 & E1 & Ej1 & _ & G1 & M1).
  destruct (row_mean o _ _ _ _ Ho S2 (perm_swap _ _ _) (stdg_get_cov _ _ _)) as (f2 & j2 & J2 & m2 & w2 & E2 & Ej2 & _ & G2 & M2).
  exists o, rowT. do 12 eexists. split; [exact Ho|]. split; [exact S1|]. split; [exact S2|]. split.
  { intros e. rewrite !stdg_lp by (exact nd_x12 || exact nd_x21). do 2 f_equal. cbn [map length]. rewrite !Rsum_cons. unfold named_coord. cbn. ring. }
  split; [exact E1|]. split; [exact E2|]. split; [exact Ej1|]. split; [exact Ej2|]. split; [exact G1|]. split; [exact G2|]. split; [exact M1|exact M2].
Qed.

(** A marginal that names a variable which the joint no longer holds. *)
Lemma mapM_index_err (vars xs : list string) : (exists x, In x xs /\ ~ In x vars) -> mapM (py_index vars) xs = Err ValueError.
Proof.
  intros (x & Hx & Hn). induction xs as [|a xs IH]; [contradiction|]. cbn [mapM]. unfold py_index at 1. destruct (index_opt a vars) as [i|] eqn:Ei; [|reflexivity]. cbn [bind].
  rewrite IH; [reflexivity|]. destruct Hx as [->|Hx]; [|exact Hx]. exfalso. apply Hn. apply index_opt_nth in Ei. exact (nth_error_In _ _ Ei).
Qed.
Lemma marg_missing o g xs : solid g -> (exists x, In x xs /\ ~ In x (ga_vars g)) -> g_marginalize o g xs true = Err ValueError.
Proof.
  intros ((_ & Hf & _) & Vac & _) Hx. unfold g_marginalize. rewrite Vac. cbn [marginal_vars]. destruct (ga_can g) as [((K & h) & w)|] eqn:Ec.
  - unfold canform_marginalise. now rewrite mapM_index_err.
  - destruct (ga_cov g) as [((C & m) & w)|] eqn:Ev; [now rewrite mapM_index_err|]. destruct Hf as [H|H]; congruence.
Qed.
Theorem nl_marginal_observed o f A b c xs : oracle_ok o -> nl_good A b c f -> incl xs (nl_vars f) -> (exists x, In x xs /\ In x (dkeys (nl_ev f))) ->
  (match nl_upd f with Some u => solid u | None => True end) -> nl_marginalize o f xs true = Err ValueError.
Proof.
  intros Ho (Wf & OK & Ec & IN) Ix (x & Hx & Ho') Su. destruct (nl_joint_spec o f A b c Ho Wf OK Ec IN) as (j & Ej & (_ & _ & Vj & _) & Sj). 
  assert (SJ : solid j) by (apply Sj; exact Su). unfold nl_marginalize. cbn [marginal_vars]. rewrite (proj2 (subsetb_incl _ _) Ix). cbn [py_assert bind].
  unfold nl_joint_distribution in Ej. destruct (nl_copy f) as [d|] eqn:Ed; [|discriminate]. cbn [bind] in *. destruct (nl_recompute o d) as [d'|] eqn:Er; [|discriminate]. cbn [bind] in *.
  apply ok_inj in Ej. rewrite Ej. pose proof SJ as (_ & -> & _). apply marg_missing; [exact SJ|]. exists x. split; [exact Hx|]. intros H. now apply Vj in H.
Qed.
(** Removing variables after an observation asks for the observed ones as well. *)
Theorem nl_marginal_removed o f A b c vrs : oracle_ok o -> nl_good A b c f -> (exists x, In x (nl_vars f) /\ In x (dkeys (nl_ev f)) /\ ~ In x vrs) ->
  (match nl_upd f with Some u => solid u | None => True end) -> nl_marginalize o f vrs false = Err ValueError.
Proof.
  intros Ho G (x & Hx & Hk & Hn) Su. rewrite nl_marginal_away. assert (P : forall v, In v (so o (set_diff (nl_vars f) vrs)) <-> In v (set_diff (nl_vars f) vrs)).
  { intros v. apply so_In; [exact Ho|]. apply NoDup_set_diff. }
  apply (nl_marginal_observed o f A b c); [exact Ho|exact G| | |exact Su].
  - intros v Hv. apply P in Hv. now apply In_set_diff in Hv.
  - exists x. split; [|exact Hk]. apply P. apply In_set_diff. now split.
Qed.

(** Marginals of a factor that some unobserved conditioning variable is not informed about. *)
Definition no_info (f : nlg) : Prop := exists v, In v (nl_cing f) /\ ~ In v (dkeys (nl_ev f)) /\ forall c, nl_cond f = Some c -> ~ In v (ga_vars c).
Lemma no_info_start o f xs : nl_wf f -> NoDup (dkeys (nl_ev f)) -> no_info f -> incl xs (nl_vars f) -> exists d j, copy_of f d /\ nl_copy f = Ok d /\ nl_recompute o d = Ok (set_joint d j) /\ ga_vac j = true /\
  subsetb xs (nl_vars f) = true.
Proof.
  intros Wf Nk (v & H1 & H2 & H3) Ix. destruct (nl_copy_spec f Wf) as (d & Ed & CD). pose proof CD as ((K1 & K2 & K3 & K4 & K5) & K6 & _ & _ & K9).
  destruct (nl_uninformed o d (nl_wf_copy f d Wf CD)) as (j & Ej & _ & Vac & _).
  { now rewrite K6. } { exists v. rewrite K1, K6. split; [exact H1|]. split; [exact H2|]. intros c Ec. unfold opt_same in K9. rewrite Ec in K9. destruct (nl_cond f) as [c0|] eqn:E0; [|contradiction].
    destruct K9 as ((_ & Vc & _) & _). first [rewrite Vc|rewrite <- Vc]. now apply H3. }
  exists d, j. split; [exact CD|]. split; [exact Ed|]. split; [exact Ej|]. split; [exact Vac|]. now apply subsetb_incl.
Qed.
Theorem nl_no_info_cond o f c xs : nl_wf f -> NoDup (dkeys (nl_ev f)) -> no_info f -> nl_cond f = Some c -> solid c -> incl xs (nl_cing f) -> incl xs (ga_vars c) ->
  nl_marginalize o f xs true = g_marginalize o c xs true.
Proof.
  intros Wf Nk NI Ec Sc I1 I2. destruct (no_info_start o f xs Wf Nk NI) as (d & j & CD & Ed & Ej & Vac & SB); [intros v Hv; apply in_or_app; left; now apply I1|].
  unfold nl_marginalize. cbn [marginal_vars]. rewrite SB. cbn [py_assert bind]. rewrite Ed. cbn [bind]. rewrite Ej. cbn [bind set_joint nl_joint nl_cing nl_cond]. rewrite Vac.
  pose proof CD as ((K1 & _) & _). rewrite K1, (proj2 (subsetb_incl _ _) I1), (cond_copy_id f d c Ed Ec Sc), (proj2 (subsetb_incl _ _) I2). reflexivity.
Qed.
Theorem nl_no_info_upd o f u xs : nl_wf f -> NoDup (dkeys (nl_ev f)) -> no_info f -> nl_upd f = Some u -> solid u -> xs <> [] -> incl xs (nl_cal f) -> incl xs (ga_vars u) ->
  nl_marginalize o f xs true = let* m := g_marginalize o u xs true in Ok (add_log_weight m (nl_w f)).
Proof.
  intros Wf Nk NI Eu Su Nx I1 I2. destruct (no_info_start o f xs Wf Nk NI) as (d & j & CD & Ed & Ej & Vac & SB); [intros v Hv; apply in_or_app; right; now apply I1|].
  assert (NC : subsetb xs (nl_cing f) = false).
  { destruct (subsetb xs (nl_cing f)) eqn:E; [|reflexivity]. exfalso. destruct xs as [|x xs]; [now apply Nx|]. pose proof (proj1 (subsetb_incl _ _) E x (or_introl eq_refl)) as H.
    destruct Wf as (Hd & _). apply NoDup_app_elim in Hd. destruct Hd as (_ & _ & Hd). exact (Hd x H (I1 x (or_introl eq_refl))). }
  assert (Eud : nl_upd d = Some u).
  { unfold nl_copy, mk_nlg in Ed. repeat (apply bind_ok in Ed; destruct Ed as (? & ? & Ed)). injection Ed as <-. cbn [nl_upd].
    match goal with H : opt_copy (nl_upd f) = Ok _ |- _ => rewrite Eu in H; unfold opt_copy in H; rewrite (copy_solid_id u Su) in H; cbn [bind] in H; congruence end. }
  unfold nl_marginalize. cbn [marginal_vars]. rewrite SB. cbn [py_assert bind]. rewrite Ed. cbn [bind]. rewrite Ej. cbn [bind set_joint nl_joint nl_cing nl_cal nl_upd]. rewrite Vac.
  pose proof CD as ((K1 & K2 & _) & _). rewrite K1, K2, NC, (proj2 (subsetb_incl _ _) I1), Eud, (proj2 (subsetb_incl _ _) I2). reflexivity.
Qed.

(** Templates. *)
Theorem nt_factor_spec cing cal T Q t d a b x : mk_nltemplate cing cal T Q = Ok t -> format_list_elements cing d = Ok a -> format_list_elements cal d = Ok b ->
  NoDup (a ++ b) -> nr Q = length b -> nc Q = length b ->
  exists f, nt_make_factor t (Some d) None x = Ok f /\ nl_wf f /\ nl_cing f = a /\ nl_cal f = b /\ nl_T f = T /\ nl_Q f = Q /\ nl_w f = Fin 0 /\ nl_upd f = None /\ nl_cond f = None /\ nl_ev f = [].
Proof.
  intros Et Ea Eb Hd Q1 Q2. unfold mk_nltemplate in Et. cbn [mk_template bind] in Et. injection Et as <-. unfold nt_make_factor. cbn [py_assert bind nt_names t_conditioning t_conditional nt_T nt_Q fmt_opt].
  rewrite Ea. cbn [bind]. rewrite Eb. cbn [bind]. destruct (nl_init_spec a b T Q (Fin 0) None None [] Hd Q1 Q2) as (f & E & W & H); [discriminate|discriminate|]. exists f. split; [exact E|]. split; [exact W|]. tauto.
Qed.
Theorem nt_factor_names cing cal T Q t a b : mk_nltemplate cing cal T Q = Ok t -> NoDup (a ++ b) -> nr Q = length b -> nc Q = length b ->
  exists f, nt_make_factor t None (Some a) (Some b) = Ok f /\ nl_wf f /\ nl_cing f = a /\ nl_cal f = b /\ nl_T f = T /\ nl_Q f = Q /\ nl_w f = Fin 0 /\ nl_upd f = None /\ nl_cond f = None /\ nl_ev f = [].
Proof.
  intros Et Hd Q1 Q2. unfold mk_nltemplate in Et. cbn [mk_template bind] in Et. injection Et as <-. unfold nt_make_factor. cbn [nt_T nt_Q].
  destruct (nl_init_spec a b T Q (Fin 0) None None [] Hd Q1 Q2) as (f & E & W & H); [discriminate|discriminate|]. exists f. split; [exact E|]. split; [exact W|]. tauto.
Qed.
Theorem nt_ignored t d cal cal' : nt_make_factor t (Some d) None cal = nt_make_factor t (Some d) None cal'.
Proof. reflexivity. Qed.
