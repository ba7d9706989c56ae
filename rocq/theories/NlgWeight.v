(** Adding a log weight to a nonlinear Gaussian. *)
From Verif Require Import NlgMore NlgGeneral.
Local Open Scope string_scope.
Local Open Scope list_scope.
Local Open Scope R_scope.
Lemma nl_add_good A b c f x : nl_good A b c f -> nl_good A b c (nl_add_log_weight f x).
Proof. intros (W & O & C & I). split; [exact W|]. split; [exact O|]. split; [exact C|exact I]. Qed.
Lemma nl_add_weight o f A b c w x : oracle_ok o -> nl_good A b c f -> nl_w f = Fin w ->
  exists j j', nl_joint_distribution o f = Ok j /\ nl_joint_distribution o (nl_add_log_weight f (Fin x)) = Ok j' /\
    (forall v, In v (ga_vars j') <-> In v (ga_vars j)) /\
    forall e, (forall v y, dget (nl_ev f) v = Some y -> e v = y) -> exists l, lp j e = Ok l /\ lp j' e = Ok (vadd l (Fin x)).
Proof.
  intros Ho G Ew. destruct (nl_joint_explicit o f A b c w Ho G Ew) as (j & Ej & Vj & _ & Pj).
  assert (Ew' : nl_w (nl_add_log_weight f (Fin x)) = Fin (w + x)) by (cbn; now rewrite Ew).
  destruct (nl_joint_explicit o _ A b c (w + x) Ho (nl_add_good A b c f (Fin x) G) Ew') as (j' & Ej' & Vj' & _ & Pj').
  exists j, j'. split; [exact Ej|]. split; [exact Ej'|]. split; [intros v; now rewrite Vj, Vj'|].
  intros e He. destruct (Pj e He) as (l & u & El & Eu & P). destruct (Pj' e He) as (l' & u' & El' & Eu' & P').
  rewrite El in El'. injection El' as <-. cbn [nl_upd nl_add_log_weight] in Eu'. rewrite Eu in Eu'. injection Eu' as <-.
  eexists. split; [exact P|]. rewrite P'. f_equal. cbn [nl_cal nl_Q nl_cing nl_add_log_weight].
  destruct l, u; cbn; try reflexivity. f_equal. ring.
Qed.
(** One conditioning variable and no conditional variables: the covariance of one row has no axes. *)
Lemma nl_no_output o f c : oracle_ok o -> nl_wf f -> nl_cal f = [] -> shapes_by_name (nl_T f) (nl_cing f) [] ->
  nl_ev f = [] -> nl_cond f = Some c -> solid c -> Permutation (ga_vars c) (nl_cing f) -> length (nl_cing f) = 1%nat ->
  nl_joint_distribution o f = Err IndexError.
Proof.
  intros Ho Wf Hcal HT Ev Ec Sc HP Nc. destruct (nl_copy_spec f Wf) as (d & Ed & (SK & K6 & _ & K8 & _)). pose proof SK as (K1 & K2 & K3 & K4 & K5).
  assert (Ecd : nl_cond d = Some c).
  { unfold nl_copy, mk_nlg in Ed. repeat (apply bind_ok in Ed; destruct Ed as (? & ? & Ed)). injection Ed as <-. cbn [nl_cond].
    match goal with H : opt_copy (nl_cond f) = Ok _ |- _ => rewrite Ec in H; unfold opt_copy in H; rewrite (copy_solid_id c Sc) in H; cbn [bind] in H; congruence end. }
  destruct (get_cov_solid c Sc) as (c2 & C & m & w & G). destruct (solid_get_cov c c2 _ Sc G) as (S2 & V2 & G2).
  destruct (solid_lp_cov c c2 C m w Sc G) as (Sh & PC & LC). pose proof Sc as (W1 & Vac1 & _ & PK1 & _).
  assert (R1 : regular c). { intros K h g HK. pose proof (PK1 K h g HK) as P. split; [apply P|now apply posdef_det]. }
  destruct (sigma_points_gauss c c2 C m w W1 R1 G PC) as (X & EX & X1 & X2 & MX & CX).
  destruct (HT X (ga_vars c) HP X1) as (Y & ET & Y1 & Y2). destruct (vcat_ok X Y (eq_sym Y2)) as (Z & EZ & Z1 & Z2 & Z3 & Z4).
  unfold nl_joint_distribution. rewrite Ed. cbn [bind]. unfold nl_recompute. rewrite K6, Ev. cbn [dkeys map filter mapM bind]. rewrite Ecd, K1, app_nil_r.
  rewrite (seteqb_perm _ _ HP). cbn [negb]. unfold cond_reduced. rewrite (copy_solid_id c Sc). cbn [bind].
  assert (Eo : so o (set_inter (dkeys (@nil (string * R))) (ga_vars c)) = []).
  { assert (HPo : Permutation [] (so o [])) by (apply (proj1 Ho); constructor). apply Permutation_nil in HPo. exact HPo. }
  change (set_inter (dkeys []) (ga_vars c)) with (@nil string). change (set_inter (dkeys []) (ga_vars c)) with (@nil string) in Eo. rewrite Eo. cbn [mapM bind length Nat.ltb Nat.leb]. rewrite EX. cbn [bind fst snd]. unfold extend_points. cbn [length Nat.ltb Nat.leb bind]. cbn [app].
  rewrite V2. unfold joint_params. rewrite K3, ET. cbn [bind]. rewrite EZ. cbn [bind]. unfold array_to_params. cbn [fst snd].
  assert (Lv : length (nl_vars d) = 1%nat) by (unfold nl_vars; rewrite K1, K2, Hcal, app_nil_r; exact Nc).
  assert (Zr : nr Z = 1%nat) by (rewrite Z1, X1, Y1, (Permutation_length HP), Nc; reflexivity).
  unfold check_rows. cbn [mean_cols cov_bias nr]. rewrite Lv, Zr. reflexivity.
Qed.
Lemma no_output_ex : exists o f, oracle_ok o /\ mk_nlg ["x"] [] (fun X _ => Ok (mzeros 0 (nc X))) (meye 0) (Fin 0) None None (Some (stdg ["x"] [1] 0)) [] = Ok f /\
  nl_wf f /\ nl_cal f = [] /\ shapes_by_name (nl_T f) (nl_cing f) [] /\ nl_ev f = [] /\ nl_cond f = Some (stdg ["x"] [1] 0) /\ solid (stdg ["x"] [1] 0) /\
  nl_cing f = ["x"].
Proof.
  destruct oracle_exists as (o & Ho). assert (N : NoDup ["x"]) by (repeat constructor; intros []).
  assert (S : solid (stdg ["x"] [1] 0)) by now apply stdg_solid.
  destruct (nl_init_spec ["x"] [] (fun X _ => Ok (mzeros 0 (nc X))) (meye 0) (Fin 0) None (Some (stdg ["x"] [1] 0)) [] N eq_refl eq_refl)
    as (f & E & W & K1 & K2 & K3 & K4 & K5 & K6 & K7 & K8 & _); [discriminate|now intros c [= <-]|].
  exists o, f. split; [exact Ho|]. split; [exact E|]. split; [exact W|]. split; [exact K2|]. rewrite K3, K1. split.
  - intros X names _ _. eexists. split; [reflexivity|]. split; reflexivity.
  - split; [exact K8|]. split; [exact K7|]. split; [exact S|reflexivity].
Qed.
