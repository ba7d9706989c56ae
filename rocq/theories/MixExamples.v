(** Examples and counterexamples for mixtures, and the statements used in PropMix.v. *)
From Verif Require Export MixEq.
#[global] Set Bullet Behavior "Strict Subproofs".
Local Open Scope R_scope.
Local Open Scope string_scope.

Lemma meye1_posdef : posdef (meye 1).
Proof.
  split; [intros [|[]] [|[]] H1 H2; try reflexivity; cbn in *; lia|].
  intros v (i & Hi & Hv). change (nr (meye 1)) with 1%nat in *. assert (i = 0%nat) as -> by lia. unfold qsum. cbn. assert (0 < v 0%nat * v 0%nat) by nra. nra.
Qed.
(** One-dimensional factors in canonical form, precision one. *)
Definition cg (h : R) : gauss := {| ga_vars := ["a"]; ga_vac := false; ga_can := Some (meye 1, Mat 1 1 (fun _ _ => h), Fin 0); ga_cov := None |}.
Lemma cg_wf h : wf_gauss (cg h).
Proof.
  split; [constructor; [intros []|constructor]|]. split; [left; discriminate|]. split; intros p Hp; [|discriminate]. injection Hp as <-. now repeat split.
Qed.
Lemma cg_solid h : solid (cg h).
Proof.
  split; [apply cg_wf|]. split; [reflexivity|]. split; [intros p q _ Hq; discriminate|]. split; [|intros C m w Hq; discriminate].
  intros K h0 g Hk. injection Hk as <- _ _. exact meye1_posdef.
Qed.
Lemma cg_regular h : regular (cg h).
Proof. intros K h0 g Hk. injection Hk as <- _ _. split; [apply meye1_posdef|]. apply posdef_det, meye1_posdef. Qed.
Lemma cg_cmp h : cmp ["a"] (cg h).
Proof. split; [apply cg_wf|]. split; [apply cg_regular|]. split; reflexivity. Qed.
Lemma cg_copy h : g_copy (cg h) = Ok (cg h).
Proof.
  unfold g_copy, cg. cbn [ga_can ga_vars]. rewrite mk_can_ok; [|constructor; [intros []|constructor]|now repeat split].
  rewrite (posdef_not_vacuous (meye 1) eq_refl meye1_posdef). reflexivity.
Qed.
Lemma cg_equals h h' : g_equals (cg h) (cg h') default_tol default_tol = Ok (Rle_b (Rabs (h - h')) (default_tol + default_tol * Rabs h'), cg h, cg h').
Proof.
  unfold g_equals. change (ga_vars (cg h)) with ["a"]. change (ga_vars (cg h')) with ["a"]. assert (seteqb ["a"] ["a"] = true) as -> by reflexivity. cbn [negb].
  rewrite cg_copy. cbn [bind]. assert (eqb ["a"] ["a"] = true) as -> by reflexivity. cbn [bind]. change (ga_vac (cg h') && ga_vac (cg h))%bool with false. cbn iota.
  change (ga_can (cg h)) with (Some (meye 1, Mat 1 1 (fun _ _ => h), Fin 0)). cbn iota. unfold canform_equals.
  replace (get_can (cg h')) with (Ok (cg h', (meye 1, Mat 1 1 (fun _ _ => h'), Fin 0))) by reflexivity. cbn [bind fst snd].
  assert (T : 0 < default_tol) by (unfold default_tol; lra).
  rewrite visclose_self; [|lra|lra|discriminate]. cbn [negb]. rewrite reorder_id by reflexivity. cbn [bind].
  replace (get_can (cg h')) with (Ok (cg h', (meye 1, Mat 1 1 (fun _ _ => h'), Fin 0))) by reflexivity. cbn [bind fst snd].
  replace (allclose (Mat 1 1 (fun _ _ => h)) (Mat 1 1 (fun _ _ => h')) default_tol default_tol) with (Ok (Rle_b (Rabs (h - h')) (default_tol + default_tol * Rabs h'))).
  2: { unfold allclose. cbn. now rewrite !Bool.andb_true_r. }
  cbn [bind]. destruct (Rle_b (Rabs (h - h')) (default_tol + default_tol * Rabs h')); [|reflexivity]. cbn [negb].
  destruct (allclose_self (meye 1) (meye 1) default_tol default_tol) as (b & E & Hb); [lra|lra|reflexivity|reflexivity|]. rewrite E, Hb by reflexivity. reflexivity.
Qed.
Lemma near_same h : Rle_b (Rabs (h - h)) (default_tol + default_tol * Rabs h) = true.
Proof. apply Rle_b_true. unfold Rminus. rewrite Rplus_opp_r, Rabs_R0. unfold default_tol. pose proof (Rabs_pos h). nra. Qed.
Lemma near_far : Rle_b (Rabs (0 - 100)) (default_tol + default_tol * Rabs 100) = false.
Proof. apply Rle_b_false. unfold default_tol. rewrite (Rabs_left (0 - 100)), (Rabs_right 100) by lra. lra. Qed.
Lemma near_far' : Rle_b (Rabs (100 - 0)) (default_tol + default_tol * Rabs 0) = false.
Proof. apply Rle_b_false. unfold default_tol. rewrite Rabs_R0, (Rabs_right (100 - 0)) by lra. lra. Qed.

Definition mixc (hs : list R) : gmix := {| gm_vars := ["a"]; gm_comps := map cg hs |}.
Lemma mixc_wf h hs : wf_mix (mixc (h :: hs)).
Proof.
  split; [discriminate|]. intros c Hc. change (gm_comps (mixc (h :: hs))) with (map cg (h :: hs)) in Hc. apply in_map_iff in Hc. destruct Hc as (x & <- & _).
  split; [apply cg_wf|reflexivity].
Qed.
Lemma mixc_made h hs : mk_mix (map cg (h :: hs)) = Ok (mixc (h :: hs)).
Proof.
  unfold mk_mix. cbn [map]. cbn iota. change (cg h :: map cg hs) with (map cg (h :: hs)).
  assert (mapM g_copy (map cg (h :: hs)) = Ok (map cg (h :: hs))) as ->.
  { generalize (h :: hs). intros l. induction l as [|x l IH]; [reflexivity|]. cbn [map mapM]. rewrite cg_copy. cbn [bind]. rewrite IH. reflexivity. }
  cbn [bind]. assert (forallb (fun c => eqb (ga_vars (cg h)) (ga_vars c)) (map cg (h :: hs)) = true) as ->; [|reflexivity].
  apply forallb_forall. intros c Hc. apply in_map_iff in Hc. destruct Hc as (x & <- & _). reflexivity.
Qed.
Lemma mixc_cmp h hs : cmp_mix (mixc (h :: hs)).
Proof.
  split; [discriminate|]. intros c Hc. change (gm_comps (mixc (h :: hs))) with (map cg (h :: hs)) in Hc. apply in_map_iff in Hc. destruct Hc as (x & <- & _). apply cg_cmp.
Qed.
(** The same components in the other order. *)
Lemma mix_equals_order : exists a b sa sb, mk_mix [cg 0; cg 100] = Ok a /\ mk_mix [cg 100; cg 0] = Ok b /\
  mix_equals a b default_tol default_tol = Ok (false, sa, sb) /\ Permutation (gm_comps a) (gm_comps b).
Proof.
  exists (mixc [0; 100]), (mixc [100; 0]), [cg 0; cg 100], [cg 100; cg 0].
  split; [exact (mixc_made 0 [100])|]. split; [exact (mixc_made 100 [0])|]. split; [|constructor].
  unfold mix_equals. change (gm_comps (mixc [0; 100])) with [cg 0; cg 100]. change (gm_comps (mixc [100; 0])) with [cg 100; cg 0].
  cbn [length Nat.eqb negb seq]. cbn [mix_eq_outer]. unfold py_nth at 1. cbn [nth_error bind Nat.sub seq]. unfold mix_eq_inner at 1. cbn [foldM]. unfold py_nth at 1. cbn [nth_error bind].
  rewrite cg_equals. cbn [bind]. unfold py_nth at 1. unfold set_nth at 1. cbn [firstn skipn app nth_error bind]. rewrite cg_equals. cbn [bind]. unfold set_nth at 1. cbn [firstn skipn app foldM bind].
  rewrite near_far, near_same. cbn [orb]. unfold set_nth at 1. cbn [firstn skipn app]. 
  unfold py_nth at 1. cbn [nth_error bind Nat.sub seq]. unfold mix_eq_inner at 1. cbn [foldM]. unfold py_nth at 1. unfold set_nth at 1. cbn [firstn skipn app nth_error bind].
  rewrite cg_equals. cbn [bind]. rewrite near_far'. reflexivity.
Qed.
Definition cgl (x h : R) : R := h * x - x * x / 2.
Lemma cg_lp h e : lp (cg h) e = Ok (Fin (cgl (e "a") h)).
Proof. unfold lp, log_potential. cbn. do 2 f_equal. unfold cgl. lra. Qed.
Lemma mixc_pot h hs e : mixpot (mixc (h :: hs)) e = Ok (Fin (Rsum (map (fun h => exp (cgl (e "a") h)) (h :: hs)))).
Proof.
  rewrite (mixpot_of (mixc (h :: hs)) e (map (fun h => Fin (cgl (e "a") h)) (h :: hs)) (mixc_wf h hs)).
  - now rewrite map_map.
  - change (gm_comps (mixc (h :: hs))) with (map cg (h :: hs)). generalize (h :: hs). intros l. induction l; cbn [map]; constructor; [apply cg_lp|assumption].
  - intros l Hl. apply in_map_iff in Hl. destruct Hl as (x & <- & _). exact I.
Qed.
(** Two mixtures that compare equal and are different functions. *)
Lemma mix_equals_different : exists a b sa sb, mk_mix [cg 100; cg 100] = Ok a /\ mk_mix [cg 0; cg 100] = Ok b /\
  mix_equals a b default_tol default_tol = Ok (true, sa, sb) /\
  exists p q, mixpot a (fun _ => 1) = Ok (Fin p) /\ mixpot b (fun _ => 1) = Ok (Fin q) /\ q < p.
Proof.
  exists (mixc [100; 100]), (mixc [0; 100]), [cg 100; cg 100], [cg 0; cg 100].
  split; [exact (mixc_made 100 [100])|]. split; [exact (mixc_made 0 [100])|]. split.
  - unfold mix_equals. change (gm_comps (mixc [100; 100])) with [cg 100; cg 100]. change (gm_comps (mixc [0; 100])) with [cg 0; cg 100].
  cbn [length Nat.eqb negb seq]. cbn [mix_eq_outer]. unfold py_nth at 1. cbn [nth_error bind Nat.sub seq]. unfold mix_eq_inner at 1. cbn [foldM]. unfold py_nth at 1. cbn [nth_error bind].
  rewrite cg_equals. cbn [bind]. unfold py_nth at 1. unfold set_nth at 1. cbn [firstn skipn app nth_error bind]. rewrite cg_equals. cbn [bind]. unfold set_nth at 1. cbn [firstn skipn app foldM bind].
  rewrite near_far', near_same. cbn [orb]. unfold set_nth at 1. cbn [firstn skipn app]. 
  unfold py_nth at 1. cbn [nth_error bind Nat.sub seq]. unfold mix_eq_inner at 1. cbn [foldM]. unfold py_nth at 1. unfold set_nth at 1. cbn [firstn skipn app nth_error bind].
  rewrite cg_equals. cbn [bind]. rewrite near_same. reflexivity.
  - do 2 eexists. split; [apply mixc_pot|]. split; [apply mixc_pot|]. cbn [map]. unfold cgl. cbn [Rsum fold_right].
    assert (exp (0 * 1 - 1 * 1 / 2) < exp (100 * 1 - 1 * 1 / 2)) by (apply exp_increasing; lra). lra.
Qed.

(** * Statements with the scopes written out *)
Definition union_scope (l l1 l2 : list string) : Prop := forall v, In v l <-> In v l1 \/ In v l2.
Lemma mix_multiply_full a b : wf_mix a -> wf_mix b ->
  exists r, mix_multiply a b = Ok r /\ wf_mix r /\ length (gm_comps r) = (length (gm_comps a) * length (gm_comps b))%nat /\
    union_scope (gm_vars r) (gm_vars a) (gm_vars b) /\
    forall e p q, mixpot a e = Ok (Fin p) -> mixpot b e = Ok (Fin q) -> mixpot r e = Ok (Fin (p * q)).
Proof.
  intros Wa Wb. destruct (mix_multiply_spec a b Wa Wb) as (r & E & W & L & V & P). exists r. split; [exact E|]. split; [exact W|]. split; [exact L|].
  split; [intros v; rewrite V; apply new_vars_In|exact P].
Qed.
Lemma mix_multiply_gauss_full a f : wf_mix a -> wf_gauss f ->
  exists r, mix_multiply_gauss a f = Ok r /\ wf_mix r /\ union_scope (gm_vars r) (gm_vars a) (ga_vars f) /\
    forall e p l, mixpot a e = Ok (Fin p) -> lp f e = Ok (Fin l) -> mixpot r e = Ok (Fin (p * exp l)).
Proof.
  intros Wa Wb. destruct (mix_multiply_gauss_spec a f Wa Wb) as (r & E & W & V & P). exists r. split; [exact E|]. split; [exact W|].
  split; [intros v; rewrite V; apply new_vars_In|]. intros e p l Hp Hl. now apply (P e p (Fin l)).
Qed.
Lemma mix_divide_gauss_full a f : wf_mix a -> wf_gauss f ->
  exists r, mix_divide_gauss a f = Ok r /\ wf_mix r /\ union_scope (gm_vars r) (gm_vars a) (ga_vars f) /\
    forall e p l, mixpot a e = Ok (Fin p) -> lp f e = Ok (Fin l) -> mixpot r e = Ok (Fin (p / exp l)).
Proof.
  intros Wa Wb. destruct (mix_divide_gauss_spec a f Wa Wb) as (r & E & W & V & P). exists r. split; [exact E|]. split; [exact W|].
  split; [intros v; rewrite V; apply new_vars_In|exact P].
Qed.
(** Equal answers: every component of the left mixture has a component at the same or a later
    place of the right mixture with close parameters. *)
Definition close_gauss (f1 f2 : gauss) : Prop :=
  (exists p f' q, ga_can f1 = Some p /\ get_can f2 = Ok (f', q) /\
      visclose (snd p) (snd q) default_tol default_tol = true /\ close_params default_tol default_tol (ga_vars f1) (ga_vars f2) p q) \/
  (exists p f' q, ga_can f1 = None /\ ga_cov f1 = Some p /\ get_cov f2 = Ok (f', q) /\
      visclose (vexp (snd p)) (vexp (snd q)) default_tol default_tol = true /\ close_params default_tol default_tol (ga_vars f1) (ga_vars f2) p q).
Lemma mix_equals_close a b rtol atol sa sb : cmp_mix a -> cmp_mix b -> gm_vars a = gm_vars b -> mix_equals a b rtol atol = Ok (true, sa, sb) ->
  length (gm_comps a) = length (gm_comps b) /\
  (forall i fi, nth_error (gm_comps a) i = Some fi ->
     exists j bj b', (i <= j)%nat /\ nth_error (gm_comps b) j = Some bj /\ (forall e, lp b' e = lp bj e) /\ close_gauss fi b').
Proof.
  intros Ca Cb EV E. destruct (mix_equals_sound a b rtol atol sa sb Ca Cb EV E) as (L & H & _). split; [exact L|]. intros i fi Hi.
  destruct (H i fi Hi) as (j & bj & b' & r & Hj & Ej & X & Eq). exists j, bj, b'. apply in_seq in Hj. split; [lia|]. split; [exact Ej|].
  destruct X as (W' & R' & A' & V' & _ & _ & L'). split; [exact L'|]. destruct (proj2 Ca fi (nth_error_In _ _ Hi)) as (Wf & Rf & Af & Vf).
  exact (proj2 (g_equals_true fi b' default_tol default_tol fi r Wf W' (fun _ => R') Eq Af)).
Qed.
(** The comparison always has an answer and changes no component except by adding forms. *)
Lemma mix_equals_answers a b rtol atol : cmp_mix a -> cmp_mix b -> gm_vars a = gm_vars b ->
  exists r sb, mix_equals a b rtol atol = Ok (r, gm_comps a, sb) /\ Forall2 (fun c c' => ga_vars c' = ga_vars c /\ forall e, lp c' e = lp c e) (gm_comps b) sb.
Proof.
  intros (Na & Ha) (Nb & Hb) EV. unfold mix_equals. destruct (Nat.eqb_spec (length (gm_comps b)) (length (gm_comps a))) as [El|]; cbn [negb].
  - rewrite <- EV in Hb.
    destruct (outer_spec (gm_vars a) (gm_comps a) (length (gm_comps a)) (seq 0 (length (gm_comps a))) (gm_comps b) Ha Hb eq_refl El) as (r & bs' & E' & F & _).
    { intros i Hi. apply in_seq in Hi. lia. }
    exists r, bs'. split; [exact E'|]. apply (F2_imp ext); [|exact F]. intros x y _ (_ & _ & _ & V & _ & _ & L). now split.
  - exists false, (gm_comps b). split; [reflexivity|]. clear. induction (gm_comps b); constructor; auto.
Qed.

(** * Splitting *)
Definition wg (m w : R) : gauss := {| ga_vars := ["a"]; ga_vac := false; ga_can := None; ga_cov := Some (meye 1, Mat 1 1 (fun _ _ => m), Fin w) |}.
Lemma wg_wf m w : wf_gauss (wg m w).
Proof.
  split; [constructor; [intros []|constructor]|]. split; [right; discriminate|]. split; intros p Hp; [discriminate|]. injection Hp as <-.
  split; [now repeat split|]. split; [apply meye1_posdef|]. apply posdef_det, meye1_posdef.
Qed.
Lemma wg_regular m w : regular (wg m w).
Proof. intros K h g H. discriminate H. Qed.
Lemma wg_cov m w : get_cov (wg m w) = Ok (wg m w, (meye 1, Mat 1 1 (fun _ _ => m), Fin w)).
Proof. reflexivity. Qed.
Lemma wg_copy m w : g_copy (wg m w) = Ok (wg m w).
Proof. unfold g_copy, wg. cbn [ga_can ga_cov ga_vars]. unfold mk_cov. reflexivity. Qed.
Lemma split_full f f' C m w : wf_gauss f -> length (ga_vars f) = 1%nat -> get_cov f = Ok (f', (C, m, w)) -> 0 <= ent C 0 0 ->
  exists a ps, split_gaussian f = Ok a /\ gm_vars a = ga_vars f /\ length (gm_comps a) = 3%nat /\ Forall2 has_params (gm_comps a) ps /\
    weight_sum ps = 1 /\ first_sum ps 0 = ent m 0 0 /\ second_sum ps 0 0 = ent C 0 0 + ent m 0 0 * ent m 0 0 /\
    mix_get_log_weight a = Ok (Fin 0).
Proof.
  intros W L E HC. destruct (split_spec f f' C m w W L E HC) as (a & ps & E1 & V & N & F & HW & H1 & H2). exists a, ps.
  split; [exact E1|]. split; [exact V|]. split; [exact N|]. split; [exact F|]. split; [exact HW|]. split; [exact H1|]. split; [exact H2|].
  unfold mix_get_log_weight. rewrite (log_weight_sum (gm_comps a) ps); [now rewrite HW, ln_1| |exact F]. intros ->. inversion F as [Hz|]. rewrite <- Hz in N. discriminate.
Qed.
Lemma split_loses_weight : exists f a, wf_gauss f /\ get_log_weight f = Ok (Fin 1) /\ split_gaussian f = Ok a /\ mix_get_log_weight a = Ok (Fin 0).
Proof.
  destruct (split_full (wg 0 1) _ _ _ _ (wg_wf 0 1) eq_refl (wg_cov 0 1)) as (a & ps & E & _ & _ & _ & _ & _ & _ & L).
  - cbn. lra.
  - exists (wg 0 1), a. split; [apply wg_wf|]. split; [reflexivity|]. split; [exact E|exact L].
Qed.
(** * Example mixtures in covariance form *)
Definition mixw (l : list (R * R)) : gmix := {| gm_vars := ["a"]; gm_comps := map (fun p => wg (fst p) (snd p)) l |}.
Lemma mixw_wf p l : wf_mix (mixw (p :: l)).
Proof.
  split; [discriminate|]. intros c Hc. apply in_map_iff in Hc. destruct Hc as (x & <- & _). split; [apply wg_wf|reflexivity].
Qed.
Lemma mixw_params l : Forall2 has_params (gm_comps (mixw l)) (map (fun p => (meye 1, Mat 1 1 (fun _ _ => fst p), snd p)) l).
Proof. induction l as [|p l IH]; constructor; [|exact IH]. exists (wg (fst p) (snd p)). apply wg_cov. Qed.
Lemma mixw_regular l c : In c (gm_comps (mixw l)) -> regular c.
Proof. intros Hc. apply in_map_iff in Hc. destruct Hc as (x & <- & _). apply wg_regular. Qed.
Lemma mixc_solid l c : In c (gm_comps (mixc l)) -> solid c.
Proof. intros Hc. apply in_map_iff in Hc. destruct Hc as (x & <- & _). apply cg_solid. Qed.
Lemma mixc_reflexive : cmp_mix (mixc [0; 100]) /\ Forall2 (fun fi bi => no_nan fi /\ holds fi bi) (gm_comps (mixc [0; 100])) (gm_comps (mixc [0; 100])) /\
  exists sb, mix_equals (mixc [0; 100]) (mixc [0; 100]) default_tol default_tol = Ok (true, gm_comps (mixc [0; 100]), sb).
Proof.
  assert (F : Forall2 (fun fi bi => no_nan fi /\ holds fi bi) (gm_comps (mixc [0; 100])) (gm_comps (mixc [0; 100]))).
  { assert (H : forall h, no_nan (cg h) /\ holds (cg h) (cg h)).
    { intros h. split; [split; intros p Hp; [injection Hp as <-; discriminate|discriminate]|]. split; auto. }
    constructor; [apply H|]. constructor; [apply H|constructor]. }
  split; [apply mixc_cmp|]. split; [exact F|].
  destruct (mix_equals_refl (mixc [0; 100]) (mixc [0; 100]) default_tol default_tol (mixc_cmp 0 [100]) (mixc_cmp 0 [100]) eq_refl F) as (sb & E & _).
  exists sb. exact E.
Qed.
Definition mix_ab : gmix := {| gm_vars := ["a"; "b"]; gm_comps := [ex_ab; ex_ab] |}.
Lemma mix_ab_wf : wf_mix mix_ab.
Proof. split; [discriminate|]. intros c [<-|[<-|[]]]; (split; [exact wf_ab|reflexivity]). Qed.
Lemma ex_ab_one : lp ex_ab (fun _ => 1) = Ok (Fin 0).
Proof. unfold lp, log_potential. cbn. do 2 f_equal. lra. Qed.
Lemma nd_b : NoDup ["b"].
Proof. constructor; [intros []|constructor]. Qed.
Lemma mix_ab_facts : wf_mix mix_ab /\ (forall c, In c (gm_comps mix_ab) -> sym_prec c) /\ NoDup ["b"] /\ incl ["b"] (gm_vars mix_ab) /\
  ~ incl (gm_vars mix_ab) ["b"] /\ exists p, mixpot mix_ab (fun _ => 1) = Ok (Fin p).
Proof.
  split; [exact mix_ab_wf|]. split; [intros c [<-|[<-|[]]] p Hp; injection Hp as <-; exact exK_symm|]. split; [exact nd_b|].
  split; [intros v [<-|[]]; right; now left|]. split; [intros H; destruct (H "a" (or_introl eq_refl)) as [Hx|[]]; discriminate Hx|].
  eexists. apply (mixpot_of mix_ab _ [Fin 0; Fin 0] mix_ab_wf); [repeat constructor; exact ex_ab_one|]. intros l [<-|[<-|[]]]; exact I.
Qed.
Lemma ex_ab_solid : solid ex_ab.
Proof.
  split; [exact wf_ab|]. split; [reflexivity|]. split; [intros p q _ Hq; discriminate|]. split; [|intros C m w Hq; discriminate].
  intros K h0 g Hk. injection Hk as <- _ _. exact exK_posdef.
Qed.
Lemma mix_ab_solid : (exists o, oracle_ok o) /\ wf_mix mix_ab /\ (forall c, In c (gm_comps mix_ab) -> solid c) /\ NoDup ["b"] /\ incl ["b"] (gm_vars mix_ab).
Proof.
  split; [exact id_oracle_ok|]. split; [exact mix_ab_wf|]. split; [intros c [<-|[<-|[]]]; exact ex_ab_solid|]. split; [exact nd_b|intros v [<-|[]]; right; now left].
Qed.
Lemma mix_div_example : wf_mix (mixc [0; 100]) /\ wf_gauss ex_ab /\ lp ex_ab (fun _ => 1) = Ok (Fin 0).
Proof. exact (conj (mixc_wf _ _) (conj wf_ab ex_ab_one)). Qed.
Lemma ex_ab_marg : (exists o, oracle_ok o) /\ solid ex_ab /\ NoDup ["b"] /\ incl ["b"] (ga_vars ex_ab).
Proof. split; [exact id_oracle_ok|]. split; [exact ex_ab_solid|]. split; [exact nd_b|intros v [<-|[]]; right; now left]. Qed.
