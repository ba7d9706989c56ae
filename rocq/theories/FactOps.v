(** Factorised factors: quotients, restrictions, normalising. *)
From Verif Require Export FactFacts GraphProd MixEq.
#[global] Set Bullet Behavior "Strict Subproofs".

Lemma add_weight_lv f x : wf_gauss f -> wf_gauss (add_log_weight f x) /\ ga_vars (add_log_weight f x) = ga_vars f /\
  forall e, lv (add_log_weight f x) e = vadd (lv f e) x.
Proof.
  intros W. pose proof W as (Hd & Hf & Hc & Hv). destruct f as [vars vac can cov]. cbn [ga_vars ga_can ga_cov] in *.
  unfold add_log_weight. cbn [ga_vars ga_vac ga_can ga_cov].
  split; [|split; [reflexivity|]].
  - split; [exact Hd|]. cbn [ga_vars ga_can ga_cov]. split; [|split].
    + destruct Hf as [Hf|Hf]; [left; destruct can as [[[A v] s]|]; cbn; [discriminate|congruence]|right; destruct cov as [[[A v] s]|]; cbn; [discriminate|congruence]].
    + intros p Hp. destruct can as [[[A v] s]|]; [|discriminate]. injection Hp as <-. exact (Hc _ eq_refl).
    + intros p Hp. destruct cov as [[[A v] s]|]; [|discriminate]. injection Hp as <-. exact (Hv _ eq_refl).
  - intros e. unfold lv, lp, log_potential, align_point. cbn [bind ga_vars ga_can ga_cov]. destruct cov as [[[C m] w]|], can as [[[K h] g]|]; cbn [option_map].
    + destruct (Hv _ eq_refl) as (Sv & Ov). rewrite !(cov_log_potential_ok (length vars)) by (try exact Sv; try exact Ov; apply map_length). cbn [bind].
      rewrite !(can_log_potential_ok (length vars)) by (try exact (Hc _ eq_refl); apply map_length). cbn [bind].
      now rewrite vadd_assoc.
    + destruct (Hv _ eq_refl) as (Sv & Ov). rewrite !(cov_log_potential_ok (length vars)) by (try exact Sv; try exact Ov; apply map_length). cbn [bind].
      unfold vsub. rewrite <- !vadd_assoc. f_equal. rewrite vadd_comm, <- vadd_assoc. reflexivity.
    + rewrite !(can_log_potential_ok (length vars)) by (try exact (Hc _ eq_refl); apply map_length). cbn [bind].
      now rewrite vadd_assoc.
    + destruct Hf; congruence.
Qed.

(** * Quotients *)
(** The first factor of the list that [equals] says is the argument, if any. *)
Lemma same_fun_lv f f' e : same_fun f f' -> lv f' e = lv f e.
Proof. intros (_ & _ & _ & L). unfold lv, lp. now rewrite L. Qed.
Lemma same_fun_in f f' v : same_fun f f' -> (In v (ga_vars f') <-> In v (ga_vars f)).
Proof. intros (_ & P & _). split; apply Permutation_in; [exact P|now apply Permutation_sym]. Qed.

Lemma get_can_reg f : wf_gauss f -> regular f -> exists f' p, get_can f = Ok (f', p) /\ same_fun f f' /\ ga_vars f' = ga_vars f /\ regular f' /\
  ga_can f' = Some p /\ shaped (length (ga_vars f)) p.
Proof.
  intros W HR. destruct (get_can_ext f W HR) as (f' & p & E & (W' & R' & _ & V & _) & C'). exists f', p. split; [exact E|].
  destruct (get_can_same f f' p W E) as (S & _ & _). split; [exact S|]. split; [exact V|]. split; [exact R'|]. split; [exact C'|].
  rewrite <- V. destruct W' as (_ & _ & HC & _). now apply HC.
Qed.
Lemma get_cov_reg f : wf_gauss f -> regular f -> ga_vac f = false -> exists f' p, get_cov f = Ok (f', p) /\ same_fun f f' /\ ga_vars f' = ga_vars f /\ regular f' /\
  ga_cov f' = Some p /\ shaped (length (ga_vars f)) p.
Proof.
  intros W HR Hv. destruct (get_cov_ext f W HR Hv) as (f' & p & E & (W' & R' & _ & V & _) & C'). exists f', p. split; [exact E|].
  destruct (get_cov_same f f' p W HR E) as (S & _ & _). split; [exact S|]. split; [exact V|]. split; [exact R'|]. split; [exact C'|].
  rewrite <- V. destruct W' as (_ & _ & _ & HC). now apply HC.
Qed.
Lemma allclose_ok A B rtol atol : nr A = nr B -> nc A = nc B -> exists b, allclose A B rtol atol = Ok b.
Proof. intros H1 H2. unfold allclose. rewrite H1, H2, !Nat.eqb_refl. cbn [andb]. eauto. Qed.
(** Comparing two regular Gaussians always gives an answer and only reorders or completes the argument. *)
Lemma g_equals_ok f1 f2 rtol atol : wf_gauss f1 -> wf_gauss f2 -> regular f2 -> ga_vac f2 = false -> ga_vac f1 = false ->
  exists b f2', g_equals f1 f2 rtol atol = Ok (b, f1, f2') /\ same_fun f2 f2' /\ regular f2' /\
    (b = true -> forall v, In v (ga_vars f1) <-> In v (ga_vars f2)).
Proof.
  intros W1 W2 R2 V2 V1. unfold g_equals. destruct (seteqb (ga_vars f1) (ga_vars f2)) eqn:Es; cbn [negb].
  2: { exists false, f2. split; [reflexivity|]. split; [now apply same_fun_refl|]. split; [exact R2|discriminate]. }
  pose proof W1 as (D1 & F1 & C1 & O1). pose proof W2 as (D2 & _).
  assert (HP : Permutation (ga_vars f1) (ga_vars f2)) by now apply seteqb_perm. pose proof (Permutation_length HP) as HL.
  pose proof (proj1 (seteqb_iff _ _) Es) as Hin.
  destruct (g_copy_ok f2 W2) as (c & Ec & Vc & _ & _ & Wc). rewrite Ec. cbn [bind].
  assert (exists c', (if eqb (ga_vars f1) (ga_vars f2) then Ok c else g_reorder c (ga_vars f1)) = Ok c') as (c' & ->).
  { destruct (eqb (ga_vars f1) (ga_vars f2)); [eauto|]. rewrite <- Vc in HP. destruct (g_reorder_spec c (ga_vars f1) Wc HP) as (r & Er & _). eauto. }
  cbn [bind]. rewrite V1, Bool.andb_false_r.
  destruct (ga_can f1) as [[[K h] g]|] eqn:E1.
  - destruct (get_can_reg f2 W2 R2) as (fa & [[Ka ha] ga] & Ea & Sa & Va & Ra & Ca & Sha). unfold canform_equals. rewrite Ea. cbn [bind fst snd].
    destruct (negb _); [cbn [bind fst snd]; exists false, fa; split; [reflexivity|]; split; [exact Sa|]; split; [exact Ra|discriminate]|].
    pose proof Sa as (Wa & _). assert (HPa : Permutation (ga_vars f1) (ga_vars fa)) by now rewrite Va.
    destruct (g_reorder_spec fa (ga_vars f1) Wa HPa) as (fb & Eb & _). rewrite Eb. cbn [bind].
    destruct (reorder_same fa _ fb Wa HPa Eb) as (Sb & Vb). pose proof (regular_reorder fa _ fb Wa Ra HPa Eb) as Rb. pose proof Sb as (Wb & _).
    destruct (get_can_reg fb Wb Rb) as (fc & [[Kc hc] gc] & Ecc & Sc & Vcc & Rc & Cc & Shc). rewrite Ecc. cbn [bind fst snd].
    assert (S : same_fun f2 fc) by (eapply same_fun_trans; [exact Sa|eapply same_fun_trans; [exact Sb|exact Sc]]).
    destruct (C1 _ eq_refl) as (T1 & T2 & T3 & T4). rewrite Vb in Shc. destruct Shc as (U1 & U2 & U3 & U4).
    destruct (allclose_ok h hc rtol atol) as (b1 & ->); [congruence|congruence|]. cbn [bind].
    destruct (negb b1); [cbn [bind fst snd]; exists false, fc; split; [reflexivity|]; split; [exact S|]; split; [exact Rc|discriminate]|].
    destruct (allclose_ok K Kc rtol atol) as (b2 & ->); [congruence|congruence|]. cbn [bind fst snd].
    exists b2, fc. split; [reflexivity|]. split; [exact S|]. split; [exact Rc|]. intros _. exact Hin.
  - destruct (ga_cov f1) as [[[C m] w]|] eqn:E2; [|destruct F1; congruence].
    unfold update_covform. rewrite V1, E2. cbn [bind]. rewrite E2.
    destruct (get_cov_reg f2 W2 R2 V2) as (fa & [[Ka ha] ga] & Ea & Sa & Va & Ra & Ca & Sha). unfold covform_equals. rewrite Ea. cbn [bind fst snd].
    destruct (negb _); [cbn [bind fst snd]; exists false, fa; split; [reflexivity|]; split; [exact Sa|]; split; [exact Ra|discriminate]|].
    pose proof Sa as (Wa & _ & Vaca & _). assert (HPa : Permutation (ga_vars f1) (ga_vars fa)) by now rewrite Va.
    destruct (g_reorder_spec fa (ga_vars f1) Wa HPa) as (fb & Eb & _). rewrite Eb. cbn [bind].
    destruct (reorder_same fa _ fb Wa HPa Eb) as (Sb & Vb). pose proof (regular_reorder fa _ fb Wa Ra HPa Eb) as Rb. pose proof Sb as (Wb & _ & Vacb & _).
    destruct (get_cov_reg fb Wb Rb) as (fc & [[Kc hc] gc] & Ecc & Sc & Vcc & Rc & Cc & Shc); [congruence|]. rewrite Ecc. cbn [bind fst snd].
    assert (S : same_fun f2 fc) by (eapply same_fun_trans; [exact Sa|eapply same_fun_trans; [exact Sb|exact Sc]]).
    destruct (O1 _ eq_refl) as ((T1 & T2 & T3 & T4) & _). rewrite Vb in Shc. destruct Shc as (U1 & U2 & U3 & U4).
    destruct (allclose_ok m hc rtol atol) as (b1 & ->); [congruence|congruence|]. cbn [bind].
    destruct (negb b1); [cbn [bind fst snd]; exists false, fc; split; [reflexivity|]; split; [exact S|]; split; [exact Rc|discriminate]|].
    destruct (allclose_ok C Kc rtol atol) as (b2 & ->); [congruence|congruence|]. cbn [bind fst snd].
    exists b2, fc. split; [reflexivity|]. split; [exact S|]. split; [exact Rc|]. intros _. exact Hin.
Qed.

(** The search of [divide]: no factor equal, or factor [i]. *)
Lemma fg_find_spec n fs : forall i f, (forall fi, In fi fs -> wf_gauss fi /\ ga_vac fi = false) -> wf_gauss f -> regular f -> ga_vac f = false ->
  exists found f', fg_find n i fs f = Ok (found, f') /\ same_fun f f' /\ regular f' /\
    forall k, found = Some k -> (1 < n)%nat /\ exists fs1 fi fs2 f1 f2, fs = fs1 ++ fi :: fs2 /\ (k = i + length fs1)%nat /\
      same_fun f f1 /\ g_equals fi f1 default_tol default_tol = Ok (true, fi, f2).
Proof.
  induction fs as [|fi fs IH]; intros i f H W Rg V; cbn [fg_find].
  - exists None, f. split; [reflexivity|]. split; [now apply same_fun_refl|]. split; [exact Rg|discriminate].
  - destruct (H fi (or_introl eq_refl)) as (Wi & Vi). destruct (g_equals_ok fi f default_tol default_tol Wi W Rg V Vi) as (b & f1 & E & S0 & R1 & _).
    rewrite E. cbn [bind]. destruct (b && Nat.ltb 1 n) eqn:Eb.
    + apply andb_prop in Eb. destruct Eb as (-> & Hn). apply Nat.ltb_lt in Hn. exists (Some i), f1. split; [reflexivity|]. split; [exact S0|]. split; [exact R1|].
      intros k [= <-]. split; [exact Hn|]. exists [], fi, fs, f, f1. split; [reflexivity|]. split; [cbn; lia|]. split; [now apply same_fun_refl|exact E].
    + pose proof S0 as (W1 & _ & V1 & _).
      destruct (IH (S i) f1) as (found & f' & E' & S' & R' & HK); [intros g Hg; apply H; now right|exact W1|exact R1|congruence|].
      exists found, f'. split; [exact E'|]. split; [exact (same_fun_trans _ _ _ S0 S')|]. split; [exact R'|]. intros k Hk.
      destruct (HK k Hk) as (Hn & fs1 & gi & fs2 & g1 & g2 & -> & -> & Sg & Eg). split; [exact Hn|].
      exists (fi :: fs1), gi, fs2, g1, g2. split; [reflexivity|]. split; [cbn; lia|]. split; [exact (same_fun_trans _ _ _ S0 Sg)|exact Eg].
Qed.
Lemma del_nth_mid {A} (l1 : list A) x l2 : del_nth (l1 ++ x :: l2) (length l1) = l1 ++ l2.
Proof.
  unfold del_nth. rewrite firstn_app, firstn_all, Nat.sub_diag. cbn [firstn]. rewrite app_nil_r. f_equal.
  rewrite skipn_app, skipn_all2 by lia. cbn [app]. replace (S (length l1) - length l1)%nat with 1%nat by lia. reflexivity.
Qed.
Lemma F2_split_l {A B} (P : A -> B -> Prop) l1 x l2 m : Forall2 P (l1 ++ x :: l2) m -> exists m1 y m2, m = m1 ++ y :: m2 /\ length m1 = length l1 /\ P x y /\
  Forall2 P l1 m1 /\ Forall2 P l2 m2.
Proof.
  revert m. induction l1 as [|z l1 IH]; intros m F; inversion F as [|? y ? m' Hy Fm]; subst.
  - exists [], y, m'. repeat split; auto.
  - destruct (IH m' Fm) as (m1 & y' & m2 & -> & L & Py & F1 & F2). exists (y :: m1), y', m2. split; [reflexivity|]. split; [cbn; now rewrite L|].
    split; [exact Py|]. split; [now constructor|exact F2].
Qed.
(** Dividing either removes a factor that compares equal to the divisor, or divides the values; it
    fails when neither is possible. *)
Theorem fg_divide_spec o a f : oracle_ok o -> (forall fi, In fi (fg_factors a) -> wf_gauss fi /\ ga_vac fi = false) ->
  wf_gauss f -> regular f -> ga_vac f = false ->
  (exists r f' fs1 fi fs2 f1 f2, fg_divide o a f = Ok (r, f') /\ same_fun f f' /\ fg_factors r <> [] /\ all_wf (fg_factors r) /\
     fg_factors a = fs1 ++ fi :: fs2 /\ same_fun f f1 /\ g_equals fi f1 default_tol default_tol = Ok (true, fi, f2) /\
     forall e, lvs (fg_factors r) e = lvs (fs1 ++ fs2) e) \/
  (exists r f', fg_divide o a f = Ok (r, f') /\ same_fun f f' /\ fg_factors r <> [] /\ all_wf (fg_factors r) /\
     (forall v, in_scope (fg_factors r) v <-> in_scope (fg_factors a) v) /\
     forall e, lvs (fg_factors r) e = vsub (lvs (fg_factors a) e) (lv f e)) \/
  (fg_divide o a f = Err PyException /\ forall fi, In fi (fg_factors a) -> ~ incl (ga_vars f) (ga_vars fi)).
Proof.
  intros Ho H Wf Rf Vf. assert (Hw : all_wf (fg_factors a)) by (intros g Hg; now apply H).
  destruct (fg_copy_ok o a Ho Hw) as (c & Ec & Fc & Nc & Sc). unfold fg_divide. rewrite Ec. cbn [bind]. pose proof (same_wf _ _ Fc) as Wc.
  destruct (fg_find_spec (length (fg_factors a)) (fg_factors a) 0%nat f H Wf Rf Vf) as (found & f' & Ef & Sf & Rf' & HK). rewrite Ef. cbn [bind].
  pose proof Sf as (Wf' & _). destruct found as [k|].
  - left. destruct (HK k eq_refl) as (Hn & fs1 & fi & fs2 & f1 & f2 & Ea & Ek & S1 & E1). cbn [Nat.add] in Ek. subst k.
    rewrite Ea in Fc. destruct (F2_split_l _ _ _ _ _ Fc) as (m1 & y & m2 & Em & L & Py & F1 & F2).
    do 2 eexists. exists fs1, fi, fs2, f1, f2. split; [reflexivity|]. split; [exact Sf|]. cbn [fg_factors].
    rewrite Em, <- L, del_nth_mid. split; [|split; [|split; [exact Ea|split; [exact S1|split; [exact E1|]]]]].
    + pose proof (Forall2_length _ _ _ F2) as L2. rewrite Ea, app_length in Hn. cbn in Hn. intros Hz. apply (f_equal (@length gauss)) in Hz. rewrite app_length in Hz. cbn in Hz. lia.
    + intros g Hg. apply Wc. rewrite Em. apply in_app_or in Hg. apply in_or_app. destruct Hg; [now left|right; now right].
    + intros e. now rewrite !lvs_app, (lvs_same _ _ e F1), (lvs_same _ _ e F2).
  - right. destruct (first_with_vars (fg_factors c) (ga_vars f)) as [i|] eqn:Ei.
    + left. destruct (first_with_vars_some _ _ _ Ei) as (fs1 & fi & fs2 & Es & <- & Hi & _). rewrite Es, py_nth_mid. cbn [bind].
      assert (Wi : wf_gauss fi) by (apply Wc; rewrite Es; apply in_or_app; right; now left).
      destruct (divide_lv fi f' Wi Wf') as (q & Eq & Wq & Vq & Lq). rewrite Eq. cbn [bind]. rewrite list_set_mid. cbn [bind].
      do 2 eexists. split; [reflexivity|]. split; [exact Sf|]. cbn [fg_factors fg_vars]. split; [destruct fs1; discriminate|]. split; [|split].
      * intros g Hg. apply in_app_or in Hg. destruct Hg as [Hg|[<-|Hg]]; [|exact Wq|]; apply Wc; rewrite Es; apply in_or_app; [now left|right; now right].
      * intros v. rewrite <- (same_scope _ _ v Fc), Es, !scope_app, !scope_cons, Vq, (same_fun_in _ _ v Sf). pose proof (Hi v). tauto.
      * intros e. rewrite <- (lvs_same _ _ e Fc), Es, !lvs_app, !lvs_cons, Lq, (same_fun_lv _ _ e Sf). unfold vsub. rewrite <- !vadd_assoc. f_equal. f_equal. apply vadd_comm.
    + right. split; [reflexivity|]. intros fi Hfi. destruct (F2_in_l _ _ _ fi Fc Hfi) as (g & Hg & (_ & Vg & _)). rewrite <- Vg.
      now apply (first_with_vars_none _ _ Ei).
Qed.
