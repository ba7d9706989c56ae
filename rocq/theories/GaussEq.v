(** Comparing Gaussians. *)
From Verif Require Export GaussMarg2 MxSmall.
#[global] Set Bullet Behavior "Strict Subproofs".

Definition close (rtol atol a b : R) : Prop := (Rabs (a - b) <= atol + rtol * Rabs b)%R.
Definition same_params (vars vars' : list string) (p q : mat * mat * val) : Prop :=
  snd p = snd q /\
  (forall u v, In u vars -> In v vars -> named_entry (fst (fst q)) vars' u v = named_entry (fst (fst p)) vars u v) /\
  (forall u, In u vars -> named_coord (snd (fst q)) vars' u = named_coord (snd (fst p)) vars u).

Lemma reorder_named f vars' r : wf_gauss f -> Permutation vars' (ga_vars f) -> g_reorder f vars' = Ok r ->
  (forall p, ga_can f = Some p -> exists q, ga_can r = Some q /\ shaped (length vars') q /\ same_params (ga_vars f) vars' p q) /\
  (forall p, ga_cov f = Some p -> exists q, ga_cov r = Some q /\ shaped (length vars') q /\ same_params (ga_vars f) vars' p q).
Proof.
  intros W HP E. pose proof W as (Hd & Hf & Hc & Hv).
  assert (Hd' : NoDup vars') by (apply (Permutation_NoDup (Permutation_sym HP) Hd)).
  assert (Hin : forall v, In v vars' <-> In v (ga_vars f)).
  { intros v. split; [apply Permutation_in; exact HP|apply Permutation_in, Permutation_sym; exact HP]. }
  assert (Hl : length vars' = length (ga_vars f)) by (apply Permutation_length; exact HP).
  unfold g_reorder in E. destruct (eqb vars' (ga_vars f)) eqn:Eq.
  { apply eqb_true in Eq. subst vars'. injection E as <-. split; intros p Hp; exists p; rewrite Hp.
    - split; [reflexivity|]. split; [now apply Hc|]. now repeat split.
    - split; [reflexivity|]. split; [now apply Hv|]. now repeat split. }
  assert (Hse : seteqb vars' (ga_vars f) = true) by now apply seteqb_iff.
  rewrite Hse in E. unfold py_assert in E. cbn [bind] in E.
  rewrite mapM_pos in E by (intros v Hv'; now apply Hin). cbn [bind] in E. injection E as <-. cbn [ga_can ga_cov].
  assert (G : forall p, shaped (length (ga_vars f)) p -> let q := reorder_params (map (pos vars') (ga_vars f)) p in
    shaped (length vars') q /\ same_params (ga_vars f) vars' p q).
  { intros p Hs q.
    destruct (reorder_params_ent (length (ga_vars f)) (ga_vars f) vars' p _ Hd Hd' Hin eq_refl Hl eq_refl Hs) as (Q1 & Q2 & Q3 & Q4).
    fold q in Q1, Q2, Q3, Q4. split; [now rewrite Hl|]. split; [now symmetry|]. split.
    - intros u v Hu Hw. apply Hin in Hu, Hw. destruct (pos_nth vars' u Hu) as (Iu & Nu). destruct (pos_nth vars' v Hw) as (Iv & Nv).
      rewrite named_pos by assumption. rewrite Q3 by congruence. rewrite !nth_map_pos by assumption. rewrite Nu, Nv.
      symmetry. apply named_pos; now apply Hin.
    - intros u Hu. apply Hin in Hu. destruct (pos_nth vars' u Hu) as (Iu & Nu).
      rewrite named_pos1 by assumption. rewrite Q4 by congruence. rewrite !nth_map_pos by assumption. rewrite Nu.
      symmetry. apply named_pos1; now apply Hin. }
  split; intros p Hp; rewrite Hp; eexists; (split; [reflexivity|]); apply G; [now apply Hc|now apply Hv].
Qed.

Lemma g_copy_ok f : wf_gauss f -> exists c, g_copy f = Ok c /\ ga_vars c = ga_vars f /\ ga_can c = ga_can f /\ ga_cov c = ga_cov f /\ wf_gauss c.
Proof.
  intros W. pose proof W as (Hd & Hf & Hc & Hv). unfold g_copy.
  destruct f as [vars vac can cov]. cbn [ga_can ga_cov ga_vars] in *.
  destruct cov as [[[C m] w]|].
  - destruct (Hv _ eq_refl) as (Hs & _). destruct can as [[[K h] g]|]; rewrite (mk_cov_ok vars C m w Hd Hs); cbn [bind]; eexists;
      (split; [reflexivity|]); cbn [ga_vars ga_can ga_cov]; (split; [reflexivity|split; [reflexivity|split; [reflexivity|exact W]]]).
  - destruct can as [[[K h] g]|]; [|destruct Hf; congruence].
    rewrite (mk_can_ok vars K h g Hd (Hc _ eq_refl)). eexists. split; [reflexivity|]. cbn [ga_vars ga_can ga_cov].
    split; [reflexivity|split; [reflexivity|split; [reflexivity|exact W]]].
Qed.

(** Same function of named values. *)
Definition same_fun (f f' : gauss) : Prop :=
  wf_gauss f' /\ Permutation (ga_vars f') (ga_vars f) /\ ga_vac f' = ga_vac f /\
  forall e, log_potential f' (map e (ga_vars f')) None = log_potential f (map e (ga_vars f)) None.
Lemma same_fun_refl f : wf_gauss f -> same_fun f f.
Proof. intros W. split; [exact W|]. now repeat split. Qed.
Lemma same_fun_trans f1 f2 f3 : same_fun f1 f2 -> same_fun f2 f3 -> same_fun f1 f3.
Proof.
  intros (W1 & P1 & V1 & L1) (W2 & P2 & V2 & L2). split; [exact W2|]. split; [now transitivity (ga_vars f2)|].
  split; [congruence|]. intros e. now rewrite L2, L1.
Qed.
Lemma get_can_same f f' p : wf_gauss f -> get_can f = Ok (f', p) -> same_fun f f' /\ ga_vars f' = ga_vars f /\ ga_can f' = Some p.
Proof.
  intros W E. destruct (get_can_wf f W) as (f1 & K & h & g & E1 & V1 & C1 & S1 & W1 & A1 & B1).
  rewrite E in E1. injection E1 as <- ->. split; [|now split]. split; [exact W1|]. rewrite V1. split; [reflexivity|]. split; [exact A1|].
  intros e. rewrite (lp_canon f f' K h g e W E).
  assert (E' : get_can f' = Ok (f', (K, h, g))) by (unfold get_can, update_canform; rewrite C1; cbn [bind]; now rewrite C1).
  pose proof (lp_canon f' f' K h g e W1 E') as L. now rewrite V1 in L.
Qed.
Lemma reorder_same f vars r : wf_gauss f -> Permutation vars (ga_vars f) -> g_reorder f vars = Ok r -> same_fun f r /\ ga_vars r = vars.
Proof.
  intros W HP E. destruct (g_reorder_spec f vars W HP) as (r' & E' & W' & V' & A' & L'). rewrite E in E'. injection E' as <-.
  split; [|exact V']. split; [exact W'|]. rewrite V'. now repeat split.
Qed.
Definition regular (f : gauss) : Prop := forall K h g, ga_can f = Some (K, h, g) -> symm K /\ (0 < mdet K)%R.
Lemma get_cov_same f f' p : wf_gauss f -> regular f -> get_cov f = Ok (f', p) ->
  same_fun f f' /\ ga_vars f' = ga_vars f /\ ga_cov f' = Some p /\ ga_vac f = false.
Proof.
  intros W HR E. pose proof W as (Hd & Hf & Hc & Hv). unfold get_cov, update_covform in E.
  destruct (ga_vac f) eqn:Evac; [discriminate|].
  destruct (ga_cov f) as [p0|] eqn:Ev.
  - cbn [bind] in E. rewrite Ev in E. injection E as <- <-. split; [now apply same_fun_refl|]. now repeat split.
  - destruct (ga_can f) as [[[K h] g]|] eqn:Ec; [|destruct Hf; congruence].
    destruct (HR K h g Ec) as (HS & HD). pose proof (Hc _ eq_refl) as Hs. pose proof Hs as (H1 & H2 & H3 & H4).
    destruct f as [vars vac can cov]. cbn [ga_can ga_cov ga_vars ga_vac] in *. subst vac can cov.
    pose proof (update_covform_can vars K h g Hs) as U. unfold update_covform in U. cbn [ga_can ga_cov ga_vars ga_vac] in U.
    rewrite U in E by lra. cbn [bind ga_cov] in E. injection E as <- <-. cbn [ga_vars ga_cov]. split; [|now repeat split].
    match goal with |- same_fun ?a ?b => set (fa := a); set (fb := b) end.
    assert (Wb : wf_gauss fb).
    { split; [exact Hd|]. split; [left; discriminate|]. split; [exact Hc|]. intros q Hq. injection Hq as <-.
      split; [cbn; repeat split; congruence|]. split; [now apply symm_minv|]. rewrite mdet_minv by lra. now apply Rinv_0_lt_compat. }
    split; [exact Wb|]. split; [reflexivity|]. split; [reflexivity|]. intros e.
    rewrite (lp_canon fb fb K h g e Wb eq_refl), (lp_canon fa fa K h g e W eq_refl). reflexivity.
Qed.
Lemma regular_reorder f vars r : wf_gauss f -> regular f -> Permutation vars (ga_vars f) -> g_reorder f vars = Ok r -> regular r.
Proof.
  intros W HR HP E K h g Hk. pose proof W as (Hd & Hf & Hc & Hv).
  assert (Hd' : NoDup vars) by (apply (Permutation_NoDup (Permutation_sym HP) Hd)).
  destruct (ga_can f) as [[[K0 h0] g0]|] eqn:Ec.
  2: { unfold g_reorder in E. destruct (eqb vars (ga_vars f)); [injection E as <-; congruence|].
       apply bind_ok in E. destruct E as (? & _ & E). apply bind_ok in E. destruct E as (? & _ & E). injection E as <-.
       cbn in Hk. rewrite Ec in Hk. discriminate. }
  destruct (HR K0 h0 g0 Ec) as (HS & HD). pose proof (Hc _ eq_refl) as (S1 & S2 & S3 & S4).
  destruct (reorder_named f vars r W HP E) as (Hq & _). destruct (Hq _ Ec) as (q & Q1 & Q2 & Q3). rewrite Hk in Q1. injection Q1 as <-.
  destruct Q2 as (T1 & T2 & T3 & T4). destruct Q3 as (_ & Q3 & _). cbn [fst snd] in Q3.
  assert (Hl : length vars = length (ga_vars f)) by now apply Permutation_length.
  set (l := map (pos (ga_vars f)) vars).
  assert (HPl : Permutation l (seq 0 (length (ga_vars f)))) by now apply pos_perm.
  assert (Hi : incl vars (ga_vars f)) by (intros v Hvv; apply (Permutation_in _ HP Hvv)).
  assert (EK : forall i j, i < nr K -> j < nr K -> ent K i j = ent (msel K0 l l) i j).
  { intros i j Hi' Hj'. rewrite T1 in Hi', Hj'. rewrite <- (nth_name_entry vars K i j Hd' Hi' Hj').
    assert (Iu : In (nth i vars ""%string) vars) by now apply nth_In. assert (Iv : In (nth j vars ""%string) vars) by now apply nth_In.
    rewrite Q3 by auto. rewrite <- (named_sel K0 (ga_vars f) vars vars _ _ Hd Hi Hi Iu Iv).
    rewrite !pos_of_nth by assumption. reflexivity. }
  assert (HD' : mdet K = mdet K0).
  { rewrite (mdet_ext K (msel K0 l l)); [apply msel_perm_det; now rewrite S1| |exact EK]. unfold l. cbn. now rewrite map_length. }
  split; [|now rewrite HD']. intros i j Hi' Hj'. rewrite !EK by assumption. apply (symm_sel K0 l HS); [|unfold l; cbn; rewrite map_length; congruence..].
  rewrite S1. intros k Hk'. apply (Permutation_in _ HPl) in Hk'. apply in_seq in Hk'. lia.
Qed.
Lemma seteqb_perm (l m : list string) : NoDup l -> NoDup m -> seteqb l m = true -> Permutation l m.
Proof. intros Hl Hm E. apply NoDup_Permutation; auto. now apply seteqb_iff. Qed.

Lemma g_equals_same f1 f2 rtol atol b f1' f2' : wf_gauss f1 -> wf_gauss f2 ->
  (ga_can f1 = None -> regular f2) ->
  g_equals f1 f2 rtol atol = Ok (b, f1', f2') -> f1' = f1 /\ same_fun f2 f2'.
Proof.
  intros W1 W2 HR E. pose proof W1 as (D1 & F1 & _). pose proof W2 as (D2 & _). unfold g_equals in E.
  destruct (seteqb (ga_vars f1) (ga_vars f2)) eqn:Es; cbn [negb] in E.
  2: { injection E as <- <- <-. split; [reflexivity|]. now apply same_fun_refl. }
  assert (HP : Permutation (ga_vars f1) (ga_vars f2)) by now apply seteqb_perm.
  apply bind_ok in E. destruct E as (c & _ & E). apply bind_ok in E. destruct E as (c' & _ & E).
  destruct (ga_vac c' && ga_vac f1) eqn:Ea.
  { injection E as <- <- <-. split; [reflexivity|]. now apply same_fun_refl. }
  destruct (ga_can f1) as [[[K h] g]|] eqn:Ec.
  - apply bind_ok in E. destruct E as ([b0 r] & E0 & E). injection E as <- <- <-. split; [reflexivity|]. cbn [snd].
    unfold canform_equals in E0. apply bind_ok in E0. destruct E0 as ([fa p] & Ea1 & E0). cbn [fst snd] in E0.
    destruct (get_can_same f2 fa p W2 Ea1) as (Sa & Va & _).
    destruct (negb _); [injection E0 as <- <-; exact Sa|].
    apply bind_ok in E0. destruct E0 as (fb & Eb & E0). pose proof Sa as (Wa & _).
    rewrite <- Va in HP. destruct (reorder_same fa (ga_vars f1) fb Wa HP Eb) as (Sb & Vb).
    apply bind_ok in E0. destruct E0 as ([fc [[K2 h2] g2]] & Ec1 & E0). cbn [fst snd] in E0.
    pose proof Sb as (Wb & _). destruct (get_can_same fb fc _ Wb Ec1) as (Sc & _).
    assert (S : same_fun f2 fc) by (eapply same_fun_trans; [exact Sa|eapply same_fun_trans; [exact Sb|exact Sc]]).
    apply bind_ok in E0. destruct E0 as (b1 & _ & E0). destruct (negb b1); [injection E0 as <- <-; exact S|].
    apply bind_ok in E0. destruct E0 as (b2 & _ & E0). injection E0 as <- <-. exact S.
  - specialize (HR eq_refl). apply bind_ok in E. destruct E as (fu & Eu & E).
    assert (Efu : fu = f1).
    { unfold update_covform in Eu. destruct (ga_vac f1); [discriminate|]. destruct (ga_cov f1) as [p|] eqn:Ev; [congruence|].
      destruct F1; congruence. }
    subst fu. destruct (ga_cov f1) as [[[C m] w]|] eqn:Ev; [|destruct F1; congruence].
    apply bind_ok in E. destruct E as ([b0 r] & E0 & E). injection E as <- <- <-. split; [reflexivity|]. cbn [snd].
    unfold covform_equals in E0. apply bind_ok in E0. destruct E0 as ([fa p] & Ea1 & E0). cbn [fst snd] in E0.
    destruct (get_cov_same f2 fa p W2 HR Ea1) as (Sa & Va & _).
    destruct (negb _); [injection E0 as <- <-; exact Sa|].
    apply bind_ok in E0. destruct E0 as (fb & Eb & E0). pose proof Sa as (Wa & _).
    assert (Ra : regular fa).
    { unfold get_cov in Ea1. apply bind_ok in Ea1. destruct Ea1 as (x & Ex & Ea1).
      assert (x = fa) by (destruct (ga_cov x); [congruence|discriminate]). subst x.
      unfold update_covform in Ex. destruct (ga_vac f2); [discriminate|]. destruct (ga_cov f2); [injection Ex as <-; exact HR|].
      destruct (ga_can f2) as [[[K h] g]|] eqn:Ec2; [|discriminate].
      apply bind_ok in Ex. destruct Ex as (? & _ & Ex). apply bind_ok in Ex. destruct Ex as (? & _ & Ex).
      apply bind_ok in Ex. destruct Ex as (? & _ & Ex). apply bind_ok in Ex. destruct Ex as (? & _ & Ex). injection Ex as <-.
      intros K' h' g' Hk. cbn [ga_can] in Hk. apply (HR K' h' g'). congruence. }
    rewrite <- Va in HP. destruct (reorder_same fa (ga_vars f1) fb Wa HP Eb) as (Sb & Vb).
    apply bind_ok in E0. destruct E0 as ([fc [[K2 h2] g2]] & Ec1 & E0). cbn [fst snd] in E0.
    pose proof Sb as (Wb & _). destruct (get_cov_same fb fc _ Wb (regular_reorder _ _ _ Wa Ra HP Eb) Ec1) as (Sc & _).
    assert (S : same_fun f2 fc) by (eapply same_fun_trans; [exact Sa|eapply same_fun_trans; [exact Sb|exact Sc]]).
    apply bind_ok in E0. destruct E0 as (b1 & _ & E0). destruct (negb b1); [injection E0 as <- <-; exact S|].
    apply bind_ok in E0. destruct E0 as (b2 & _ & E0). injection E0 as <- <-. exact S.
Qed.

(** What the answer True says. *)
Lemma allclose_true A B rtol atol : allclose A B rtol atol = Ok true ->
  nr A = nr B /\ nc A = nc B /\ forall i j, i < nr A -> j < nc A -> close rtol atol (ent A i j) (ent B i j).
Proof.
  unfold allclose. destruct (Nat.eqb_spec (nr A) (nr B)) as [E1|]; [|discriminate].
  destruct (Nat.eqb_spec (nc A) (nc B)) as [E2|]; [|discriminate]. cbn [andb]. intros E. injection E as E.
  split; [exact E1|]. split; [exact E2|]. intros i j Hi Hj. rewrite forallb_forall in E. specialize (E i). rewrite in_seq in E.
  specialize (E ltac:(lia)). cbv beta in E. rewrite forallb_forall in E. specialize (E j). rewrite in_seq in E. specialize (E ltac:(lia)).
  cbn [visclose] in E. unfold Rle_b in E. destruct (Rle_dec _ _); [assumption|discriminate].
Qed.
Definition close_params (rtol atol : R) (vars vars' : list string) (p q : mat * mat * val) : Prop :=
  (forall u v, In u vars -> In v vars ->
     close rtol atol (named_entry (fst (fst p)) vars u v) (named_entry (fst (fst q)) vars' u v)) /\
  (forall u, In u vars -> close rtol atol (named_coord (snd (fst p)) vars u) (named_coord (snd (fst q)) vars' u)).
Lemma allclose_named vars vars' vars2 K h (w : val) p q rtol atol : NoDup vars -> (forall v, In v vars -> In v vars2) ->
  shaped (length vars) (K, h, w) -> shaped (length vars) q -> same_params vars2 vars p q -> vars' = vars2 ->
  allclose K (fst (fst q)) rtol atol = Ok true -> allclose h (snd (fst q)) rtol atol = Ok true ->
  close_params rtol atol vars vars' (K, h, w) p.
Proof.
  intros Hd Hi (H1 & H2 & H3 & H4) Hq (_ & S2 & S3) -> EK Eh.
  destruct (allclose_true _ _ _ _ EK) as (_ & _ & CK). destruct (allclose_true _ _ _ _ Eh) as (_ & _ & Ch). split; cbn [fst snd].
  - intros u v Hu Hv. rewrite <- S2 by auto. rewrite !named_pos by assumption.
    destruct (pos_nth vars u Hu) as (Iu & _). destruct (pos_nth vars v Hv) as (Iv & _). apply CK; congruence.
  - intros u Hu. rewrite <- S3 by auto. rewrite !named_pos1 by assumption. destruct (pos_nth vars u Hu) as (Iu & _). apply Ch; [congruence|lia].
Qed.
Lemma bind_true (A : Type) (r : res bool) (k : A) (b : bool) :
  (if negb b then Ok (false, k) else let* b2 := r in Ok (b2, k)) = Ok (true, k) -> b = true /\ r = Ok true.
Proof.
  destruct b; cbn [negb]; [|discriminate]. intros E. apply bind_ok in E. destruct E as (b2 & E & E'). split; [reflexivity|]. congruence.
Qed.
Lemma canform_equals_true p vars f2 rtol atol r : wf_gauss f2 -> NoDup vars -> Permutation vars (ga_vars f2) -> shaped (length vars) p ->
  canform_equals p vars f2 rtol atol = Ok (true, r) ->
  exists f' q, get_can f2 = Ok (f', q) /\ visclose (snd p) (snd q) rtol atol = true /\ close_params rtol atol vars (ga_vars f2) p q.
Proof.
  intros W Hd HP Hs E. destruct p as [[K h] g]. unfold canform_equals in E. apply bind_ok in E. destruct E as ([fa q] & Ea & E). cbn [fst snd] in E.
  destruct (get_can_same f2 fa q W Ea) as (Sa & Va & Ca). pose proof Sa as (Wa & _). exists fa, q. split; [exact Ea|]. cbn [snd].
  destruct (visclose g (snd q) rtol atol); cbn [negb] in E; [|discriminate]. split; [reflexivity|].
  apply bind_ok in E. destruct E as (fb & Eb & E). rewrite <- Va in HP.
  destruct (reorder_named fa vars fb Wa HP Eb) as (Hq & _). destruct (Hq _ Ca) as (q' & Q1 & Q2 & Q3).
  unfold get_can, update_canform in E. rewrite Q1 in E. cbn [bind] in E. rewrite Q1 in E. cbn [bind fst snd] in E.
  destruct q' as [[K2 h2] g2]. apply bind_ok in E. destruct E as (b1 & E1 & E).
  assert (r = fb) as -> by (destruct (negb b1); [discriminate|]; apply bind_ok in E; destruct E as (? & _ & E); congruence).
  apply bind_true in E. destruct E as (-> & E2).
  eapply (allclose_named vars _ (ga_vars fa) K h g q (K2, h2, g2)); eauto. intros v. apply (Permutation_in _ HP).
Qed.
Lemma covform_equals_true p vars f2 rtol atol r : wf_gauss f2 -> regular f2 -> NoDup vars -> Permutation vars (ga_vars f2) -> shaped (length vars) p ->
  covform_equals p vars f2 rtol atol = Ok (true, r) ->
  exists f' q, get_cov f2 = Ok (f', q) /\ visclose (vexp (snd p)) (vexp (snd q)) rtol atol = true /\
    close_params rtol atol vars (ga_vars f2) p q.
Proof.
  intros W HR Hd HP Hs E. destruct p as [[K h] g]. unfold covform_equals in E. apply bind_ok in E. destruct E as ([fa q] & Ea & E). cbn [fst snd] in E.
  destruct (get_cov_same f2 fa q W HR Ea) as (Sa & Va & Ca & Vf). pose proof Sa as (Wa & _ & Vfa & _). exists fa, q. split; [exact Ea|]. cbn [snd].
  destruct (visclose (vexp g) (vexp (snd q)) rtol atol); cbn [negb] in E; [|discriminate]. split; [reflexivity|].
  apply bind_ok in E. destruct E as (fb & Eb & E). rewrite <- Va in HP.
  destruct (reorder_named fa vars fb Wa HP Eb) as (_ & Hq). destruct (Hq _ Ca) as (q' & Q1 & Q2 & Q3).
  destruct (reorder_same fa vars fb Wa HP Eb) as ((_ & _ & Vfb & _) & _).
  unfold get_cov, update_covform in E. rewrite Vfb, Vfa, Vf, Q1 in E. cbn [bind] in E. rewrite Q1 in E. cbn [bind fst snd] in E.
  destruct q' as [[K2 h2] g2]. apply bind_ok in E. destruct E as (b1 & E1 & E).
  assert (r = fb) as -> by (destruct (negb b1); [discriminate|]; apply bind_ok in E; destruct E as (? & _ & E); congruence).
  apply bind_true in E. destruct E as (-> & E2).
  eapply (allclose_named vars _ (ga_vars fa) K h g q (K2, h2, g2)); eauto. intros v. apply (Permutation_in _ HP).
Qed.
Lemma g_equals_true f1 f2 rtol atol f1' f2' : wf_gauss f1 -> wf_gauss f2 -> (ga_can f1 = None -> regular f2) ->
  g_equals f1 f2 rtol atol = Ok (true, f1', f2') -> ga_vac f1 = false ->
  Permutation (ga_vars f1) (ga_vars f2) /\
  ((exists p f' q, ga_can f1 = Some p /\ get_can f2 = Ok (f', q) /\
      visclose (snd p) (snd q) rtol atol = true /\ close_params rtol atol (ga_vars f1) (ga_vars f2) p q) \/
   (exists p f' q, ga_can f1 = None /\ ga_cov f1 = Some p /\ get_cov f2 = Ok (f', q) /\
      visclose (vexp (snd p)) (vexp (snd q)) rtol atol = true /\ close_params rtol atol (ga_vars f1) (ga_vars f2) p q)).
Proof.
  intros W1 W2 HR E Hvac. pose proof W1 as (D1 & F1 & C1 & V1). pose proof W2 as (D2 & _). unfold g_equals in E.
  destruct (seteqb (ga_vars f1) (ga_vars f2)) eqn:Es; cbn [negb] in E; [|discriminate].
  assert (HP : Permutation (ga_vars f1) (ga_vars f2)) by now apply seteqb_perm. split; [exact HP|].
  apply bind_ok in E. destruct E as (c & _ & E). apply bind_ok in E. destruct E as (c' & _ & E).
  rewrite Hvac, Bool.andb_false_r in E. destruct (ga_can f1) as [p|] eqn:Ec.
  - left. apply bind_ok in E. destruct E as ([b r] & E0 & E). cbn [fst snd] in E. injection E as -> _ _.
    destruct (canform_equals_true p _ f2 rtol atol r W2 D1 HP (C1 _ eq_refl) E0) as (f' & q & Q). exists p, f', q. now split.
  - right. specialize (HR eq_refl). unfold update_covform in E. rewrite Hvac in E.
    destruct (ga_cov f1) as [p|] eqn:Ev; [|destruct F1; congruence]. cbn [bind] in E. rewrite Ev in E.
    apply bind_ok in E. destruct E as ([b r] & E0 & E). cbn [fst snd] in E. injection E as -> _ _.
    destruct (V1 _ eq_refl) as (Hsp & _).
    destruct (covform_equals_true p _ f2 rtol atol r W2 HR D1 HP Hsp E0) as (f' & q & Q). exists p, f', q. split; [reflexivity|]. now split.
Qed.
