(** Samples of mixtures. *)
From Verif Require Export SampleFacts.
From Verif Require Import GaussPsd MxChol SigmaChol IntMoment2.
#[global] Set Bullet Behavior "Strict Subproofs".
Local Open Scope R_scope.

(** * When a Gaussian cannot be sampled *)
Lemma chol_posdef A L : symm A -> np_cholesky A = Ok L -> posdef A.
Proof.
  intros HS E. destruct (np_cholesky_sound A L HS E) as (L1 & L2 & Lo & Po & (M1 & M2 & M3)). cbn [mmul0 mtr nr nc ent] in *.
  assert (Hn : nc A = nr A) by congruence.
  apply psd_det; [exact Hn|exact HS| |].
  - intros u. unfold qsum.
    replace (rsum (nr A) (fun i => rsum (nr A) (fun j => u i * ent A i j * u j))) with (rsum (nr A) (fun k => rsum (nr A) (fun i => u i * ent L i k) * rsum (nr A) (fun i => u i * ent L i k))).
    { unfold rsum at 1. generalize (seq 0 (nr A)) as l. induction l as [|k l IH]; cbn; [lra|]. pose proof (Rle_0_sqr (rsum (nr A) (fun i => u i * ent L i k))) as H. unfold Rsqr in H. unfold Rsum in *. lra. }
    rewrite (rsum_ext (nr A) (fun i => rsum (nr A) (fun j => u i * ent A i j * u j)) (fun i => rsum (nr A) (fun j => rsum (nr A) (fun k => (u i * ent L i k) * (u j * ent L j k))))).
    2: { intros i Hi. apply rsum_ext. intros j Hj. rewrite <- M3 by (rewrite ?L1; lia). rewrite L2.
         rewrite (rsum_ext (nr A) (fun k => u i * ent L i k * (u j * ent L j k)) (fun k => (u i * u j) * (ent L i k * ent L j k))) by (intros; ring). rewrite rsum_scal. ring. }
    rewrite (rsum_ext (nr A) (fun i => rsum (nr A) (fun j => rsum (nr A) (fun k => (u i * ent L i k) * (u j * ent L j k)))) (fun i => rsum (nr A) (fun k => (u i * ent L i k) * rsum (nr A) (fun j => u j * ent L j k)))).
    2: { intros i Hi. rewrite rsum_swap. apply rsum_ext. intros k Hk. apply rsum_scal. }
    rewrite rsum_swap. apply rsum_ext. intros k Hk. now rewrite rsum_scal_r.
  - rewrite (chol_det A L HS E). pose proof (rprod_pos (nr A) (fun i => ent L i i) Po) as H. intros X. apply Rmult_integral in X. lra.
Qed.
Theorem g_sample_errors f num Z :
  (ga_vac f = true -> g_sample f num Z = Err PyException) /\
  (forall f' C m w, get_cov f = Ok (f', (C, m, w)) -> symm C -> ~ posdef C -> g_sample f num Z = Err LinAlgError).
Proof.
  split.
  - intros H. unfold g_sample, update_covform. rewrite H. reflexivity.
  - intros f' C m w G HS HN. unfold get_cov in G. apply bind_ok in G. destruct G as (f0 & Eu & G). unfold g_sample. rewrite Eu. cbn [bind].
    destruct (ga_cov f0) as [p|]; [|discriminate]. injection G as -> ->.
    destruct (np_cholesky C) as [L|x] eqn:EL; [destruct HN; exact (chol_posdef C L HS EL)|]. cbn [bind]. f_equal.
    unfold np_cholesky in EL. destruct (Nat.eqb (nr C) (nc C)); [|congruence]. destruct (chol_fn (nr C) (ent C)); [discriminate|congruence].
Qed.

(** * Mixtures *)
Lemma F2_nth {A B} (P : A -> B -> Prop) l l' : forall t x y, Forall2 P l l' -> nth_error l t = Some x -> nth_error l' t = Some y -> P x y.
Proof.
  intros t x y F. revert t. induction F as [|a b l l' H F IH]; intros [|t] H1 H2; try discriminate; cbn in *; [congruence|]. now apply (IH t).
Qed.
Lemma hcat_ok A B : nr A = nr B -> exists X, hcat A B = Ok X /\ nr X = nr A /\ nc X = (nc A + nc B)%nat /\
  (forall i j, (j < nc A)%nat -> ent X i j = ent A i j) /\ (forall i j, (j < nc B)%nat -> ent X i (nc A + j)%nat = ent B i j).
Proof.
  intros H. unfold hcat. rewrite H, Nat.eqb_refl. eexists. split; [reflexivity|]. cbn [nr nc ent]. split; [reflexivity|]. split; [reflexivity|]. split; intros i j Hj.
  - destruct (Nat.ltb_spec j (nc A)); [reflexivity|lia].
  - destruct (Nat.ltb_spec (nc A + j) (nc A)); [lia|]. f_equal. lia.
Qed.
Lemma foldM_hcat n l : forall A, nr A = n -> (forall B, In B l -> nr B = n /\ nc B = 1%nat) ->
  exists X, foldM hcat l A = Ok X /\ nr X = n /\ nc X = (nc A + length l)%nat /\
    (forall i j, (j < nc A)%nat -> ent X i j = ent A i j) /\ (forall i j B, nth_error l j = Some B -> ent X i (nc A + j)%nat = ent B i 0).
Proof.
  induction l as [|B l IH]; intros A HA HB.
  - exists A. cbn. split; [reflexivity|]. split; [exact HA|]. split; [lia|]. split; [reflexivity|]. intros i j B H. destruct j; discriminate.
  - destruct (HB B (or_introl eq_refl)) as (B1 & B2). destruct (hcat_ok A B ltac:(congruence)) as (Y & EY & Y1 & Y2 & Y3 & Y4).
    destruct (IH Y ltac:(congruence) (fun C HC => HB C (or_intror HC))) as (X & EX & X1 & X2 & X3 & X4). exists X. cbn [foldM]. rewrite EY. cbn [bind].
    split; [exact EX|]. split; [exact X1|]. split; [cbn; lia|]. split.
    + intros i j Hj. rewrite X3 by lia. now apply Y3.
    + intros i [|j] C HC; cbn in HC.
      * injection HC as <-. rewrite X3 by lia. apply Y4. lia.
      * replace (nc A + S j)%nat with (nc Y + j)%nat by lia. now apply X4.
Qed.
Lemma concat1_ok n l : l <> [] -> (forall B, In B l -> nr B = n /\ nc B = 1%nat) ->
  exists X, concat1 l = Ok X /\ nr X = n /\ nc X = length l /\ forall i j B, nth_error l j = Some B -> ent X i j = ent B i 0.
Proof.
  destruct l as [|A l]; [congruence|]. intros _ H. destruct (H A (or_introl eq_refl)) as (A1 & A2).
  destruct (foldM_hcat n l A A1 (fun B HB => H B (or_intror HB))) as (X & E & X1 & X2 & X3 & X4). exists X. cbn [concat1]. split; [exact E|]. split; [exact X1|].
  split; [cbn; lia|]. intros i [|j] B HB; cbn in HB.
  - injection HB as <-. apply X3. lia.
  - replace (S j) with (nc A + j)%nat by lia. now apply X4.
Qed.
Lemma weights_ok a : wf_mix a -> (forall c, In c (gm_comps a) -> solid c /\ plain c) ->
  exists ws, mix_get_weights a = Ok (map Fin ws) /\
    Forall2 (fun c w => 0 <= w /\ (exists f' C m l, get_cov c = Ok (f', (C, m, l)) /\ is_lp l /\ w = pot l) /\
                        forall ys e, Permutation ys (gm_vars a) -> iint ys (gval c) e w) (gm_comps a) ws.
Proof.
  intros (_ & W) HS. unfold mix_get_weights. revert W HS. generalize (gm_comps a) as cs. induction cs as [|c cs IH]; intros W HS; [exists []; split; [reflexivity|constructor]|].
  destruct IH as (ws & E & F); [intros d Hd; apply W; now right|intros d Hd; apply HS; now right|].
  destruct (HS c (or_introl eq_refl)) as (Sc & Pc). destruct (W c (or_introl eq_refl)) as (_ & Vc).
  destruct (get_cov_solid c Sc) as (c' & C & m & l & G).
  assert (Hl : is_lp l) by (apply (weight_integral c c' C m l (ga_vars c) (fun _ => 0) Sc Pc G (Permutation_refl _))).
  exists (pot l :: ws). split.
  - assert (Ew : get_weight c = Ok (Fin (pot l))) by (unfold get_weight, get_log_weight; rewrite G; destruct l; try contradiction; reflexivity).
    cbn [mapM map]. rewrite Ew. cbn [bind]. rewrite E. reflexivity.
  - constructor; [|exact F]. split; [destruct l; cbn; try lra; left; apply exp_pos|]. split; [exists c', C, m, l; auto|].
    intros ys e HP. apply (weight_integral c c' C m l ys e Sc Pc G). now rewrite Vc.
Qed.
Lemma vsum_fin ws : vsum (map Fin ws) = Fin (Rsum ws).
Proof.
  assert (H : forall ws x, fold_left vadd (map Fin ws) (Fin x) = Fin (x + Rsum ws)).
  { induction ws0 as [|w ws0 IH]; intros x; cbn; [now rewrite Rplus_0_r|]. rewrite IH. f_equal. unfold Rsum. ring. }
  unfold vsum. rewrite H. f_equal. ring.
Qed.
Lemma probs_ok ws : Rsum ws <> 0 -> choice_probs (map Fin ws) = Ok (map (fun w => w / Rsum ws) ws).
Proof.
  intros H. unfold choice_probs. rewrite vsum_fin. unfold Req_b. destruct (Req_EM_T (Rsum ws) 0) as [|_]; [contradiction|].
  generalize (Rsum ws) as s. intros s. clear H. induction ws as [|w ws IH]; [reflexivity|]. cbn [map mapM bind]. rewrite IH. reflexivity.
Qed.
(** The probabilities of the components and the law they give. *)
Theorem mix_law a : wf_mix a -> (forall c, In c (gm_comps a) -> solid c /\ plain c) ->
  exists s, 0 <= s /\ (forall ys e, Permutation ys (gm_vars a) -> iint ys (mval a) e s) /\
    (s = 0 -> forall pick Zs, mix_sample a pick Zs = Err ValueError) /\
    (0 < s -> exists ps, mix_probs a = Ok ps /\ length ps = length (gm_comps a) /\ (forall p, In p ps -> 0 <= p) /\ Rsum ps = 1 /\
       forall F e Js, Forall2 (fun c J => iint (gm_vars a) (fun z => F (sampled c z) * std_density (gm_vars a) z) e J) (gm_comps a) Js ->
         iint (gm_vars a) (fun x => F x * mval a x) e (Rsum (map (fun pJ => fst pJ * snd pJ) (combine ps Js)) * s)).
Proof.
  intros W HS. destruct (weights_ok a W HS) as (ws & Ew & Fw). exists (Rsum ws).
  assert (Hp : forall w, In w ws -> 0 <= w) by (intros w Hw; destruct (F2_in_r _ _ _ w Fw Hw) as (c & _ & H & _); exact H).
  assert (H0 : 0 <= Rsum ws).
  { clear -Hp. induction ws as [|w ws IH]; cbn; [lra|]. assert (0 <= w) by (apply Hp; now left). assert (0 <= Rsum ws) by (apply IH; intros x Hx; apply Hp; now right). unfold Rsum in *. lra. }
  assert (Em : forall e, mval a e = Rsum (map (fun c => gval c e) (gm_comps a))) by (intros e; apply (mval_sum a e W); intros c Hc; apply HS; exact Hc).
  split; [exact H0|]. split; [|split].
  - intros ys e HP. apply (iint_ext ys (fun e => Rsum (map (fun c => gval c e) (gm_comps a)))); [intros e0; now rewrite Em|].
    clear -Fw HP. induction Fw as [|c w cs ws (_ & _ & H) Fw IH]; [apply iint_zero|]. exact (iint_plus ys (gval c) _ e w (Rsum ws) (H ys e HP) IH).
  - intros Hs pick Zs. unfold mix_sample, mix_probs. rewrite Ew. cbn [bind]. unfold choice_probs. rewrite vsum_fin. unfold Req_b.
    destruct (Req_EM_T (Rsum ws) 0) as [_|]; [reflexivity|contradiction].
  - intros Hs. exists (map (fun w => w / Rsum ws) ws). split; [unfold mix_probs; rewrite Ew; apply probs_ok; lra|].
    split; [rewrite map_length; symmetry; eapply Forall2_length; exact Fw|]. split.
    { intros p Hin. apply in_map_iff in Hin. destruct Hin as (w & <- & Hw). apply Rmult_le_pos; [now apply Hp|]. left. now apply Rinv_0_lt_compat. }
    assert (HR : forall l s, s <> 0 -> Rsum (map (fun w => w / s) l) = Rsum l / s).
    { intros l s Hz. induction l as [|w l IH]; cbn; [field; exact Hz|]. unfold Rsum in *. rewrite IH. field. exact Hz. }
    split; [rewrite HR by lra; field; lra|].
    intros F e Js FJ. apply (iint_ext (gm_vars a) (fun x => Rsum (map (fun c => F x * gval c x) (gm_comps a)))).
    { intros x. rewrite Em. generalize (gm_comps a) as cs. induction cs as [|c cs IH]; cbn; [ring|]. unfold Rsum in *. rewrite IH. ring. }
    set (s := Rsum ws) in *. clearbody s. assert (Ws : forall c, In c (gm_comps a) -> ga_vars c = gm_vars a) by (intros c Hc; apply W; exact Hc).
    clear Ew Hp H0 Em W HR. revert Fw FJ HS Ws. generalize (gm_vars a) as vs. intros vs Fw. revert Js. induction Fw as [|c w cs ws Hc Fw IH]; intros Js FJ HS Ws.
    + inversion FJ. cbn. rewrite Rmult_0_l. apply iint_zero.
    + inversion FJ as [|? J ? Js' HJ FJ']. subst. cbn [map combine]. 
      match goal with |- iint _ _ _ (Rsum (?x :: ?l) * s) => replace (Rsum (x :: l) * s) with (w * J + Rsum l * s) by (cbn; unfold Rsum; field; lra) end.
      apply (iint_plus vs (fun x => F x * gval c x)).
      * destruct Hc as (_ & (f' & C & m & l & G & Hl & ->) & _). destruct (HS c (or_introl eq_refl)) as (Sc & Pc). pose proof (Ws c (or_introl eq_refl)) as Vc.
        destruct l as [|l| |]; try contradiction.
        -- cbn [pot]. rewrite Rmult_0_l. apply (iint_ext vs (fun _ => 0)); [|apply iint_zero]. intros x.
           destruct (solid_lp_cov c f' C m NInf Sc G) as (Sh & P & H). unfold gval. rewrite H.
           rewrite (cov_log_potential_ok (length (ga_vars c)) C m NInf _ Sh (conj (proj1 P) (posdef_det C P))) by apply map_length. cbn. ring.
        -- cbn [pot]. rewrite Rmult_comm. rewrite <- Vc. apply (sample_law c f' C m l F e J Sc G). rewrite Vc. exact HJ.
      * apply IH; [exact FJ'|intros d Hd; apply HS; now right|intros d Hd; apply Ws; now right].
Qed.
(** The samples: one column per draw, from the component picked for it. *)
Theorem mix_sample_ok a pick Zs ps : wf_mix a -> (forall c, In c (gm_comps a) -> solid c /\ plain c) -> mix_probs a = Ok ps ->
  (forall k, In k pick -> (k < length (gm_comps a))%nat) ->
  (pick = [] -> mix_sample a pick Zs = Err ValueError) /\
  (pick <> [] -> exists X, mix_sample a pick Zs = Ok X /\ nr X = length (gm_vars a) /\ nc X = length pick /\
     forall t k c z, nth_error pick t = Some k -> nth_error (gm_comps a) k = Some c ->
       (forall i, (i < length (gm_vars a))%nat -> z (nth i (gm_vars a) ""%string) = Zs t i 0%nat) ->
       forall v, In v (gm_vars a) -> named_coord (Mat (nr X) 1 (fun i _ => ent X i t)) (gm_vars a) v = sampled c z v).
Proof.
  intros (_ & W) HS Ep Hk. unfold mix_sample. rewrite Ep. cbn [bind]. split; [intros ->; reflexivity|]. intros Hn.
  set (n := length (gm_vars a)) in *.
  destruct (mapM_F2 (fun tk : nat * nat => let* c := py_nth (gm_comps a) (snd tk) in let* r := g_sample c 1 (Zs (fst tk)) in Ok (snd r))
    (fun tk X => nr X = n /\ nc X = 1%nat /\ forall c z, nth_error (gm_comps a) (snd tk) = Some c ->
       (forall i, (i < n)%nat -> z (nth i (gm_vars a) ""%string) = Zs (fst tk) i 0%nat) ->
       forall v i, index_opt v (gm_vars a) = Some i -> ent X i 0 = sampled c z v) (combine (seq 0 (length pick)) pick)) as (cols & E & F).
  { intros (t & k) Hin. cbn [fst snd]. pose proof (in_combine_r _ _ _ _ Hin) as Hin'. specialize (Hk k Hin').
    destruct (nth_error (gm_comps a) k) as [c|] eqn:Ec; [|apply nth_error_None in Ec; lia]. unfold py_nth. rewrite Ec. cbn [bind].
    pose proof (nth_error_In _ _ Ec) as Hc. destruct (HS c Hc) as (Sc & _). destruct (W c Hc) as (_ & Vc).
    destruct (get_cov_solid c Sc) as (c' & C & m & l & G). destruct (g_sample_columns c c' C m l 1 (Zs t) Sc G) as (X & -> & X1 & X2 & X3). cbn [bind snd].
    rewrite Vc in *. fold n in X1, X3. exists X. split; [reflexivity|]. split; [exact X1|]. split; [exact X2|]. intros c0 z [= <-] Hz v i Ei.
    assert (Hv : In v (gm_vars a)) by (apply index_opt_nth in Ei; eapply nth_error_In; exact Ei).
    pose proof (X3 0%nat z ltac:(lia) Hz v Hv) as H. unfold named_coord in H. rewrite Ei in H. exact H. }
  rewrite E. cbn [bind]. assert (EL : length (combine (seq 0 (length pick)) pick) = length cols) by (eapply Forall2_length; exact F). rewrite combine_length, seq_length, Nat.min_id in EL.
  destruct (concat1_ok n cols) as (X & EX & X1 & X2 & X3).
  { intros ->. destruct pick; [congruence|discriminate]. }
  { intros B HB. destruct (F2_in_r _ _ _ B F HB) as (tk & _ & H1 & H2 & _). now split. }
  exists X. split; [exact EX|]. split; [exact X1|]. split; [congruence|]. intros t k c z Et Ec Hz v Hv. unfold named_coord.
  destruct (index_opt_In v _ Hv) as (i & Ei). rewrite Ei. cbn [ent].
  assert (Ht : (t < length pick)%nat) by (apply nth_error_Some; congruence).
  destruct (nth_error cols t) as [B|] eqn:EB; [|apply nth_error_None in EB; lia]. rewrite (X3 i t B EB).
  assert (Hc : nth_error (combine (seq 0 (length pick)) pick) t = Some (t, k)).
  { clear -Et Ht. assert (H : forall l b t, nth_error l t = Some k -> nth_error (combine (seq b (length l)) l) t = Some ((b + t)%nat, k)).
    { induction l as [|x l IH]; intros b [|t0] H; try discriminate; cbn in *; [injection H as ->; now rewrite Nat.add_0_r|]. rewrite (IH (S b) t0 H). do 2 f_equal. lia. }
    apply (H pick 0%nat t Et). }
  destruct (F2_nth _ _ _ t _ _ F Hc EB) as (_ & _ & H). exact (H c z Ec Hz v i Ei).
Qed.
