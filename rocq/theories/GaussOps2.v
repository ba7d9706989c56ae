(** Reordering and observation of Gaussians. *)
From Verif Require Export GaussOps.
#[global] Set Bullet Behavior "Strict Subproofs".

(** * Reordering *)
Lemma place_pos vars vars' i : NoDup vars -> NoDup vars' -> (forall v, In v vars' <-> In v vars) -> i < length vars' ->
  place (map (pos vars') vars) i = pos vars (nth i vars' ""%string).
Proof.
  intros Hd Hd' Hin Hi. set (v := nth i vars' ""%string).
  assert (Hv' : In v vars') by now apply nth_In. assert (Hv : In v vars) by now apply Hin.
  destruct (pos_nth vars v Hv) as (Hk & Hkv). unfold place.
  rewrite (index_opt_nth_NoDup i (map (pos vars') vars) (pos vars v)); [reflexivity| |].
  - apply NoDup_map_pos; [intros w Hw; now apply Hin|exact Hd].
  - rewrite nth_error_map, (nth_error_nth' vars ""%string Hk), Hkv. cbn [option_map]. f_equal. now apply pos_of_nth.
Qed.
Definition ocov (l : list nat) (p : mat * mat * val) : mat * mat * val :=
  let '(A, v, s) := p in (msel A l l, msel v l [0], s).
Lemma reorder_params_ent n vars vars' p l : NoDup vars -> NoDup vars' -> (forall v, In v vars' <-> In v vars) ->
  length vars = n -> length vars' = n -> l = map (pos vars) vars' -> shaped n p ->
  let q := reorder_params (map (pos vars') vars) p in
  shaped n q /\ snd q = snd p /\
  (forall i j, i < n -> j < n -> ent (fst (fst q)) i j = ent (fst (fst p)) (nth i l 0) (nth j l 0)) /\
  (forall i, i < n -> ent (snd (fst q)) i 0 = ent (snd (fst p)) (nth i l 0) 0).
Proof.
  intros Hd Hd' Hin Hn Hn' -> Hs q. destruct p as [[A v] s]. cbn in Hs. unfold q. cbn [reorder_params fst snd].
  split; [cbn; rewrite !map_length; now repeat split|]. split; [reflexivity|].
  cbn [reorder_mat reorder_vec ent].
  assert (E : forall i, i < n -> place (map (pos vars') vars) i = nth i (map (pos vars) vars') 0).
  { intros i Hi. rewrite place_pos by (auto; congruence). rewrite nth_map_pos by congruence. reflexivity. }
  split; [intros i j Hi Hj|intros i Hi]; now rewrite !E.
Qed.
Lemma minv_ext A B : nr A = nr B -> (forall i j, i < nr A -> j < nr A -> ent A i j = ent B i j) -> minv A = minv B.
Proof.
  intros H E. unfold minv. rewrite <- H. now rewrite (mx_of_ext (nr A) (nr A) A B).
Qed.
Lemma mdet_ext A B : nr A = nr B -> (forall i j, i < nr A -> j < nr A -> ent A i j = ent B i j) -> mdet A = mdet B.
Proof.
  intros H E. unfold mdet. rewrite <- H. now rewrite (mx_of_ext (nr A) (nr A) A B).
Qed.
Lemma qsum_perm l n A u : Permutation l (seq 0 n) ->
  qsum (length l) (msel A l l) (fun i => u (nth i l 0)) = qsum n A u.
Proof.
  intros HP. unfold qsum.
  rewrite <- (rsum_perm l n (fun i => rsum n (fun j => (u i * ent A i j * u j)%R)) HP).
  apply rsum_ext. intros i _.
  exact (rsum_perm l n (fun j => (u (nth i l 0%nat) * ent A (nth i l 0%nat) j * u j)%R) HP).
Qed.

Lemma g_reorder_spec f vars' : wf_gauss f -> Permutation vars' (ga_vars f) ->
  exists r, g_reorder f vars' = Ok r /\ wf_gauss r /\ ga_vars r = vars' /\ ga_vac r = ga_vac f /\
    (forall e, log_potential r (map e vars') None = log_potential f (map e (ga_vars f)) None).
Proof.
  intros W HP. pose proof W as (Hd & Hf & Hc & Hv).
  assert (Hd' : NoDup vars') by (apply (Permutation_NoDup (Permutation_sym HP) Hd)).
  assert (Hin : forall v, In v vars' <-> In v (ga_vars f)).
  { intros v. split; [apply Permutation_in; exact HP|apply Permutation_in, Permutation_sym; exact HP]. }
  assert (Hl : length vars' = length (ga_vars f)) by (apply Permutation_length; exact HP).
  unfold g_reorder. destruct (eqb vars' (ga_vars f)) eqn:E.
  { apply eqb_true in E. subst vars'. exists f. split; [reflexivity|]. split; [exact W|]. now repeat split. }
  assert (Hse : seteqb vars' (ga_vars f) = true) by now apply seteqb_iff.
  rewrite Hse. unfold py_assert. cbn [bind].
  rewrite mapM_pos by (intros v Hv'; now apply Hin). cbn [bind].
  set (order := map (pos vars') (ga_vars f)).
  set (l := map (pos (ga_vars f)) vars').
  assert (HPl : Permutation l (seq 0 (length (ga_vars f)))) by now apply pos_perm.
  assert (Ll : length l = length (ga_vars f)) by (unfold l; now rewrite map_length).
  match goal with |- exists r, Ok ?x = Ok r /\ _ => set (r := x) end. exists r. split; [reflexivity|].
  set (n := length (ga_vars f)) in *.
  assert (Hp : forall p, shaped n p -> let q := reorder_params order p in
    shaped n q /\ snd q = snd p /\
    (forall i j, i < n -> j < n -> ent (fst (fst q)) i j = ent (fst (fst p)) (nth i l 0) (nth j l 0)) /\
    (forall i, i < n -> ent (snd (fst q)) i 0 = ent (snd (fst p)) (nth i l 0) 0)).
  { intros p Hs. now apply (reorder_params_ent n (ga_vars f) vars' p l). }
  assert (Hlr : inr n l) by (intros i Hi; apply (Permutation_in _ HPl) in Hi; apply in_seq in Hi; lia).
  assert (Hco : forall p, shaped n p -> cov_ok p -> cov_ok (reorder_params order p) /\
     mdet (fst (fst (reorder_params order p))) = mdet (fst (fst p)) /\
     (forall i j, i < n -> j < n -> ent (minv (fst (fst (reorder_params order p)))) i j = ent (msel (minv (fst (fst p))) l l) i j)).
  { intros p Hs Ho. destruct (Hp p Hs) as (Q1 & Q2 & Q3 & Q4). destruct p as [[C m] w].
    destruct (reorder_params order (C, m, w)) as [[C' m'] w'] eqn:Eq. cbn [fst snd] in *.
    destruct Hs as (H1 & H2 & H3 & H4). destruct Q1 as (G1 & G2 & G3 & G4). destruct Ho as (Hsym & Hdet).
    assert (Ed : mdet C' = mdet C).
    { rewrite (mdet_ext C' (msel C l l)); [apply msel_perm_det; rewrite H1; exact HPl|cbn; congruence|].
      intros i j Hi Hj. rewrite Q3 by congruence. reflexivity. }
    split; [|split; [exact Ed|]].
    - split; [|rewrite Ed; exact Hdet]. intros i j Hi Hj. rewrite !Q3 by congruence.
      apply Hsym; rewrite H1; apply Hlr, nth_In; lia.
    - intros i j Hi Hj. rewrite (minv_ext C' (msel C l l)); [apply msel_perm_inv; [rewrite H1; exact HPl|lra|lia|lia]|cbn; congruence|].
      intros i' j' Hi' Hj'. rewrite Q3 by congruence. reflexivity. }
  assert (Wr : wf_gauss r).
  { split; [exact Hd'|]. split; [|split].
    - unfold r. cbn [ga_can ga_cov]. destruct Hf as [Hf|Hf]; [left|right].
      + destruct (ga_can f); [discriminate|congruence].
      + destruct (ga_cov f); [discriminate|congruence].
    - unfold r. cbn [ga_can ga_vars]. rewrite Hl. intros p Hq. destruct (ga_can f) as [p0|]; [|discriminate].
      cbn in Hq. injection Hq as <-. now apply Hp, Hc.
    - unfold r. cbn [ga_cov ga_vars]. rewrite Hl. intros p Hq. destruct (ga_cov f) as [p0|]; [|discriminate].
      cbn in Hq. injection Hq as <-. destruct (Hv _ eq_refl) as (Hs & Ho). split; [now apply Hp|now apply Hco]. }
  split; [exact Wr|]. split; [reflexivity|]. split; [reflexivity|]. intros e.
  assert (Hn : forall i, i < n -> nth i vars' ""%string = nth (nth i l 0) (ga_vars f) ""%string).
  { intros i Hi. unfold l. rewrite nth_map_pos by congruence. symmetry. apply pos_nth. apply Hin, nth_In. congruence. }
  (* canonical form *)
  assert (HC : forall p, shaped n p ->
     can_log_potential (fst (fst (reorder_params order p))) (snd (fst (reorder_params order p))) (snd (reorder_params order p)) (mcol (map e vars')) =
     can_log_potential (fst (fst p)) (snd (fst p)) (snd p) (mcol (map e (ga_vars f)))).
  { intros p Hs. destruct (Hp p Hs) as (Q1 & Q2 & Q3 & Q4).
    destruct p as [[K h] g]. destruct (reorder_params order (K, h, g)) as [[K' h'] g']. cbn [fst snd] in *. subst g'.
    rewrite (can_log_potential_ok n K' h' g) by (auto; rewrite map_length; congruence).
    rewrite (can_log_potential_ok n K h g) by (auto; now rewrite map_length).
    f_equal. f_equal. f_equal. f_equal.
    - f_equal. rewrite <- (qsum_perm l n K (fun i => nth i (map e (ga_vars f)) 0%R) HPl), Ll. apply qsum_ext.
      + intros i j Hi Hj. now rewrite Q3.
      + intros i Hi. rewrite !nth_map_e by (try (apply Hlr, nth_In); congruence). now rewrite Hn.
    - rewrite <- (rsum_perm l n (fun i => (nth i (map e (ga_vars f)) 0 * ent h i 0)%R) HPl), Ll. apply rsum_ext.
      intros i Hi. rewrite Q4 by exact Hi. rewrite !nth_map_e by (try (apply Hlr, nth_In); congruence). now rewrite Hn. }
  assert (HV : forall p, shaped n p -> cov_ok p ->
     cov_log_potential (fst (fst (reorder_params order p))) (snd (fst (reorder_params order p))) (snd (reorder_params order p)) (mcol (map e vars')) =
     cov_log_potential (fst (fst p)) (snd (fst p)) (snd p) (mcol (map e (ga_vars f)))).
  { intros p Hs Ho. destruct (Hp p Hs) as (Q1 & Q2 & Q3 & Q4). destruct (Hco p Hs Ho) as (O1 & O2 & O3).
    destruct p as [[C m] w]. destruct (reorder_params order (C, m, w)) as [[C' m'] w']. cbn [fst snd] in *. subst w'.
    rewrite (cov_log_potential_ok n C' m' w) by (auto; rewrite map_length; congruence).
    rewrite (cov_log_potential_ok n C m w) by (auto; now rewrite map_length).
    rewrite O2. f_equal. f_equal. f_equal. f_equal.
    rewrite <- (qsum_perm l n (minv C) (fun i => (ent m i 0 - nth i (map e (ga_vars f)) 0)%R) HPl), Ll. apply qsum_ext.
    - intros i j Hi Hj. now rewrite O3.
    - intros i Hi. rewrite Q4 by exact Hi. rewrite !nth_map_e by (try (apply Hlr, nth_In); congruence). now rewrite Hn. }
  unfold log_potential, align_point, r. cbn [bind ga_vars ga_can ga_cov].
  destruct (ga_cov f) as [[[C m] w]|] eqn:Ev; cbn [option_map].
  - destruct (Hv _ eq_refl) as (Hs & Ho). specialize (HV _ Hs Ho).
    destruct (reorder_params order (C, m, w)) as [[C' m'] w']. cbn [fst snd] in HV. rewrite HV.
    destruct (cov_log_potential C m w (mcol (map e (ga_vars f)))); cbn [bind]; [|reflexivity].
    destruct (ga_can f) as [[[K h] g]|] eqn:Ec; cbn [option_map]; [|reflexivity].
    specialize (HC _ (Hc _ eq_refl)). destruct (reorder_params order (K, h, g)) as [[K' h'] g']. cbn [fst snd] in HC.
    now rewrite HC.
  - cbn [bind]. destruct (ga_can f) as [[[K h] g]|] eqn:Ec; cbn [option_map]; [|reflexivity].
    specialize (HC _ (Hc _ eq_refl)). destruct (reorder_params order (K, h, g)) as [[K' h'] g']. cbn [fst snd] in HC.
    now rewrite HC.
Qed.
