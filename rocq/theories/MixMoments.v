(** Moments of mixtures: moment matching, splitting, normalising. *)
From Verif Require Export MixFacts.
#[global] Set Bullet Behavior "Strict Subproofs".
Local Open Scope R_scope.

(** Covariance parameters with a real log weight. *)
Definition cparams := (mat * mat * R)%type.
Definition has_params (c : gauss) (p : cparams) : Prop :=
  exists c', get_cov c = Ok (c', (fst (fst p), snd (fst p), Fin (snd p))).
Definition weight_sum (ps : list cparams) : R := Rsum (map (fun p : cparams => exp (snd p)) ps).
Definition first_sum (ps : list cparams) (i : nat) : R := Rsum (map (fun p : cparams => exp (snd p) * ent (snd (fst p)) i 0) ps).
Definition second_sum (ps : list cparams) (i j : nat) : R :=
  Rsum (map (fun p : cparams => exp (snd p) * (ent (fst (fst p)) i j + ent (snd (fst p)) i 0 * ent (snd (fst p)) j 0)) ps).

Lemma get_cov_shape f f' p : wf_gauss f -> get_cov f = Ok (f', p) -> shaped (length (ga_vars f)) p.
Proof.
  intros W E. pose proof W as (Hd & Hf & Hc & Hv). unfold get_cov, update_covform in E.
  destruct (ga_vac f); [discriminate|]. destruct (ga_cov f) as [q|] eqn:Ev.
  - cbn [bind] in E. rewrite Ev in E. injection E as _ <-. now apply Hv.
  - destruct (ga_can f) as [[[K h] g]|] eqn:Ec; [|cbn in E; discriminate E]. destruct (Hc _ eq_refl) as (H1 & H2 & H3 & H4).
    apply bind_ok in E. destruct E as (f1 & E1 & E). apply bind_ok in E1. destruct E1 as (C & EC & E1). apply bind_ok in E1. destruct E1 as (m & Em & E1).
    apply bind_ok in E1. destruct E1 as (q & Eq & E1). apply bind_ok in E1. destruct E1 as (d & Ed & E1). injection E1 as <-. cbn [ga_cov] in E. injection E as _ <-.
    unfold np_inv in EC. rewrite H1, H2, Nat.eqb_refl in EC. destruct (Req_b (mdet K) R0); [discriminate EC|]. injection EC as <-.
    rewrite mmul_ok in Em by (cbn; congruence). injection Em as <-. cbn. now repeat split.
Qed.
Lemma madd_ok A B : nr A = nr B -> nc A = nc B -> exists M, madd A B = Ok M /\ nr M = nr A /\ nc M = nc A /\
  forall i j, (i < nr A)%nat -> (j < nc A)%nat -> ent M i j = ent A i j + ent B i j.
Proof. apply (mzip_ok Rplus). Qed.
Lemma foldM_sum {X} (G : mat -> X -> res mat) (phi : X -> nat -> nat -> R) r c l :
  (forall acc x, In x l -> nr acc = r -> nc acc = c -> exists M, G acc x = Ok M /\ nr M = r /\ nc M = c /\
     forall i j, (i < r)%nat -> (j < c)%nat -> ent M i j = ent acc i j + phi x i j) ->
  forall acc, nr acc = r -> nc acc = c -> exists M, foldM G l acc = Ok M /\ nr M = r /\ nc M = c /\
     forall i j, (i < r)%nat -> (j < c)%nat -> ent M i j = ent acc i j + Rsum (map (fun x => phi x i j) l).
Proof.
  induction l as [|x l IH]; intros H acc Hr Hc.
  - exists acc. cbn [foldM map]. split; [reflexivity|]. split; [exact Hr|]. split; [exact Hc|]. intros i j _ _. unfold Rsum. cbn. ring.
  - destruct (H acc x (or_introl eq_refl) Hr Hc) as (M & E & R1 & C1 & H1). cbn [foldM]. rewrite E. cbn [bind].
    destruct (IH (fun acc' y Hy => H acc' y (or_intror Hy)) M R1 C1) as (M' & E' & R2 & C2 & H2).
    exists M'. split; [exact E'|]. split; [exact R2|]. split; [exact C2|]. intros i j Hi Hj. rewrite H2, H1 by assumption. cbn [map]. rewrite Rsum_cons. ring.
Qed.
Definition vp (p : cparams) : mat * mat * val := (fst (fst p), snd (fst p), Fin (snd p)).
Lemma params_mapM cs ps : Forall2 has_params cs ps -> mapM (fun c => let* r := get_cov c in Ok (snd r)) cs = Ok (map vp ps).
Proof.
  induction 1 as [|c p cs ps (c' & E) F IH]; [reflexivity|]. cbn [mapM map]. rewrite E. cbn [bind snd]. rewrite IH. reflexivity.
Qed.
Lemma weights_mapM ps : mapM (fun p : mat * mat * val => real_weight (snd p)) (map vp ps) = Ok (map (fun p : cparams => exp (snd p)) ps).
Proof. induction ps as [|p ps IH]; [reflexivity|]. cbn [mapM map vp snd]. unfold real_weight at 1. cbn [vexp bind]. rewrite IH. reflexivity. Qed.
Lemma weight_sum_pos ps : ps <> [] -> 0 < weight_sum ps.
Proof.
  intros H. destruct ps as [|p ps]; [congruence|]. unfold weight_sum. cbn [map]. rewrite Rsum_cons. pose proof (exp_pos (snd p)).
  assert (0 <= Rsum (map (fun p : cparams => exp (snd p)) ps)); [|lra]. apply Rsum_nonneg. intros x _. left. apply exp_pos.
Qed.
Lemma lse_weights ps : ps <> [] -> logsumexp (map (fun p : mat * mat * val => snd p) (map vp ps)) = Ok (Fin (ln (weight_sum ps))).
Proof.
  intros H. rewrite map_map. cbn [vp snd].
  assert (E : map pot (map (fun p : cparams => Fin (snd p)) ps) = map (fun p : cparams => exp (snd p)) ps) by (rewrite map_map; reflexivity).
  assert (Hl : lse (map (fun p : cparams => Fin (snd p)) ps) = Fin (ln (weight_sum ps))).
  { rewrite lse_pos; rewrite ?E; [reflexivity| |now apply weight_sum_pos].
    intros v Hv. apply in_map_iff in Hv. destruct Hv as (x & <- & _). exact I. }
  destruct ps; [congruence|]. cbn [map logsumexp]. cbn [map] in Hl. now rewrite Hl.
Qed.
Lemma combine_map {A B C} (f : A -> B) (g : A -> C) l : combine (map f l) (map g l) = map (fun x => (f x, g x)) l.
Proof. induction l as [|x l IH]; [reflexivity|]. cbn. now rewrite IH. Qed.
Lemma has_params_shape a c p n : wf_mix a -> n = length (gm_vars a) -> In c (gm_comps a) -> has_params c p ->
  nr (fst (fst p)) = n /\ nc (fst (fst p)) = n /\ nr (snd (fst p)) = n /\ nc (snd (fst p)) = 1%nat.
Proof.
  intros (_ & H) -> Hc (c' & E). destruct (H c Hc) as (W & V). pose proof (get_cov_shape c c' _ W E) as S. rewrite V in S. exact S.
Qed.

Lemma moment_match a ps : wf_mix a -> Forall2 has_params (gm_comps a) ps ->
  exists r C m w, mix_moment_match a = Ok r /\ ga_vars r = gm_vars a /\ get_cov r = Ok (r, (C, m, Fin w)) /\
    shaped (length (gm_vars a)) (C, m, Fin w) /\
    exp w = weight_sum ps /\
    (forall i, (i < length (gm_vars a))%nat -> weight_sum ps * ent m i 0 = first_sum ps i) /\
    (forall i j, (i < length (gm_vars a))%nat -> (j < length (gm_vars a))%nat ->
       weight_sum ps * (ent C i j + ent m i 0 * ent m j 0) = second_sum ps i j).
Proof.
  intros Wa F. set (n := length (gm_vars a)). pose proof Wa as (Na & Ha).
  assert (Hsh : forall p, In p ps -> nr (fst (fst p)) = n /\ nc (fst (fst p)) = n /\ nr (snd (fst p)) = n /\ nc (snd (fst p)) = 1%nat).
  { intros p Hp. destruct (F2_in_r _ _ _ p F Hp) as (c & Hc & Hcp). now apply (has_params_shape a c p n Wa). }
  assert (Hps : ps <> []) by (intros ->; inversion F; congruence).
  pose proof (weight_sum_pos ps Hps) as HW. set (W := weight_sum ps) in *.
  unfold mix_moment_match. fold n. rewrite (params_mapM _ _ F). cbn [bind]. rewrite weights_mapM. cbn [bind].
  rewrite (combine_map (fun p : cparams => exp (snd p)) vp ps).
  destruct (foldM_sum (fun acc (wp : R * (mat * mat * val)) => madd acc (mscal (fst wp) (snd (fst (snd wp)))))
    (fun wp i j => fst wp * ent (snd (fst (snd wp))) i j) n 1 (map (fun x : cparams => (exp (snd x), vp x)) ps)) with (acc := mzeros n 1)
    as (M1 & E1 & R1 & C1 & H1).
  { intros acc x Hx Hr Hc. apply in_map_iff in Hx. destruct Hx as (p & <- & Hp). cbn [fst snd vp]. destruct (Hsh p Hp) as (_ & _ & S3 & S4).
    destruct (madd_ok acc (mscal (exp (snd p)) (snd (fst p)))) as (M & E & N1 & N2 & N3); [cbn; congruence|cbn; congruence|].
    exists M. split; [exact E|]. split; [congruence|]. split; [congruence|]. intros i j Hi Hj. rewrite N3 by congruence. reflexivity. }
  { reflexivity. } { reflexivity. }
  rewrite E1. cbn [bind]. rewrite lse_weights by exact Hps. cbn [bind]. unfold real_weight. cbn [vexp].
  fold W. rewrite exp_ln by exact HW. cbn [bind].
  unfold raise_if, Req_b. destruct (Req_EM_T W 0) as [?|_]; [lra|]. cbn [bind].
  set (m' := mscal (/ W) M1).
  assert (Hm' : forall i, (i < n)%nat -> W * ent m' i 0 = first_sum ps i).
  { intros i Hi. unfold m'. cbn [mscal ent]. rewrite H1 by lia. cbn [mzeros ent]. rewrite map_map. cbn [fst snd vp]. unfold first_sum. field. lra. }
  assert (Sm : nr m' = n /\ nc m' = 1%nat) by (unfold m'; cbn; now split). destruct Sm as (Sm1 & Sm2).
  destruct (foldM_sum (fun acc (wp : R * (mat * mat * val)) => let '(w, (C, m, _)) := wp in
      let* d := msub m m' in let* dd := mmul d (mtr d) in let* s := madd (mscal w C) (mscal w dd) in madd acc s)
    (fun wp i j => fst wp * (ent (fst (fst (snd wp))) i j + (ent (snd (fst (snd wp))) i 0 - ent m' i 0) * (ent (snd (fst (snd wp))) j 0 - ent m' j 0)))
    n n (map (fun x : cparams => (exp (snd x), vp x)) ps)) with (acc := mzeros n n) as (M2 & E2 & R2 & C2 & H2).
  { intros acc x Hx Hr Hc. apply in_map_iff in Hx. destruct Hx as (p & <- & Hp). cbn [fst snd vp]. destruct (Hsh p Hp) as (S1 & S2 & S3 & S4).
    destruct (msub_ok (snd (fst p)) m') as (d & Ed & D1 & D2 & D3); [congruence|congruence|]. rewrite Ed. cbn [bind].
    rewrite mmul_ok by (cbn; congruence). cbn [bind].
    destruct (madd_ok (mscal (exp (snd p)) (fst (fst p))) (mscal (exp (snd p)) (mmul0 d (mtr d)))) as (s & Es & A1 & A2 & A3); [cbn; congruence|cbn; congruence|].
    rewrite Es. cbn [bind]. cbn [mscal nr nc] in A1, A2, A3.
    destruct (madd_ok acc s) as (M & E & N1 & N2 & N3); [congruence|congruence|]. exists M. split; [exact E|]. split; [congruence|]. split; [congruence|].
    intros i j Hi Hj. rewrite N3, A3 by congruence. cbn [mscal mmul0 mtr ent]. rewrite D2, S4, (rsum_S 0). unfold rsum at 1, Rsum. cbn [seq map fold_right].
    rewrite !D3 by (rewrite ?S3, ?S4; lia). ring. }
  { reflexivity. } { reflexivity. }
  rewrite E2. cbn [bind]. destruct (gm_comps a) as [|c cs] eqn:Ec; [congruence|]. destruct (Ha c (or_introl eq_refl)) as (Wc & Vc).
  pose proof Wc as (Dc & _). rewrite Vc in Dc |- *.
  assert (SS : shaped (length (gm_vars a)) (mscal (/ W) M2, m', Fin (ln W))) by (cbn; fold n; now repeat split).
  rewrite (mk_cov_ok (gm_vars a) (mscal (/ W) M2) m' (Fin (ln W)) Dc SS).
  do 4 eexists. split; [reflexivity|]. split; [reflexivity|]. split; [reflexivity|]. split; [exact SS|]. split; [now apply exp_ln|]. split; [exact Hm'|].
  intros i j Hi Hj. cbn [mscal ent]. rewrite H2 by assumption. cbn [mzeros ent]. rewrite map_map. cbn [fst snd vp].
  assert (Wne : W <> 0) by lra.
  assert (Ei : ent m' i 0 = first_sum ps i / W) by (rewrite <- Hm' by exact Hi; field; exact Wne).
  assert (Ej : ent m' j 0 = first_sum ps j / W) by (rewrite <- Hm' by exact Hj; field; exact Wne).
  assert (Key : Rsum (map (fun x : cparams => exp (snd x) * (ent (fst (fst x)) i j + (ent (snd (fst x)) i 0 - ent m' i 0) * (ent (snd (fst x)) j 0 - ent m' j 0))) ps)
    = second_sum ps i j - ent m' i 0 * first_sum ps j - ent m' j 0 * first_sum ps i + W * ent m' i 0 * ent m' j 0).
  { generalize (ent m' i 0) (ent m' j 0). intros x y. unfold second_sum, first_sum, W, weight_sum. clear. induction ps as [|p ps IH]; [unfold Rsum; cbn; ring|]. cbn [map]. rewrite !Rsum_cons, IH. ring. }
  rewrite Key. rewrite Ei, Ej. field. exact Wne.
Qed.

(** Splitting *)
Lemma split_spec f f' C m w : wf_gauss f -> length (ga_vars f) = 1%nat -> get_cov f = Ok (f', (C, m, w)) -> 0 <= ent C 0 0 ->
  exists a ps, split_gaussian f = Ok a /\ gm_vars a = ga_vars f /\ length (gm_comps a) = 3%nat /\ Forall2 has_params (gm_comps a) ps /\
    weight_sum ps = 1 /\ first_sum ps 0 = ent m 0 0 /\ second_sum ps 0 0 = ent C 0 0 + ent m 0 0 * ent m 0 0.
Proof.
  intros W Hl E HC. pose proof (get_cov_shape f f' _ W E) as (S1 & S2 & S3 & S4). rewrite Hl in S1, S2, S3. pose proof W as (Hd & _).
  unfold split_gaussian. rewrite Hl, Nat.eqb_refl. cbn [negb]. rewrite E. cbn [bind snd].
  unfold raise_if, Rlt_b. destruct (Rlt_dec (ent C 0 0) 0) as [?|_]; [lra|]. cbn [bind].
  set (sd := Mat (nr C) (nc C) (fun i j => sqrt (ent C i j))).
  destruct (msub_ok m sd) as (m1 & E1 & N1 & N2 & N3); [cbn; congruence|cbn; congruence|]. rewrite E1. cbn [bind].
  destruct (madd_ok m sd) as (m3 & E3 & P1 & P2 & P3); [cbn; congruence|cbn; congruence|]. rewrite E3. cbn [bind].
  rewrite (rlog_pos (1 / 3)) by lra.
  assert (SH : forall mu, nr mu = 1%nat -> nc mu = 1%nat -> shaped (length (ga_vars f)) (mscal (1 / 3) C, mu, Fin (ln (1 / 3)))).
  { intros mu Hr Hc. rewrite Hl. cbn. now repeat split. }
  rewrite (mk_cov_ok _ _ m1 _ Hd (SH m1 ltac:(congruence) ltac:(congruence))), (mk_cov_ok _ _ m _ Hd (SH m ltac:(congruence) ltac:(congruence))),
    (mk_cov_ok _ _ m3 _ Hd (SH m3 ltac:(congruence) ltac:(congruence))). cbn [bind].
  unfold mk_mix. cbn [mapM g_copy ga_cov ga_can ga_vars bind].
  rewrite (mk_cov_ok _ _ m1 _ Hd (SH m1 ltac:(congruence) ltac:(congruence))), (mk_cov_ok _ _ m _ Hd (SH m ltac:(congruence) ltac:(congruence))),
    (mk_cov_ok _ _ m3 _ Hd (SH m3 ltac:(congruence) ltac:(congruence))). cbn [bind forallb ga_vars].
  assert (Ee : eqb (ga_vars f) (ga_vars f) = true) by now apply eqb_true. rewrite !Ee. cbn [andb].
  exists {| gm_vars := ga_vars f; gm_comps := [{| ga_vars := ga_vars f; ga_vac := false; ga_can := None; ga_cov := Some (mscal (1 / 3) C, m1, Fin (ln (1 / 3))) |};
    {| ga_vars := ga_vars f; ga_vac := false; ga_can := None; ga_cov := Some (mscal (1 / 3) C, m, Fin (ln (1 / 3))) |};
    {| ga_vars := ga_vars f; ga_vac := false; ga_can := None; ga_cov := Some (mscal (1 / 3) C, m3, Fin (ln (1 / 3))) |}] |},
    [(mscal (1 / 3) C, m1, ln (1 / 3)); (mscal (1 / 3) C, m, ln (1 / 3)); (mscal (1 / 3) C, m3, ln (1 / 3))].
  split; [reflexivity|]. split; [reflexivity|]. split; [reflexivity|]. split.
  { constructor; [|constructor; [|constructor; [|constructor]]]; eexists; reflexivity. }
  unfold weight_sum, first_sum, second_sum, Rsum. cbn [map fst snd fold_right]. rewrite exp_ln by lra.
  rewrite N3 by lia. rewrite P3 by lia. cbn [mscal ent]. unfold sd. cbn [ent].
  assert (HS : sqrt (ent C 0 0) * sqrt (ent C 0 0) = ent C 0 0) by now apply sqrt_sqrt.
  split; [field|]. split; [field|]. nra.
Qed.
