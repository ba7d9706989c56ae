(** Marginals of Gaussians. *)
From Verif Require Export GaussMarg.
#[global] Set Bullet Behavior "Strict Subproofs".

Definition restricted (A B : mat) (vars xs : list string) : Prop :=
  nr B = length xs /\ nc B = length xs /\
  forall u v, In u xs -> In v xs -> named_entry B xs u v = named_entry A vars u v.
Definition restricted1 (A B : mat) (vars xs : list string) : Prop :=
  nr B = length xs /\ nc B = 1 /\ forall u, In u xs -> named_coord B xs u = named_coord A vars u.

Lemma mvec_inv_unique n K m h : nr K = n -> mdet K <> 0%R ->
  (forall i, i < n -> rsum n (fun k => ent K i k * ent m k 0)%R = ent h i 0) ->
  forall i, i < n -> rsum n (fun k => ent (minv K) i k * ent h k 0)%R = ent m i 0.
Proof.
  intros <- D H i Hi. rewrite <- (mmul_inv_l K m D i Hi). apply rsum_ext. intros k Hk. now rewrite H.
Qed.
Lemma ln_split a b dK dy dS : (0 < dy)%R -> (0 < dS)%R -> dK = (dy * dS)%R ->
  (ln ((2 * PI) ^ b * / dy) + ln ((2 * PI) ^ a * / dS))%R = ln ((2 * PI) ^ (a + b) * / dK)%R.
Proof.
  intros Hy HS ->. pose proof twopi_pos.
  rewrite <- ln_mult.
  - f_equal. rewrite pow_add. field. split; lra.
  - apply Rmult_lt_0_compat; [now apply pow_lt|now apply Rinv_0_lt_compat].
  - apply Rmult_lt_0_compat; [now apply pow_lt|now apply Rinv_0_lt_compat].
Qed.

Lemma marg_can o vars K h g f xs : oracle_ok o -> NoDup vars -> shaped (length vars) (K, h, g) -> posdef K ->
  NoDup xs -> incl xs vars -> ga_vars f = vars -> ga_vac f = false -> ga_can f = Some (K, h, g) ->
  exists r S h' g', g_marginalize o f xs true = Ok r /\
    r = {| ga_vars := xs; ga_vac := false; ga_can := Some (S, h', g'); ga_cov := None |} /\
    posdef S /\ shaped (length xs) (S, h', g') /\
    exists C' m', get_cov r = Ok ({| ga_vars := xs; ga_vac := false; ga_can := Some (S, h', g');
        ga_cov := Some (C', m', vadd (vadd g (Fin (1 / 2 * qsum (length vars) K (fun i => ent (mmul0 (minv K) h) i 0))))
                             (Fin (1 / 2 * ln ((2 * PI) ^ length vars * / mdet K)))) |},
      (C', m', vadd (vadd g (Fin (1 / 2 * qsum (length vars) K (fun i => ent (mmul0 (minv K) h) i 0))))
                             (Fin (1 / 2 * ln ((2 * PI) ^ length vars * / mdet K))))) /\
      restricted (minv K) C' vars xs /\ restricted1 (mmul0 (minv K) h) m' vars xs.
Proof.
  intros Ho Hd Hs PK Dx Ix Ev Evac Ec. pose proof Hs as (H1 & H2 & H3 & H4).
  set (ys := so o (set_diff vars xs)).
  assert (Hys : forall v, In v ys <-> In v vars /\ ~ In v xs).
  { intros v. unfold ys. rewrite (so_In o _ v Ho (NoDup_set_diff _ _)). apply In_set_diff. }
  assert (Dy : NoDup ys) by (apply so_NoDup; [exact Ho|apply NoDup_set_diff]).
  assert (Iy : incl ys vars) by (intros v Hv; now apply Hys).
  assert (HP : Permutation (xs ++ ys) vars).
  { apply Permutation_sym, split_perm; auto.
    - intros v. rewrite Hys. split; [|intros [Hv|[Hv _]]; [now apply Ix|exact Hv]].
      intros Hv. destruct (in_dec string_dec v xs); [now left|right; now split].
    - intros v Hv C. now apply Hys in C. }
  unfold g_marginalize, marginal_vars. rewrite Ev, Evac, Ec. fold ys. unfold canform_marginalise.
  rewrite (mapM_pos vars xs Ix), (mapM_pos vars ys Iy). cbn [bind].
  set (xi := map (pos vars) xs). set (yi := map (pos vars) ys).
  assert (Lx : length xi = length xs) by apply map_length. assert (Ly : length yi = length ys) by apply map_length.
  assert (Rx : inr (length vars) xi) by now apply pos_inr. assert (Ry : inr (length vars) yi) by now apply pos_inr.
  assert (R0 : inr 1 [0]) by (intros i [<-|[]]; lia).
  assert (HPi : Permutation (xi ++ yi) (seq 0 (length vars))).
  { unfold xi, yi. rewrite <- map_app. now apply pos_perm. }
  rewrite !(mix_ok K) by (rewrite ?H1, ?H2; assumption). rewrite !(mix_ok h) by (rewrite ?H3, ?H4; assumption).
  cbn [bind].
  assert (PDy : posdef (msel K yi yi)).
  { apply posdef_sel; [exact PK|now rewrite H1|]. now apply NoDup_map_pos. }
  rewrite np_inv_ok by (try reflexivity; now apply posdef_det_neq). cbn [bind].
  rewrite (mmul_ok (msel K xi yi)) by reflexivity. cbn [bind].
  rewrite mmul_ok by reflexivity. cbn [bind].
  destruct (msub_ok (msel K xi xi) (mmul0 (mmul0 (msel K xi yi) (minv (msel K yi yi))) (mtr (msel K xi yi))))
    as (Sc & ES & S1 & S2 & S3); [reflexivity..|]. rewrite ES. cbn [bind].
  rewrite mmul_ok by reflexivity. cbn [bind].
  destruct (msub_ok (msel h xi [0]) (mmul0 (mmul0 (msel K xi yi) (minv (msel K yi yi))) (msel h yi [0])))
    as (hr & Eh & N1 & N2 & N3); [reflexivity..|]. rewrite Eh. cbn [bind].
  rewrite det_2pi_ok by reflexivity. cbn [bind].
  rewrite (quad_ok (length ys)) by (cbn; congruence). cbn [bind].
  assert (HdK : mdet K <> 0%R) by now apply posdef_det_neq.
  assert (Hdy : (0 < mdet (msel K yi yi))%R) by now apply posdef_det.
  rewrite mdet_minv by lra. change (nr (minv (msel K yi yi))) with (length yi).
  rewrite rlog_pos by (apply Rmult_lt_0_compat; [apply pow_lt, twopi_pos|now apply Rinv_0_lt_compat]).
  set (q := qsum (length ys) (minv (msel K yi yi)) (fun i => ent (msel h yi [0]) i 0)).
  set (m := mmul0 (minv K) h).
  assert (Hm : forall i, i < length vars -> ent h i 0 = rsum (length vars) (fun k => ent K i k * ent m k 0)%R).
  { intros i Hi. rewrite <- H1. unfold m. cbn [mmul0 ent]. change (nc (minv K)) with (nr K).
    symmetry. apply (mmul_inv_r K h HdK). now rewrite H1. }
  destruct (schur_mat (length vars) K h m xi yi Sc H1 PK HPi Hm S1) as (_ & PS & SI & SD & SH & SQ).
  { intros i j Hi Hj. now apply S3. }
  cbn [msel nr nc length] in S1, S2, N1, N2.
  match goal with |- context [mk_can xs Sc hr ?g0] => set (g' := g0) end.
  assert (Hs' : shaped (length xs) (Sc, hr, g')) by (cbn; repeat split; congruence).
  rewrite (mk_can_ok xs Sc hr g' Dx Hs'). rewrite (posdef_not_vacuous Sc) by (congruence || exact PS).
  exists {| ga_vars := xs; ga_vac := false; ga_can := Some (Sc, hr, g'); ga_cov := None |}, Sc, hr, g'.
  split; [reflexivity|]. split; [reflexivity|]. split; [exact PS|]. split; [exact Hs'|].
  assert (HdS : (0 < mdet Sc)%R) by now apply posdef_det.
  exists (minv Sc), (mmul0 (minv Sc) hr).
  assert (Em : forall i, i < length xi -> ent (mmul0 (minv Sc) hr) i 0 = ent (msel m xi [0]) i 0).
  { intros i Hi. cbn [mmul0 ent]. change (nc (minv Sc)) with (nr Sc). rewrite S1.
    apply (mvec_inv_unique (length xi) Sc (msel m xi [0]) hr); [exact S1|lra| |exact Hi].
    intros k Hk. rewrite SH by exact Hk. rewrite N3 by (cbn; lia). reflexivity. }
  split; [|split].
  - unfold get_cov. rewrite (update_covform_can xs Sc hr g' Hs') by lra. cbn [bind ga_cov].
    rewrite rlog_pos by (apply Rmult_lt_0_compat; [apply pow_lt, twopi_pos|now apply Rinv_0_lt_compat]).
    rewrite vhalf_fin.
    assert (Eq : qsum (length xs) Sc (fun i => ent (mmul0 (minv Sc) hr) i 0) =
                 (qsum (length vars) K (fun i => ent m i 0%nat) - q)%R).
    { unfold q. rewrite <- Ly, <- SQ, Lx. apply qsum_ext; [reflexivity|]. intros i Hi. apply Em. congruence. }
    rewrite Eq.
    assert (EL : length vars = length xs + length ys).
    { rewrite <- (Permutation_length HP), app_length. reflexivity. }
    pose proof (ln_split (length xs) (length ys) (mdet K) _ _ Hdy HdS SD) as LL. rewrite <- EL, <- Ly in LL.
    assert (EW : vadd (vadd g' (Fin (1 / 2 * (qsum (length vars) K (fun i => ent m i 0%nat) - q))))
                   (Fin (1 / 2 * ln ((2 * PI) ^ length xs * / mdet Sc))) =
                 vadd (vadd g (Fin (1 / 2 * qsum (length vars) K (fun i => ent m i 0))))
                   (Fin (1 / 2 * ln ((2 * PI) ^ length vars * / mdet K)))).
    { rewrite <- LL. unfold g'. set (l1 := ln _). set (l2 := ln _). set (qq := qsum _ _ _).
      destruct g; cbn; try reflexivity. f_equal. lra. }
    rewrite EW. reflexivity.
  - split; [cbn; congruence|]. split; [cbn; congruence|]. intros u v Hu Hv.
    destruct (pos_nth xs u Hu) as (Iu & Nu). destruct (pos_nth xs v Hv) as (Iv & Nv).
    rewrite (named_pos _ xs u v Hu Hv). rewrite SI by congruence. now apply named_sel.
  - split; [cbn; congruence|]. split; [cbn; congruence|]. intros u Hu.
    destruct (pos_nth xs u Hu) as (Iu & Nu). rewrite (named_pos1 _ xs u Hu). rewrite Em by congruence.
    now apply named_sel_col.
Qed.

(** * The two ways of computing a marginal *)
Lemma restricted_meq A A' B B' vars xs : NoDup vars -> NoDup xs -> incl xs vars ->
  (forall i j, i < length vars -> j < length vars -> ent A i j = ent A' i j) ->
  restricted A B vars xs -> restricted A' B' vars xs -> meq B B'.
Proof.
  intros Hd Dx Ix HA (B1 & B2 & B3) (B1' & B2' & B3'). split; [congruence|]. split; [congruence|].
  intros i j Hi Hj. rewrite B1 in Hi. rewrite B2 in Hj.
  assert (Iu : In (nth i xs ""%string) xs) by now apply nth_In. assert (Iv : In (nth j xs ""%string) xs) by now apply nth_In.
  rewrite <- (nth_name_entry xs B i j Dx Hi Hj), <- (nth_name_entry xs B' i j Dx Hi Hj), B3, B3' by assumption.
  rewrite !named_pos by auto. apply HA; apply pos_nth; auto.
Qed.
Lemma restricted1_meq A A' B B' vars xs : NoDup vars -> NoDup xs -> incl xs vars ->
  (forall i, i < length vars -> ent A i 0 = ent A' i 0) ->
  restricted1 A B vars xs -> restricted1 A' B' vars xs -> meq B B'.
Proof.
  intros Hd Dx Ix HA (B1 & B2 & B3) (B1' & B2' & B3'). split; [congruence|]. split; [congruence|].
  intros i j Hi Hj. rewrite B1 in Hi. rewrite B2 in Hj. assert (j = 0) as -> by lia.
  assert (Iu : In (nth i xs ""%string) xs) by now apply nth_In.
  rewrite <- (nth_name_coord xs B i Dx Hi), <- (nth_name_coord xs B' i Dx Hi), B3, B3' by assumption.
  rewrite !named_pos1 by auto. apply HA. apply pos_nth; auto.
Qed.
Lemma marg_cov o f vars C m w xs : NoDup vars -> shaped (length vars) (C, m, w) -> posdef C ->
  NoDup xs -> incl xs vars -> ga_vars f = vars -> ga_vac f = false -> ga_can f = None -> ga_cov f = Some (C, m, w) ->
  exists C1 m1, g_marginalize o f xs true =
      Ok {| ga_vars := xs; ga_vac := false; ga_can := None; ga_cov := Some (C1, m1, w) |} /\
    shaped (length xs) (C1, m1, w) /\ posdef C1 /\ restricted C C1 vars xs /\ restricted1 m m1 vars xs.
Proof.
  intros Hd Hs PC Dx Ix Ev Evac Ec Eco. pose proof Hs as (H1 & H2 & H3 & H4).
  unfold g_marginalize, marginal_vars. rewrite Ev, Evac, Ec, Eco. rewrite (mapM_pos vars xs Ix). cbn [bind].
  set (xi := map (pos vars) xs). assert (Lx : length xi = length xs) by apply map_length.
  assert (Rx : inr (length vars) xi) by now apply pos_inr. assert (R0 : inr 1 [0]) by (intros i [<-|[]]; lia).
  rewrite (mix_ok C) by (rewrite ?H1, ?H2; assumption). rewrite (mix_ok m) by (rewrite ?H3, ?H4; assumption). cbn [bind].
  exists (msel C xi xi), (msel m xi [0]).
  assert (Hs' : shaped (length xs) (msel C xi xi, msel m xi [0], w)) by (cbn; repeat split; congruence).
  split; [now rewrite (mk_cov_ok xs _ _ w Dx Hs')|]. split; [exact Hs'|]. split.
  { apply posdef_sel; [exact PC|now rewrite H1|now apply NoDup_map_pos]. }
  split; (split; [cbn; congruence|split; [cbn; congruence|]]).
  - intros u v Hu Hv. rewrite (named_pos _ xs u v Hu Hv). now apply named_sel.
  - intros u Hu. rewrite (named_pos1 _ xs u Hu). now apply named_sel_col.
Qed.
Lemma cov_lp_ext n C C' m m' w y : shaped n (C, m, w) -> shaped n (C', m', w) -> cov_ok (C, m, w) -> cov_ok (C', m', w) ->
  meq C C' -> meq m m' -> length y = n -> cov_log_potential C m w (mcol y) = cov_log_potential C' m' w (mcol y).
Proof.
  intros Hs Hs' Ho Ho' (_ & _ & EC) (_ & _ & Em) Hy. pose proof Hs as (H1 & H2 & H3 & H4).
  pose proof Hs' as (G1 & G2 & G3 & G4).
  rewrite (cov_log_potential_ok n C m w y Hs Ho Hy), (cov_log_potential_ok n C' m' w y Hs' Ho' Hy).
  assert (E : forall i j, i < nr C -> j < nr C -> ent C i j = ent C' i j) by (intros i j Hi Hj; apply EC; congruence).
  rewrite (mdet_ext C C') by (congruence || exact E). rewrite (minv_ext C C') by (congruence || exact E).
  f_equal. f_equal. f_equal. f_equal. apply qsum_ext; [reflexivity|]. intros i Hi. rewrite Em by lia. reflexivity.
Qed.
Lemma lp_cov_only vars C m w x : log_potential {| ga_vars := vars; ga_vac := false; ga_can := None; ga_cov := Some (C, m, w) |} x None =
  cov_log_potential C m w (mcol x).
Proof. unfold log_potential, align_point. cbn [bind ga_cov ga_can]. now destruct (cov_log_potential C m w (mcol x)). Qed.

Theorem marginal_forms o vars C m w f K h g f' f2 xs :
  oracle_ok o -> NoDup vars -> shaped (length vars) (C, m, w) -> posdef C -> NoDup xs -> incl xs vars ->
  mk_cov vars C m w = Ok f -> get_can f = Ok (f', (K, h, g)) ->
  ga_vars f2 = vars -> ga_vac f2 = false -> ga_can f2 = Some (K, h, g) ->
  exists r r2 C1 m1 r2' C2 m2, g_marginalize o f xs true = Ok r /\ g_marginalize o f2 xs true = Ok r2 /\
    ga_vars r = xs /\ ga_vars r2 = xs /\ ga_vac r = false /\ ga_vac r2 = false /\ wf_gauss r /\ wf_gauss r2 /\
    get_cov r = Ok (r, (C1, m1, w)) /\ get_cov r2 = Ok (r2', (C2, m2, w)) /\ meq C1 C2 /\ meq m1 m2 /\
    restricted C C1 vars xs /\ restricted1 m m1 vars xs /\
    (forall e, log_potential r (map e xs) None = log_potential r2 (map e xs) None).
Proof.
  intros Ho Hd Hs PC Dx Ix Ef Eg V2 A2 C2. pose proof Hs as (H1 & H2 & H3 & H4). pose proof PC as (Hsym & _).
  pose proof (posdef_det C PC) as Hdet.
  rewrite (mk_cov_ok vars C m w Hd Hs) in Ef. injection Ef as <-.
  unfold get_can in Eg. rewrite (update_canform_cov vars false C m w Hs Hdet) in Eg. cbn [bind ga_can] in Eg.
  injection Eg as <- EK Eh Egg.
  assert (PK : posdef K) by (rewrite <- EK; now apply posdef_minv).
  assert (HsK : shaped (length vars) (K, h, g)) by (rewrite <- EK, <- Eh; cbn; repeat split; congruence).
  destruct (marg_cov o {| ga_vars := vars; ga_vac := false; ga_can := None; ga_cov := Some (C, m, w) |}
              vars C m w xs Hd Hs PC Dx Ix eq_refl eq_refl eq_refl eq_refl) as (C1 & m1 & E1 & S1 & P1 & R1 & R1').
  destruct (marg_can o vars K h g f2 xs Ho Hd HsK PK Dx Ix V2 A2 C2) as (r2 & S & h' & g' & E2 & Er2 & PS & SS & Cx & mx & G2 & R2 & R2').
  assert (HneC : mdet C <> 0%R) by lra.
  assert (EC2 : forall i j, i < length vars -> j < length vars -> ent (minv K) i j = ent C i j).
  { intros i j Hi Hj. rewrite <- EK. apply minv_minv; [exact HneC|lia|lia]. }
  assert (Em2 : forall i, i < length vars -> ent (mmul0 (minv K) h) i 0 = ent m i 0).
  { intros i Hi. rewrite <- Eh, <- EK. cbn [mmul0 ent]. change (nc (minv C)) with (nr C). change (nc (minv (minv C))) with (nr (minv C)).
    change (nr C) with (nr (minv C)). apply (mmul_inv_l (minv C)); [now apply minv_det_neq|cbn; lia]. }
  assert (EW : vadd (vadd g (Fin (1 / 2 * qsum (length vars) K (fun i => ent (mmul0 (minv K) h) i 0))))
                    (Fin (1 / 2 * ln ((2 * PI) ^ length vars * / mdet K))) = w).
  { rewrite (qsum_ext (length vars) K (minv C) _ (fun i => ent m i 0)); [|intros; now rewrite EK|intros; now apply Em2].
    rewrite <- EK at 1. rewrite mdet_minv, Rinv_inv by exact HneC. rewrite <- Egg. apply vround. }
  rewrite EW in G2.
  assert (MC : meq C1 Cx).
  { apply (restricted_meq C (minv K) C1 Cx vars xs); auto. intros i j Hi Hj. symmetry. now apply EC2. }
  assert (Mm : meq m1 mx).
  { apply (restricted1_meq m (mmul0 (minv K) h) m1 mx vars xs); auto. intros i Hi. symmetry. now apply Em2. }
  exists {| ga_vars := xs; ga_vac := false; ga_can := None; ga_cov := Some (C1, m1, w) |}, r2, C1, m1. do 3 eexists.
  split; [exact E1|]. split; [exact E2|]. split; [reflexivity|]. rewrite Er2. split; [reflexivity|]. split; [reflexivity|].
  split; [reflexivity|].
  assert (W1 : wf_gauss {| ga_vars := xs; ga_vac := false; ga_can := None; ga_cov := Some (C1, m1, w) |}).
  { split; [exact Dx|]. split; [right; discriminate|]. split; intros p Hp; [discriminate|]. injection Hp as <-.
    split; [exact S1|]. split; [apply P1|now apply posdef_det]. }
  assert (W2 : wf_gauss {| ga_vars := xs; ga_vac := false; ga_can := Some (S, h', g'); ga_cov := None |}).
  { split; [exact Dx|]. split; [left; discriminate|]. split; intros p Hp; [|discriminate]. injection Hp as <-. exact SS. }
  split; [exact W1|]. split; [exact W2|]. split; [reflexivity|].
  rewrite Er2 in G2. split; [exact G2|]. split; [exact MC|]. split; [exact Mm|]. split; [exact R1|]. split; [exact R1'|].
  intros e.
  (* the covariance parameters of the second marginal *)
  pose proof (posdef_det S PS) as HdS. destruct PS as (SymS & PS).
  destruct (can_cov_can xs S h' g' Dx SS SymS HdS) as (fc & fc' & Cy & my & wy & fy & fy' & Ky & hy & F1 & F2 & F3 & _ & _ & _ & FL).
  { apply posdef_not_vacuous; [destruct SS; intuition congruence|now split]. }
  rewrite (mk_can_ok xs S h' g' Dx SS) in F1. rewrite posdef_not_vacuous in F1 by (try (destruct SS; intuition congruence); now split).
  assert (fc = {| ga_vars := xs; ga_vac := false; ga_can := Some (S, h', g'); ga_cov := None |}) as -> by congruence.
  rewrite G2 in F2. assert (Cy = Cx /\ my = mx /\ wy = w) as (-> & -> & ->) by (repeat split; congruence).
  rewrite <- FL.
  destruct MC as (M1 & M2 & M3). destruct Mm as (L1 & L2 & L3). pose proof S1 as (Q1 & Q2 & Q3 & Q4).
  assert (SX : shaped (length xs) (Cx, mx, w)) by (cbn; repeat split; congruence).
  rewrite (mk_cov_ok xs Cx mx w Dx SX) in F3. injection F3 as <-. rewrite !lp_cov_only.
  apply (cov_lp_ext (length xs)); auto; try (now split); [| |now rewrite map_length].
  - split; [apply P1|now apply posdef_det].
  - split.
    + intros i j Hi Hj. rewrite <- !M3 by congruence. apply P1; congruence.
    + rewrite <- (mdet_ext C1 Cx); [now apply posdef_det|congruence|]. intros i j Hi Hj. apply M3; congruence.
Qed.
Lemma marginal_drop o f vrs :
  g_marginalize o f vrs false = g_marginalize o f (so o (set_diff (ga_vars f) vrs)) true.
Proof. reflexivity. Qed.
