(** Concrete Gaussians used by the property file. *)
From Verif Require Export GaussEq.
#[global] Set Bullet Behavior "Strict Subproofs".
Local Open Scope string_scope.

Ltac solve_dec := unfold default_tol, Rle_b, Rlt_b, Req_b in *;
  repeat match goal with |- context [Rle_dec ?a ?b] => destruct (Rle_dec a b) end;
  repeat match goal with |- context [Rlt_dec ?a ?b] => destruct (Rlt_dec a b) end.
Lemma Rle_b_true a b : (a <= b)%R -> Rle_b a b = true.
Proof. intros H. unfold Rle_b. destruct (Rle_dec a b); [reflexivity|contradiction]. Qed.
Lemma Rle_b_false a b : (b < a)%R -> Rle_b a b = false.
Proof. intros H. unfold Rle_b. destruct (Rle_dec a b); [lra|reflexivity]. Qed.

(** A positive definite 2 by 2 array with a correlation. *)
Definition exK : mat := Mat 2 2 (fun i j => if Nat.eqb i j then 2%R else 1%R).
Definition exh : mat := Mat 2 1 (fun i _ => INR (S i)).
Lemma exK_symm : symm exK.
Proof. intros i j Hi Hj. cbn in *. rewrite Nat.eqb_sym. reflexivity. Qed.
Lemma exK_posdef : posdef exK.
Proof.
  split; [exact exK_symm|]. intros u (i & Hi & Hne). unfold qsum, rsum, Rsum. cbn -[Rmult Rplus] in *.
  assert (H : (u 0%nat <> 0 \/ u 1%nat <> 0)%R) by (destruct i as [|[|i]]; [now left|now right|lia]).
  replace (_ + _)%R with (u 0%nat * u 0%nat + u 1%nat * u 1%nat + (u 0%nat + u 1%nat) * (u 0%nat + u 1%nat))%R by ring.
  assert (0 <= (u 0%nat + u 1%nat) * (u 0%nat + u 1%nat))%R by apply Rle_0_sqr.
  assert (0 <= u 0%nat * u 0%nat)%R by apply Rle_0_sqr. assert (0 <= u 1%nat * u 1%nat)%R by apply Rle_0_sqr.
  destruct H as [H|H]; apply Rsqr_pos_lt in H; unfold Rsqr in H; lra.
Qed.
Lemma exK_det : mdet exK = 3%R.
Proof. rewrite mdet_2 by reflexivity. cbn. ring. Qed.

(** Canonical form over a, b; the same over b, a (parameters by name); covariance form over b, c. *)
Definition ex_ab : gauss := {| ga_vars := ["a"; "b"]; ga_vac := false; ga_can := Some (exK, exh, Fin 0); ga_cov := None |}.
Definition ex_ba : gauss := {| ga_vars := ["b"; "a"]; ga_vac := false;
  ga_can := Some (exK, Mat 2 1 (fun i _ => INR (2 - i)), Fin 0); ga_cov := None |}.
Definition ex_bc : gauss := {| ga_vars := ["c"; "b"]; ga_vac := false; ga_can := None; ga_cov := Some (exK, exh, Fin 0) |}.
Lemma nd2 (x y : string) : x <> y -> NoDup [x; y].
Proof. intros N. constructor; [|constructor; [intros []|constructor]]. intros [->|[]]. now apply N. Qed.
Lemma wf_ab : wf_gauss ex_ab.
Proof.
  split; [now apply nd2|]. split; [left; discriminate|]. split; intros p Hp; [|discriminate]. injection Hp as <-. now repeat split.
Qed.
Lemma wf_ba : wf_gauss ex_ba.
Proof.
  split; [now apply nd2|]. split; [left; discriminate|]. split; intros p Hp; [|discriminate]. injection Hp as <-. now repeat split.
Qed.
Lemma wf_bc : wf_gauss ex_bc.
Proof.
  split; [now apply nd2|]. split; [right; discriminate|]. split; intros p Hp; [discriminate|]. injection Hp as <-.
  split; [now repeat split|]. split; [exact exK_symm|]. rewrite exK_det. lra.
Qed.
Lemma ex_ab_made : mk_can ["a"; "b"] exK exh (Fin 0) = Ok ex_ab.
Proof.
  rewrite mk_can_ok; [|now apply nd2|now repeat split]. rewrite (posdef_not_vacuous exK eq_refl exK_posdef). reflexivity.
Qed.
Lemma ex_ba_made : mk_can ["b"; "a"] exK (Mat 2 1 (fun i _ => INR (2 - i))) (Fin 0) = Ok ex_ba.
Proof.
  rewrite mk_can_ok; [|now apply nd2|now repeat split]. rewrite (posdef_not_vacuous exK eq_refl exK_posdef). reflexivity.
Qed.
Lemma ex_bc_made : mk_cov ["c"; "b"] exK exh (Fin 0) = Ok ex_bc.
Proof. rewrite mk_cov_ok; [reflexivity|now apply nd2|now repeat split]. Qed.

Lemma ex_ab_value : log_potential ex_ab [1; 2]%R None = Ok (Fin (-2)).
Proof. cbn -[Rmult Rplus INR]. f_equal. f_equal. unfold rsum, Rsum. cbn. field. Qed.
Lemma ex_product : exists r, g_multiply ex_ab ex_bc = Ok r /\ ga_vars r = ["a"; "b"; "c"] /\ wf_gauss r.
Proof. destruct (g_multiply_spec _ _ wf_ab wf_bc) as (r & E & W & V & _). exists r. split; [exact E|]. split; [rewrite V; reflexivity|exact W]. Qed.

Lemma close_refl x : Rle_b (Rabs (x - x)) (default_tol + default_tol * Rabs x) = true.
Proof.
  apply Rle_b_true. replace (x - x)%R with 0%R by ring. rewrite Rabs_R0. unfold default_tol. pose proof (Rabs_pos x). lra.
Qed.
Lemma ex_ab_ba_equal : exists f1' f2', g_equals ex_ab ex_ba default_tol default_tol = Ok (true, f1', f2').
Proof.
  do 2 eexists. unfold g_equals. replace (g_copy ex_ba) with (Ok ex_ba) by (symmetry; exact ex_ba_made).
  cbn -[default_tol INR Rle_b Rminus Rmult Rplus]. rewrite !close_refl. cbn -[default_tol INR Rle_b Rminus Rmult Rplus]. reflexivity.
Qed.
(** The comparison rewrites its argument. *)
Lemma equals_mutates : exists f1 f2 f1' f2', wf_gauss f1 /\ wf_gauss f2 /\
  g_equals f1 f2 default_tol default_tol = Ok (true, f1', f2') /\ f2' <> f2 /\ ga_vars f2' <> ga_vars f2.
Proof.
  exists ex_ab, ex_ba. do 2 eexists. split; [exact wf_ab|]. split; [exact wf_ba|]. split.
  - unfold g_equals. replace (g_copy ex_ba) with (Ok ex_ba) by (symmetry; exact ex_ba_made).
    cbn -[default_tol INR Rle_b Rminus Rmult Rplus]. rewrite !close_refl. cbn -[default_tol INR Rle_b Rminus Rmult Rplus].
    reflexivity.
  - split; intros H; [apply (f_equal ga_vars) in H|]; discriminate H.
Qed.
(** Vacuous factors. *)
Lemma zeros_vacuous n : prec_vacuous (mzeros (S n) (S n)) = true.
Proof.
  unfold prec_vacuous. apply andb_true_intro. split.
  - unfold allclose_zero. apply forallb_forall. intros i _. apply forallb_forall. intros j _. apply Rle_b_true. cbn. rewrite Rabs_R0. lra.
  - unfold is_pos_def. destruct (ClassicalEpsilon.excluded_middle_informative _) as [H|_]; [|reflexivity]. exfalso.
    destruct (H 0%R 0%R) as [H0|[_ H0]]; [|lra|lra]. exists (fun _ => 1%R), (fun _ => 0%R).
    split; [exists 0; split; [cbn; lia|left; lra]|]. intros i _. unfold mvec. cbn [mzeros nc ent].
    rewrite !rsum_zero by (intros; ring). split; ring.
Qed.
Lemma vacuous_made v g : make_vacuous [v] g =
  Ok {| ga_vars := [v]; ga_vac := true; ga_can := Some (mzeros 1 1, mzeros 1 1, g); ga_cov := None |}.
Proof.
  unfold make_vacuous. rewrite mk_can_ok; [|constructor; [intros []|constructor]|now repeat split].
  change (length [v]) with 1. now rewrite zeros_vacuous.
Qed.
Lemma equals_vacuous : exists f1 f2 f1' f2', make_vacuous ["a"] (Fin 0) = Ok f1 /\ make_vacuous ["a"] (Fin 5) = Ok f2 /\
  g_equals f1 f2 default_tol default_tol = Ok (true, f1', f2') /\
  log_potential f1 [0%R] None = Ok (Fin 0) /\ log_potential f2 [0%R] None = Ok (Fin 5).
Proof.
  rewrite !vacuous_made. do 4 eexists. split; [reflexivity|]. split; [reflexivity|]. split.
  - unfold g_equals, g_copy. cbn [ga_can ga_cov ga_vars]. rewrite mk_can_ok; [|constructor; [intros []|constructor]|now repeat split].
    rewrite zeros_vacuous. reflexivity.
  - split; cbn; unfold rsum, Rsum; cbn; do 2 f_equal; ring.
Qed.
(** Comparing a covariance form with a vacuous factor raises. *)
Lemma equals_raises : exists f1 f2, mk_cov ["a"] (meye 1) (mzeros 1 1) (Fin 0) = Ok f1 /\ make_vacuous ["a"] (Fin 0) = Ok f2 /\
  wf_gauss f1 /\ wf_gauss f2 /\ g_equals f1 f2 default_tol default_tol = Err PyException.
Proof.
  rewrite vacuous_made, mk_cov_ok; [|constructor; [intros []|constructor]|now repeat split].
  do 2 eexists. split; [reflexivity|]. split; [reflexivity|]. split; [|split].
  - split; [constructor; [intros []|constructor]|]. split; [right; discriminate|]. split; intros p Hp; [discriminate|]. injection Hp as <-.
    split; [now repeat split|]. split; [intros [|[]] [|[]] H1 H2; try reflexivity; cbn in *; lia|]. change (0 < mdet (meye 1))%R. rewrite mdet_eye. lra.
  - split; [constructor; [intros []|constructor]|]. split; [left; discriminate|]. split; intros p Hp; [|discriminate]. injection Hp as <-.
    now repeat split.
  - unfold g_equals, g_copy. cbn [ga_vars ga_cov ga_can]. rewrite mk_can_ok; [|constructor; [intros []|constructor]|now repeat split].
    cbn -[prec_vacuous]. rewrite Bool.andb_false_r. reflexivity.
Qed.

(** Constructed objects are well formed. *)
Lemma mk_can_wf vars K h g : NoDup vars -> shaped (length vars) (K, h, g) ->
  exists f, mk_can vars K h g = Ok f /\ wf_gauss f /\ ga_vars f = vars.
Proof.
  intros Hd Hs. rewrite (mk_can_ok vars K h g Hd Hs). eexists. split; [reflexivity|]. split; [|reflexivity].
  split; [exact Hd|]. split; [left; discriminate|]. split; intros p Hp; [|discriminate]. injection Hp as <-. exact Hs.
Qed.
Lemma mk_cov_wf vars C m w : NoDup vars -> shaped (length vars) (C, m, w) -> symm C -> (0 < mdet C)%R ->
  exists f, mk_cov vars C m w = Ok f /\ wf_gauss f /\ ga_vars f = vars.
Proof.
  intros Hd Hs Hy Hp. rewrite (mk_cov_ok vars C m w Hd Hs). eexists. split; [reflexivity|]. split; [|reflexivity].
  split; [exact Hd|]. split; [right; discriminate|]. split; intros p Hq; [discriminate|]. injection Hq as <-. now split.
Qed.
(** Multiplying and dividing by the same factor. *)
Lemma multiply_divide f1 f2 : wf_gauss f1 -> wf_gauss f2 ->
  exists r q, g_multiply f1 f2 = Ok r /\ g_divide r f2 = Ok q /\
    (forall v, In v (ga_vars q) <-> In v (ga_vars f1) \/ In v (ga_vars f2)) /\
    forall e l1 x, log_potential f1 (map e (ga_vars f1)) None = Ok l1 ->
      log_potential f2 (map e (ga_vars f2)) None = Ok (Fin x) ->
      log_potential q (map e (ga_vars q)) None = Ok l1.
Proof.
  intros W1 W2. destruct (g_multiply_spec f1 f2 W1 W2) as (r & E & W & V & L).
  destruct (g_divide_spec r f2 W W2) as (q & Eq & Wq & Vq & Lq). exists r, q. split; [exact E|]. split; [exact Eq|].
  pose proof W1 as (D1 & _). pose proof W2 as (D2 & _). pose proof W as (D & _). split.
  - intros v. rewrite Vq, new_vars_In, V, new_vars_In. tauto.
  - intros e l1 x H1 H2. rewrite (Lq e _ _ (L e _ _ H1 H2) H2). destruct l1; cbn; try reflexivity. do 2 f_equal. ring.
Qed.
Definition lp (f : gauss) (e : string -> R) : res val := log_potential f (map e (ga_vars f)) None.
Lemma op_full (op : gauss -> gauss -> res gauss) (vop : val -> val -> val) f1 f2 : wf_gauss f1 -> wf_gauss f2 ->
  (exists r, op f1 f2 = Ok r /\ wf_gauss r /\ ga_vars r = new_vars (ga_vars f1) (ga_vars f2) /\
    forall e l1 l2, lp f1 e = Ok l1 -> lp f2 e = Ok l2 -> lp r e = Ok (vop l1 l2)) ->
  exists r, op f1 f2 = Ok r /\ wf_gauss r /\ (forall v, In v (ga_vars r) <-> In v (ga_vars f1) \/ In v (ga_vars f2)) /\
    forall e vs, Permutation vs (ga_vars r) -> exists l1 l2, lp f1 e = Ok l1 /\ lp f2 e = Ok l2 /\
      log_potential r (map e vs) (Some vs) = Ok (vop l1 l2) /\ lp r e = Ok (vop l1 l2).
Proof.
  intros W1 W2 (r & E & W & V & L). exists r. split; [exact E|]. split; [exact W|]. split; [intros v; rewrite V; apply new_vars_In|].
  intros e vs HP. destruct (lp_exists f1 e W1) as (l1 & H1). destruct (lp_exists f2 e W2) as (l2 & H2). exists l1, l2.
  split; [exact H1|]. split; [exact H2|]. pose proof (L e l1 l2 H1 H2) as HL. split; [|exact HL].
  pose proof W as (D & _). rewrite (lp_order r vs e D HP). exact HL.
Qed.
Lemma multiply_full f1 f2 : wf_gauss f1 -> wf_gauss f2 ->
  exists r, g_multiply f1 f2 = Ok r /\ wf_gauss r /\ (forall v, In v (ga_vars r) <-> In v (ga_vars f1) \/ In v (ga_vars f2)) /\
    forall e vs, Permutation vs (ga_vars r) -> exists l1 l2, lp f1 e = Ok l1 /\ lp f2 e = Ok l2 /\
      log_potential r (map e vs) (Some vs) = Ok (vadd l1 l2) /\ lp r e = Ok (vadd l1 l2).
Proof. intros W1 W2. apply op_full; auto. now apply g_multiply_spec. Qed.
Lemma divide_full f1 f2 : wf_gauss f1 -> wf_gauss f2 ->
  exists r, g_divide f1 f2 = Ok r /\ wf_gauss r /\ (forall v, In v (ga_vars r) <-> In v (ga_vars f1) \/ In v (ga_vars f2)) /\
    forall e vs, Permutation vs (ga_vars r) -> exists l1 l2, lp f1 e = Ok l1 /\ lp f2 e = Ok l2 /\
      log_potential r (map e vs) (Some vs) = Ok (vsub l1 l2) /\ lp r e = Ok (vsub l1 l2).
Proof. intros W1 W2. apply op_full; auto. now apply g_divide_spec. Qed.
Lemma reduce_full f vrs values : wf_gauss f -> sym_prec f -> NoDup vrs -> incl vrs (ga_vars f) ->
  ~ incl (ga_vars f) vrs -> length values = length vrs ->
  exists r, g_reduce f vrs values = Ok r /\ wf_gauss r /\ (forall v, In v (ga_vars r) <-> In v (ga_vars f) /\ ~ In v vrs) /\
    forall e, map e vrs = values -> exists l, lp f e = Ok l /\ lp r e = Ok l.
Proof.
  intros W HS Hd Hi Hn Hl. destruct (g_reduce_spec f vrs values W HS Hd Hi Hn Hl) as (r & E & Wr & _ & V & L). exists r.
  split; [exact E|]. split; [exact Wr|]. split; [intros v; rewrite V; apply rest_In|]. intros e He.
  destruct (lp_exists f e W) as (l & H). exists l. split; [exact H|]. unfold lp. now rewrite (L e He).
Qed.
Lemma reduce_all_refuted : exists f, wf_gauss f /\ sym_prec f /\ g_reduce f ["a"; "b"] [1; 2]%R = Err AssertionError.
Proof.
  exists ex_ab. split; [exact wf_ab|]. split; [intros p Hp; injection Hp as <-; exact exK_symm|].
  apply g_reduce_all; [exact wf_ab|now apply nd2|intros v H; exact H|intros v H; exact H|reflexivity].
Qed.
Lemma cov_can_cov_posdef vars C m w : NoDup vars -> shaped (length vars) (C, m, w) -> posdef C ->
  exists f f' K h g fc fc' C' m', mk_cov vars C m w = Ok f /\ get_can f = Ok (f', (K, h, g)) /\
    mk_can vars K h g = Ok fc /\ get_cov fc = Ok (fc', (C', m', w)) /\ meq C' C /\ meq m' m /\
    (forall e, exists l, lp f e = Ok l /\ lp f' e = Ok l /\ lp fc e = Ok l /\ lp fc' e = Ok l).
Proof.
  intros Hd Hs P. pose proof P as (Hy & _). pose proof (posdef_det C P) as HD. pose proof Hs as (H1 & H2 & H3 & H4).
  assert (Hv : prec_vacuous (minv C) = false) by (apply posdef_not_vacuous; [reflexivity|now apply posdef_minv]).
  destruct (cov_can_cov vars C m w Hd Hs Hy HD Hv) as (f & K & h & g & fc & C' & m' & f' & fc' & E1 & E2 & E3 & E4 & M1 & M2 & EK & _ & Wf & Wfc & _).
  exists f, f', K, h, g, fc, fc', C', m'. do 6 (split; [assumption|]). intros e.
  assert (Vf : ga_vars f = vars) by (rewrite (mk_cov_ok vars C m w Hd Hs) in E1; injection E1 as <-; reflexivity).
  destruct (lp_exists f e Wf) as (l & Hl). exists l. split; [exact Hl|].
  destruct (forms_lp vars C m w e f f' K h g fc Hd Hs Hy HD E1 E2 E3) as (L1 & L2).
  destruct (get_can_same f f' _ Wf E2) as (S1 & V1 & C1).
  assert (Rc : regular fc).
  { destruct (get_can_wf f Wf) as (f0 & K0 & h0 & g0 & E0 & V0 & C0 & S0 & W0 & _). rewrite E2 in E0. injection E0 as <- <- <- <-.
    rewrite Vf in S0. rewrite (mk_can_ok vars K h g Hd S0) in E3. injection E3 as <-. intros K1 h1 g1 Hk. injection Hk as <- <- <-.
    rewrite EK. split; [now apply symm_minv|]. rewrite mdet_minv by lra. now apply Rinv_0_lt_compat. }
  destruct (get_cov_same fc fc' _ Wfc Rc E4) as (S2 & V2 & _).
  assert (Vc : ga_vars fc = vars).
  { destruct (get_can_wf f Wf) as (f0 & K0 & h0 & g0 & E0 & V0 & C0 & S0 & W0 & _). rewrite E2 in E0. injection E0 as <- <- <- <-.
    rewrite Vf in S0. rewrite (mk_can_ok vars K h g Hd S0) in E3. injection E3 as <-. reflexivity. }
  unfold lp in *. rewrite V1, V2, Vc, Vf in *. split; [congruence|]. split; [congruence|].
  destruct S2 as (_ & _ & _ & L3). specialize (L3 e). rewrite V2, Vc in L3. congruence.
Qed.
Lemma can_cov_can_full vars K h g : NoDup vars -> shaped (length vars) (K, h, g) -> posdef K ->
  exists fc fc' C m w f f' K' h', mk_can vars K h g = Ok fc /\ get_cov fc = Ok (fc', (C, m, w)) /\
    mk_cov vars C m w = Ok f /\ get_can f = Ok (f', (K', h', g)) /\ meq K' K /\ meq h' h /\
    (forall e, log_potential f (map e vars) None = log_potential fc (map e vars) None).
Proof.
  intros Hd Hs P. pose proof P as (Hy & _). pose proof Hs as (H1 & H2 & H3 & H4).
  apply can_cov_can; auto; [now apply posdef_det|apply posdef_not_vacuous; [cbn in *; congruence|exact P]].
Qed.
Lemma marginal_full o vars C m w f K h g f' fc xs :
  oracle_ok o -> NoDup vars -> shaped (length vars) (C, m, w) -> posdef C -> NoDup xs -> incl xs vars ->
  mk_cov vars C m w = Ok f -> get_can f = Ok (f', (K, h, g)) -> mk_can vars K h g = Ok fc ->
  forall f2, f2 = f' \/ f2 = fc ->
  exists r r2 C1 m1 r2' C2 m2, g_marginalize o f xs true = Ok r /\ g_marginalize o f2 xs true = Ok r2 /\
    ga_vars r = xs /\ ga_vars r2 = xs /\
    get_cov r = Ok (r, (C1, m1, w)) /\ get_cov r2 = Ok (r2', (C2, m2, w)) /\ meq C1 C2 /\ meq m1 m2 /\
    restricted C C1 vars xs /\ restricted1 m m1 vars xs /\
    (forall e, exists l, lp r e = Ok l /\ lp r2 e = Ok l).
Proof.
  intros Ho Hd Hs P Dx Ix E1 E2 E3 f2 H2. pose proof P as (Hy & _). pose proof (posdef_det C P) as HD.
  destruct (mk_cov_wf vars C m w Hd Hs Hy HD) as (f0 & E0 & Wf & Vf). rewrite E1 in E0. injection E0 as <-.
  destruct (get_can_wf f Wf) as (f0 & K0 & h0 & g0 & E0 & V0 & C0 & S0 & W0 & A0 & B0). rewrite E2 in E0. injection E0 as <- <- <- <-.
  rewrite Vf in S0. pose proof E3 as E3'. rewrite (mk_can_ok vars K h g Hd S0) in E3'. injection E3' as E3'.
  assert (HK : K = minv C).
  { pose proof E1 as E1'. rewrite (mk_cov_ok vars C m w Hd Hs) in E1'. injection E1' as <-. unfold get_can in E2.
    rewrite (update_canform_cov vars false C m w Hs HD) in E2. cbn [bind ga_can] in E2. now injection E2 as _ <- _ _. }
  assert (Hv : prec_vacuous K = false) by (rewrite HK; apply posdef_not_vacuous; [reflexivity|now apply posdef_minv]).
  assert (Vac : ga_vac f = false) by (pose proof E1 as E1'; rewrite (mk_cov_ok vars C m w Hd Hs) in E1'; injection E1' as <-; reflexivity).
  assert (G : ga_vars f2 = vars /\ ga_vac f2 = false /\ ga_can f2 = Some (K, h, g)).
  { destruct H2 as [->| ->]; [split; [congruence|split; [congruence|exact C0]]|]. subst fc. now repeat split. }
  destruct G as (G1 & G2 & G3).
  destruct (marginal_forms o vars C m w f K h g f' f2 xs Ho Hd Hs P Dx Ix E1 E2 G1 G2 G3)
    as (r & r2 & C1 & m1 & r2' & C2 & m2 & Q1 & Q2 & Q3 & Q4 & _ & _ & W1 & W2 & Q5 & Q6 & Q7 & Q8 & Q9 & Q10 & Q11).
  exists r, r2, C1, m1, r2', C2, m2. do 10 (split; [assumption|]). intros e. destruct (lp_exists r e W1) as (l & Hl).
  exists l. split; [exact Hl|]. unfold lp. rewrite Q4, <- Q11, <- Q3. exact Hl.
Qed.
Lemma id_oracle_ok : exists o, oracle_ok o.
Proof. exists {| so := fun l => l; ko := fun l => l |}. split; intros; reflexivity. Qed.
Lemma equals_partial f1 f2 rtol atol b f1' f2' : wf_gauss f1 -> wf_gauss f2 -> (ga_can f1 = None -> regular f2) ->
  g_equals f1 f2 rtol atol = Ok (b, f1', f2') ->
  f1' = f1 /\ wf_gauss f2' /\ Permutation (ga_vars f2') (ga_vars f2) /\ (forall e, exists l, lp f2 e = Ok l /\ lp f2' e = Ok l).
Proof.
  intros W1 W2 HR E. destruct (g_equals_same f1 f2 rtol atol b f1' f2' W1 W2 HR E) as (-> & W & P & _ & L).
  split; [reflexivity|]. split; [exact W|]. split; [exact P|]. intros e. destruct (lp_exists f2 e W2) as (l & Hl). exists l.
  split; [exact Hl|]. unfold lp. now rewrite L.
Qed.
