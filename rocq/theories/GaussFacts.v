(** Facts about the Gaussian model: constructors, conversions, log potentials. *)
From Verif Require Export SumFacts UtilsFacts GaussModel MxFacts MxSel MxSchur.
From Coq Require Export Reals Lra Lia Permutation.
#[global] Set Bullet Behavior "Strict Subproofs".

(** * Floats *)
Lemma vadd_fin2 a b v : vadd (Fin a) (vadd (Fin b) v) = vadd (Fin (a + b)) v.
Proof. destruct v; cbn; try reflexivity. f_equal. ring. Qed.
Lemma vadd_4 a b u v : vadd (vadd (Fin a) u) (vadd (Fin b) v) = vadd (Fin (a + b)) (vadd u v).
Proof. destruct u, v; cbn; try reflexivity. f_equal. ring. Qed.
Lemma vsub_4 a b u v : vsub (vadd (Fin a) u) (vadd (Fin b) v) = vadd (Fin (a - b)) (vsub u v).
Proof. destruct u, v; cbn; try reflexivity. f_equal. ring. Qed.
Lemma rlog_pos x : (0 < x)%R -> rlog x = Fin (ln x).
Proof.
  intros H. unfold rlog, Rlt_b, Req_b. destruct (Rlt_dec 0 x); [reflexivity|contradiction].
Qed.

(** * Sums over positions *)
Lemma rsum_S n f : rsum (S n) f = (rsum n f + f n)%R.
Proof.
  unfold rsum. rewrite seq_S, map_app, Rsum_app. cbn [map]. rewrite Rsum_cons. unfold Rsum at 2. cbn. ring.
Qed.
Lemma rsum_plus n f g : rsum n (fun i => f i + g i)%R = (rsum n f + rsum n g)%R.
Proof. apply Rsum_plus. Qed.
Lemma rsum_minus n f g : rsum n (fun i => f i - g i)%R = (rsum n f - rsum n g)%R.
Proof. apply Rsum_minus. Qed.
Lemma rsum_scal n c f : rsum n (fun i => c * f i)%R = (c * rsum n f)%R.
Proof. apply Rsum_scal. Qed.
Lemma rsum_scal_r n c f : rsum n (fun i => f i * c)%R = (rsum n f * c)%R.
Proof. rewrite <- (Rmult_comm c), <- rsum_scal. apply rsum_ext. intros i _. ring. Qed.
Lemma rsum_swap n m (f : nat -> nat -> R) :
  rsum n (fun i => rsum m (fun j => f i j)) = rsum m (fun j => rsum n (fun i => f i j)).
Proof. apply Rsum_swap. Qed.
Lemma rsum_zero n f : (forall i, i < n -> f i = 0%R) -> rsum n f = 0%R.
Proof. intros H. apply Rsum_zero. intros i Hi. apply in_seq in Hi. apply H. lia. Qed.
Lemma rsum_idn n i f : i < n -> rsum n (fun k => idn i k * f k)%R = f i.
Proof.
  intros Hi. induction n as [|n IH]; [lia|]. rewrite rsum_S. unfold idn at 2.
  destruct (Nat.eqb_spec i n) as [->|N].
  - rewrite rsum_zero; [ring|]. intros k Hk. unfold idn. destruct (Nat.eqb_spec n k); [lia|ring].
  - rewrite IH by lia. ring.
Qed.
(** A sum over positions of a list is a sum over its elements. *)
Lemma rsum_list (vs : list string) (f : string -> R) :
  rsum (length vs) (fun i => f (nth i vs ""%string)) = Rsum (map f vs).
Proof.
  unfold rsum. f_equal. induction vs as [|v vs IH]; [reflexivity|].
  cbn [length seq map nth]. f_equal. rewrite <- seq_shift, map_map. exact IH.
Qed.
Lemma qsum_ext n A B u v : (forall i j, i < n -> j < n -> ent A i j = ent B i j) ->
  (forall i, i < n -> u i = v i) -> qsum n A u = qsum n B v.
Proof.
  intros HA Hu. apply rsum_ext. intros i Hi. apply rsum_ext. intros j Hj. now rewrite HA, !Hu.
Qed.

(** * Arrays *)
Lemma mmul_ok A B : nc A = nr B -> mmul A B = Ok (mmul0 A B).
Proof. intros H. unfold mmul. now rewrite H, Nat.eqb_refl. Qed.
Lemma bix_id n i : i < n -> bix n i = i.
Proof. unfold bix. destruct (Nat.eqb_spec n 1); lia. Qed.
Lemma mzip_ok op A B : nr A = nr B -> nc A = nc B -> exists M, mzip op A B = Ok M /\ nr M = nr A /\ nc M = nc A /\
  forall i j, i < nr A -> j < nc A -> ent M i j = op (ent A i j) (ent B i j).
Proof.
  intros Hr Hc. unfold mzip, bdim. rewrite Hr, Hc, !Nat.eqb_refl. cbn [bind]. eexists. split; [reflexivity|].
  cbn [nr nc ent]. split; [reflexivity|split; [reflexivity|]]. intros i j Hi Hj.
  rewrite !(bix_id _ i), !(bix_id _ j) by lia. reflexivity.
Qed.
Lemma msub_ok A B : nr A = nr B -> nc A = nc B -> exists M, msub A B = Ok M /\ nr M = nr A /\ nc M = nc A /\
  forall i j, i < nr A -> j < nc A -> ent M i j = (ent A i j - ent B i j)%R.
Proof. apply (mzip_ok Rminus). Qed.
Lemma quad_ok n x A : nr x = n -> nc x = 1 -> nr A = n -> nc A = n -> quad x A = Ok (qsum n A (fun i => ent x i 0)).
Proof.
  intros Hx Hc Hr Hn. unfold quad. rewrite mmul_ok by (cbn; congruence). cbn [bind].
  rewrite mmul_ok by (cbn; congruence). cbn [bind mmul0 mtr ent nr nc]. f_equal.
  rewrite Hn, Hx. unfold qsum. rewrite rsum_swap. apply rsum_ext. intros j _. now rewrite <- rsum_scal_r.
Qed.
Lemma det_2pi_ok A : nr A = nc A -> det_2pi A = Ok ((2 * PI) ^ nr A * mdet A)%R.
Proof. intros H. unfold det_2pi. rewrite np_det_ok by exact H. now rewrite mdet_scal. Qed.
Lemma twopi_pos : (0 < 2 * PI)%R.
Proof. pose proof PI_RGT_0. lra. Qed.
Lemma pow_pos c n : (0 < c)%R -> (0 < c ^ n)%R.
Proof. apply pow_lt. Qed.

(** * Shapes *)
Definition shaped (n : nat) (p : mat * mat * val) : Prop :=
  let '(A, v, _) := p in nr A = n /\ nc A = n /\ nr v = n /\ nc v = 1.
Definition cov_ok (p : mat * mat * val) : Prop := let '(C, _, _) := p in symm C /\ (0 < mdet C)%R.
Definition wf_gauss (f : gauss) : Prop :=
  NoDup (ga_vars f) /\ (ga_can f <> None \/ ga_cov f <> None) /\
  (forall p, ga_can f = Some p -> shaped (length (ga_vars f)) p) /\
  (forall p, ga_cov f = Some p -> shaped (length (ga_vars f)) p /\ cov_ok p).

Lemma mk_can_ok vars K h g : NoDup vars -> shaped (length vars) (K, h, g) ->
  mk_can vars K h g =
  Ok {| ga_vars := vars; ga_vac := prec_vacuous K; ga_can := Some (K, h, g); ga_cov := None |}.
Proof.
  intros Hd (H1 & H2 & H3 & H4). unfold mk_can, make_square_matrix, make_column_vector, raise_if, py_assert.
  rewrite (proj2 (nodupb_iff vars) Hd). cbn [negb bind]. rewrite H1, H2, H4, Nat.eqb_refl. cbn [bind].
  rewrite Bool.andb_false_r. cbn [negb bind Nat.eqb]. rewrite H1, H3, Nat.eqb_refl. reflexivity.
Qed.
Lemma mk_cov_ok vars C m w : NoDup vars -> shaped (length vars) (C, m, w) ->
  mk_cov vars C m w =
  Ok {| ga_vars := vars; ga_vac := false; ga_can := None; ga_cov := Some (C, m, w) |}.
Proof.
  intros Hd (H1 & H2 & H3 & H4). unfold mk_cov, make_square_matrix, make_column_vector, raise_if, py_assert.
  rewrite (proj2 (nodupb_iff vars) Hd). cbn [negb bind]. rewrite H1, H2, H4, Nat.eqb_refl. cbn [bind].
  rewrite Bool.andb_false_r. cbn [negb bind Nat.eqb]. rewrite H1, H3, Nat.eqb_refl. reflexivity.
Qed.

(** * Conversions *)
Lemma update_canform_cov vars vac C m w : shaped (length vars) (C, m, w) -> (0 < mdet C)%R ->
  let K := minv C in
  update_canform {| ga_vars := vars; ga_vac := vac; ga_can := None; ga_cov := Some (C, m, w) |} =
  Ok {| ga_vars := vars; ga_vac := vac;
        ga_can := Some (K, mmul0 K m,
                        vsub (vsub w (Fin (1 / 2 * qsum (length vars) K (fun i => ent m i 0))))
                             (Fin (1 / 2 * ln ((2 * PI) ^ length vars * mdet C))));
        ga_cov := Some (C, m, w) |}.
Proof.
  intros (H1 & H2 & H3 & H4) HC K. unfold update_canform. cbn [ga_can ga_cov ga_vars ga_vac].
  rewrite np_inv_ok by (try congruence; lra). cbn [bind].
  rewrite mmul_ok by (cbn; congruence). cbn [bind].
  rewrite (quad_ok (length vars)) by (cbn; congruence). cbn [bind].
  rewrite det_2pi_ok by congruence. cbn [bind]. rewrite H1.
  assert (HP : (0 < (2 * PI) ^ length vars * mdet C)%R).
  { apply Rmult_lt_0_compat; [apply pow_lt, twopi_pos|exact HC]. }
  unfold utils_log, Rlt_b. destruct (Rlt_dec ((2 * PI) ^ length vars * mdet C) 0); [lra|]. cbn [bind].
  rewrite rlog_pos by exact HP. reflexivity.
Qed.
Lemma get_can_wf f : wf_gauss f -> exists f' K h g, get_can f = Ok (f', (K, h, g)) /\ ga_vars f' = ga_vars f /\
  ga_can f' = Some (K, h, g) /\ shaped (length (ga_vars f)) (K, h, g) /\ wf_gauss f' /\
  ga_vac f' = ga_vac f /\ ga_cov f' = ga_cov f.
Proof.
  intros W. pose proof W as (Hd & Hf & Hc & Hv). unfold get_can.
  destruct (ga_can f) as [[[K h] g]|] eqn:Ec.
  - unfold update_canform. rewrite Ec. cbn [bind]. rewrite Ec. exists f, K, h, g.
    split; [reflexivity|]. split; [reflexivity|]. split; [exact Ec|].
    split; [now apply Hc|]. split; [exact W|]. now split.
  - destruct (ga_cov f) as [[[C m] w]|] eqn:Ev; [|destruct Hf; congruence].
    destruct (Hv _ eq_refl) as (Hs & Hsym & Hdet).
    destruct f as [vars vac can cov]. cbn [ga_can ga_cov ga_vars ga_vac] in *. subst can cov.
    rewrite (update_canform_cov vars vac C m w Hs Hdet). cbn [bind ga_can].
    pose proof Hs as (H1 & H2 & H3 & H4).
    do 4 eexists. split; [reflexivity|]. cbn [ga_can ga_cov ga_vars ga_vac].
    split; [reflexivity|]. split; [reflexivity|].
    assert (Hs' : forall s, shaped (length vars) (minv C, mmul0 (minv C) m, s)).
    { intros s. cbn. repeat split; congruence. }
    split; [apply Hs'|]. split; [|now split]. split; [exact Hd|]. split; [left; discriminate|].
    cbn [ga_can ga_cov ga_vars]. split.
    + intros p Hp. injection Hp as <-. apply Hs'.
    + intros p Hp. injection Hp as <-. split; [exact Hs|now split].
Qed.

(** * Log potentials *)
Definition can_form (vars : list string) (K h : mat) (e : string -> R) : R :=
  (- (1 / 2) * Rsum (map (fun u => Rsum (map (fun v => e u * named_entry K vars u v * e v) vars)) vars)
   + Rsum (map (fun u => e u * named_coord h vars u) vars))%R.
Lemma nth_name_entry vars K i j : NoDup vars -> i < length vars -> j < length vars ->
  named_entry K vars (nth i vars ""%string) (nth j vars ""%string) = ent K i j.
Proof. intros Hd Hi Hj. apply named_entry_at; auto; now apply nth_error_nth'. Qed.
Lemma nth_name_coord vars h i : NoDup vars -> i < length vars ->
  named_coord h vars (nth i vars ""%string) = ent h i 0.
Proof. intros Hd Hi. apply named_coord_at; auto; now apply nth_error_nth'. Qed.
Lemma nth_map_e (e : string -> R) vars i : i < length vars -> nth i (map e vars) 0%R = e (nth i vars ""%string).
Proof.
  intros H. rewrite (nth_indep _ 0%R (e ""%string)) by (rewrite map_length; exact H). apply map_nth.
Qed.
Lemma can_form_pos vars K h e : NoDup vars ->
  can_form vars K h e =
  (- (1 / 2) * qsum (length vars) K (fun i => e (nth i vars ""%string))
   + rsum (length vars) (fun i => e (nth i vars ""%string) * ent h i 0))%R.
Proof.
  intros Hd. unfold can_form. rewrite <- !rsum_list. f_equal; [f_equal|].
  - unfold qsum. apply rsum_ext. intros i Hi. rewrite <- rsum_list. apply rsum_ext. intros j Hj.
    now rewrite nth_name_entry.
  - apply rsum_ext. intros i Hi. now rewrite nth_name_coord.
Qed.
Lemma can_log_potential_ok n K h g y : shaped n (K, h, g) -> length y = n ->
  can_log_potential K h g (mcol y) =
  Ok (vadd (Fin (- (1 / 2) * qsum n K (fun i => nth i y 0) + rsum n (fun i => nth i y 0 * ent h i 0)))%R g).
Proof.
  intros (H1 & H2 & H3 & H4) Hy. unfold can_log_potential. rewrite (quad_ok n) by (cbn; congruence).
  cbn [bind]. rewrite mmul_ok by (cbn; congruence). cbn [bind mmul0 mtr mcol ent nr nc]. rewrite Hy. reflexivity.
Qed.
Lemma qsum_minus n K u v : (forall i j, i < n -> j < n -> ent K i j = ent K j i) ->
  qsum n K (fun i => u i - v i)%R =
  (qsum n K u - 2 * rsum n (fun i => v i * rsum n (fun k => ent K i k * u k)) + qsum n K v)%R.
Proof.
  intros HS. unfold qsum.
  assert (E : rsum n (fun i => v i * rsum n (fun k => ent K i k * u k))%R =
              rsum n (fun i => rsum n (fun j => v i * ent K i j * u j))%R).
  { apply rsum_ext. intros i _. rewrite <- rsum_scal. apply rsum_ext. intros j _. ring. }
  assert (E' : rsum n (fun i => rsum n (fun j => u i * ent K i j * v j))%R =
               rsum n (fun i => rsum n (fun j => v i * ent K i j * u j))%R).
  { rewrite rsum_swap. apply rsum_ext. intros i Hi. apply rsum_ext. intros j Hj. rewrite (HS j i Hj Hi). ring. }
  rewrite E.
  replace (rsum n (fun i => rsum n (fun j => (u i - v i) * ent K i j * (u j - v j))))%R with
    (rsum n (fun i => rsum n (fun j => u i * ent K i j * u j)) - rsum n (fun i => rsum n (fun j => u i * ent K i j * v j))
     - rsum n (fun i => rsum n (fun j => v i * ent K i j * u j)) + rsum n (fun i => rsum n (fun j => v i * ent K i j * v j)))%R.
  - rewrite E'. ring.
  - rewrite <- !rsum_minus, <- rsum_plus. apply rsum_ext. intros i _. rewrite <- !rsum_minus, <- rsum_plus.
    apply rsum_ext. intros j _. ring.
Qed.
Lemma cov_log_potential_ok n C m w y : shaped n (C, m, w) -> cov_ok (C, m, w) -> length y = n ->
  cov_log_potential C m w (mcol y) =
  Ok (vadd (vsub w (Fin (1 / 2 * ln ((2 * PI) ^ n * mdet C))))
           (Fin (- (1 / 2) * qsum n (minv C) (fun i => ent m i 0 - nth i y 0))))%R.
Proof.
  intros (H1 & H2 & H3 & H4) (Hs & HC) Hy. unfold cov_log_potential.
  rewrite det_2pi_ok by congruence. cbn [bind]. rewrite H1.
  rewrite rlog_pos by (apply Rmult_lt_0_compat; [apply pow_lt, twopi_pos|exact HC]).
  rewrite np_inv_ok by (try congruence; lra). cbn [bind].
  destruct (msub_ok m (mcol y)) as (M & -> & M1 & M2 & M3); [cbn; congruence|cbn; congruence|]. cbn [bind].
  rewrite (quad_ok n) by (cbn; congruence). cbn [bind]. f_equal. f_equal. f_equal. f_equal.
  apply qsum_ext; [reflexivity|]. intros i Hi. rewrite M3 by lia. reflexivity.
Qed.
(** The covariance form and the canonical form computed from it give the same value. *)
Lemma forms_agree n C m w y : shaped n (C, m, w) -> cov_ok (C, m, w) -> length y = n ->
  cov_log_potential C m w (mcol y) =
  can_log_potential (minv C) (mmul0 (minv C) m)
    (vsub (vsub w (Fin (1 / 2 * qsum n (minv C) (fun i => ent m i 0)))) (Fin (1 / 2 * ln ((2 * PI) ^ n * mdet C))))
    (mcol y).
Proof.
  intros Hs Hc Hy. rewrite (cov_log_potential_ok n C m w y Hs Hc Hy).
  pose proof Hs as (H1 & H2 & H3 & H4). destruct Hc as (Hsym & HC).
  rewrite (can_log_potential_ok n); [|cbn; repeat split; congruence|exact Hy]. f_equal.
  rewrite qsum_minus.
  2: { intros i j Hi Hj. apply (symm_minv C Hsym); cbn; lia. }
  assert (E : rsum n (fun i => nth i y 0 * rsum n (fun k => ent (minv C) i k * ent m k 0))%R =
              rsum n (fun i => nth i y 0 * ent (mmul0 (minv C) m) i 0)%R).
  { apply rsum_ext. intros i _. cbn [mmul0 ent]. change (nc (minv C)) with (nr C). now rewrite H1. }
  rewrite E. set (a := qsum n (minv C) (fun i => ent m i 0)). set (b := rsum n _).
  set (c := qsum n (minv C) (fun i => nth i y 0%R)). set (l := ln _).
  destruct w; cbn; try reflexivity. f_equal. fold b. lra.
Qed.
