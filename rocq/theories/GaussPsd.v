(** Gaussian factors whose precision is positive semidefinite: quadratic forms and exact
    integrals.  Nothing here models the code. *)
From Verif Require Export PosGraph.
#[global] Set Bullet Behavior "Strict Subproofs".
Local Open Scope R_scope.
Local Notation pos := GaussOps.pos.

(** * Quadratic forms by name *)
Definition qn (vars : list string) (K : mat) (x : renv) : R :=
  Rsum (map (fun u => Rsum (map (fun v => x u * named_entry K vars u v * x v) vars)) vars).
Definition lnn (vars : list string) (h : mat) (x : renv) : R := Rsum (map (fun u => x u * named_coord h vars u) vars).
Lemma can_form_qn vars K h e : can_form vars K h e = - (1 / 2) * qn vars K e + lnn vars h e.
Proof. reflexivity. Qed.
Lemma qn_ext vars K x y : (forall v, In v vars -> x v = y v) -> qn vars K x = qn vars K y.
Proof. intros H. apply Rsum_ext. intros u Hu. apply Rsum_ext. intros v Hv. now rewrite !H. Qed.
Lemma lnn_ext vars h x y : (forall v, In v vars -> x v = y v) -> lnn vars h x = lnn vars h y.
Proof. intros H. apply Rsum_ext. intros u Hu. now rewrite !H. Qed.
Lemma qn_entries vars K L x : (forall u v, In u vars -> In v vars -> named_entry K vars u v = named_entry L vars u v) -> qn vars K x = qn vars L x.
Proof. intros H. apply Rsum_ext. intros u Hu. apply Rsum_ext. intros v Hv. now rewrite H. Qed.

Lemma qn_par vars K z x : qn vars K (fun v => z v + x v) + qn vars K (fun v => z v - x v) = 2 * qn vars K z + 2 * qn vars K x.
Proof.
  unfold qn. rewrite <- Rsum_plus, <- !Rsum_scal, <- Rsum_plus. apply Rsum_ext. intros u _.
  rewrite <- Rsum_plus, <- !Rsum_scal, <- Rsum_plus. apply Rsum_ext. intros v _. ring.
Qed.
Lemma lnn_plus vars h z x : lnn vars h (fun v => z v + x v) = lnn vars h z + lnn vars h x.
Proof. unfold lnn. rewrite <- Rsum_plus. apply Rsum_ext. intros u _. ring. Qed.
Lemma lnn_minus vars h z x : lnn vars h (fun v => z v - x v) = lnn vars h z - lnn vars h x.
Proof. unfold lnn. rewrite <- Rsum_minus. apply Rsum_ext. intros u _. ring. Qed.
Lemma qn_zero vars K x : (forall v, In v vars -> x v = 0) -> qn vars K x = 0.
Proof. intros H. apply Rsum_zero. intros u Hu. apply Rsum_zero. intros v Hv. rewrite H by exact Hu. ring. Qed.
(** Cross terms. *)
Definition grad (vars : list string) (K : mat) (z : renv) (u : string) : R := Rsum (map (fun v => named_entry K vars u v * z v) vars).
Lemma qn_grad vars K z : qn vars K z = Rsum (map (fun u => z u * grad vars K z u) vars).
Proof. apply Rsum_ext. intros u _. unfold grad. rewrite <- Rsum_scal. apply Rsum_ext. intros v _. ring. Qed.
Lemma qn_plus vars K z w : symm K -> nr K = length vars ->
  qn vars K (fun v => z v + w v) = qn vars K z + qn vars K w + 2 * Rsum (map (fun u => w u * grad vars K z u) vars).
Proof.
  intros HS HL.
  assert (E : Rsum (map (fun u => w u * grad vars K z u) vars) = Rsum (map (fun u => Rsum (map (fun v => z u * named_entry K vars u v * w v) vars)) vars)).
  { rewrite Rsum_swap. apply Rsum_ext. intros u Hu. unfold grad. rewrite <- Rsum_scal. apply Rsum_ext. intros v Hv.
    rewrite (named_symm K vars u v HS HL Hu Hv). ring. }
  replace (2 * Rsum (map (fun u => w u * grad vars K z u) vars)) with
    (Rsum (map (fun u => w u * grad vars K z u) vars) + Rsum (map (fun u => Rsum (map (fun v => z u * named_entry K vars u v * w v) vars)) vars)) by lra.
  unfold qn. rewrite <- !Rsum_plus. apply Rsum_ext. intros u _. unfold grad. rewrite <- Rsum_scal. rewrite <- !Rsum_plus. apply Rsum_ext. intros v _. ring.
Qed.

Lemma qn_qsum vars K x : NoDup vars -> qn vars K x = qsum (length vars) K (fun i => x (nth i vars ""%string)).
Proof.
  intros Hd. unfold qn, qsum. rewrite (rsum_pos vars) by exact Hd. apply Rsum_ext. intros u Hu.
  rewrite (rsum_pos vars) by exact Hd. apply Rsum_ext. intros v Hv. rewrite named_pos by assumption.
  now rewrite (proj2 (pos_nth vars u Hu)), (proj2 (pos_nth vars v Hv)).
Qed.
Lemma qsum_qn vars K u : NoDup vars -> qsum (length vars) K u = qn vars K (fun v => u (pos vars v)).
Proof.
  intros Hd. rewrite qn_qsum by exact Hd. apply rsum_ext. intros i Hi. apply rsum_ext. intros j Hj.
  rewrite !pos_of_nth by assumption. reflexivity.
Qed.
Lemma posdef_qn vars K : NoDup vars -> nr K = length vars -> symm K ->
  (posdef K <-> forall x, (exists v, In v vars /\ x v <> 0) -> 0 < qn vars K x).
Proof.
  intros Hd HL HS. split.
  - intros (_ & P) x (v & Hv & Hx). rewrite qn_qsum by exact Hd. rewrite <- HL. apply P. exists (pos vars v).
    destruct (pos_nth vars v Hv) as (Hp & E). rewrite HL, E. now split.
  - intros H. split; [exact HS|]. intros u (i & Hi & Hu). rewrite HL in *. rewrite qsum_qn by exact Hd. apply H.
    exists (nth i vars ""%string). split; [now apply nth_In|]. now rewrite pos_of_nth.
Qed.

(** The part of the form on some of the variables. *)
Definition only (ys : list string) (x : renv) : renv := fun v => if in_dec string_dec v ys then x v else 0.
Lemma only_in ys x v : In v ys -> only ys x v = x v.
Proof. intros H. unfold only. now destruct (in_dec string_dec v ys). Qed.
Lemma only_out ys x v : ~ In v ys -> only ys x v = 0.
Proof. intros H. unfold only. now destruct (in_dec string_dec v ys). Qed.
Lemma qn_split vars K xs ys x : Permutation (ys ++ xs) vars -> NoDup vars -> (forall v, In v xs -> x v = 0) ->
  qn vars K x = qn ys (msel K (map (pos vars) ys) (map (pos vars) ys)) x.
Proof.
  intros HP Hd Hx. unfold qn at 1. rewrite (double_perm (fun u v => x u * named_entry K vars u v * x v) _ _ (Permutation_sym HP)), double_app.
  assert (Iy : incl ys vars) by (intros v Hv; apply (Permutation_in _ HP), in_or_app; now left).
  rewrite (Rsum_zero (fun u => Rsum (map (fun v => x u * named_entry K vars u v * x v) xs)) ys) by (intros u _; apply Rsum_zero; intros v Hv; rewrite (Hx v Hv); ring).
  rewrite (Rsum_zero (fun u => Rsum (map (fun v => x u * named_entry K vars u v * x v) ys)) xs) by (intros u Hu; apply Rsum_zero; intros v _; rewrite (Hx u Hu); ring).
  rewrite (Rsum_zero (fun u => Rsum (map (fun v => x u * named_entry K vars u v * x v) xs)) xs) by (intros u Hu; apply Rsum_zero; intros v _; rewrite (Hx u Hu); ring).
  rewrite !Rplus_0_r. apply Rsum_ext. intros u Hu. apply Rsum_ext. intros v Hv. rewrite (named_pos _ ys u v Hu Hv).
  now rewrite (named_sel K vars ys ys u v Hd Iy Iy Hu Hv).
Qed.

(** * Semidefinite matrices *)
Lemma psd_kernel A u : nc A = nr A -> symm A -> (forall w, 0 <= qsum (nr A) A w) -> qsum (nr A) A u = 0 ->
  forall i, (i < nr A)%nat -> mvec A u i = 0.
Proof.
  intros Hn HS P Hu i Hi. set (n := nr A) in *.
  set (b := rsum n (fun i => mvec A u i * mvec A u i)).
  assert (E : forall t, qsum n A (fun i => u i + t * mvec A u i) = 2 * t * b + t * t * qsum n A (mvec A u)).
  { intros t.
    assert (Cross : rsum n (fun i => rsum n (fun j => u i * ent A i j * mvec A u j)) = b).
    { rewrite rsum_swap. unfold b. apply rsum_ext. intros j Hj. unfold mvec at 3. rewrite Hn. fold n.
      rewrite <- rsum_scal. apply rsum_ext. intros k Hk. rewrite (HS k j) by assumption. ring. }
    assert (Cross2 : rsum n (fun i => rsum n (fun j => mvec A u i * ent A i j * u j)) = b).
    { unfold b. apply rsum_ext. intros j Hj. unfold mvec at 3. rewrite Hn. fold n. rewrite <- rsum_scal. apply rsum_ext. intros k Hk. ring. }
    replace (2 * t * b + t * t * qsum n A (mvec A u)) with (qsum n A u + (t * rsum n (fun i => rsum n (fun j => u i * ent A i j * mvec A u j)) +
      t * rsum n (fun i => rsum n (fun j => mvec A u i * ent A i j * u j)) + t * t * qsum n A (mvec A u))) by (rewrite Cross, Cross2, Hu; ring).
    unfold qsum. rewrite <- !rsum_scal, <- !rsum_plus. apply rsum_ext. intros j _. rewrite <- !rsum_scal, <- !rsum_plus. apply rsum_ext. intros k _. ring. }
  assert (Pb : 0 <= b) by (apply rsum_nonneg; intros j _; apply Rle_0_sqr).
  assert (Zb : b = 0).
  { pose proof (P (mvec A u)) as Pc. set (c := qsum n A (mvec A u)) in *. specialize (P (fun i => u i + - (b / (c + 1)) * mvec A u i)). rewrite E in P. fold c in P.
    destruct (Rle_lt_or_eq_dec 0 b Pb) as [Hb|]; [|congruence]. exfalso.
    assert (Q : 2 * - (b / (c + 1)) * b + - (b / (c + 1)) * - (b / (c + 1)) * c = - (b * b) * (c + 2) / ((c + 1) * (c + 1))) by (field; lra).
    rewrite Q in P. assert (0 < b * b * (c + 2) / ((c + 1) * (c + 1))).
    { apply Rdiv_lt_0_compat; apply Rmult_lt_0_compat; try lra. now apply Rmult_lt_0_compat. }
    unfold Rdiv in *. lra. }
  destruct (Req_dec (mvec A u i) 0) as [|Ne]; [assumption|]. exfalso.
  assert (0 < b); [|lra]. apply (rsum_pos_one _ _ i); [intros j _; apply Rle_0_sqr|exact Hi|now apply Rsqr_pos_lt].
Qed.
Lemma psd_cases A : nc A = nr A -> symm A -> (forall w, 0 <= qsum (nr A) A w) ->
  posdef A \/ exists u, (exists i, (i < nr A)%nat /\ u i <> 0) /\ forall i, (i < nr A)%nat -> mvec A u i = 0.
Proof.
  intros Hn HS P. destruct (Classical_Prop.classic (exists u, (exists i, (i < nr A)%nat /\ u i <> 0) /\ qsum (nr A) A u = 0)) as [(u & Hu & E)|N].
  - right. exists u. split; [exact Hu|]. now apply psd_kernel.
  - left. split; [exact HS|]. intros u Hu. destruct (Rle_lt_or_eq_dec _ _ (P u)) as [H|H]; [exact H|]. exfalso. apply N. exists u. now split.
Qed.
Lemma psd_det A : nc A = nr A -> symm A -> (forall w, 0 <= qsum (nr A) A w) -> mdet A <> 0 -> posdef A.
Proof.
  intros Hn HS P D. destruct (psd_cases A Hn HS P) as [H|(u & (i & Hi & Hu) & Z)]; [exact H|]. exfalso. apply Hu.
  pose proof (mvec_inv_unique (nr A) A (Mat (nr A) 1 (fun i _ => u i)) (mzeros (nr A) 1) eq_refl D) as Q. cbn [ent] in Q. rewrite <- Q; [|  |exact Hi].
  - apply rsum_zero. intros k _. unfold mzeros. cbn. ring.
  - intros k Hk. specialize (Z k Hk). unfold mvec in Z. rewrite Hn in Z. exact Z.
Qed.
Lemma psd_is_pos_def A : nc A = nr A -> symm A -> (forall w, 0 <= qsum (nr A) A w) -> is_pos_def A = true -> posdef A.
Proof.
  intros Hn HS P D. destruct (psd_cases A Hn HS P) as [H|(u & (i & Hi & Hu) & Z)]; [exact H|]. exfalso. unfold is_pos_def in D.
  destruct (ClassicalEpsilon.excluded_middle_informative _) as [H|]; [|discriminate]. destruct (H 0 0) as [C|(_ & C)]; try lra.
  exists u, (fun _ => 0). split; [exists i; auto|]. intros k Hk. rewrite (Z k Hk). split; [ring|].
  unfold mvec. rewrite rsum_zero; [ring|]. intros; ring.
Qed.
