(** The mean and the covariance of a Gaussian are its first and second moments. *)
From Verif Require Export FactMarg IntMoment1.
#[global] Set Bullet Behavior "Strict Subproofs".
Local Open Scope R_scope.

(** * The inverse, by names *)
Lemma named_inverse C vars u v : NoDup vars -> nr C = length vars -> mdet C <> 0 -> In u vars -> In v vars ->
  Rsum (map (fun z => named_entry (minv C) vars u z * named_entry C vars z v) vars) = if string_dec u v then 1 else 0.
Proof.
  intros Hd HC HD Hu Hv. destruct (pos_nth vars u Hu) as (Pu & Nu). destruct (pos_nth vars v Hv) as (Pv & Nv).
  rewrite (Rsum_ext _ (fun z => ent (minv C) (pos vars u) (pos vars z) * ent C (pos vars z) (pos vars v))) by (intros z Hz; now rewrite !named_pos).
  rewrite <- (rsum_pos vars (fun k => ent (minv C) (pos vars u) k * ent C k (pos vars v)) Hd). rewrite <- HC. rewrite minv_l by (try rewrite HC; assumption).
  unfold idn. destruct (Nat.eqb_spec (pos vars u) (pos vars v)) as [E|E]; destruct (string_dec u v) as [E'|E']; try reflexivity; exfalso; congruence.
Qed.
(** * The potential around the mean, with one variable taken out *)
Definition cdev (m : mat) (vars : list string) (e : string -> R) (v : string) : R := e v - named_coord m vars v.
Lemma cdev_set m vars e y t v : cdev m vars (setv e y t) v = setv (cdev m vars e) y (t - named_coord m vars y) v.
Proof. unfold cdev, setv. destruct (string_dec v y) as [->|]; reflexivity. Qed.
Lemma form_ext vars (Kn : string -> string -> R) d d' : (forall v, In v vars -> d v = d' v) ->
  Rsum (map (fun u => Rsum (map (fun v => d u * Kn u v * d v) vars)) vars) = Rsum (map (fun u => Rsum (map (fun v => d' u * Kn u v * d' v) vars)) vars).
Proof. intros H. apply Rsum_ext. intros u Hu. apply Rsum_ext. intros v Hv. now rewrite !H. Qed.
Lemma gval_form f f' C m w : solid f -> get_cov f = Ok (f', (C, m, Fin w)) -> exists c, forall e,
  lp f e = Ok (Fin (c - / 2 * Rsum (map (fun u => Rsum (map (fun v => cdev m (ga_vars f) e u * named_entry (minv C) (ga_vars f) u v * cdev m (ga_vars f) e v) (ga_vars f))) (ga_vars f)))).
Proof.
  intros S G. destruct (solid_lp_cov f f' C m (Fin w) S G) as (Sh & P & L). pose proof S as ((Hd & _) & _). set (vars := ga_vars f) in *.
  exists (w - 1 / 2 * ln ((2 * PI) ^ length vars * mdet C)). intros e. rewrite L.
  rewrite (cov_log_potential_ok (length vars)) by (exact Sh || apply map_length || (split; [apply P|now apply posdef_det])). cbn [vsub vopp vadd]. do 2 f_equal.
  pose proof (can_form_zero vars (minv C) 0 (cdev m vars e) Hd) as Z. unfold can_form in Z.
  rewrite (Rsum_zero (fun u => cdev m vars e u * named_coord (mzeros 0 1) vars u)) in Z by (intros u _; rewrite named_zero; ring). rewrite Rplus_0_r in Z.
  replace (qsum (length vars) (minv C) (fun i => ent m i 0 - nth i (map e vars) 0)) with (qsum (length vars) (minv C) (fun i => cdev m vars e (nth i vars ""%string))).
  - lra.
  - unfold qsum. apply rsum_ext. intros i Hi. apply rsum_ext. intros j Hj. rewrite !nth_map_e by assumption. unfold cdev. rewrite !nth_name_coord by assumption. ring.
Qed.
Lemma gval_split f f' C m w y xs e : solid f -> get_cov f = Ok (f', (C, m, Fin w)) -> Permutation (y :: xs) (ga_vars f) ->
  let k := named_entry (minv C) (ga_vars f) y y in let my := named_coord m (ga_vars f) y in
  let b := Rsum (map (fun u => cdev m (ga_vars f) e u * named_entry (minv C) (ga_vars f) u y) xs) in
  exists c, forall t, gval f (setv e y t) = exp (c - / 2 * (k * ((t - my) * (t - my)) + 2 * b * (t - my))).
Proof.
  intros S G HP. destruct (gval_form f f' C m w S G) as (c & L). destruct (solid_lp_cov f f' C m (Fin w) S G) as (Sh & P & _). pose proof S as ((Hd & _) & _).
  set (vars := ga_vars f) in *. cbv zeta. set (k := named_entry (minv C) vars y y). set (my := named_coord m vars y). set (d := cdev m vars e).
  set (b := Rsum _). exists (c - / 2 * Rsum (map (fun u => Rsum (map (fun v => d u * named_entry (minv C) vars u v * d v) xs)) xs)). intros s.
  unfold gval. rewrite L. cbn [pot]. f_equal.
  rewrite (form_ext vars _ _ (setv d y (s - my)) (fun v _ => cdev_set m vars e y s v)).
  pose proof (form_split (named_entry (minv C) vars) (fun _ => 0) y xs vars d (s - my) Hd HP) as F. cbv zeta in F.
  rewrite (Rsum_zero (fun u => setv d y (s - my) u * 0)) in F by (intros; ring). rewrite (Rsum_zero (fun u => d u * 0)) in F by (intros; ring).
  fold k b in F. assert (H : forall u v, In u vars -> In v vars -> named_entry (minv C) vars u v = named_entry (minv C) vars v u).
  { intros u v Hu Hv. apply named_symm; auto; [apply (posdef_minv C P)|]. cbn. apply Sh. }
  specialize (F H). lra.
Qed.
(** * One variable integrated out *)
Lemma prec_pos C vars y : posdef C -> nr C = length vars -> In y vars -> 0 < named_entry (minv C) vars y y.
Proof. intros P H Hy. rewrite named_pos by assumption. apply posdef_ent; [now apply posdef_minv|]. cbn. rewrite H. now apply pos_nth. Qed.
Lemma is_int_null (F : R -> R) : (forall t, F t = 0) -> is_int F 0.
Proof. intros H. apply (is_int_ext (fun _ => 0)); [intros t; now rewrite H|apply is_int_zero]. Qed.
Lemma weight_null f f' C m e : solid f -> get_cov f = Ok (f', (C, m, NInf)) -> gval f e = 0.
Proof.
  intros S G. destruct (solid_lp_cov f f' C m NInf S G) as (Sh & P & L). unfold gval. rewrite L.
  rewrite (cov_log_potential_ok (length (ga_vars f))) by (exact Sh || apply map_length || (split; [apply P|now apply posdef_det])). reflexivity.
Qed.
Lemma step_moments f f' C m w y xs e I : solid f -> plain f -> get_cov f = Ok (f', (C, m, w)) -> Permutation (y :: xs) (ga_vars f) ->
  is_int (fun t => gval f (setv e y t)) I ->
  let k := named_entry (minv C) (ga_vars f) y y in let my := named_coord m (ga_vars f) y in
  let b := Rsum (map (fun u => cdev m (ga_vars f) e u * named_entry (minv C) (ga_vars f) u y) xs) in
  is_int (fun t => (t - my) * gval f (setv e y t)) (- (b / k) * I) /\ is_int (fun t => (t - my) * (t - my) * gval f (setv e y t)) ((b / k * (b / k) + / k) * I).
Proof.
  intros S Pl G HP HI. cbv zeta. destruct (weight_integral f f' C m w (ga_vars f) (fun _ => 0) S Pl G (Permutation_refl _)) as (Hw & _).
  destruct (solid_lp_cov f f' C m w S G) as (Sh & P & _). destruct w as [|w| |]; try contradiction.
  - assert (Z : forall e, gval f e = 0) by (intros e'; now apply (weight_null f f' C m)).
    assert (I = 0) as -> by (apply (is_int_unique _ _ _ HI), is_int_null; intros t; apply Z). rewrite !Rmult_0_r. split; apply is_int_null; intros t; rewrite Z; ring.
  - destruct (gval_split f f' C m w y xs e S G HP) as (c & E). cbv zeta in E. set (k := named_entry (minv C) (ga_vars f) y y) in *. set (my := named_coord m (ga_vars f) y) in *.
    set (b := Rsum _) in *. assert (Hk : 0 < k). { apply prec_pos; [exact P|apply Sh|]. apply (Permutation_in _ HP). now left. }
    apply (is_int_ext _ _ _ E) in HI. split.
    + generalize (quad_mom1 k b c my Hk I HI). apply is_int_ext. intros t. now rewrite E.
    + generalize (quad_mom2 k b c my Hk I HI). apply is_int_ext. intros t. now rewrite E.
Qed.
Lemma iint_one y F e I : iint [y] F e I <-> is_int (fun t => F (setv e y t)) I.
Proof.
  cbn [iint]. split; [|intros H; exists (fun t => F (setv e y t)); now split].
  intros (G & HG & HI). revert HI. apply is_int_ext. exact HG.
Qed.
Lemma iint_const ys c F e I : iint ys F e I -> iint ys (fun e => c * F e) e (c * I).
Proof. intros H. exact (iint_scal ys (fun _ => c) F e I (fun _ _ _ _ => eq_refl) H). Qed.
(** What one step of marginalizing gives. *)
Lemma moment_step f f' C m w y xs : solid f -> plain f -> get_cov f = Ok (f', (C, m, w)) -> Permutation (xs ++ [y]) (ga_vars f) ->
  let k := named_entry (minv C) (ga_vars f) y y in let my := named_coord m (ga_vars f) y in
  let b := fun e => Rsum (map (fun u => cdev m (ga_vars f) e u * named_entry (minv C) (ga_vars f) u y) xs) in
  exists r r' C1 m1, solid r /\ plain r /\ ga_vars r = xs /\ get_cov r = Ok (r', (C1, m1, w)) /\ ~ In y xs /\ k <> 0 /\
    (forall u v, In u xs -> In v xs -> named_entry C1 xs u v = named_entry C (ga_vars f) u v) /\
    (forall u, In u xs -> named_coord m1 xs u = named_coord m (ga_vars f) u) /\
    (forall e, is_int (fun t => gval f (setv e y t)) (gval r e)) /\
    (forall e, is_int (fun t => (t - my) * gval f (setv e y t)) (- (b e / k) * gval r e)) /\
    (forall e, is_int (fun t => (t - my) * (t - my) * gval f (setv e y t)) ((b e / k * (b e / k) + / k) * gval r e)).
Proof.
  intros S Pl G HP0. assert (HP : Permutation (y :: xs) (ga_vars f)) by (rewrite <- HP0; apply Permutation_cons_append). cbv zeta.
  destruct id_oracle_ok as (o & Ho). destruct (marg_integral o [y] f xs Ho S Pl HP) as (r & E & V & Sr & Plr & I).
  pose proof S as ((Hd & _) & _). pose proof (Permutation_NoDup (Permutation_sym HP) Hd) as Hd'. inversion Hd' as [|y0 xs0 Hn Dx]; subst y0 xs0.
  destruct (marg_solid o f xs Ho S Dx) as (f1 & C' & m' & w' & r1 & r1' & C1 & m1 & G' & E' & _ & _ & _ & G1 & (_ & _ & R1) & (_ & _ & R2)). { intros v Hv. apply (Permutation_in _ HP). now right. }
  rewrite G in G'. injection G' as _ <- <- <-. rewrite E in E'. injection E' as <-.
  assert (I' : forall e, is_int (fun t => gval f (setv e y t)) (gval r e)) by (intros e; apply iint_one, I).
  exists r, r1', C1, m1. split; [exact Sr|]. split; [exact Plr|]. split; [exact V|]. split; [exact G1|]. split; [exact Hn|]. split.
  { destruct (solid_lp_cov f f' C m w S G) as (Sh & P & _). apply Rgt_not_eq, prec_pos; [exact P|apply Sh|apply (Permutation_in _ HP); now left]. }
  split; [exact R1|]. split; [exact R2|]. split; [exact I'|].
  split; intros e; apply (step_moments f f' C m w y xs e (gval r e) S Pl G HP (I' e)).
Qed.
(** * Moments *)
Theorem mean_moment ys : forall f f' C m w e u, solid f -> plain f -> get_cov f = Ok (f', (C, m, w)) -> Permutation ys (ga_vars f) -> In u (ga_vars f) ->
  iint ys (fun e => (e u - named_coord m (ga_vars f) u) * gval f e) e 0.
Proof.
  induction ys as [|y xs IH] using rev_ind; intros f f' C m w e u S Pl G HP Hu.
  - apply Permutation_nil in HP. rewrite HP in Hu. destruct Hu.
  - destruct (moment_step f f' C m w y xs S Pl G HP) as (r & r' & C1 & m1 & Sr & Plr & V & Gr & Hn & Hk & RC & Rm & I0 & I1 & I2). cbv zeta in *.
    set (vars := ga_vars f) in *. set (k := named_entry (minv C) vars y y) in *.
    assert (IHr : forall e u, In u xs -> iint xs (fun e => cdev m vars e u * gval r e) e 0).
    { intros e' v Hv. specialize (IH r r' C1 m1 w e' v Sr Plr Gr). rewrite V in IH. specialize (IH (Permutation_refl _) Hv). rewrite (Rm v Hv) in IH. exact IH. }
    destruct (string_dec u y) as [->|Ne].
    + apply (iint_app xs [y] _ (fun e => Rsum (map (fun u => (- / k * named_entry (minv C) vars u y) * (cdev m vars e u * gval r e)) xs))).
      * intros e'. apply iint_one. match goal with |- is_int _ ?J => replace J with (- (Rsum (map (fun u => cdev m vars e' u * named_entry (minv C) vars u y) xs) / k) * gval r e') end.
        -- generalize (I1 e'). apply is_int_ext. intros t. now rewrite setv_same.
        -- replace (- (Rsum (map (fun u => cdev m vars e' u * named_entry (minv C) vars u y) xs) / k) * gval r e') with ((- / k * gval r e') * Rsum (map (fun u => cdev m vars e' u * named_entry (minv C) vars u y) xs)) by (field; exact Hk).
           rewrite <- Rsum_scal. apply Rsum_ext. intros v _. ring.
      * replace 0 with (Rsum (map (fun v : string => (- / k * named_entry (minv C) vars v y) * 0) xs)) by (apply Rsum_zero; intros; ring).
        apply (iint_sum xs (fun v e => (- / k * named_entry (minv C) vars v y) * (cdev m vars e v * gval r e))). intros v Hv. apply iint_const. now apply IHr.
    + assert (Hux : In u xs).
      { apply (Permutation_in _ (Permutation_sym HP)) in Hu. apply in_app_iff in Hu. destruct Hu as [Hu|[Hu|[]]]; [exact Hu|congruence]. }
      apply (iint_app xs [y] _ (fun e => cdev m vars e u * gval r e)); [|now apply IHr].
      intros e'. apply iint_one. generalize (is_int_scal (cdev m vars e' u) _ _ (I0 e')). apply is_int_ext. intros t. now rewrite setv_other.
Qed.
Theorem cov_moment ys : forall f f' C m w e u v, solid f -> plain f -> get_cov f = Ok (f', (C, m, w)) -> Permutation ys (ga_vars f) -> In u (ga_vars f) -> In v (ga_vars f) ->
  iint ys (fun e => (e u - named_coord m (ga_vars f) u) * (e v - named_coord m (ga_vars f) v) * gval f e) e (named_entry C (ga_vars f) u v * pot w).
Proof.
  induction ys as [|y xs IH] using rev_ind; intros f f' C m w e u v S Pl G HP Hu Hv.
  - apply Permutation_nil in HP. rewrite HP in Hu. destruct Hu.
  - destruct (moment_step f f' C m w y xs S Pl G HP) as (r & r' & C1 & m1 & Sr & Plr & V & Gr & Hn & Hk & RC & Rm & I0 & I1 & I2). cbv zeta in *.
    destruct (solid_lp_cov f f' C m w S G) as (Sh & P & _). pose proof S as ((Hd & _) & _).
    set (vars := ga_vars f) in *. set (k := named_entry (minv C) vars y y) in *. set (Kn := named_entry (minv C) vars) in *. set (Cn := named_entry C vars) in *.
    assert (IHr : forall e u v, In u xs -> In v xs -> iint xs (fun e => cdev m vars e u * cdev m vars e v * gval r e) e (Cn u v * pot w)).
    { intros e' z1 z2 H1 H2. specialize (IH r r' C1 m1 w e' z1 z2 Sr Plr Gr). rewrite V in IH. specialize (IH (Permutation_refl _) H1 H2). rewrite (Rm z1 H1), (Rm z2 H2), (RC z1 z2 H1 H2) in IH. exact IH. }
    assert (Hx : forall z, In z vars -> z <> y -> In z xs).
    { intros z Hz Nz. apply (Permutation_in _ (Permutation_sym HP)) in Hz. apply in_app_iff in Hz. destruct Hz as [Hz|[Hz|[]]]; [exact Hz|congruence]. }
    assert (Hxv : forall z, In z xs -> In z vars) by (intros z Hz; apply (Permutation_in _ HP), in_app_iff; now left).
    assert (Hy : In y vars) by (apply (Permutation_in _ HP), in_app_iff; right; now left).
    assert (Sc : forall z1 z2, In z1 vars -> In z2 vars -> Cn z1 z2 = Cn z2 z1) by (intros z1 z2 H1 H2; apply named_symm; auto; [apply P|apply Sh]).
    assert (Sk : forall z1 z2, In z1 vars -> In z2 vars -> Kn z1 z2 = Kn z2 z1) by (intros z1 z2 H1 H2; apply named_symm; auto; [apply (posdef_minv C P)|cbn; apply Sh]).
    (* the rows of the covariance *)
    assert (Row : forall z, In z vars -> Rsum (map (fun a => Kn a y * Cn a z) xs) + k * Cn y z = if string_dec y z then 1 else 0).
    { intros z Hz. rewrite <- (named_inverse C vars y z Hd ltac:(apply Sh) ltac:(apply Rgt_not_eq, posdef_det, P) Hy Hz).
      rewrite <- (Rsum_perm _ _ (Permutation_map _ HP)), map_app, Rsum_app. cbn [map]. rewrite Rsum_cons. cbn [Rsum fold_right]. rewrite Rplus_0_r. f_equal.
      apply Rsum_ext. intros a Ha. now rewrite (Sk a y) by auto. }
    set (b := fun e => Rsum (map (fun u => cdev m vars e u * Kn u y) xs)) in *.
    (* one of the two is the variable integrated first *)
    assert (Mixed : forall z e, In z xs -> iint (xs ++ [y]) (fun e => cdev m vars e y * cdev m vars e z * gval f e) e (Cn y z * pot w)).
    { intros z e0 Hz. apply (iint_app xs [y] _ (fun e => Rsum (map (fun a => (- / k * Kn a y) * (cdev m vars e a * cdev m vars e z * gval r e)) xs))).
      - intros e'. apply iint_one. match goal with |- is_int _ ?J => replace J with (cdev m vars e' z * (- (b e' / k) * gval r e')) end.
        + generalize (is_int_scal (cdev m vars e' z) _ _ (I1 e')). apply is_int_ext. intros t. unfold cdev. rewrite setv_same, setv_other by congruence. ring.
        + replace (cdev m vars e' z * (- (b e' / k) * gval r e')) with ((- / k * cdev m vars e' z * gval r e') * b e') by (field; exact Hk).
          unfold b. rewrite <- Rsum_scal. apply Rsum_ext. intros a _. ring.
      - replace (Cn y z * pot w) with (Rsum (map (fun a => (- / k * Kn a y) * (Cn a z * pot w)) xs)).
        + apply (iint_sum xs (fun a e => (- / k * Kn a y) * (cdev m vars e a * cdev m vars e z * gval r e))). intros a Ha. apply iint_const. now apply IHr.
        + rewrite (Rsum_ext _ (fun a => (- / k * pot w) * (Kn a y * Cn a z))) by (intros; ring). rewrite Rsum_scal.
          pose proof (Row z (Hxv z Hz)) as Rz. destruct (string_dec y z) as [Eyz|_]; [congruence|].
          replace (Rsum (map (fun a => Kn a y * Cn a z) xs)) with (- (k * Cn y z)) by lra. field. exact Hk. }
    destruct (string_dec u y) as [->|Nu]; destruct (string_dec v y) as [->|Nv].
    + apply (iint_app xs [y] _ (fun e => Rsum (map (fun a => Rsum (map (fun a' => (/ k * / k * (Kn a y * Kn a' y)) * (cdev m vars e a * cdev m vars e a' * gval r e)) xs)) xs) + / k * gval r e)).
      * intros e'. apply iint_one. match goal with |- is_int _ ?J => replace J with ((b e' / k * (b e' / k) + / k) * gval r e') end.
        -- generalize (I2 e'). apply is_int_ext. intros t. now rewrite setv_same.
        -- rewrite (Rsum_ext _ (fun a => (/ k * / k * gval r e' * b e') * (cdev m vars e' a * Kn a y))).
           ++ rewrite Rsum_scal. fold (b e'). field. exact Hk.
           ++ intros a _. rewrite (Rsum_ext _ (fun a' => (/ k * / k * Kn a y * cdev m vars e' a * gval r e') * (cdev m vars e' a' * Kn a' y))) by (intros; ring).
              rewrite Rsum_scal. fold (b e'). ring.
      * replace (Cn y y * pot w) with (Rsum (map (fun a => Rsum (map (fun a' => (/ k * / k * (Kn a y * Kn a' y)) * (Cn a a' * pot w)) xs)) xs) + / k * pot w).
        -- apply iint_plus; [|apply iint_const; apply (weight_integral r r' C1 m1 w xs e Sr Plr Gr); now rewrite V].
           apply (iint_sum xs (fun a e => Rsum (map (fun a' => (/ k * / k * (Kn a y * Kn a' y)) * (cdev m vars e a * cdev m vars e a' * gval r e)) xs))). intros a Ha.
           apply (iint_sum xs (fun a' e => (/ k * / k * (Kn a y * Kn a' y)) * (cdev m vars e a * cdev m vars e a' * gval r e))). intros a' Ha'. apply iint_const. now apply IHr.
        -- rewrite (Rsum_ext _ (fun a => (- / k * pot w) * (Kn a y * Cn a y))).
           ++ rewrite Rsum_scal. pose proof (Row y Hy) as Rz. destruct (string_dec y y) as [_|Nyy]; [|congruence].
              replace (Rsum (map (fun a => Kn a y * Cn a y) xs)) with (1 - k * Cn y y) by lra. field. exact Hk.
           ++ intros a Ha. rewrite (Rsum_ext _ (fun a' => (/ k * / k * Kn a y * pot w) * (Kn a' y * Cn a' a))) by (intros a' Ha'; rewrite (Sc a a') by auto; ring).
              rewrite Rsum_scal. pose proof (Row a (Hxv a Ha)) as Rz. destruct (string_dec y a) as [Eya|_]; [congruence|].
              replace (Rsum (map (fun a' => Kn a' y * Cn a' a) xs)) with (- (k * Cn y a)) by lra. rewrite (Sc y a) by auto. field. exact Hk.
    + apply Mixed. now apply Hx.
    + rewrite Sc by auto. apply (iint_ext _ (fun e => cdev m vars e y * cdev m vars e u * gval f e)); [intros e'; unfold cdev; ring|]. apply Mixed. now apply Hx.
    + apply (iint_app xs [y] _ (fun e => cdev m vars e u * cdev m vars e v * gval r e)); [|apply IHr; now apply Hx].
      intros e'. apply iint_one. generalize (is_int_scal (cdev m vars e' u * cdev m vars e' v) _ _ (I0 e')). apply is_int_ext. intros t. now rewrite !setv_other.
Qed.
