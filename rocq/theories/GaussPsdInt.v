(** Marginals of Gaussian factors whose precision is only positive definite on the variables
    integrated out. *)
From Verif Require Export GaussPsd.
#[global] Set Bullet Behavior "Strict Subproofs".
Local Open Scope R_scope.
Local Notation pos := GaussOps.pos.

(** What _canform_marginalise computes. *)
Lemma canform_ok vars K h g xs ys : shaped (length vars) (K, h, g) -> NoDup xs -> incl xs vars -> incl ys vars ->
  let xi := map (pos vars) xs in let yi := map (pos vars) ys in
  0 < mdet (msel K yi yi) ->
  let D := minv (msel K yi yi) in
  exists S h', let g' := vadd g (Fin (1 / 2 * (qsum (length ys) D (fun i => ent (msel h yi [0%nat]) i 0) + ln ((2 * PI) ^ length ys * / mdet (msel K yi yi))))) in
    canform_marginalise vars K h g xs ys = Ok {| ga_vars := xs; ga_vac := prec_vacuous S; ga_can := Some (S, h', g'); ga_cov := None |} /\
    shaped (length xs) (S, h', g') /\
    (forall i j, (i < length xs)%nat -> (j < length xs)%nat ->
       ent S i j = ent (msel K xi xi) i j - ent (mmul0 (mmul0 (msel K xi yi) D) (mtr (msel K xi yi))) i j) /\
    (forall i, (i < length xs)%nat -> ent h' i 0 = ent (msel h xi [0%nat]) i 0 - ent (mmul0 (mmul0 (msel K xi yi) D) (msel h yi [0%nat])) i 0).
Proof.
  intros Hs Dx Ix Iy xi yi Hdy D. pose proof Hs as (H1 & H2 & H3 & H4).
  unfold canform_marginalise. rewrite (mapM_pos vars xs Ix), (mapM_pos vars ys Iy). cbn [bind]. fold xi yi.
  assert (Lx : length xi = length xs) by apply map_length. assert (Ly : length yi = length ys) by apply map_length.
  assert (Rx : inr (length vars) xi) by now apply pos_inr. assert (Ry : inr (length vars) yi) by now apply pos_inr.
  assert (R0 : inr 1 [0%nat]) by (intros i [<-|[]]; lia).
  rewrite !(mix_ok K) by (rewrite ?H1, ?H2; assumption). rewrite !(mix_ok h) by (rewrite ?H3, ?H4; assumption).
  cbn [bind].
  rewrite np_inv_ok by (try reflexivity; lra). cbn [bind]. fold D.
  rewrite (mmul_ok (msel K xi yi)) by reflexivity. cbn [bind].
  rewrite mmul_ok by reflexivity. cbn [bind].
  destruct (msub_ok (msel K xi xi) (mmul0 (mmul0 (msel K xi yi) D) (mtr (msel K xi yi))))
    as (Sc & ES & S1 & S2 & S3); [reflexivity..|]. rewrite ES. cbn [bind].
  rewrite mmul_ok by reflexivity. cbn [bind].
  destruct (msub_ok (msel h xi [0%nat]) (mmul0 (mmul0 (msel K xi yi) D) (msel h yi [0%nat])))
    as (hr & Eh & N1 & N2 & N3); [reflexivity..|]. rewrite Eh. cbn [bind].
  rewrite det_2pi_ok by reflexivity. cbn [bind].
  rewrite (quad_ok (length ys)) by (cbn; congruence). cbn [bind].
  unfold D at 3. rewrite mdet_minv by lra. change (nr D) with (length yi). rewrite Ly.
  rewrite rlog_pos by (apply Rmult_lt_0_compat; [apply pow_lt, twopi_pos|now apply Rinv_0_lt_compat]).
  cbn [vadd]. rewrite vhalf_fin.
  match goal with |- context [mk_can xs Sc hr ?g0] => set (g' := g0) end.
  cbn [msel nr nc length] in S1, S2, N1, N2.
  assert (Hs' : shaped (length xs) (Sc, hr, g')) by (cbn; repeat split; congruence).
  exists Sc, hr. cbv zeta. rewrite (mk_can_ok xs Sc hr g' Dx Hs').
  split; [reflexivity|]. split; [exact Hs'|]. split.
  - intros i j Hi Hj. apply S3; cbn; congruence.
  - intros i Hi. apply N3; cbn; [congruence|lia].
Qed.
Lemma canform_det vars K h g xs ys r : shaped (length vars) (K, h, g) -> incl xs vars -> incl ys vars ->
  canform_marginalise vars K h g xs ys = Ok r -> mdet (msel K (map (pos vars) ys) (map (pos vars) ys)) <> 0.
Proof.
  intros Hs Ix Iy. pose proof Hs as (H1 & H2 & H3 & H4).
  unfold canform_marginalise. rewrite (mapM_pos vars xs Ix), (mapM_pos vars ys Iy). cbn [bind].
  assert (Rx : inr (length vars) (map (pos vars) xs)) by now apply pos_inr. assert (Ry : inr (length vars) (map (pos vars) ys)) by now apply pos_inr.
  rewrite !(mix_ok K) by (rewrite ?H1, ?H2; assumption). cbn [bind]. intros H. apply bind_ok in H. destruct H as (D & E & _).
  unfold np_inv in E. intros C. rewrite C in E.
  destruct (Nat.eqb _ _); [|discriminate E]. unfold Req_b in E. destruct (Req_EM_T _ _) as [_|N]; [discriminate E|]. now apply N.
Qed.

Lemma msel_minv K L yi : (forall i j, In i yi -> In j yi -> ent K i j = ent L i j) ->
  minv (msel K yi yi) = minv (msel L yi yi) /\ mdet (msel K yi yi) = mdet (msel L yi yi).
Proof.
  intros H. unfold minv, mdet. cbn [msel nr].
  rewrite (mx_of_ext (length yi) (length yi) (msel K yi yi) (msel L yi yi)); [now split|].
  intros i j Hi Hj. cbn. apply H; now apply nth_In.
Qed.

Section Block.
Variables (vars xs ys : list string) (K h : mat) (g0 : R).
Hypotheses (Hd : NoDup vars) (HP : Permutation (ys ++ xs) vars) (Hs : shaped (length vars) (K, h, Fin g0)) (HK : symm K).
Hypothesis Psd : forall x, 0 <= qn vars K x.
Let xi := map (pos vars) xs.
Let yi := map (pos vars) ys.
Hypothesis Py : posdef (msel K yi yi).

Let Ix : incl xs vars. Proof. intros v Hv. apply (Permutation_in _ HP), in_or_app. now right. Qed.
Let Iy : incl ys vars. Proof. intros v Hv. apply (Permutation_in _ HP), in_or_app. now left. Qed.
Let Dxy : NoDup (ys ++ xs). Proof. exact (Permutation_NoDup (Permutation_sym HP) Hd). Qed.
Let Dx : NoDup xs. Proof. exact (proj1 (proj2 (NoDup_app_elim ys xs Dxy))). Qed.
Let Dy : NoDup ys. Proof. exact (proj1 (NoDup_app_elim ys xs Dxy)). Qed.
Let Dis v : In v ys -> In v xs -> False. Proof. exact (proj2 (proj2 (NoDup_app_elim ys xs Dxy)) v). Qed.

(** The factor times exp(-|x|^2/2) in the kept variables. *)
Definition kept (i : nat) : bool := if in_dec string_dec (nth i vars ""%string) xs then true else false.
Definition K2 : mat := Mat (length vars) (length vars) (fun i j => ent K i j + (if Nat.eqb i j && kept i then 1 else 0)).
Definition f2 : gauss := can_obj vars (K2, h, Fin g0).
Definition sq (l : list string) (x : renv) : R := Rsum (map (fun v => x v * x v) l).

Lemma K2_entry u v : In u vars -> In v vars -> named_entry K2 vars u v = named_entry K vars u v + (if string_dec u v then (if in_dec string_dec u xs then 1 else 0) else 0).
Proof.
  intros Hu Hv. rewrite !named_pos by assumption. unfold K2. cbn [ent]. f_equal. unfold kept. rewrite (proj2 (pos_nth vars u Hu)).
  destruct (string_dec u v) as [<-|N].
  - rewrite Nat.eqb_refl. cbn. now destruct (in_dec string_dec u xs).
  - destruct (Nat.eqb_spec (pos vars u) (pos vars v)) as [E|E]; [|reflexivity]. exfalso. apply N.
    rewrite <- (proj2 (pos_nth vars u Hu)), E. apply pos_nth, Hv.
Qed.
Lemma sq_nonneg l x : 0 <= sq l x.
Proof. apply Rsum_nonneg. intros v _. apply Rle_0_sqr. Qed.
Lemma pick (F : string -> R) l (u : string) : NoDup l -> In u l -> Rsum (map (fun v => if string_dec u v then F v else 0) l) = F u.
Proof.
  intros N. induction l as [|a l IH]; [intros []|]. inversion N as [|a0 l0 Hn N']; subst. cbn [map]. rewrite Rsum_cons. intros [->|Hu].
  - destruct (string_dec u u); [|congruence]. rewrite (Rsum_zero (fun v => if string_dec u v then F v else 0)); [ring|].
    intros v Hv. destruct (string_dec u v) as [->|]; [contradiction|reflexivity].
  - destruct (string_dec u a) as [->|]; [contradiction|]. rewrite IH by assumption. ring.
Qed.
Lemma sq_vars x : Rsum (map (fun u => if in_dec string_dec u xs then x u * x u else 0) vars) = sq xs x.
Proof.
  rewrite <- (Rsum_perm _ _ (Permutation_map (fun u => if in_dec string_dec u xs then x u * x u else 0) HP)), map_app, Rsum_app.
  rewrite Rsum_zero; [|intros v Hv; destruct (in_dec string_dec v xs) as [C|]; [destruct (Dis v Hv C)|reflexivity]].
  rewrite Rplus_0_l. apply Rsum_ext. intros v Hv. destruct (in_dec string_dec v xs); [reflexivity|contradiction].
Qed.
Lemma K2_qn x : qn vars K2 x = qn vars K x + sq xs x.
Proof.
  rewrite <- sq_vars. unfold qn. rewrite <- Rsum_plus. apply Rsum_ext. intros u Hu.
  assert (P : Rsum (map (fun v => if string_dec u v then (if in_dec string_dec v xs then x u * x v else 0) else 0) vars) = if in_dec string_dec u xs then x u * x u else 0).
  { apply (pick (fun v => if in_dec string_dec v xs then x u * x v else 0)); assumption. }
  rewrite <- P, <- Rsum_plus. apply Rsum_ext. intros v Hv. rewrite K2_entry by assumption.
  destruct (string_dec u v) as [<-|]; [destruct (in_dec string_dec u xs)|]; ring.
Qed.
Lemma K2_symm : symm K2.
Proof.
  intros i j Hi Hj. unfold K2 in *. cbn [nr ent] in *. destruct Hs as (H1 & _). rewrite (HK i j) by now rewrite H1. f_equal.
  rewrite Nat.eqb_sym. destruct (Nat.eqb_spec j i) as [->|]; reflexivity.
Qed.
Lemma K2_posdef : posdef K2.
Proof.
  apply (posdef_qn vars); [exact Hd|reflexivity|exact K2_symm|]. intros x (v & Hv & Hx). rewrite K2_qn. pose proof (Psd x). pose proof (sq_nonneg xs x) as Q.
  destruct (Rle_lt_or_eq_dec _ _ Q) as [|E]; [lra|].
  assert (Z : forall u, In u xs -> x u = 0).
  { intros u Hu. apply Rsqr_0_uniq. apply (Rsum_zero_all (fun v => x v * x v) xs); [intros; apply Rle_0_sqr|now symmetry|exact Hu]. }
  rewrite (qn_split vars K xs ys x HP Hd Z). fold yi.
  assert (0 < qn ys (msel K yi yi) x); [|lra]. apply (posdef_qn ys); [exact Dy|cbn; apply map_length|apply Py|exact Py|].
  exists v. split; [|exact Hx]. apply (Permutation_in _ (Permutation_sym HP)) in Hv. apply in_app_iff in Hv. destruct Hv as [|C]; [assumption|]. destruct (Hx (Z v C)).
Qed.
Lemma f2_solid : solid f2 /\ plain f2.
Proof.
  assert (W : wf_gauss f2) by (apply wf_can_obj; [exact Hd|]; destruct Hs as (_ & _ & H3 & H4); cbn; auto).
  split.
  - split; [exact W|]. split; [reflexivity|]. split; [intros p q _ C; discriminate C|]. split; [|intros C m w E; discriminate E].
    intros L k g E. injection E as <- _ _. exact K2_posdef.
  - apply (plain_g f2 f2 K2 h (Fin g0) W (get_can_some f2 K2 h (Fin g0) eq_refl)). exact I.
Qed.

Lemma K2_sel_yy : minv (msel K2 yi yi) = minv (msel K yi yi) /\ mdet (msel K2 yi yi) = mdet (msel K yi yi).
Proof.
  apply msel_minv. intros i j Hi Hj. unfold K2. cbn [ent]. apply in_map_iff in Hi. destruct Hi as (u & <- & Hu).
  unfold kept. rewrite (proj2 (pos_nth vars u (Iy u Hu))). destruct (in_dec string_dec u xs) as [C|]; [destruct (Dis u Hu C)|].
  rewrite Bool.andb_false_r. ring.
Qed.
Lemma K2_sel_xy i j : (i < length xs)%nat -> (j < length ys)%nat -> ent (msel K2 xi yi) i j = ent (msel K xi yi) i j.
Proof.
  intros Hi Hj. unfold msel. cbn [ent]. unfold xi, yi. rewrite !nth_map_pos by assumption. unfold K2. cbn [ent].
  destruct (Nat.eqb_spec (pos vars (nth i xs ""%string)) (pos vars (nth j ys ""%string))) as [E|E]; [|cbn; ring]. exfalso.
  assert (Hu : In (nth i xs ""%string) xs) by now apply nth_In. assert (Hv : In (nth j ys ""%string) ys) by now apply nth_In.
  apply (Dis (nth j ys ""%string) Hv). rewrite <- (proj2 (pos_nth vars _ (Iy _ Hv))), <- E, (proj2 (pos_nth vars _ (Ix _ Hu))). exact Hu.
Qed.
Lemma K2_sel_xx i j : (i < length xs)%nat -> (j < length xs)%nat -> ent (msel K2 xi xi) i j = ent (msel K xi xi) i j + idn i j.
Proof.
  intros Hi Hj. unfold msel. cbn [ent]. unfold xi. rewrite !nth_map_pos by assumption. unfold K2. cbn [ent]. f_equal.
  assert (Hu : In (nth i xs ""%string) xs) by now apply nth_In. assert (Hv : In (nth j xs ""%string) xs) by now apply nth_In.
  unfold kept. rewrite (proj2 (pos_nth vars _ (Ix _ Hu))). destruct (in_dec string_dec (nth i xs ""%string) xs) as [_|C]; [|contradiction].
  rewrite Bool.andb_true_r. unfold idn. destruct (Nat.eqb_spec i j) as [->|N]; [now rewrite Nat.eqb_refl|].
  destruct (Nat.eqb_spec (pos vars (nth i xs ""%string)) (pos vars (nth j xs ""%string))) as [E|E]; [|reflexivity]. exfalso. apply N.
  apply (proj1 (NoDup_nth xs ""%string) Dx i j Hi Hj). rewrite <- (proj2 (pos_nth vars _ (Ix _ Hu))), E. apply pos_nth, Ix, Hv.
Qed.
Lemma grad_split z u : In u vars -> grad vars K z u = Rsum (map (fun v => named_entry K vars u v * z v) ys) + Rsum (map (fun v => named_entry K vars u v * z v) xs).
Proof. intros _. unfold grad. rewrite <- (Rsum_perm _ _ (Permutation_map (fun v => named_entry K vars u v * z v) HP)), map_app. apply Rsum_app. Qed.
(** The minimiser of the form for given kept variables. *)
Lemma minimiser x : exists z, (forall v, In v xs -> z v = x v) /\ (forall v, In v ys -> grad vars K z v = 0).
Proof.
  set (c := fun k => Rsum (map (fun v => named_entry K vars (nth k ys ""%string) v * x v) xs)).
  set (u := fun j => - rsum (length ys) (fun k => ent (minv (msel K yi yi)) j k * c k)).
  set (z := fun v => if in_dec string_dec v xs then x v else u (pos ys v)).
  exists z. assert (Zx : forall v, In v xs -> z v = x v) by (intros v Hv; unfold z; now destruct (in_dec string_dec v xs)).
  assert (Zy : forall v, In v ys -> z v = u (pos ys v)) by (intros v Hv; unfold z; destruct (in_dec string_dec v xs) as [C|]; [destruct (Dis v Hv C)|reflexivity]).
  split; [exact Zx|]. intros v Hv. rewrite grad_split by now apply Iy.
  rewrite (Rsum_ext (fun w => named_entry K vars v w * z w) (fun w => named_entry K vars v w * x w) xs) by (intros w Hw; now rewrite Zx).
  rewrite (Rsum_ext (fun w => named_entry K vars v w * z w) (fun w => ent (msel K yi yi) (pos ys v) (pos ys w) * u (pos ys w)) ys).
  2: { intros w Hw. rewrite (Zy w Hw). f_equal. symmetry. now apply named_sel. }
  rewrite <- (rsum_pos ys (fun j => ent (msel K yi yi) (pos ys v) j * u j)) by exact Dy.
  destruct (pos_nth ys v Hv) as (Hp & Ep).
  assert (Dn : mdet (msel K yi yi) <> 0) by now apply posdef_det_neq.
  assert (Ln : nr (msel K yi yi) = length ys) by (cbn; apply map_length).
  assert (Q : rsum (length ys) (fun k => ent (msel K yi yi) (pos ys v) k * rsum (length ys) (fun l => ent (minv (msel K yi yi)) k l * c l)) = c (pos ys v)).
  { rewrite <- Ln. apply (mmul_inv_r (msel K yi yi) (Mat 0 1 (fun k _ => c k)) Dn). now rewrite Ln. }
  assert (Q' : rsum (length ys) (fun j => ent (msel K yi yi) (pos ys v) j * u j) = - c (pos ys v)).
  { rewrite <- Q. replace (- rsum (length ys) (fun k => ent (msel K yi yi) (pos ys v) k * rsum (length ys) (fun l => ent (minv (msel K yi yi)) k l * c l))) with
      (-1 * rsum (length ys) (fun k => ent (msel K yi yi) (pos ys v) k * rsum (length ys) (fun l => ent (minv (msel K yi yi)) k l * c l))) by ring.
    rewrite <- rsum_scal. apply rsum_ext. intros j Hj. unfold u. ring. }
  rewrite Q'. unfold c. rewrite Ep. ring.
Qed.

Lemma block_marg o : oracle_ok o -> ys = so o (set_diff vars xs) ->
  exists S h' g', canform_marginalise vars K h (Fin g0) xs ys = Ok {| ga_vars := xs; ga_vac := prec_vacuous S; ga_can := Some (S, h', Fin g'); ga_cov := None |} /\
    shaped (length xs) (S, h', Fin g') /\ symm S /\
    (forall ys' e, Permutation ys' ys -> iint ys' (gval (can_obj vars (K, h, Fin g0))) e (exp (can_form xs S h' e + g'))) /\
    (forall x, exists z, (forall v, In v xs -> z v = x v) /\ (forall v, In v ys -> grad vars K z v = 0) /\ qn xs S x = qn vars K z).
Proof.
  intros Ho Eys. pose proof Hs as (H1 & H2 & H3 & H4).
  assert (Dp : 0 < mdet (msel K yi yi)) by now apply posdef_det.
  destruct K2_sel_yy as (EI & ED).
  destruct (canform_ok vars K h (Fin g0) xs ys Hs Dx Ix Iy Dp) as (S & h' & ES & SS & S3 & N3). fold xi yi in S3, N3.
  assert (Hs2 : shaped (length vars) (K2, h, Fin g0)) by (cbn; auto).
  assert (Dp2 : 0 < mdet (msel K2 yi yi)) by now rewrite ED.
  destruct (canform_ok vars K2 h (Fin g0) xs ys Hs2 Dx Ix Iy Dp2) as (S2 & h2 & ES2 & SS2 & S32 & N32). fold xi yi in S32, N32.
  fold xi yi in ES, ES2, SS, SS2. rewrite EI, ED in ES2, SS2. rewrite EI in S32, N32. cbv zeta in *. cbn [vadd] in ES, ES2, SS, SS2.
  match type of ES with _ = Ok {| ga_vars := _; ga_vac := _; ga_can := Some (_, _, Fin ?g); ga_cov := _ |} => set (g' := g) in * end.
  (* the two results *)
  assert (Lx : length xi = length xs) by apply map_length. assert (Ly : length yi = length ys) by apply map_length.
  assert (XY : forall i j k, (i < length xs)%nat -> (forall l, (l < length ys)%nat -> ent k l j = ent k l j) ->
     ent (mmul0 (mmul0 (msel K2 xi yi) (minv (msel K yi yi))) k) i j = ent (mmul0 (mmul0 (msel K xi yi) (minv (msel K yi yi))) k) i j).
  { intros i j k Hi _. cbn [mmul0 ent nc msel]. change (nc (minv (msel K yi yi))) with (length yi). rewrite Ly. apply rsum_ext. intros l Hl. f_equal.
    apply rsum_ext. intros l2 Hl2. f_equal. now apply K2_sel_xy. }
  assert (ESS : forall i j, (i < length xs)%nat -> (j < length xs)%nat -> ent S2 i j = ent S i j + idn i j).
  { intros i j Hi Hj. rewrite S32, S3, K2_sel_xx by assumption. rewrite XY by auto.
    assert (E : ent (mmul0 (mmul0 (msel K xi yi) (minv (msel K yi yi))) (mtr (msel K2 xi yi))) i j = ent (mmul0 (mmul0 (msel K xi yi) (minv (msel K yi yi))) (mtr (msel K xi yi))) i j).
    { cbn [mmul0 ent nc]. change (nc (minv (msel K yi yi))) with (length yi). rewrite Ly. apply rsum_ext. intros l Hl. f_equal. cbn [mtr ent]. now apply K2_sel_xy. }
    rewrite E. ring. }
  assert (EHH : forall i, (i < length xs)%nat -> ent h2 i 0 = ent h' i 0) by (intros i Hi; rewrite N32, N3, XY by auto; reflexivity).
  (* the solid factor *)
  destruct f2_solid as (So & Pl).
  assert (MI : forall ys', Permutation ys' ys -> solid {| ga_vars := xs; ga_vac := prec_vacuous S2; ga_can := Some (S2, h2, Fin g'); ga_cov := None |} /\
     forall e, iint ys' (gval f2) e (gval {| ga_vars := xs; ga_vac := prec_vacuous S2; ga_can := Some (S2, h2, Fin g'); ga_cov := None |} e)).
  { intros ys' Hp'. destruct (marg_integral o ys' f2 xs Ho So Pl) as (r & Er & _ & Sr & _ & Ir).
    { cbn [f2 can_obj ga_vars]. rewrite Hp'. exact HP. }
    unfold g_marginalize, GaussModel.marginal_vars, f2, can_obj in Er. cbn [ga_vars ga_vac ga_can] in Er. rewrite <- Eys in Er. rewrite ES2 in Er. injection Er as <-. now split. }
  pose proof (proj1 (MI ys (Permutation_refl ys))) as Sr. assert (PS2 : posdef S2) by (apply (proj1 (proj2 (proj2 (proj2 Sr))) S2 h2 (Fin g') eq_refl)).
  pose proof SS as (A1 & A2 & A3 & A4). pose proof SS2 as (B1 & B2 & B3 & B4).
  exists S, h', g'. split; [exact ES|]. split; [exact SS|]. split.
  { intros i j Hi Hj. rewrite A1 in *. destruct PS2 as (Y & _). specialize (Y i j). rewrite B1 in Y. specialize (Y Hi Hj).
    rewrite !ESS in Y by assumption. rewrite (idn_sym i j) in Y. lra. }
  assert (QS : forall x, qn xs S2 x = qn xs S x + sq xs x).
  { intros x. unfold qn, sq. rewrite <- Rsum_plus. apply Rsum_ext. intros u Hu. rewrite <- (pick (fun v => x u * x v) xs u Dx Hu).
    rewrite <- Rsum_plus. apply Rsum_ext. intros v Hv. rewrite !named_pos by assumption. destruct (pos_nth xs u Hu) as (Pu & Eu). destruct (pos_nth xs v Hv) as (Pv & Ev).
    rewrite ESS by assumption. unfold idn. destruct (string_dec u v) as [<-|N]; [rewrite Nat.eqb_refl; ring|].
    destruct (Nat.eqb_spec (pos xs u) (pos xs v)) as [C|_]; [|ring]. exfalso. apply N. now rewrite <- Eu, C. }
  split.
  - intros ys' e Hp'. pose proof (proj2 (MI ys' Hp') e) as Ie.
    set (c := fun e : renv => exp (1 / 2 * sq xs e)).
    assert (Hc : indep ys' c).
    { intros y Hy e0 t. unfold c. f_equal. f_equal. unfold sq. apply Rsum_ext. intros v Hv. rewrite setv_other; [reflexivity|]. intros E; subst y.
      apply (Dis v); [exact (Permutation_in _ Hp' Hy)|exact Hv]. }
    pose proof (iint_scal ys' c _ e _ Hc Ie) as Ic. revert Ic.
    assert (G2 : forall e, gval f2 e = exp (can_form vars K2 h e + g0)).
    { intros e0. unfold gval, lp, f2. rewrite (lp_canon _ _ K2 h (Fin g0) e0 (wf_can_obj _ _ Hd Hs2) (get_can_some (can_obj vars (K2, h, Fin g0)) K2 h (Fin g0) eq_refl)). reflexivity. }
    assert (G1 : forall e, gval (can_obj vars (K, h, Fin g0)) e = exp (can_form vars K h e + g0)).
    { intros e0. unfold gval, lp. rewrite (lp_canon _ _ K h (Fin g0) e0 (wf_can_obj _ _ Hd Hs) (get_can_some (can_obj vars (K, h, Fin g0)) K h (Fin g0) eq_refl)). reflexivity. }
    assert (GR : forall e, gval {| ga_vars := xs; ga_vac := prec_vacuous S2; ga_can := Some (S2, h2, Fin g'); ga_cov := None |} e = exp (can_form xs S2 h2 e + g')).
    { intros e0. unfold gval, lp. rewrite (lp_canon _ _ S2 h2 (Fin g') e0 (proj1 Sr) (get_can_some {| ga_vars := xs; ga_vac := prec_vacuous S2; ga_can := Some (S2, h2, Fin g'); ga_cov := None |} S2 h2 (Fin g') eq_refl)). reflexivity. }
    rewrite GR. replace (c e * exp (can_form xs S2 h2 e + g')) with (exp (can_form xs S h' e + g')).
    2: { unfold c. rewrite <- exp_plus. f_equal. rewrite !can_form_qn, QS.
         replace (lnn xs h2 e) with (lnn xs h' e); [lra|]. apply Rsum_ext. intros u Hu. rewrite !named_pos1 by assumption. rewrite EHH; [reflexivity|]. now apply pos_nth. }
    apply iint_ext. intros e0. rewrite G2, G1. unfold c. rewrite <- exp_plus. f_equal. rewrite !can_form_qn, K2_qn. lra.
  - intros x. destruct (minimiser x) as (z & Zx & Zg). exists z. split; [exact Zx|]. split; [exact Zg|].
    assert (HPi : Permutation (xi ++ yi) (seq 0 (length vars))).
    { unfold xi, yi. rewrite <- map_app. apply pos_perm; [exact Hd|]. rewrite Permutation_app_comm. exact HP. }
    set (m := Mat (length vars) 1 (fun i _ => z (nth i vars ""%string))).
    set (hm := Mat (length vars) 1 (fun i _ => rsum (length vars) (fun k => ent K2 i k * ent m k 0))).
    destruct (schur_mat (length vars) K2 hm m xi yi S2 eq_refl K2_posdef HPi) as (_ & _ & _ & _ & _ & SQ).
    { intros i Hi. reflexivity. }
    { congruence. }
    { intros i j Hi Hj. rewrite EI. apply S32; congruence. }
    rewrite EI, Lx, Ly in SQ.
    assert (Zh : qsum (length ys) (minv (msel K yi yi)) (fun i => ent (msel hm yi [0%nat]) i 0) = 0).
    { apply qsum_zero. intros i Hi. cbn [msel ent hm nth]. unfold yi. rewrite nth_map_pos by exact Hi.
      assert (Hy : In (nth i ys ""%string) ys) by now apply nth_In. rewrite (rsum_pos vars) by exact Hd.
      rewrite <- (Zg _ Hy). unfold grad. apply Rsum_ext. intros v Hv. rewrite named_pos by auto. cbn [m ent]. rewrite (proj2 (pos_nth vars v Hv)). f_equal.
      rewrite <- !named_pos by auto. rewrite K2_entry by auto. destruct (string_dec (nth i ys ""%string) v); [|ring].
      destruct (in_dec string_dec (nth i ys ""%string) xs) as [C|]; [destruct (Dis _ Hy C)|ring]. }
    rewrite Zh in SQ.
    assert (L1 : qsum (length xs) S2 (fun i => ent (msel m xi [0%nat]) i 0) = qn xs S2 x).
    { rewrite qn_qsum by exact Dx. apply rsum_ext. intros i Hi. apply rsum_ext. intros j Hj. cbn [msel ent m nth]. unfold xi. rewrite !nth_map_pos by assumption.
      assert (Iu : In (nth i xs ""%string) xs) by now apply nth_In. assert (Iv : In (nth j xs ""%string) xs) by now apply nth_In.
      rewrite !(proj2 (pos_nth vars _ (Ix _ Iu))), !(proj2 (pos_nth vars _ (Ix _ Iv))), !Zx by assumption. reflexivity. }
    assert (L2 : qsum (length vars) K2 (fun i => ent m i 0) = qn vars K2 z) by (symmetry; now apply qn_qsum).
    rewrite L1, L2, QS, K2_qn in SQ. assert (sq xs z = sq xs x) by (apply Rsum_ext; intros v Hv; now rewrite Zx). lra.
Qed.
End Block.
