(** The divisions with cancel_method 1 and 2 for components of equal shape over one variable. *)
From Verif Require Export MixOptDiv.
#[global] Set Bullet Behavior "Strict Subproofs".
Local Open Scope R_scope.

Lemma one_dim_same v c d p : same_obj c d -> one_dim v c p -> ga_can c <> None -> one_dim v d p.
Proof.
  intros (Wd & Vd & Cd & _) (Wc & Vc & c' & K & H & E & EK & EH) Hn. split; [exact Wd|]. split; [congruence|].
  destruct (ga_can c) as [[[K0 h0] g0]|] eqn:Ec; [|congruence]. rewrite (get_can_some c K0 h0 g0 Ec) in E. injection E as <- -> -> ->.
  exists d, K, H. split; [now apply get_can_some|]. now split.
Qed.
(** The logarithm of the sum of the quotients' constants. *)
Definition gap (gs : list R) (p : cpar) : R := ln (Rsum (map (fun g => exp (g - snd p)) gs)).
Lemma equal_sum k h gs x : Rsum (map (fun p => exp (line p x)) (map (fun g => (k, h, g)) gs)) = exp (line (k, h, 0) x) * Rsum (map exp gs).
Proof. rewrite map_map, <- Rsum_scal. f_equal. apply map_ext. intros g. rewrite <- exp_plus. f_equal. unfold line. ring. Qed.
Lemma gap_exp gs p : gs <> [] -> exp (gap gs p) = exp (- snd p) * Rsum (map exp gs).
Proof.
  intros Hn. unfold gap. rewrite exp_ln by (apply (Rsum_pos_list _ gs Hn); intros; apply exp_pos). rewrite <- Rsum_scal. f_equal. apply map_ext. intros g. rewrite <- exp_plus. f_equal. ring.
Qed.

(** * Method 2 *)
Definition m2_value (gs : list R) (b : gmix) (v : string) (e : string -> R) (p : cpar) : R :=
  exp (gap gs p - Rabs (gap gs p)) * (exp (line p (e v)) / mval b e).
Lemma m2_spec v a b pa k h gs : wf_mix a -> wf_mix b -> Forall2 (one_dim v) (gm_comps a) pa -> Forall2 (one_dim v) (gm_comps b) (map (fun g => (k, h, g)) gs) ->
  (forall p, In p pa -> fst (fst p) <> k) ->
  exists r, mix_division_m2 a b = Ok r /\ wf_mix r /\ gm_vars r = [v] /\
    forall e, mixpot r e = Ok (Fin (Rsum (map (m2_value gs b v e) pa))) /\ mixpot a e = Ok (Fin (Rsum (map (fun p => exp (line p (e v))) pa))).
Proof.
  intros Wa Wb Fa Fb Hk.
  assert (Hn : gs <> []). { intros ->. destruct Wb as (Nb & _). cbn in Fb. inversion Fb; congruence. }
  assert (Ncb : gm_comps b <> []) by apply Wb.
  destruct (mapM_F2 (fun ga => let* inv := mapM (fun gb => g_divide gb ga) (gm_comps b) in let* m := mk_mix inv in let* f := moment_match_complex m in g_invert f)
    (fun c r => forall p, one_dim v c p -> fst (fst p) <> k -> ga_can r <> None /\ one_dim v r (fst (fst p) - k, snd (fst p) - h, - Rabs (gap gs p))) (gm_comps a)) as (rs & Er & Fr).
  { intros c Hc. destruct (F2_in_l _ _ _ c Fa Hc) as (p & Hp & Op). pose proof (Hk p Hp) as Np.
    assert (D : exists inv, mapM (fun gb => g_divide gb c) (gm_comps b) = Ok inv /\ Forall2 (one_can v) inv (map (fun g => (k - fst (fst p), h - snd (fst p), g)) (map (fun g => g - snd p) gs))).
    { clear Ncb Wb. revert Fb. generalize (gm_comps b) as cs. clear Hn. induction gs as [|g gs' IH]; intros cs Fb; inversion Fb as [|d q ds qs Hd Fb']; subst; [exists []; split; [reflexivity|constructor]|].
      destruct (one_divide v d c _ p Hd Op) as (r & Er & Or). destruct (IH ds Fb') as (inv & Ei & Fi). exists (r :: inv). cbn [mapM]. rewrite Er. cbn [bind]. rewrite Ei.
      split; [reflexivity|]. cbn [map]. constructor; assumption. }
    destruct D as (inv & Ei & Fi). rewrite Ei. cbn [bind].
    assert (Ni : inv <> []). { intros ->. apply Forall2_length in Fi. rewrite !map_length in Fi. destruct gs; [congruence|discriminate Fi]. }
    rewrite (one_cans_mix v inv _ Fi Ni). cbn [bind].
    destruct (match_equal_shapes v {| gm_vars := [v]; gm_comps := inv |} (k - fst (fst p)) (h - snd (fst p)) (map (fun g => g - snd p) gs)) as (f & Ef & Of).
    - reflexivity.
    - lra.
    - destruct gs; [congruence|discriminate].
    - cbn [gm_comps]. clear -Fi. induction Fi as [|d q ds qs H F IH]; constructor; [now apply one_can_dim|exact IH].
    - rewrite Ef. cbn [bind]. pose proof (one_can_copy v f _ Of) as Cf. destruct Of as (K & H & A1 & A2 & A3 & A4 & B1 & B2 & ->).
      unfold g_invert. rewrite Cf. cbn [bind ga_can ga_vars ga_vac snd]. eexists. split; [reflexivity|]. intros p' Op' _.
      assert (p' = p) as ->.
      { destruct Op as (_ & _ & c1 & K1 & H1 & E1 & X1 & Y1), Op' as (_ & _ & c2 & K2 & H2 & E2 & X2 & Y2). rewrite E1 in E2. injection E2 as _ <- <- Eg.
        destruct p as [[? ?] ?], p' as [[? ?] ?]. cbn in *. congruence. }
      split; [discriminate|]. split; [|split; [reflexivity|]].
      + split; [apply nd1'|]. split; [left; discriminate|]. split; intros q Hq; [|discriminate]. injection Hq as <-. cbn. auto.
      + eexists _, (mscal (-1) K), (mscal (-1) H). split; [cbn [vmul]; rewrite get_can_some with (K := mscal (-1) K) (h := mscal (-1) H) (g := Fin (- Rabs (gap gs p))); [reflexivity|]|].
        * cbn [ga_can]. do 3 f_equal. unfold gap. rewrite map_map. cbn [fst snd]. lra.
        * cbn [mscal ent fst snd]. rewrite B1, B2. cbn [fst snd]. split; ring. }
  assert (Nr : rs <> []). { intros ->. inversion Fr as [Hz|]. apply (proj1 Wa). now symmetry. }
  assert (F3 : Forall2 (fun r p => ga_can r <> None /\ one_dim v r (fst (fst p) - k, snd (fst p) - h, - Rabs (gap gs p))) rs pa).
  { revert Fa Hk. clear -Fr. revert pa. induction Fr as [|c r cs rs H F IH]; intros pa Fa Hk; inversion Fa as [|? p ? pa' Hp Fa']; subst; constructor; [apply H; [exact Hp|apply Hk; now left]|].
    apply IH; [exact Fa'|]. intros q Hq. apply Hk. now right. }
  destruct (mk_mix_ok rs [v] Nr) as (r & Emr & Vr & Wr & Frr).
  { intros c Hc. destruct (F2_in_l _ _ _ c F3 Hc) as (p & _ & (_ & (Wc & Vc & _))). now split. }
  unfold mix_division_m2. rewrite Er. cbn [bind]. exists r. split; [exact Emr|]. split; [exact Wr|]. split; [exact Vr|]. intros e.
  split; [|now apply (one_dims_mval v a pa e)].
  assert (F4 : Forall2 (one_dim v) (gm_comps r) (map (fun p => (fst (fst p) - k, snd (fst p) - h, - Rabs (gap gs p))) pa)).
  { clear -F3 Frr. revert F3 Frr. generalize (gm_comps r) as cs. intros cs F3. revert cs. induction F3 as [|d p ds ps (N & O) F IH]; intros cs Frr; inversion Frr as [|? c ? cs' So Fr']; subst; cbn [map]; constructor;
      [now apply (one_dim_same v d)|now apply IH]. }
  rewrite (proj1 (one_dims_mval v r _ e Wr F4)). do 2 f_equal. rewrite map_map. f_equal. apply map_ext_in. intros p Hp.
  unfold m2_value. rewrite (proj2 (one_dims_mval v b _ e Wb Fb)), equal_sum.
  pose proof (Rsum_pos_list exp gs Hn exp_pos) as PS.
  unfold Rminus at 3. rewrite exp_plus, (gap_exp gs p Hn). set (T := Rsum (map exp gs)) in *.
  replace (exp (- snd p) * T * exp (- Rabs (gap gs p)) * (exp (line p (e v)) / (exp (line (k, h, 0) (e v)) * T)))
    with (exp (- snd p) * exp (- Rabs (gap gs p)) * exp (line p (e v)) * / exp (line (k, h, 0) (e v))).
  2:{ field. split; [lra|]. pose proof (exp_pos (line (k, h, 0) (e v))). lra. }
  rewrite <- exp_Ropp, <- !exp_plus. f_equal. destruct p as [[kp hp] gp]. unfold line. cbn [fst snd]. ring.
Qed.
Lemma m2_exact v a b pa k h gs : wf_mix a -> wf_mix b -> Forall2 (one_dim v) (gm_comps a) pa -> Forall2 (one_dim v) (gm_comps b) (map (fun g => (k, h, g)) gs) ->
  (forall p, In p pa -> fst (fst p) <> k /\ 0 <= gap gs p) ->
  exists r, mix_division_m2 a b = Ok r /\ wf_mix r /\ gm_vars r = [v] /\ forall e, mixpot r e = Ok (Fin (mval a e / mval b e)).
Proof.
  intros Wa Wb Fa Fb Hk. destruct (m2_spec v a b pa k h gs Wa Wb Fa Fb (fun p Hp => proj1 (Hk p Hp))) as (r & Er & Wr & Vr & L).
  exists r. split; [exact Er|]. split; [exact Wr|]. split; [exact Vr|]. intros e. destruct (L e) as (E1 & E2). rewrite E1. do 2 f_equal.
  rewrite (proj2 (one_dims_mval v a pa e Wa Fa)). unfold Rdiv. rewrite Rmult_comm, <- Rsum_scal. f_equal. apply map_ext_in. intros p Hp. unfold m2_value.
  rewrite Rabs_right by (apply Rle_ge, Hk, Hp). unfold Rminus. rewrite Rplus_opp_r, exp_0. unfold Rdiv. ring.
Qed.
