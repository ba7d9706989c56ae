(** The marginal of a Gaussian is the integral of its potential. *)
From Verif Require Export MixMarg IntGauss.
#[global] Set Bullet Behavior "Strict Subproofs".
Local Open Scope R_scope.

Definition setv (e : string -> R) (y : string) (t : R) : string -> R := fun v => if string_dec v y then t else e v.
Lemma setv_same e y t : setv e y t y = t.
Proof. unfold setv. destruct (string_dec y y); congruence. Qed.
Lemma setv_other e y t v : v <> y -> setv e y t v = e v.
Proof. unfold setv. destruct (string_dec v y); congruence. Qed.
(** [iint ys F e I]: the iterated integral of [F] over the variables [ys] (the first one
    outermost), all over the whole real line and with the other variables as in [e], exists and is [I]. *)
Fixpoint iint (ys : list string) (F : (string -> R) -> R) (e : string -> R) (I : R) : Prop :=
  match ys with
  | [] => I = F e
  | y :: ys' => exists G, (forall t, iint ys' F (setv e y t) (G t)) /\ is_int G I
  end.
(** The potential as a number. *)
Definition gval (f : gauss) (e : string -> R) : R := match lp f e with Ok l => pot l | Err _ => 0 end.

(** * One variable, canonical form *)
Lemma can_form_perm vars vars' K h K' h' e : Permutation vars vars' ->
  (forall u v, In u vars -> In v vars -> named_entry K vars u v = named_entry K' vars' u v) ->
  (forall u, In u vars -> named_coord h vars u = named_coord h' vars' u) -> can_form vars K h e = can_form vars' K' h' e.
Proof.
  intros HP EK Eh. unfold can_form. f_equal; [f_equal|].
  - rewrite (Rsum_perm _ (map (fun u => Rsum (map (fun v => e u * named_entry K vars u v * e v) vars)) vars')) by now apply Permutation_map.
    apply Rsum_ext. intros u Hu. rewrite (Rsum_perm _ (map (fun v => e u * named_entry K vars u v * e v) vars')) by now apply Permutation_map.
    apply Rsum_ext. intros v Hv. rewrite EK; [reflexivity| |]; now apply (Permutation_in _ (Permutation_sym HP)).
  - rewrite (Rsum_perm _ (map (fun u => e u * named_coord h vars u) vars')) by now apply Permutation_map.
    apply Rsum_ext. intros u Hu. rewrite Eh; [reflexivity|]. now apply (Permutation_in _ (Permutation_sym HP)).
Qed.
(** Sums with one variable taken out. *)
Lemma form_split (Kn : string -> string -> R) (hn : string -> R) y xs vars e t : NoDup vars -> Permutation (y :: xs) vars ->
  (forall u v, In u vars -> In v vars -> Kn u v = Kn v u) ->
  let e' := setv e y t in
  - (1 / 2) * Rsum (map (fun u => Rsum (map (fun v => e' u * Kn u v * e' v) vars)) vars) + Rsum (map (fun u => e' u * hn u) vars) =
  (- (1 / 2) * Rsum (map (fun u => Rsum (map (fun v => e u * Kn u v * e v) xs)) xs) + Rsum (map (fun u => e u * hn u) xs))
  + (hn y - Rsum (map (fun u => e u * Kn u y) xs)) * t - / 2 * (Kn y y * (t * t)).
Proof.
  intros Hd HP Hs e'. pose proof (Permutation_NoDup (Permutation_sym HP) Hd) as Hd'. inversion Hd' as [|y0 xs0 Hn _]; subst.
  assert (Hx : forall u, In u xs -> e' u = e u) by (intros u Hu; apply setv_other; congruence).
  assert (Hy : e' y = t) by apply setv_same.
  assert (Sy : forall u, In u xs -> Kn y u = Kn u y).
  { intros u Hu. apply Hs; apply (Permutation_in _ HP); [now left|now right]. }
  rewrite <- (Rsum_perm _ _ (Permutation_map (fun u => e' u * hn u) HP)).
  rewrite <- (Rsum_perm _ _ (Permutation_map (fun u => Rsum (map (fun v => e' u * Kn u v * e' v) vars)) HP)).
  rewrite (Rsum_ext _ (fun u => e' u * Kn u y * e' y + Rsum (map (fun v => e' u * Kn u v * e' v) xs))).
  2: { intros u _. rewrite <- (Rsum_perm _ _ (Permutation_map (fun v => e' u * Kn u v * e' v) HP)). reflexivity. }
  cbn [map]. rewrite !Rsum_cons, Rsum_plus, Hy.
  rewrite (Rsum_ext (fun u => e' u * hn u) (fun u => e u * hn u)) by (intros u Hu; now rewrite Hx).
  rewrite (Rsum_ext (fun v => t * Kn y v * e' v) (fun v => t * (e v * Kn v y))) by (intros u Hu; rewrite Hx, Sy by exact Hu; ring).
  rewrite (Rsum_ext (fun u => e' u * Kn u y * t) (fun v => t * (e v * Kn v y))) by (intros u Hu; rewrite Hx by exact Hu; ring).
  rewrite (Rsum_ext (fun u => Rsum (map (fun v => e' u * Kn u v * e' v) xs)) (fun u => Rsum (map (fun v => e u * Kn u v * e v) xs))).
  2: { intros u Hu. apply Rsum_ext. intros v Hv. now rewrite !Hx. }
  rewrite !Rsum_scal. set (s := Rsum (map (fun u => e u * Kn u y) xs)). set (Q := Rsum _). set (H := Rsum _). lra.
Qed.
Lemma form_marg (Kn : string -> string -> R) (hn : string -> R) y xs e : Kn y y <> 0 ->
  let k := Kn y y in let s := Rsum (map (fun u => e u * Kn u y) xs) in
  - (1 / 2) * Rsum (map (fun u => Rsum (map (fun v => e u * (Kn u v - Kn u y * / k * Kn v y) * e v) xs)) xs)
    + Rsum (map (fun u => e u * (hn u - Kn u y * / k * hn y)) xs) =
  (- (1 / 2) * Rsum (map (fun u => Rsum (map (fun v => e u * Kn u v * e v) xs)) xs) + Rsum (map (fun u => e u * hn u) xs))
  + / 2 * (s * s / k) - s * hn y / k.
Proof.
  intros Hk k s.
  rewrite (Rsum_ext (fun u => e u * (hn u - Kn u y * / k * hn y)) (fun u => e u * hn u - hn y * / k * (e u * Kn u y))) by (intros; ring).
  rewrite Rsum_minus, Rsum_scal. fold s.
  rewrite (Rsum_ext (fun u => Rsum (map (fun v => e u * (Kn u v - Kn u y * / k * Kn v y) * e v) xs))
                    (fun u => Rsum (map (fun v => e u * Kn u v * e v) xs) - s * / k * (e u * Kn u y))).
  2: { intros u _. rewrite (Rsum_ext _ (fun v => e u * Kn u v * e v - (e u * Kn u y * / k) * (e v * Kn v y))) by (intros; ring).
       rewrite Rsum_minus, Rsum_scal. fold s. ring. }
  rewrite Rsum_minus, Rsum_scal. fold s. set (Q := Rsum _). set (H := Rsum _). field. exact Hk.
Qed.

Lemma minv_1 A : nr A = 1%nat -> ent A 0 0 <> 0 -> ent (minv A) 0 0 = / ent A 0 0.
Proof.
  intros H N. assert (D : mdet A <> 0) by now rewrite mdet_1. assert (L : (0 < nr A)%nat) by (rewrite H; constructor).
  pose proof (mmul_inv_r A (mcol [1]) D 0%nat L) as E. rewrite H in E. unfold rsum in E. cbn [seq map Rsum fold_right] in E.
  change (ent (mcol [1]) 0 0) with 1 in E.
  apply (Rmult_eq_reg_l (ent A 0 0)); [|exact N]. rewrite Rinv_r by exact N. lra.
Qed.
Lemma posdef_ent A i : posdef A -> (i < nr A)%nat -> 0 < ent A i i.
Proof.
  intros P Hi. assert (Q : posdef (msel A [i] [i])).
  { apply posdef_sel; [exact P|intros j [<-|[]]; exact Hi|constructor; [intros []|constructor]]. }
  pose proof (posdef_det _ Q) as D. rewrite mdet_1 in D by reflexivity. exact D.
Qed.
Lemma marg_one o vars K h g f xs y : oracle_ok o -> NoDup vars -> shaped (length vars) (K, h, g) -> posdef K ->
  Permutation (y :: xs) vars -> ga_vars f = vars -> ga_vac f = false -> ga_can f = Some (K, h, g) ->
  let k := named_entry K vars y y in let hy := named_coord h vars y in
  exists S h', let g' := vadd g (Fin (/ 2 * (hy * hy / k + ln (2 * PI / k)))) in
    g_marginalize o f xs true = Ok {| ga_vars := xs; ga_vac := false; ga_can := Some (S, h', g'); ga_cov := None |} /\
    0 < k /\ posdef S /\ shaped (length xs) (S, h', g') /\
    (forall u v, In u xs -> In v xs -> named_entry S xs u v = named_entry K vars u v - named_entry K vars u y * / k * named_entry K vars v y) /\
    (forall u, In u xs -> named_coord h' xs u = named_coord h vars u - named_entry K vars u y * / k * hy).
Proof.
  intros Ho Hd Hs PK HP Ev Evac Ec k hy. pose proof Hs as (H1 & H2 & H3 & H4).
  pose proof (Permutation_NoDup (Permutation_sym HP) Hd) as Hd'. inversion Hd' as [|y0 xs0 Hn Dx]; subst y0 xs0.
  assert (Ix : incl xs vars) by (intros v Hv; apply (Permutation_in _ HP); now right).
  assert (Hy : In y vars) by (apply (Permutation_in _ HP); now left).
  assert (Eys : so o (set_diff vars xs) = [y]).
  { apply Permutation_length_1_inv. transitivity (set_diff vars xs); [|apply so_perm; [exact Ho|apply NoDup_set_diff]].
    apply NoDup_Permutation; [|apply NoDup_set_diff|].
    - constructor; [intros []|constructor].
    - intros v. rewrite In_set_diff. cbn. split.
      + intros [<-|[]]. now split.
      + intros (Hv & Nv). apply (Permutation_in _ (Permutation_sym HP)) in Hv. destruct Hv as [<-|Hv]; [now left|contradiction]. }
  destruct (marg_can o vars K h g f xs Ho Hd Hs PK Dx Ix Ev Evac Ec) as (r & S & h' & g' & Er & Eqr & PS & SS & _).
  assert (Kk : 0 < k) by (unfold k; rewrite named_pos by assumption; apply posdef_ent; [exact PK|rewrite H1; now apply pos_nth]).
  pose proof Er as Er0.
  unfold g_marginalize, marginal_vars in Er. rewrite Ev, Evac, Ec, Eys in Er. unfold canform_marginalise in Er.
  assert (Iy : incl [y] vars) by (intros v [<-|[]]; exact Hy).
  rewrite (mapM_pos vars xs Ix), (mapM_pos vars [y] Iy) in Er. cbn [bind map] in Er.
  set (xi := map (pos vars) xs) in Er. set (p := pos vars y) in Er.
  assert (Lx : length xi = length xs) by apply map_length.
  assert (Rx : inr (length vars) xi) by now apply pos_inr. assert (Ry : inr (length vars) [p]) by now apply (pos_inr vars [y]).
  assert (R0 : inr 1 [0%nat]) by (intros i [<-|[]]; lia).
  rewrite !(mix_ok K) in Er by (rewrite ?H1, ?H2; assumption). rewrite !(mix_ok h) in Er by (rewrite ?H3, ?H4; assumption).
  cbn [bind] in Er.
  assert (Ek : ent (msel K [p] [p]) 0 0 = k) by (cbn; unfold k; now rewrite named_pos).
  assert (Ehy : ent (msel h [p] [0%nat]) 0 0 = hy) by (cbn; unfold hy; now rewrite named_pos1).
  assert (Ei : ent (minv (msel K [p] [p])) 0 0 = / k) by (rewrite minv_1, Ek by (reflexivity || (rewrite Ek; lra)); reflexivity).
  assert (Dk : mdet (msel K [p] [p]) = k) by (rewrite mdet_1 by reflexivity; exact Ek).
  rewrite np_inv_ok in Er by (try reflexivity; rewrite Dk; lra). cbn [bind] in Er.
  rewrite (mmul_ok (msel K xi [p])) in Er by reflexivity. cbn [bind] in Er.
  rewrite mmul_ok in Er by reflexivity. cbn [bind] in Er.
  destruct (msub_ok (msel K xi xi) (mmul0 (mmul0 (msel K xi [p]) (minv (msel K [p] [p]))) (mtr (msel K xi [p]))))
    as (Sc & ES & S1 & S2 & S3); [reflexivity..|]. rewrite ES in Er. cbn [bind] in Er.
  rewrite mmul_ok in Er by reflexivity. cbn [bind] in Er.
  destruct (msub_ok (msel h xi [0%nat]) (mmul0 (mmul0 (msel K xi [p]) (minv (msel K [p] [p]))) (msel h [p] [0%nat])))
    as (hr & Eh & N1 & N2 & N3); [reflexivity..|]. rewrite Eh in Er. cbn [bind] in Er.
  rewrite det_2pi_ok in Er by reflexivity. cbn [bind] in Er.
  rewrite (quad_ok 1) in Er by reflexivity. cbn [bind] in Er.
  rewrite mdet_minv in Er by (rewrite Dk; lra). rewrite Dk in Er. change (nr (minv (msel K [p] [p]))) with 1%nat in Er.
  rewrite rlog_pos in Er by (apply Rmult_lt_0_compat; [apply pow_lt, twopi_pos|now apply Rinv_0_lt_compat]).
  cbn [msel nr nc length] in S1, S2, N1, N2.
  match type of Er with mk_can xs Sc hr ?g0 = _ => set (g0' := g0) in Er end.
  assert (Hs' : shaped (length xs) (Sc, hr, g0')) by (cbn; repeat split; congruence).
  rewrite (mk_can_ok xs Sc hr g0' Dx Hs') in Er.
  assert (ES' : S = Sc /\ h' = hr /\ g' = g0').
  { rewrite Eqr in Er. injection Er as _ -> -> ->. auto. }
  destruct ES' as (-> & -> & ->).
  assert (Eg : g0' = vadd g (Fin (/ 2 * (hy * hy / k + ln (2 * PI / k))))).
  { unfold g0'. f_equal. unfold qsum, rsum. cbn [seq map Rsum fold_right vadd]. rewrite vhalf_fin. f_equal.
    rewrite Ei, Ehy. rewrite pow_1. unfold Rdiv. ring. }
  exists Sc, hr. cbv zeta. rewrite <- Eg. rewrite Er0, Eqr. split; [reflexivity|]. split; [exact Kk|]. split; [exact PS|]. split; [exact SS|].
  assert (Ec1 : forall u, In u xs -> ent (msel K xi [p]) (pos xs u) 0 = named_entry K vars u y).
  { intros u Hu. pose proof (named_sel K vars xs [y] u y Hd Ix Iy Hu ltac:(now left)) as Q.
    destruct (pos_nth [y] y ltac:(now left)) as (Q0 & _). cbn [length] in Q0.
    replace (pos [y] y) with 0%nat in Q by lia. exact Q. }
  split.
  - intros u v Hu Hv. destruct (pos_nth xs u Hu) as (Iu & _). destruct (pos_nth xs v Hv) as (Iv & _).
    rewrite (named_pos _ xs u v Hu Hv), S3 by (cbn; congruence). pose proof (named_sel K vars xs xs u v Hd Ix Ix Hu Hv) as Q. fold xi in Q. rewrite Q. f_equal.
    cbn [mmul0 mtr ent nc]. change (nc (minv (msel K [p] [p]))) with 1%nat. change (nc (msel K xi [p])) with 1%nat. unfold rsum. cbn [seq map Rsum fold_right].
    rewrite Ei. rewrite (Ec1 u Hu), (Ec1 v Hv). ring.
  - intros u Hu. destruct (pos_nth xs u Hu) as (Iu & _).
    rewrite (named_pos1 _ xs u Hu), N3 by (cbn; lia). pose proof (named_sel_col h vars xs u Hd Ix Hu) as Q. fold xi in Q. rewrite Q. f_equal.
    cbn [mmul0 ent nc]. change (nc (minv (msel K [p] [p]))) with 1%nat. change (nc (msel K xi [p])) with 1%nat. unfold rsum. cbn [seq map Rsum fold_right].
    rewrite Ei, (Ec1 u Hu), Ehy. ring.
Qed.

Lemma named_symm K vars u v : symm K -> nr K = length vars -> In u vars -> In v vars -> named_entry K vars u v = named_entry K vars v u.
Proof. intros H L Hu Hv. rewrite !named_pos by assumption. apply H; rewrite L; now apply pos_nth. Qed.

(** No potential is NaN or plus infinity. *)
Definition plain (f : gauss) : Prop := forall e l, lp f e = Ok l -> is_lp l.
Lemma plain_g f f' K h g : wf_gauss f -> get_can f = Ok (f', (K, h, g)) -> (plain f <-> is_lp g).
Proof.
  intros W E. unfold plain, lp. split.
  - intros H. specialize (H (fun _ => 0) _ (lp_canon f f' K h g _ W E)). destruct g; cbn in H |- *; auto.
  - intros H e l. rewrite (lp_canon f f' K h g e W E). intros [= <-]. destruct g; cbn in *; auto.
Qed.
Lemma get_can_some f K h g : ga_can f = Some (K, h, g) -> get_can f = Ok (f, (K, h, g)).
Proof. intros E. unfold get_can, update_canform. rewrite E. cbn [bind]. now rewrite E. Qed.

Lemma int_can o vars K h g f xs y : oracle_ok o -> wf_gauss f -> posdef K ->
  Permutation (y :: xs) vars -> ga_vars f = vars -> ga_vac f = false -> ga_can f = Some (K, h, g) -> is_lp g ->
  exists r, g_marginalize o f xs true = Ok r /\ plain r /\ forall e, is_int (fun t => gval f (setv e y t)) (gval r e).
Proof.
  intros Ho W PK HP Ev Evac Ec Hg. pose proof W as (Hd & _ & Hc & _). pose proof (Hc _ Ec) as Hs. rewrite Ev in Hd, Hs. pose proof Hs as (H1 & H2 & H3 & H4).
  destruct (marg_one o vars K h g f xs y Ho Hd Hs PK HP Ev Evac Ec) as (S & h' & Er & Hk & PS & SS & EK & Eh).
  set (k := named_entry K vars y y) in *. set (hy := named_coord h vars y) in *.
  set (g' := vadd g (Fin (/ 2 * (hy * hy / k + ln (2 * PI / k))))) in *. cbv zeta in *.
  set (r := {| ga_vars := xs; ga_vac := false; ga_can := Some (S, h', g'); ga_cov := None |}) in *.
  pose proof (Permutation_NoDup (Permutation_sym HP) Hd) as Hd'. inversion Hd' as [|y0 xs0 Hn Dx]; subst y0 xs0.
  assert (Wr : wf_gauss r).
  { split; [exact Dx|]. split; [left; discriminate|]. split; intros p Hp; [|discriminate]. injection Hp as <-. exact SS. }
  assert (Lf : forall e, lp f e = Ok (vadd (Fin (can_form vars K h e)) g)).
  { intros e. unfold lp. rewrite (lp_canon f f K h g e W (get_can_some f K h g Ec)). now rewrite Ev. }
  assert (Lr : forall e, lp r e = Ok (vadd (Fin (can_form xs S h' e)) g')).
  { intros e. exact (lp_canon r r S h' g' e Wr (get_can_some r S h' g' eq_refl)). }
  exists r. split; [exact Er|]. split.
  - apply (plain_g r r S h' g' Wr (get_can_some r S h' g' eq_refl)). unfold g'. destruct g; cbn in *; auto.
  - intros e. unfold gval. rewrite Lr. destruct g as [|g0| |]; try contradiction.
    + apply (is_int_ext (fun _ => 0)); [intros t; now rewrite Lf|]. exact is_int_zero.
    + cbn [vadd pot g'].
      set (Q := - (1 / 2) * Rsum (map (fun u => Rsum (map (fun v => e u * named_entry K vars u v * e v) xs)) xs) + Rsum (map (fun u => e u * named_coord h vars u) xs)).
      set (s := Rsum (map (fun u => e u * named_entry K vars u y) xs)).
      apply (is_int_ext (fun t => exp ((Q + g0) + (hy - s) * t - / 2 * (k * (t * t))))).
      { intros t. rewrite Lf. cbn [vadd pot]. unfold can_form.
        rewrite (form_split (named_entry K vars) (named_coord h vars) y xs vars e t Hd HP).
        - fold Q s k hy. f_equal. ring.
        - intros u v Hu Hv. now apply named_symm; [apply PK| | |]. }
      unfold can_form. rewrite (Rsum_ext (fun u => e u * named_coord h' xs u) (fun u => e u * (named_coord h vars u - named_entry K vars u y * / k * hy))) by (intros u Hu; now rewrite Eh).
      rewrite (Rsum_ext _ (fun u => Rsum (map (fun v => e u * (named_entry K vars u v - named_entry K vars u y * / k * named_entry K vars v y) * e v) xs))).
      2: { intros u Hu. apply Rsum_ext. intros v Hv. now rewrite EK. }
      pose proof (form_marg (named_entry K vars) (named_coord h vars) y xs e) as F. cbv zeta in F. fold k hy s Q in F. rewrite F by lra.
      replace (Q + / 2 * (s * s / k) - s * hy / k + (g0 + / 2 * (hy * hy / k + ln (2 * PI / k)))) with
              ((Q + g0) + / 2 * ((hy - s) * (hy - s) / k) + / 2 * ln (2 * PI / k)) by (field; lra).
      now apply gauss_int_quad.
Qed.

(** * Any state of the two forms *)
Lemma get_can_solid f : solid f -> exists f' K h g, get_can f = Ok (f', (K, h, g)) /\ posdef K /\ shaped (length (ga_vars f)) (K, h, g).
Proof.
  intros (W & Vac & Coh & PK & PC). pose proof W as (Hd & Hf & Hc & Hv). destruct (ga_can f) as [[[K h] g]|] eqn:Ec.
  - exists f, K, h, g. split; [now apply get_can_some|]. split; [now apply (PK K h g)|now apply Hc].
  - destruct (ga_cov f) as [[[C m] w]|] eqn:Ev; [|destruct Hf; congruence]. destruct (get_can_wf f W) as (f' & K & h & g & E & _ & _ & Sh & _).
    exists f', K, h, g. split; [exact E|]. split; [|exact Sh]. destruct (Hv _ eq_refl) as (Sv & _). pose proof (PC C m w eq_refl) as P.
    assert (Ef : f = {| ga_vars := ga_vars f; ga_vac := ga_vac f; ga_can := None; ga_cov := Some (C, m, w) |}) by (destruct f; cbn in *; congruence).
    unfold get_can in E. rewrite Ef in E. rewrite (update_canform_cov (ga_vars f) (ga_vac f) C m w Sv (posdef_det C P)) in E. cbn [bind ga_can] in E.
    injection E as _ <- _ _. now apply posdef_minv.
Qed.
Definition can_obj (vars : list string) (p : mat * mat * val) : gauss := {| ga_vars := vars; ga_vac := false; ga_can := Some p; ga_cov := None |}.
Definition cov_obj (vars : list string) (p : mat * mat * val) : gauss := {| ga_vars := vars; ga_vac := false; ga_can := None; ga_cov := Some p |}.
Lemma wf_can_obj vars p : NoDup vars -> shaped (length vars) p -> wf_gauss (can_obj vars p).
Proof. intros Hd Hs. split; [exact Hd|]. split; [left; discriminate|]. split; intros q Hq; [|discriminate]. injection Hq as <-. exact Hs. Qed.
Lemma wf_cov_obj vars p : NoDup vars -> shaped (length vars) p -> cov_ok p -> wf_gauss (cov_obj vars p).
Proof. intros Hd Hs Ho. split; [exact Hd|]. split; [right; discriminate|]. split; intros q Hq; [discriminate|]. injection Hq as <-. now split. Qed.
Lemma lp_can_obj f f' K h g e : wf_gauss f -> get_can f = Ok (f', (K, h, g)) -> shaped (length (ga_vars f)) (K, h, g) ->
  lp f e = lp (can_obj (ga_vars f) (K, h, g)) e.
Proof.
  intros W E Hs. unfold lp. rewrite (lp_canon f f' K h g e W E). symmetry.
  exact (lp_canon (can_obj (ga_vars f) (K, h, g)) _ K h g e (wf_can_obj _ _ (proj1 W) Hs) (get_can_some (can_obj (ga_vars f) (K, h, g)) K h g eq_refl)).
Qed.
(** No variable integrated: the parameters in the order asked for. *)
Lemma marg_nil o vars K h g f xs : oracle_ok o -> NoDup vars -> shaped (length vars) (K, h, g) -> posdef K ->
  Permutation xs vars -> ga_vars f = vars -> ga_vac f = false -> ga_can f = Some (K, h, g) ->
  exists S h', g_marginalize o f xs true = Ok {| ga_vars := xs; ga_vac := false; ga_can := Some (S, h', vadd g (Fin 0)); ga_cov := None |} /\
    shaped (length xs) (S, h', vadd g (Fin 0)) /\
    (forall u v, In u xs -> In v xs -> named_entry S xs u v = named_entry K vars u v) /\
    (forall u, In u xs -> named_coord h' xs u = named_coord h vars u).
Proof.
  intros Ho Hd Hs PK HP Ev Evac Ec. pose proof Hs as (H1 & H2 & H3 & H4).
  pose proof (Permutation_NoDup (Permutation_sym HP) Hd) as Dx.
  assert (Ix : incl xs vars) by (intros v Hv; now apply (Permutation_in _ HP)).
  assert (Eys : so o (set_diff vars xs) = []).
  { apply Permutation_nil. transitivity (set_diff vars xs); [|apply so_perm; [exact Ho|apply NoDup_set_diff]].
    apply NoDup_Permutation; [constructor|apply NoDup_set_diff|]. intros v. rewrite In_set_diff. cbn. split; [intros []|].
    intros (Hv & Nv). apply Nv. now apply (Permutation_in _ (Permutation_sym HP)). }
  destruct (marg_can o vars K h g f xs Ho Hd Hs PK Dx Ix Ev Evac Ec) as (r & S & h' & g' & Er & Eqr & PS & SS & _).
  pose proof Er as Er0.
  unfold g_marginalize, marginal_vars in Er. rewrite Ev, Evac, Ec, Eys in Er. unfold canform_marginalise in Er.
  rewrite (mapM_pos vars xs Ix) in Er. cbn [bind map mapM] in Er.
  set (xi := map (pos vars) xs) in Er. assert (Lx : length xi = length xs) by apply map_length.
  assert (Rx : inr (length vars) xi) by now apply pos_inr. assert (Ry : inr (length vars) []) by (intros i []).
  assert (R0 : inr 1 [0%nat]) by (intros i [<-|[]]; lia).
  rewrite !(mix_ok K) in Er by (rewrite ?H1, ?H2; assumption). rewrite !(mix_ok h) in Er by (rewrite ?H3, ?H4; assumption).
  cbn [bind] in Er. assert (Dk : mdet (msel K [] []) = 1) by (apply mdet_0; reflexivity).
  rewrite np_inv_ok in Er by (try reflexivity; rewrite Dk; lra). cbn [bind] in Er.
  rewrite (mmul_ok (msel K xi [])) in Er by reflexivity. cbn [bind] in Er.
  rewrite mmul_ok in Er by reflexivity. cbn [bind] in Er.
  destruct (msub_ok (msel K xi xi) (mmul0 (mmul0 (msel K xi []) (minv (msel K [] []))) (mtr (msel K xi []))))
    as (Sc & ES & S1 & S2 & S3); [reflexivity..|]. rewrite ES in Er. cbn [bind] in Er.
  rewrite mmul_ok in Er by reflexivity. cbn [bind] in Er.
  destruct (msub_ok (msel h xi [0%nat]) (mmul0 (mmul0 (msel K xi []) (minv (msel K [] []))) (msel h [] [0%nat])))
    as (hr & Eh & N1 & N2 & N3); [reflexivity..|]. rewrite Eh in Er. cbn [bind] in Er.
  rewrite det_2pi_ok in Er by reflexivity. cbn [bind] in Er.
  rewrite (quad_ok 0) in Er by reflexivity. cbn [bind] in Er.
  rewrite mdet_minv in Er by (rewrite Dk; lra). rewrite Dk in Er. change (nr (minv (msel K [] []))) with 0%nat in Er.
  rewrite rlog_pos in Er by (cbn [pow]; lra).
  cbn [msel nr nc length] in S1, S2, N1, N2.
  match type of Er with mk_can xs Sc hr ?g0 = _ => set (g0' := g0) in Er end.
  assert (Hs' : shaped (length xs) (Sc, hr, g0')) by (cbn; repeat split; congruence).
  rewrite (mk_can_ok xs Sc hr g0' Dx Hs') in Er.
  assert (ES' : S = Sc /\ h' = hr /\ g' = g0') by (rewrite Eqr in Er; injection Er as _ -> -> ->; auto).
  destruct ES' as (-> & -> & ->).
  assert (Eg : g0' = vadd g (Fin 0)).
  { unfold g0'. f_equal. unfold qsum, rsum. cbn [seq map Rsum fold_right vadd pow]. rewrite vhalf_fin. f_equal.
    rewrite Rinv_1, Rmult_1_r, ln_1. lra. }
  exists Sc, hr. rewrite <- Eg. rewrite Er0, Eqr. split; [reflexivity|]. split; [exact SS|]. split.
  - intros u v Hu Hv. destruct (pos_nth xs u Hu) as (Iu & _). destruct (pos_nth xs v Hv) as (Iv & _).
    rewrite (named_pos _ xs u v Hu Hv), S3 by (cbn; congruence). pose proof (named_sel K vars xs xs u v Hd Ix Ix Hu Hv) as Q. fold xi in Q. rewrite Q.
    cbn [mmul0 mtr ent nc]. change (nc (minv (msel K [] []))) with 0%nat. unfold rsum. cbn [seq map Rsum fold_right]. ring.
  - intros u Hu. destruct (pos_nth xs u Hu) as (Iu & _).
    rewrite (named_pos1 _ xs u Hu), N3 by (cbn; lia). pose proof (named_sel_col h vars xs u Hd Ix Hu) as Q. fold xi in Q. rewrite Q.
    cbn [mmul0 ent nc]. change (nc (minv (msel K [] []))) with 0%nat. unfold rsum. cbn [seq map Rsum fold_right]. ring.
Qed.
Lemma nil_can o vars K h g f xs : oracle_ok o -> wf_gauss f -> posdef K ->
  Permutation xs vars -> ga_vars f = vars -> ga_vac f = false -> ga_can f = Some (K, h, g) ->
  exists r, g_marginalize o f xs true = Ok r /\ ga_vars r = xs /\ forall e, lp r e = lp f e.
Proof.
  intros Ho W PK HP Ev Evac Ec. pose proof W as (Hd & _ & Hc & _). pose proof (Hc _ Ec) as Hs. rewrite Ev in Hd, Hs.
  destruct (marg_nil o vars K h g f xs Ho Hd Hs PK HP Ev Evac Ec) as (S & h' & Er & SS & EK & Eh).
  eexists. split; [exact Er|]. split; [reflexivity|]. intros e. unfold lp at 2. rewrite (lp_canon f f K h g e W (get_can_some f K h g Ec)), Ev.
  pose proof (lp_canon (can_obj xs (S, h', vadd g (Fin 0))) _ S h' _ e (wf_can_obj _ _ (Permutation_NoDup (Permutation_sym HP) Hd) SS) (get_can_some (can_obj xs (S, h', vadd g (Fin 0))) S h' _ eq_refl)) as L.
  unfold can_obj in L. unfold lp. rewrite L. cbn [ga_vars]. f_equal.
  rewrite (can_form_perm xs vars S h' K h e HP EK Eh). destruct g; cbn; try reflexivity. f_equal. ring.
Qed.
Lemma int_solid o f xs y : oracle_ok o -> solid f -> plain f -> Permutation (y :: xs) (ga_vars f) ->
  exists r, g_marginalize o f xs true = Ok r /\ plain r /\ forall e, is_int (fun t => gval f (setv e y t)) (gval r e).
Proof.
  intros Ho S HPl HP. pose proof S as (W & Vac & Coh & PK & PC). pose proof W as (Hd & Hf & Hc & Hv).
  destruct (get_can_solid f S) as (f' & K & h & g & E & P & Sh). pose proof (proj1 (plain_g f f' K h g W E) HPl) as Hg.
  destruct (ga_can f) as [[[K0 h0] g0]|] eqn:Ec.
  - rewrite (get_can_some f K0 h0 g0 Ec) in E. injection E as _ -> -> ->. now apply (int_can o (ga_vars f) K h g f xs y).
  - destruct (ga_cov f) as [[[C m] w]|] eqn:Ev; [|destruct Hf; congruence]. destruct (Hv _ eq_refl) as (Sv & _). pose proof (PC C m w eq_refl) as P2.
    set (f2 := can_obj (ga_vars f) (K, h, g)).
    destruct (int_can o (ga_vars f) K h g f2 xs y Ho (wf_can_obj _ _ Hd Sh) P HP eq_refl eq_refl eq_refl Hg) as (r2 & E2 & Pl2 & I2).
    assert (Ef : mk_cov (ga_vars f) C m w = Ok f).
    { rewrite (mk_cov_ok (ga_vars f) C m w Hd Sv). f_equal. destruct f; cbn in *; congruence. }
    pose proof (Permutation_NoDup (Permutation_sym HP) Hd) as Hd'. inversion Hd' as [|y0 xs0 Hn Dx]; subst y0 xs0.
    assert (Ix : incl xs (ga_vars f)) by (intros v Hv'; apply (Permutation_in _ HP); now right).
    destruct (marginal_forms o (ga_vars f) C m w f K h g f' f2 xs Ho Hd Sv P2 Dx Ix Ef E eq_refl eq_refl eq_refl) as
      (q1 & q2 & C1 & m1 & q2' & C2 & m2 & Q1 & Q2 & Q3 & Q4 & Q5 & Q6 & W1 & W2 & G1 & G2 & M1 & M2 & Rc & Rm & L).
    assert (q2 = r2) as -> by congruence. exists q1. split; [exact Q1|].
    assert (EL : forall e, lp q1 e = lp r2 e) by (intros e; unfold lp; rewrite Q3, Q4; apply L).
    split; [intros e l; rewrite EL; apply Pl2|]. intros e. unfold gval in *. rewrite EL. generalize (I2 e). apply is_int_ext.
    intros t. unfold f2. now rewrite <- (lp_can_obj f f' K h g _ W E Sh).
Qed.
Lemma nil_solid o f xs r : oracle_ok o -> solid f -> Permutation xs (ga_vars f) -> g_marginalize o f xs true = Ok r -> forall e, lp r e = lp f e.
Proof.
  intros Ho S HP Er. pose proof S as (W & Vac & Coh & PK & PC). pose proof W as (Hd & Hf & Hc & Hv).
  destruct (get_can_solid f S) as (f' & K & h & g & E & P & Sh).
  destruct (ga_can f) as [[[K0 h0] g0]|] eqn:Ec.
  - rewrite (get_can_some f K0 h0 g0 Ec) in E. injection E as _ -> -> ->.
    destruct (nil_can o (ga_vars f) K h g f xs Ho W P HP eq_refl Vac Ec) as (r' & Er' & _ & L). intros e. rewrite <- L. congruence.
  - destruct (ga_cov f) as [[[C m] w]|] eqn:Ev; [|destruct Hf; congruence]. destruct (Hv _ eq_refl) as (Sv & _). pose proof (PC C m w eq_refl) as P2.
    set (f2 := can_obj (ga_vars f) (K, h, g)).
    destruct (nil_can o (ga_vars f) K h g f2 xs Ho (wf_can_obj _ _ Hd Sh) P HP eq_refl eq_refl eq_refl) as (r2 & E2 & _ & I2).
    assert (Ef : mk_cov (ga_vars f) C m w = Ok f).
    { rewrite (mk_cov_ok (ga_vars f) C m w Hd Sv). f_equal. destruct f; cbn in *; congruence. }
    assert (Ix : incl xs (ga_vars f)) by (intros v; now apply (Permutation_in _ HP)).
    destruct (marginal_forms o (ga_vars f) C m w f K h g f' f2 xs Ho Hd Sv P2 (Permutation_NoDup (Permutation_sym HP) Hd) Ix Ef E eq_refl eq_refl eq_refl) as
      (q1 & q2 & C1 & m1 & q2' & C2 & m2 & Q1 & Q2 & Q3 & Q4 & Q5 & Q6 & W1 & W2 & G1 & G2 & M1 & M2 & Rc & Rm & L).
    intros e. assert (q1 = r) as -> by congruence. assert (q2 = r2) as -> by congruence. rewrite (lp_can_obj f f' K h g e W E Sh). fold f2. rewrite <- I2.
    unfold lp. rewrite Q3, Q4. apply L.
Qed.
(** The potential in terms of the covariance parameters. *)
Lemma solid_lp_cov f f' C m w : solid f -> get_cov f = Ok (f', (C, m, w)) ->
  shaped (length (ga_vars f)) (C, m, w) /\ posdef C /\ forall e, lp f e = cov_log_potential C m w (mcol (map e (ga_vars f))).
Proof.
  intros (W & Vac & Coh & PK & PC) E. pose proof W as (Hd & Hf & Hc & Hv).
  assert (A : forall K h g f1, ga_can f = Some (K, h, g) -> get_cov (can_only f) = Ok (f1, (C, m, w)) ->
    shaped (length (ga_vars f)) (C, m, w) /\ posdef C /\ forall e, lp f e = cov_log_potential C m w (mcol (map e (ga_vars f)))).
  { intros K h g f1 Ec Eg. pose proof (PK K h g Ec) as P. pose proof (Hc _ Ec) as Sh. pose proof Sh as (H1 & H2 & H3 & H4).
    destruct (get_cov_can_only f K h g W Ec P) as (f0 & E0). pose proof Eg as Eg0. rewrite E0 in Eg0. injection Eg0 as _ EC Em Ew.
    assert (Sc : shaped (length (ga_vars f)) (C, m, w)) by (rewrite <- EC, <- Em; cbn; repeat split; congruence).
    split; [exact Sc|]. split; [rewrite <- EC; now apply posdef_minv|]. intros e.
    rewrite (lp_can_obj f f K h g e W (get_can_some f K h g Ec) Sh).
    destruct (can_cov_can_full (ga_vars f) K h g Hd Sh P) as (fc & fc' & C' & m' & w' & fx & fx' & K' & h' & E1 & E2 & E3 & E4 & _ & _ & L).
    rewrite (mk_can_ok (ga_vars f) K h g Hd Sh), posdef_not_vacuous in E1 by (congruence || exact P).
    assert (fc = can_obj (ga_vars f) (K, h, g)) as -> by (unfold can_obj; congruence).
    unfold can_only in Eg. rewrite Ec in Eg. unfold can_obj in E2. rewrite Eg in E2. injection E2 as _ <- <- <-.
    rewrite (mk_cov_ok (ga_vars f) C m w Hd Sc) in E3. injection E3 as <-. unfold lp. cbn [can_obj ga_vars]. rewrite <- L. apply lp_cov_only. }
  destruct (ga_cov f) as [[[C0 m0] w0]|] eqn:Ev.
  - assert (C0 = C /\ m0 = m /\ w0 = w) as (-> & -> & ->).
    { unfold get_cov, update_covform in E. rewrite Vac, Ev in E. cbn [bind] in E. rewrite Ev in E. injection E as _ -> -> ->. auto. }
    destruct (Hv _ eq_refl) as (Sv & Ov). pose proof (PC C m w eq_refl) as P. destruct (ga_can f) as [[[K h] g]|] eqn:Ec.
    + destruct (Coh _ _ Ec Ev) as [(f1 & E1)|(f1 & E1)]; [now apply (A K h g f1)|].
      split; [exact Sv|]. split; [exact P|]. intros e. unfold lp. rewrite (lp_canon f f K h g e W (get_can_some f K h g Ec)).
      unfold cov_only in E1. rewrite Ev in E1. fold (cov_obj (ga_vars f) (C, m, w)) in E1.
      pose proof (lp_canon (cov_obj (ga_vars f) (C, m, w)) f1 K h g e (wf_cov_obj _ _ Hd Sv Ov) E1) as L. cbn [cov_obj ga_vars] in L. rewrite <- L. apply lp_cov_only.
    + split; [exact Sv|]. split; [exact P|]. intros e. assert (f = cov_obj (ga_vars f) (C, m, w)) as -> by (unfold cov_obj; destruct f; cbn in *; congruence).
      apply lp_cov_only.
  - destruct (ga_can f) as [[[K h] g]|] eqn:Ec; [|destruct Hf; congruence].
    apply (A K h g f' eq_refl). rewrite <- E. f_equal. unfold can_only. destruct f; cbn in *; congruence.
Qed.
Lemma solid_same_lp f1 f2 f1' f2' C1 m1 C2 m2 w : solid f1 -> solid f2 -> ga_vars f1 = ga_vars f2 ->
  get_cov f1 = Ok (f1', (C1, m1, w)) -> get_cov f2 = Ok (f2', (C2, m2, w)) -> meq C1 C2 -> meq m1 m2 -> forall e, lp f1 e = lp f2 e.
Proof.
  intros S1 S2 V E1 E2 MC Mm e. destruct (solid_lp_cov f1 f1' C1 m1 w S1 E1) as (H1 & P1 & L1). destruct (solid_lp_cov f2 f2' C2 m2 w S2 E2) as (H2 & P2 & L2).
  rewrite L1, L2, V. rewrite V in H1. apply (cov_lp_ext (length (ga_vars f2))); auto; [split; [apply P1|now apply posdef_det]|split; [apply P2|now apply posdef_det]|apply map_length].
Qed.
(** Marginalizing in two steps is marginalizing at once. *)
Lemma marg_marg o f xs zs r1 r2 r : oracle_ok o -> solid f -> NoDup xs -> NoDup zs -> incl xs (ga_vars f) -> incl zs xs ->
  g_marginalize o f xs true = Ok r1 -> g_marginalize o r1 zs true = Ok r2 -> g_marginalize o f zs true = Ok r -> forall e, lp r2 e = lp r e.
Proof.
  intros Ho S Dx Dz Ix Iz E1 E2 E.
  destruct (marg_solid o f xs Ho S Dx Ix) as (f' & C & m & w & q1 & q1' & C1 & m1 & G & G1 & S1 & V1 & _ & H1 & R1 & T1). assert (q1 = r1) as -> by congruence.
  destruct (marg_solid o f zs Ho S Dz) as (f'' & C' & m' & w' & q & q' & C2 & m2 & G' & G2 & S2 & V2 & _ & H2 & R2 & T2). { intros v Hv. auto. } assert (q = r) as -> by congruence.
  rewrite G in G'. injection G' as _ <- <- <-.
  destruct (marg_solid o r1 zs Ho S1 Dz) as (g1 & Cb & mb & wb & q & q3' & C3 & m3 & Gb & G3 & S3 & V3 & _ & H3 & R3 & T3). { now rewrite V1. } assert (q = r2) as -> by congruence.
  rewrite H1 in Gb. injection Gb as _ <- <- <-. rewrite V1 in R3, T3.
  apply (solid_same_lp r2 r q3' q' C3 m3 C2 m2 w); auto; [congruence| |].
  - apply (restricted_meq C C C3 C2 (ga_vars f) zs); auto; [apply S|intros v Hv; auto|].
    destruct R3 as (B1 & B2 & B3). split; [exact B1|]. split; [exact B2|]. intros u v Hu Hv. rewrite B3 by assumption. apply R1; auto.
  - apply (restricted1_meq m m m3 m2 (ga_vars f) zs); auto; [apply S|intros v Hv; auto|].
    destruct T3 as (B1 & B2 & B3). split; [exact B1|]. split; [exact B2|]. intros u Hu. rewrite B3 by assumption. apply T1; auto.
Qed.
(** The marginal is the iterated integral, in any order of integration. *)
Lemma NoDup_app_tail {A} (l l' : list A) : NoDup (l ++ l') -> NoDup l'.
Proof. induction l as [|a l IH]; [auto|]. cbn. intros H. inversion H; auto. Qed.
Lemma iint_ext ys : forall F G e I, (forall e, F e = G e) -> iint ys F e I -> iint ys G e I.
Proof.
  induction ys as [|y ys IH]; intros F G e I H; cbn.
  - now rewrite H.
  - intros (J & HJ & HI). exists J. split; [|exact HI]. intros t. now apply (IH F).
Qed.
Lemma iint_unique ys : forall F e I J, iint ys F e I -> iint ys F e J -> I = J.
Proof.
  induction ys as [|y ys IH]; intros F e I J; cbn; [congruence|]. intros (G & HG & HI) (H & HH & HJ).
  apply (is_int_unique G); [exact HI|]. revert HJ. apply is_int_ext. intros t. now apply (IH F (setv e y t)).
Qed.
Theorem marg_integral o ys : forall f xs, oracle_ok o -> solid f -> plain f -> Permutation (ys ++ xs) (ga_vars f) ->
  exists r, g_marginalize o f xs true = Ok r /\ ga_vars r = xs /\ solid r /\ plain r /\ forall e, iint ys (gval f) e (gval r e).
Proof.
  induction ys as [|y ys IH]; intros f xs Ho S HPl HP.
  - pose proof S as ((Hd & _) & _). pose proof (Permutation_NoDup (Permutation_sym HP) Hd) as Dx. cbn [app] in HP, Dx.
    assert (Ix : incl xs (ga_vars f)) by (intros v; apply (Permutation_in _ HP)).
    destruct (marg_solid o f xs Ho S Dx Ix) as (f' & C & m & w & r & r' & C1 & m1 & G & E & Sr & V & _ & H & Rc & Rm).
    exists r. split; [exact E|]. split; [exact V|]. split; [exact Sr|].
    assert (L : forall e, lp r e = lp f e).
    { now apply (nil_solid o f xs r). }
    split; [intros e l; rewrite L; apply HPl|]. intros e. cbn. unfold gval. now rewrite L.
  - assert (HP' : Permutation (ys ++ (y :: xs)) (ga_vars f)) by (rewrite <- HP; symmetry; apply Permutation_middle).
    destruct (IH f (y :: xs) Ho S HPl HP') as (r1 & E1 & V1 & S1 & Pl1 & I1).
    destruct (int_solid o r1 xs y Ho S1 Pl1) as (r2 & E2 & Pl2 & I2). { now rewrite V1. }
    pose proof S as ((Hd & _) & _). pose proof (Permutation_NoDup (Permutation_sym HP') Hd) as Dyx. apply NoDup_app_tail in Dyx.
    inversion Dyx as [|y0 xs0 Hn Dx]; subst y0 xs0.
    assert (Ix : incl (y :: xs) (ga_vars f)) by (intros v Hv; apply (Permutation_in _ HP'), in_app_iff; now right).
    destruct (marg_solid o f xs Ho S Dx) as (f' & C & m & w & r & r' & C1 & m1 & G & E & Sr & V & _). { intros v Hv. apply Ix. now right. }
    assert (L : forall e, lp r2 e = lp r e).
    { apply (marg_marg o f (y :: xs) xs r1 r2 r); auto. intros v Hv. now right. }
    exists r. split; [exact E|]. split; [exact V|]. split; [exact Sr|]. split; [intros e l; rewrite <- L; apply Pl2|].
    intros e. exists (fun t => gval r1 (setv e y t)). split; [intros t; apply I1|]. unfold gval at 2. rewrite <- L. apply I2.
Qed.
