(** Gaussian log potentials, products, quotients, reordering and observation. *)
From Verif Require Export GaussFacts.
#[global] Set Bullet Behavior "Strict Subproofs".

(** * Positions of names *)
Definition pos (vars : list string) (v : string) : nat := match index_opt v vars with Some i => i | None => 0 end.
Lemma pos_nth vars v : In v vars -> pos vars v < length vars /\ nth (pos vars v) vars ""%string = v.
Proof.
  intros H. destruct (index_opt_In v vars H) as (i & Hi). unfold pos. rewrite Hi. apply index_opt_nth in Hi.
  split; [apply nth_error_Some; congruence|]. now apply nth_of_error.
Qed.
Lemma pos_of_nth vars i : NoDup vars -> i < length vars -> pos vars (nth i vars ""%string) = i.
Proof.
  intros Hd Hi. unfold pos. now rewrite (index_opt_nth_NoDup (nth i vars ""%string) vars i Hd (nth_error_nth' vars ""%string Hi)).
Qed.
Lemma py_index_pos vars v : In v vars -> py_index vars v = Ok (pos vars v).
Proof.
  intros H. unfold py_index, pos. destruct (index_opt_In v vars H) as (i & ->). reflexivity.
Qed.
Lemma mapM_pos vars vs : incl vs vars -> mapM (py_index vars) vs = Ok (map (pos vars) vs).
Proof. intros H. apply mapM_ok. intros v Hv. apply py_index_pos. now apply H. Qed.
Lemma pos_seq vars : NoDup vars -> map (pos vars) vars = seq 0 (length vars).
Proof.
  intros Hd. apply (nth_ext _ _ 0 0); [now rewrite map_length, seq_length|]. intros i Hi. rewrite map_length in Hi.
  rewrite seq_nth by exact Hi. rewrite (nth_indep _ 0 (pos vars ""%string)) by now rewrite map_length.
  rewrite map_nth. now apply pos_of_nth.
Qed.
Lemma pos_perm vars vs : NoDup vars -> Permutation vs vars -> Permutation (map (pos vars) vs) (seq 0 (length vars)).
Proof. intros Hd HP. rewrite <- pos_seq by exact Hd. now apply Permutation_map. Qed.
Lemma nth_map_pos vars vs i : i < length vs -> nth i (map (pos vars) vs) 0 = pos vars (nth i vs ""%string).
Proof.
  intros H. rewrite (nth_indep _ 0 (pos vars ""%string)) by now rewrite map_length. apply map_nth.
Qed.
Lemma pos_inr vars vs : incl vs vars -> inr (length vars) (map (pos vars) vs).
Proof. intros H i Hi. apply in_map_iff in Hi. destruct Hi as (v & <- & Hv). apply pos_nth. now apply H. Qed.
Lemma NoDup_map_pos vars vs : incl vs vars -> NoDup vs -> NoDup (map (pos vars) vs).
Proof.
  intros Hi Hd. induction Hd as [|v vs Hv Hd IH]; [constructor|]. cbn [map]. constructor.
  - intros C. apply in_map_iff in C. destruct C as (w & E & Hw). apply Hv.
    assert (w = v) as <-; [|exact Hw].
    rewrite <- (proj2 (pos_nth vars w (Hi w (or_intror Hw)))), E. apply pos_nth, Hi. now left.
  - apply IH. intros w Hw. apply Hi. now right.
Qed.
Lemma rsum_perm l n f : Permutation l (seq 0 n) -> rsum (length l) (fun i => f (nth i l 0)) = rsum n f.
Proof.
  intros HP. unfold rsum. rewrite <- (Rsum_perm _ _ (Permutation_map f HP)). f_equal.
  clear HP. induction l as [|x l IH]; [reflexivity|]. cbn [length seq map nth]. f_equal.
  rewrite <- seq_shift, map_map. exact IH.
Qed.

(** * The log potential *)
Lemma lp_canon f f' K h g e : wf_gauss f -> get_can f = Ok (f', (K, h, g)) ->
  log_potential f (map e (ga_vars f)) None = Ok (vadd (Fin (can_form (ga_vars f) K h e)) g).
Proof.
  intros W E. pose proof W as (Hd & Hf & Hc & Hv). unfold log_potential, align_point. cbn [bind].
  assert (HL : length (map e (ga_vars f)) = length (ga_vars f)) by apply map_length.
  assert (G : shaped (length (ga_vars f)) (K, h, g) ->
    can_log_potential K h g (mcol (map e (ga_vars f))) = Ok (vadd (Fin (can_form (ga_vars f) K h e)) g)).
  { intros Hs. rewrite (can_log_potential_ok _ _ _ _ _ Hs HL), can_form_pos by exact Hd.
    f_equal. f_equal. f_equal. f_equal; [f_equal; apply qsum_ext; [reflexivity|]|apply rsum_ext];
      intros i Hi; now rewrite nth_map_e. }
  destruct (ga_can f) as [[[K0 h0] g0]|] eqn:Ec.
  - unfold get_can, update_canform in E. rewrite Ec in E. cbn [bind] in E. rewrite Ec in E.
    injection E as <- <- <- <-. rewrite (G (Hc _ eq_refl)).
    destruct (ga_cov f) as [[[C m] w]|] eqn:Ev; cbn [bind]; [|reflexivity].
    destruct (Hv _ eq_refl) as (Hs & Ho). rewrite (cov_log_potential_ok _ _ _ _ _ Hs Ho HL). reflexivity.
  - destruct (ga_cov f) as [[[C m] w]|] eqn:Ev; [|destruct Hf; congruence].
    destruct (Hv _ eq_refl) as (Hs & Hsym & Hdet). rewrite (forms_agree _ _ _ _ _ Hs (conj Hsym Hdet) HL).
    pose proof Hs as (H1 & H2 & H3 & H4).
    destruct f as [vars vac can cov]. cbn [ga_can ga_cov ga_vars ga_vac] in *. subst can cov.
    unfold get_can in E. rewrite (update_canform_cov vars vac C m w Hs Hdet) in E. cbn [bind ga_can] in E.
    injection E as <- <- <- <-. rewrite G by (cbn; repeat split; congruence). reflexivity.
Qed.
Lemma lp_exists f e : wf_gauss f -> exists v, log_potential f (map e (ga_vars f)) None = Ok v.
Proof.
  intros W. destruct (get_can_wf f W) as (f' & K & h & g & E & _). rewrite (lp_canon f f' K h g e W E). eauto.
Qed.
(** Values given in another order. *)
Lemma lp_order f vs e : NoDup (ga_vars f) -> Permutation vs (ga_vars f) ->
  log_potential f (map e vs) (Some vs) = log_potential f (map e (ga_vars f)) None.
Proof.
  intros Hd HP. unfold log_potential, align_point.
  assert (Hs : seteqb vs (ga_vars f) = true).
  { apply seteqb_iff. intros v. split; intros H; [apply (Permutation_in _ HP H)|apply (Permutation_in _ (Permutation_sym HP) H)]. }
  rewrite Hs. unfold py_assert at 1. cbn [bind]. rewrite map_length, (Permutation_length HP), Nat.eqb_refl.
  unfold py_assert. cbn [bind].
  rewrite (mapM_ok _ (fun v => e v)); [reflexivity|].
  intros v Hv. apply (Permutation_in _ (Permutation_sym HP)) in Hv. rewrite (py_index_pos vs v Hv). cbn [bind].
  destruct (pos_nth vs v Hv) as (Hi & Hn). unfold py_nth.
  rewrite (nth_error_nth' (map e vs) 0%R) by now rewrite map_length. now rewrite nth_map_e, Hn.
Qed.

(** * Products and quotients *)
Lemma qn_extend va nv K e : NoDup va -> NoDup nv -> incl va nv ->
  Rsum (map (fun u => Rsum (map (fun v => e u * named_entry K va u v * e v) nv)) nv)%R =
  Rsum (map (fun u => Rsum (map (fun v => e u * named_entry K va u v * e v) va)) va)%R.
Proof.
  intros Ha Hn Hi. rewrite (Rsum_sub _ nv va Hn Ha Hi).
  - apply Rsum_ext. intros u _. apply (Rsum_sub _ nv va Hn Ha Hi). intros v _ Hv.
    rewrite named_entry_out by now right. ring.
  - intros u _ Hu. apply Rsum_zero. intros v _. rewrite named_entry_out by now left. ring.
Qed.
Lemma cn_extend va nv h e : NoDup va -> NoDup nv -> incl va nv ->
  Rsum (map (fun u => e u * named_coord h va u) nv)%R = Rsum (map (fun u => e u * named_coord h va u) va)%R.
Proof.
  intros Ha Hn Hi. apply (Rsum_sub _ nv va Hn Ha Hi). intros u _ Hu. rewrite named_coord_out by exact Hu. ring.
Qed.
Lemma can_form_op va vb nv K1 h1 K2 h2 M t (op : R -> R -> R) e :
  (forall a b c d, op (a + b) (c + d) = op a c + op b d)%R ->
  (forall a b c, op (a * b) (a * c) = a * op b c)%R ->
  NoDup va -> NoDup vb -> NoDup nv -> (forall v, In v nv <-> In v va \/ In v vb) ->
  (forall u v, In u nv -> In v nv -> named_entry M nv u v = op (named_entry K1 va u v) (named_entry K2 vb u v)) ->
  (forall u, In u nv -> named_coord t nv u = op (named_coord h1 va u) (named_coord h2 vb u)) ->
  can_form nv M t e = op (can_form va K1 h1 e) (can_form vb K2 h2 e).
Proof.
  intros Hadd Hmul Ha Hb Hn Hin HM Ht. unfold can_form.
  assert (Ia : incl va nv) by (intros v Hv; apply Hin; now left).
  assert (Ib : incl vb nv) by (intros v Hv; apply Hin; now right).
  assert (H0 : op 0%R 0%R = 0%R).
  { pose proof (Hmul 0%R 0%R 0%R) as H. rewrite !Rmult_0_l in H. exact H. }
  assert (Hsum : forall (f g : string -> R) l, Rsum (map (fun x => op (f x) (g x)) l) = op (Rsum (map f l)) (Rsum (map g l))).
  { intros f g l. induction l as [|x l IH]; [unfold Rsum; cbn; now rewrite H0|]. cbn [map]. rewrite !Rsum_cons, IH.
    now rewrite Hadd. }
  rewrite <- (qn_extend va nv K1 e Ha Hn Ia), <- (qn_extend vb nv K2 e Hb Hn Ib),
    <- (cn_extend va nv h1 e Ha Hn Ia), <- (cn_extend vb nv h2 e Hb Hn Ib).
  rewrite Hadd, Hmul, <- !Hsum. f_equal.
  - f_equal. apply Rsum_ext. intros u Hu. rewrite <- Hsum. apply Rsum_ext. intros v Hv.
    rewrite HM by assumption. rewrite !(Rmult_assoc (e u)), Hmul. f_equal.
    rewrite !(Rmult_comm _ (e v)), Hmul. reflexivity.
  - apply Rsum_ext. intros u Hu. rewrite Ht by exact Hu. now rewrite Hmul.
Qed.
Lemma absorb_spec f1 f2 op vop :
  (forall a b c d, op (a + b) (c + d) = op a c + op b d)%R ->
  (forall a b c, op (a * b) (a * c) = a * op b c)%R ->
  (forall a b u v, vop (vadd (Fin a) u) (vadd (Fin b) v) = vadd (Fin (op a b)) (vop u v)) ->
  wf_gauss f1 -> wf_gauss f2 ->
  exists r, absorb_or_cancel f1 f2 op vop = Ok r /\ wf_gauss r /\ ga_vars r = new_vars (ga_vars f1) (ga_vars f2) /\
    forall e l1 l2, log_potential f1 (map e (ga_vars f1)) None = Ok l1 ->
                    log_potential f2 (map e (ga_vars f2)) None = Ok l2 ->
                    log_potential r (map e (ga_vars r)) None = Ok (vop l1 l2).
Proof.
  intros Hadd Hmul Hvop W1 W2. pose proof W1 as (D1 & _). pose proof W2 as (D2 & _).
  destruct (get_can_wf f1 W1) as (f1' & K1 & h1 & g1 & E1 & _ & _ & (A1 & A2 & A3 & A4) & _).
  destruct (get_can_wf f2 W2) as (f2' & K2 & h2 & g2 & E2 & _ & _ & (B1 & B2 & B3 & B4) & _).
  set (nv := new_vars (ga_vars f1) (ga_vars f2)).
  assert (Dn : NoDup nv) by now apply new_vars_NoDup.
  unfold absorb_or_cancel. rewrite E1, E2. cbn [bind snd].
  rewrite ix_square_ok, ix_column_ok by assumption. cbn [bind fst snd]. fold nv.
  unfold py_assert. destruct (eqb nv nv) eqn:Eq; [|apply Bool.not_true_iff_false in Eq; exfalso; apply Eq; now apply eqb_true].
  cbn [bind]. match goal with |- context [mk_can nv ?M ?t ?g] => set (M0 := M); set (t0 := t) end.
  rewrite (mk_can_ok nv M0 t0 (vop g1 g2) Dn) by (cbn; now repeat split).
  match goal with |- exists r, Ok ?x = Ok r /\ _ => set (r := x) end. exists r. split; [reflexivity|].
  assert (Wr : wf_gauss r).
  { split; [exact Dn|]. split; [left; discriminate|]. split.
    - intros p Hp. injection Hp as <-. cbn. now repeat split.
    - intros p Hp. discriminate. }
  split; [exact Wr|]. split; [reflexivity|]. intros e l1 l2 L1 L2.
  rewrite (lp_canon f1 _ _ _ _ e W1 E1) in L1. rewrite (lp_canon f2 _ _ _ _ e W2 E2) in L2.
  match type of L1 with Ok ?x = _ => assert (l1 = x) as -> by congruence end.
  match type of L2 with Ok ?x = _ => assert (l2 = x) as -> by congruence end.
  rewrite (lp_canon r r M0 t0 (vop g1 g2) e Wr eq_refl). rewrite Hvop. f_equal. f_equal. f_equal.
  change (ga_vars r) with nv.
  apply (can_form_op (ga_vars f1) (ga_vars f2)); auto.
  - intros v. apply new_vars_In.
  - intros u v Hu Hv. destruct (pos_nth nv u Hu) as (Hi & Hiu). destruct (pos_nth nv v Hv) as (Hj & Hjv).
    rewrite <- Hiu at 1. rewrite <- Hjv at 1. rewrite nth_name_entry by assumption. unfold M0. cbn [ent].
    now rewrite Hiu, Hjv.
  - intros u Hu. destruct (pos_nth nv u Hu) as (Hi & Hiu). rewrite <- Hiu at 1. rewrite nth_name_coord by assumption.
    unfold t0. cbn [ent]. now rewrite Hiu.
Qed.
Lemma g_multiply_spec f1 f2 : wf_gauss f1 -> wf_gauss f2 ->
  exists r, g_multiply f1 f2 = Ok r /\ wf_gauss r /\ ga_vars r = new_vars (ga_vars f1) (ga_vars f2) /\
    forall e l1 l2, log_potential f1 (map e (ga_vars f1)) None = Ok l1 ->
                    log_potential f2 (map e (ga_vars f2)) None = Ok l2 ->
                    log_potential r (map e (ga_vars r)) None = Ok (vadd l1 l2).
Proof. apply absorb_spec; intros; try ring. apply vadd_4. Qed.
Lemma g_divide_spec f1 f2 : wf_gauss f1 -> wf_gauss f2 ->
  exists r, g_divide f1 f2 = Ok r /\ wf_gauss r /\ ga_vars r = new_vars (ga_vars f1) (ga_vars f2) /\
    forall e l1 l2, log_potential f1 (map e (ga_vars f1)) None = Ok l1 ->
                    log_potential f2 (map e (ga_vars f2)) None = Ok l2 ->
                    log_potential r (map e (ga_vars r)) None = Ok (vsub l1 l2).
Proof. apply absorb_spec; intros; try ring. apply vsub_4. Qed.
