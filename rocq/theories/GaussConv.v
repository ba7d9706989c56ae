(** Gaussian factors: equal messages have divergence zero, so greedy message passing stops on trees. *)
From Verif Require Export GaussTotal PosConv.
From Verif Require Import FactOps FactEq.
#[global] Set Bullet Behavior "Strict Subproofs".
Local Open Scope list_scope.
Local Open Scope R_scope.
Local Notation pos := GaussOps.pos.

(** * The canonical parameters of a Gaussian are determined by its potential. *)
Lemma qn_cross vars K u v : NoDup vars -> In u vars -> In v vars -> Rsum (map (fun w => delta u w * grad vars K (delta v) w) vars) = named_entry K vars u v.
Proof.
  intros Hd Hu Hv. rewrite (Rsum_ext _ (fun w => if string_dec u w then grad vars K (delta v) w else 0)).
  - rewrite pick by assumption. unfold grad. rewrite (Rsum_ext _ (fun w => if string_dec v w then named_entry K vars u w else 0)); [now apply pick|].
    intros w _. unfold delta. destruct (string_dec w v) as [->|N]; destruct (string_dec v _); try congruence; ring.
  - intros w _. unfold delta. destruct (string_dec w u) as [->|N]; destruct (string_dec u _); try congruence; ring.
Qed.
Lemma lnn_delta vars h v : NoDup vars -> In v vars -> lnn vars h (delta v) = named_coord h vars v.
Proof.
  intros Hd Hv. unfold lnn. rewrite (Rsum_ext _ (fun w => if string_dec v w then named_coord h vars w else 0)); [now apply pick|].
  intros w _. unfold delta. destruct (string_dec w v) as [->|N]; destruct (string_dec v _); try congruence; ring.
Qed.
Lemma params_unique vars K1 h1 g1 K2 h2 g2 : NoDup vars -> nr K1 = length vars -> nr K2 = length vars -> symm K1 -> symm K2 ->
  (forall e, can_form vars K1 h1 e + g1 = can_form vars K2 h2 e + g2) ->
  g1 = g2 /\ (forall u v, In u vars -> In v vars -> named_entry K1 vars u v = named_entry K2 vars u v) /\
  forall u, In u vars -> named_coord h1 vars u = named_coord h2 vars u.
Proof.
  intros Hd N1 N2 S1 S2 H.
  assert (Hq : forall x, qn vars K1 x = qn vars K2 x).
  { intros x. rewrite <- (curv_qn (fun e => exp (can_form vars K1 h1 e + g1)) vars K1 h1 g1 x (fun e => eq_refl)).
    apply curv_qn with (h := h2) (g := g2). intros e. now rewrite H. }
  assert (Hz : forall K h, can_form vars K h (fun _ => 0) = 0).
  { intros K h. rewrite can_form_qn, qn_zero by reflexivity. unfold lnn. rewrite Rsum_zero; [ring|]. intros; ring. }
  assert (Hg : g1 = g2) by (specialize (H (fun _ => 0)); rewrite !Hz in H; lra). split; [exact Hg|]. split.
  - intros u v Hu Hv. pose proof (qn_plus vars K1 (delta v) (delta u) S1 N1) as P1. pose proof (qn_plus vars K2 (delta v) (delta u) S2 N2) as P2.
    rewrite !(qn_cross vars _ u v Hd Hu Hv) in *. rewrite !Hq in P1. lra.
  - intros u Hu. specialize (H (delta u)). rewrite !can_form_qn, Hq, !(lnn_delta vars _ u Hd Hu) in H. lra.
Qed.

Lemma gproper_form f : gproper f -> exists f' K h g, get_can f = Ok (f', (K, h, Fin g)) /\ shaped (length (ga_vars f)) (K, h, Fin g) /\ symm K /\
  (forall e, gval f e = exp (can_form (ga_vars f) K h e + g)).
Proof. intros ((W & S & P & _) & _). now apply ggood_canon. Qed.

(** * Two factors with close canonical parameters are equal, if the first has its canonical form. *)
Lemma can_form_zero vars K h : can_form vars K h (fun _ => 0) = 0.
Proof. rewrite can_form_qn, qn_zero by reflexivity. unfold lnn. rewrite Rsum_zero; [ring|]. intros; ring. Qed.
Lemma close_functions f1 f2 K h g K2 h2 g2 : gproper f1 -> gproper f2 -> ga_can f1 = Some (K, h, Fin g) ->
  (forall v, In v (ga_vars f1) <-> In v (ga_vars f2)) -> symm K2 -> nr K2 = length (ga_vars f1) ->
  (forall e, gval f2 e = exp (can_form (ga_vars f1) K2 h2 e + g2)) -> close default_tol default_tol g g2 ->
  (forall u v, In u (ga_vars f1) -> In v (ga_vars f1) -> close default_tol default_tol (named_entry K (ga_vars f1) u v) (named_entry K2 (ga_vars f1) u v)) ->
  (forall u, In u (ga_vars f1) -> close default_tol default_tol (named_coord h (ga_vars f1) u) (named_coord h2 (ga_vars f1) u)) ->
  exists f2', g_equals f1 f2 default_tol default_tol = Ok (true, f1, f2').
Proof.
  intros P1 P2 Ec Hv Y2 N2 G2' Cg CK Ch. destruct (gproper_form f1 P1) as (f1x & K0 & h0 & g0 & E1 & Sh1 & Y1 & G1).
  pose proof (get_can_some f1 K h _ Ec) as E0. rewrite E0 in E1. injection E1 as <- <- <- <-. clear E0.
  pose proof P1 as ((W1 & _) & V1). pose proof P2 as (G2 & V2). pose proof G2 as (W2 & _). pose proof W1 as (D1 & _). pose proof W2 as (D2 & _).
  pose proof (good_regular f2 G2) as R2. assert (HP : Permutation (ga_vars f1) (ga_vars f2)) by now apply NoDup_Permutation.
  unfold g_equals. rewrite (proj2 (seteqb_iff _ _) Hv). cbn [negb].
  destruct (g_copy_ok f2 W2) as (c & Ecp & Vc & _ & _ & Wc). rewrite Ecp. cbn [bind].
  assert (exists c', (if eqb (ga_vars f1) (ga_vars f2) then Ok c else g_reorder c (ga_vars f1)) = Ok c') as (c' & ->).
  { destruct (eqb (ga_vars f1) (ga_vars f2)); [eauto|]. rewrite <- Vc in HP. destruct (g_reorder_spec c (ga_vars f1) Wc HP) as (r & Er & _). eauto. }
  cbn [bind]. rewrite V1, Bool.andb_false_r, Ec.
  destruct (get_can_reg f2 W2 R2) as (fa & [[Ka ha] ga] & Ea & Sa & Va & Ra & Ca & Sha). unfold canform_equals. rewrite Ea. cbn [bind fst snd].
  pose proof Sa as (Wa & _). assert (HPa : Permutation (ga_vars f1) (ga_vars fa)) by now rewrite Va.
  destruct (g_reorder_spec fa (ga_vars f1) Wa HPa) as (fb & Eb & _). 
  destruct (reorder_same fa _ fb Wa HPa Eb) as (Sb & Vb). pose proof (regular_reorder fa _ fb Wa Ra HPa Eb) as Rb. pose proof Sb as (Wb & _).
  assert (Sab : same_fun f2 fb) by exact (same_fun_trans _ _ _ Sa Sb).
  assert (Pb : gproper fb) by exact (same_fun_good f2 fb G2 V2 Sab Rb).
  destruct (gproper_form fb Pb) as (fc & Kc & hc & gc & Ecc & Shc & Yc & Gc). rewrite Vb in Shc, Gc.
  destruct (gproper_form f2 P2) as (fd & Kd & hd & gd & Ed & Shd & Yd & Gd). rewrite Ea in Ed. injection Ed as <- <- <- ->.
  assert (Gb : forall e, gval fb e = gval f2 e) by (intros e; destruct Sab as (_ & _ & _ & L); unfold gval, lp; now rewrite L).
  destruct Sh1 as (A1 & A2 & A3 & A4). destruct Shc as (B1 & B2 & B3 & B4).
  destruct (params_unique (ga_vars f1) K2 h2 g2 Kc hc gc D1 N2 B1 Y2 Yc) as (Eg & EK & Eh).
  { intros e. apply exp_inv. now rewrite <- G2', <- Gc, Gb. }
  assert (Egd : gd = g2).
  { pose proof (G2' (fun _ => 0)) as H0. rewrite Gd in H0. apply exp_inv in H0. rewrite !can_form_zero in H0. lra. }
  replace (visclose (Fin g) (Fin gd) default_tol default_tol) with true.
  2: { symmetry. rewrite Egd. cbn [visclose]. apply Rle_b_true. exact Cg. }
  cbn [negb]. rewrite Eb. cbn [bind]. rewrite Ecc. cbn [bind fst snd].
  destruct (allclose_iff h hc default_tol default_tol) as (b1 & -> & H1); [congruence|congruence|]. cbn [bind].
  destruct (allclose_iff K Kc default_tol default_tol) as (b2 & -> & H2); [congruence|congruence|].
  assert (T : close_params default_tol default_tol (ga_vars f1) (ga_vars f1) (K, h, Fin g) (Kc, hc, Fin gc)).
  { split; cbn [fst snd]; [intros u v Hu Hv'; rewrite <- (EK u v Hu Hv'); now apply CK|intros u Hu; rewrite <- (Eh u Hu); now apply Ch]. }
  apply close_by_pos in T; [|exact D1|now repeat split|now repeat split]. destruct T as (T1 & T2). cbn [fst snd] in T1, T2.
  rewrite (proj2 H1 T1). cbn [negb bind]. rewrite (proj2 H2 T2). cbn [fst snd]. eauto.
Qed.
Lemma equal_functions f1 f2 : gproper f1 -> gproper f2 -> ga_can f1 <> None -> (forall v, In v (ga_vars f1) <-> In v (ga_vars f2)) ->
  (forall e, gval f1 e = gval f2 e) -> exists f2', g_equals f1 f2 default_tol default_tol = Ok (true, f1, f2').
Proof.
  intros P1 P2 N1 Hv He. destruct (gproper_form f1 P1) as (f1x & K & h & g & E1 & Sh1 & Y1 & G1).
  destruct (ga_can f1) as [[[K0 h0] g0]|] eqn:Ec; [|congruence]. pose proof (get_can_some f1 K0 h0 g0 Ec) as E0. rewrite E0 in E1. injection E1 as <- -> -> ->.
  assert (Cl : forall x, close default_tol default_tol x x).
  { intros x. unfold close. rewrite Rminus_diag_eq, Rabs_R0 by reflexivity. assert (Pt : 0 <= default_tol) by (unfold default_tol; lra). pose proof (Rmult_le_pos _ _ Pt (Rabs_pos x)). lra. }
  apply (close_functions f1 f2 K h g K h g P1 P2 Ec Hv Y1 (proj1 Sh1)); auto. intros e. now rewrite <- He.
Qed.
(** Then their divergence is 0. *)
Lemma kl_equal o f1 f2 f2' : gproper f1 -> gproper f2 -> (forall v, In v (ga_vars f1) <-> In v (ga_vars f2)) ->
  g_equals f1 f2 default_tol default_tol = Ok (true, f1, f2') -> f_kl (gauss_ops o) f1 f2 = Ok (Fin 0).
Proof.
  intros ((Wa & _) & Va) ((Wb & _) & Vb) Hv E. pose proof Wa as (Da & _). pose proof Wb as (Db & _). cbn [gauss_ops f_kl].
  unfold g_kl_divergence. rewrite (Permutation_length (NoDup_Permutation Da Db Hv)), Nat.eqb_refl. cbn [negb]. rewrite Va, Vb. cbn [andb orb]. rewrite E. reflexivity.
Qed.

Theorem gproper_qlaws o : oracle_ok o -> qlaws (gauss_ops o) gproper (fun f => ga_can f <> None) gval.
Proof.
  intros Ho. split; cbn [gauss_ops f_vars f_marg f_kl f_cancel f_reduce].
  - intros f vs xs r s m _ Er Em. destruct (reduce_flag _ _ _ _ Er) as (Nr & _). unfold g_marginalize in Em. destruct (ga_vac r).
    + exact (proj1 (mk_can_flag _ _ _ _ _ Em)).
    + destruct (ga_can r) as [[[K h] g]|]; [|congruence]. unfold canform_marginalise in Em.
      repeat (apply bind_ok in Em; destruct Em as (? & _ & Em)). injection Em as <-. discriminate.
  - intros a b r E. exact (proj1 (absorb_flag _ _ _ _ _ E)).
  - intros a b Ga Gb Ca Hv He. destruct (equal_functions a b Ga Gb Ca Hv He) as (b' & E). exact (kl_equal o a b b' Ga Gb Hv E).
Qed.
