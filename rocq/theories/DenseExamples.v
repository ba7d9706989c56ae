(** Concrete dense factors used by the non-vacuity examples and the counterexamples. *)
From Coq Require Import ZArith Lra.
From Verif Require Export DenseProofs3 SparseExamples.
Local Open Scope string_scope.
Local Open Scope nat_scope.

(** The dense factor with the given entries, -inf elsewhere, and default names. *)
Definition dtab (vars : list string) (shape : list nat) (l : dict (list nat) val) : dense :=
  {| dvars := vars;
     dtens := {| tshape := shape; tget := fun k => match dget l k with Some v => v | None => NInf end |};
     dcards := shape; dnames := names_default vars shape |}.
Lemma dtab_wf vars shape l : NoDup vars -> length shape = length vars ->
  (forall k v, In (k, v) l -> is_lp v) -> wf_dense (dtab vars shape l).
Proof.
  intros Hn Hl Hv.
  assert (K : dkeys (map (fun vc : string * nat => (fst vc, map AInt (seq 0 (snd vc)))) (combine vars shape)) = vars).
  { unfold dkeys. rewrite map_map. cbn [fst].
    change (map (fun x : string * nat => fst x) (combine vars shape)) with (dkeys (combine vars shape)).
    now apply dkeys_combine. }
  assert (E : names_default vars shape = map (fun vc : string * nat => (fst vc, map AInt (seq 0 (snd vc)))) (combine vars shape)).
  { unfold names_default. apply dict_of_NoDup. rewrite K. exact Hn. }
  split; [split|]; cbn [dtab dvars dtens dcards dnames tshape].
  - exact Hn.
  - exact Hl.
  - reflexivity.
  - rewrite E. exact K.
  - intros v ns c H Hc. unfold d_has_card in Hc. cbn [dtab dvars dtens tshape] in Hc.
    rewrite E in H. apply dget_In in H. apply in_map_iff in H. destruct H as ([v' c'] & H & Hin). cbn [fst snd] in H.
    injection H as -> <-.
    assert (c' = c) as ->.
    { assert (Hk : NoDup (dkeys (combine vars shape))) by (rewrite dkeys_combine; auto).
      apply (In_dget _ _ _ Hk) in Hc. apply (In_dget _ _ _ Hk) in Hin. congruence. }
    rewrite dedup_NoDup_id; [rewrite map_length; apply seq_length|].
    apply NoDup_map_inj; [|apply seq_NoDup]. intros x y _ _ H. now injection H.
  - intros e _. unfold dval. cbn [dtab dvars dtens tget]. destruct (dget l (map e vars)) as [x|] eqn:G; [|exact I].
    apply dget_In in G. eauto.
Qed.
Ltac solve_dwf :=
  apply dtab_wf;
  [ repeat (constructor; [cbn; intuition congruence|]); constructor
  | reflexivity
  | let k := fresh in let v := fresh in let H := fresh in
    intros k v H; cbn in H;
    repeat (destruct H as [H|H]; [injection H as <- <-; exact I|]); destruct H ].
Ltac solve_dagree :=
  let v := fresh in let c := fresh in let c' := fresh in let H1 := fresh in let H2 := fresh in
  intros v c c' H1 H2; unfold d_has_card in H1, H2; cbn in H1, H2; intuition congruence.
Ltac solve_nagree :=
  let v := fresh in let c := fresh in let c' := fresh in let H1 := fresh in let H2 := fresh in
  intros v c c' H1 H2; apply dget_In in H1; apply dget_In in H2; cbn in H1, H2; intuition congruence.
Ltac solve_drange :=
  let v := fresh in let c := fresh in let H := fresh in
  intros v c H; unfold d_has_card in H; cbn in H;
  repeat (destruct H as [H|H]; [injection H as <- <-; cbn; lia|]); destruct H.

Definition ed_ab : dense := dtab ["a"; "b"] [2; 3]
  [([0; 0], Fin 1); ([0; 1], Fin 2); ([1; 0], Fin 0); ([1; 1], Fin (-1))].
Definition ed_ba : dense := dtab ["b"; "a"] [3; 2] [([0; 0], Fin 3); ([0; 1], Fin 5); ([1; 0], Fin (1/2)); ([1; 1], Fin 7)].
Definition ed_bc : dense := dtab ["b"; "c"] [3; 2] [([0; 0], Fin 3); ([1; 1], Fin 5); ([2; 1], Fin (1/2))].
Definition ed_a : dense := dtab ["a"] [2] [([0], Fin 3); ([1], Fin 5)].
Definition ed_b : dense := dtab ["b"] [3] [([0], Fin 3); ([1], Fin 5); ([2], Fin 1)].
Lemma ed_ab_wf : wf_dense ed_ab. Proof. solve_dwf. Qed.
Lemma ed_ba_wf : wf_dense ed_ba. Proof. solve_dwf. Qed.
Lemma ed_bc_wf : wf_dense ed_bc. Proof. solve_dwf. Qed.
Lemma ed_a_wf : wf_dense ed_a. Proof. solve_dwf. Qed.
Lemma ed_b_wf : wf_dense ed_b. Proof. solve_dwf. Qed.
Lemma ed_ab_bc_cards : d_cards_agree ed_ab ed_bc. Proof. solve_dagree. Qed.
Lemma ed_ab_bc_names : names_agree ed_ab ed_bc. Proof. solve_nagree. Qed.
Lemma ed_ab_ba_cards : d_cards_agree ed_ab ed_ba. Proof. solve_dagree. Qed.
Lemma ed_ab_ba_names : names_agree ed_ab ed_ba. Proof. solve_nagree. Qed.
Lemma ed_ab_a_cards : d_cards_agree ed_ab ed_a. Proof. solve_dagree. Qed.
Lemma ed_ab_a_names : names_agree ed_ab ed_a. Proof. solve_nagree. Qed.
Lemma ed_ab_b_cards : d_cards_agree ed_ab ed_b. Proof. solve_dagree. Qed.
Lemma ed_ab_b_names : names_agree ed_ab ed_b. Proof. solve_nagree. Qed.

Lemma d_weight_pos f e : wf_dense f -> d_in_range f e -> (0 < dpot f e)%R -> (0 < d_weight_of f)%R.
Proof.
  intros Hw He Hp. unfold d_weight_of. rewrite <- (telems_sum f pot) by auto.
  assert (Hin : In (dval f e) (telems (dtens f))).
  { unfold telems. apply in_map_iff. exists (map e (dvars f)). split; [reflexivity|]. apply d_env_index; auto. }
  destruct (Rtotal_order 0 (Rsum (map pot (telems (dtens f))))) as [H|[H|H]]; [exact H| |].
  - exfalso. symmetry in H. assert (Z := Rsum_zero_all pot _ (fun x _ => pot_nonneg x) H _ Hin). unfold dpot in Hp. lra.
  - pose proof (Rsum_nonneg pot (telems (dtens f)) (fun x _ => pot_nonneg x)). lra.
Qed.
Lemma ed_ab_pos : (0 < d_weight_of ed_ab)%R.
Proof. apply (d_weight_pos _ (fun _ => 0) ed_ab_wf); [solve_drange|]. apply exp_pos. Qed.
Lemma ed_ba_pos : (0 < d_weight_of ed_ba)%R.
Proof. apply (d_weight_pos _ (fun _ => 0) ed_ba_wf); [solve_drange|]. apply exp_pos. Qed.

(** ** C16 counterexamples *)
Definition ed_sq : dense := dtab ["a"; "b"] [2; 2] [([0; 0], Fin 0); ([0; 1], Fin 1); ([1; 0], Fin 0); ([1; 1], Fin 0)].
Lemma ed_sq_wf : wf_dense ed_sq. Proof. solve_dwf. Qed.
Definition e_b1 : env := fun v => if string_dec v "b" then 1 else 0.
Lemma d_marginal_order_refuted : exists f vrs, wf_dense f /\ NoDup vrs /\ incl vrs (dvars f) /\
  forall o, exists r e, d_marginalize o f vrs true = Ok r /\ d_in_range f e /\
    (forall v, In v (dvars f) -> In v vrs) /\ dpot r e <> dpot f e.
Proof.
  exists ed_sq, ["b"; "a"]. split; [exact ed_sq_wf|].
  split; [repeat (constructor; [cbn; intuition congruence|]); constructor|].
  split; [cbn; intros v [<-|[<-|[]]]; cbn; tauto|]. intros o.
  eexists _, e_b1. split; [reflexivity|]. split; [solve_drange|].
  split; [cbn; intros v [<-|[<-|[]]]; cbn; tauto|]. cbn. pose proof (exp_increasing 0 1). lra.
Qed.
Lemma d_marginal_order_raises : exists f vrs, wf_dense f /\ NoDup vrs /\ incl vrs (dvars f) /\
  forall o, d_marginalize o f vrs true = Err AssertionError.
Proof.
  exists ed_ab, ["b"; "a"]. split; [exact ed_ab_wf|].
  split; [repeat (constructor; [cbn; intuition congruence|]); constructor|].
  split; [cbn; intros v [<-|[<-|[]]]; cbn; tauto|]. intros o. reflexivity.
Qed.
Definition ed_one : dense := dtab ["a"; "b"] [2; 1] [([0; 0], Fin 0); ([1; 0], Fin 1)].
Lemma ed_one_wf : wf_dense ed_one. Proof. solve_dwf. Qed.
Lemma d_marginal_card_one_raises : exists f vrs, wf_dense f /\ vrs = dvars f /\
  forall o, d_marginalize o f vrs true = Err ValueError.
Proof. exists ed_one, ["a"; "b"]. split; [exact ed_one_wf|]. split; reflexivity. Qed.
Definition ed_abc : dense := dtab ["a"; "b"; "c"] [2; 3; 2] [([0; 0; 0], Fin 0); ([1; 0; 1], Fin 1)].
Lemma ed_abc_wf : wf_dense ed_abc. Proof. solve_dwf. Qed.
Lemma d_marginal_away_raises : exists f vrs o, oracle_ok o /\ wf_dense f /\ NoDup vrs /\ incl vrs (dvars f) /\
  d_marginalize o f vrs false = Err AssertionError.
Proof.
  exists ed_abc, ["c"], rev_oracle. split; [exact rev_oracle_ok|]. split; [exact ed_abc_wf|].
  split; [repeat (constructor; [cbn; intuition congruence|]); constructor|].
  split; [cbn; intros v [<-|[]]; cbn; tauto|]. reflexivity.
Qed.

(** ** C17 counterexample: -1 is not a value of the variable, but is accepted. *)
Lemma d_reduce_negative_refuted : exists f vrs values v z c, wf_dense f /\ NoDup vrs /\
  length values = length vrs /\ In (v, z) (combine vrs values) /\ d_has_card f v c /\
  ~ (0 <= z < Z.of_nat c)%Z /\ exists r, d_reduce f vrs values = Ok r.
Proof.
  exists ed_ab, ["a"], [(-1)%Z], "a", (-1)%Z, 2. split; [exact ed_ab_wf|].
  split; [repeat (constructor; [cbn; intuition congruence|]); constructor|].
  split; [reflexivity|]. split; [left; reflexivity|]. split; [left; reflexivity|].
  split; [lia|]. eexists. reflexivity.
Qed.

(** ** C19 counterexamples *)
Lemma d_cancel_nested_raises : exists a b, wf_dense a /\ wf_dense b /\ incl (dvars b) (dvars a) /\
  d_cards_agree a b /\ names_agree a b /\ (forall e, d_in_range b e -> dpot b e <> 0%R) /\
  d_cancel a b = Err ValueError.
Proof.
  exists ed_ab, ed_a. split; [exact ed_ab_wf|]. split; [exact ed_a_wf|].
  split; [cbn; intros v [<-|[]]; cbn; tauto|]. split; [exact ed_ab_a_cards|]. split; [exact ed_ab_a_names|].
  split; [|reflexivity]. intros e He. unfold dpot, dval. cbn [ed_a dtab dvars dtens tget map].
  assert (e "a" < 2) by (apply He; left; reflexivity).
  destruct (e "a") as [|[|n]]; [| |lia]; cbn; [pose proof (exp_pos 3)|pose proof (exp_pos 5)]; lra.
Qed.
Definition ed_b0 : dense := dtab ["b"] [3] [([0], Fin 3); ([1], Fin 5)].
Lemma ed_b0_wf : wf_dense ed_b0. Proof. solve_dwf. Qed.
(** The zeros of b are zeros of a: the quotient with 0/0 = 0 is defined everywhere. *)
Lemma d_cancel_nested_zero_raises : exists a b, wf_dense a /\ wf_dense b /\ incl (dvars b) (dvars a) /\
  d_cards_agree a b /\ names_agree a b /\
  (forall e, d_in_range a e -> dpot b e = 0%R -> dpot a e = 0%R) /\
  (exists s, broadcast_shapes (tshape (dtens b)) (tshape (dtens a)) = Ok s) /\
  d_cancel a b = Err IndexError.
Proof.
  exists ed_ab, ed_b0. split; [exact ed_ab_wf|]. split; [exact ed_b0_wf|].
  split; [cbn; intros v [<-|[]]; cbn; tauto|]. split; [solve_dagree|]. split; [solve_nagree|].
  split; [|split; [eexists; reflexivity|reflexivity]].
  intros e He. unfold dpot, dval. cbn [ed_ab ed_b0 dtab dvars dtens tget map].
  assert (e "b" < 3) by (apply He; right; left; reflexivity).
  assert (e "a" < 2) by (apply He; left; reflexivity).
  destruct (e "b") as [|[|[|n]]]; [| | |lia]; destruct (e "a") as [|[|m]]; try lia; cbn; try reflexivity;
    (pose proof (exp_pos 3); pose proof (exp_pos 5); lra).
Qed.
(** The same scope in another order: the result is undefined at an assignment where both
    potentials are 0. *)
Definition ed_za : dense := dtab ["a"; "b"] [2; 2] [([0; 0], Fin 0); ([1; 0], Fin 1); ([1; 1], Fin 1)].
Definition ed_zb : dense := dtab ["b"; "a"] [2; 2] [([0; 0], Fin 0); ([0; 1], Fin 1); ([1; 1], Fin 1)].
Definition ed_zc : dense := dtab ["a"; "b"] [2; 2] [([0; 0], Fin 2); ([1; 0], Fin (1/3)); ([1; 1], Fin 4)].
Lemma ed_zc_wf : wf_dense ed_zc. Proof. solve_dwf. Qed.
Lemma ed_za_wf : wf_dense ed_za. Proof. solve_dwf. Qed.
Lemma ed_zb_wf : wf_dense ed_zb. Proof. solve_dwf. Qed.
Lemma d_cancel_order_refuted : exists a b, wf_dense a /\ wf_dense b /\ Permutation (dvars a) (dvars b) /\
  d_cards_agree a b /\ names_agree a b /\
  (forall e, d_in_range a e -> dpot b e = 0%R -> dpot a e = 0%R) /\
  exists r e, d_cancel a b = Ok r /\ d_in_range a e /\ dpot a e = 0%R /\ dpot b e = 0%R /\ dval r e = NaN.
Proof.
  exists ed_za, ed_zb. split; [exact ed_za_wf|]. split; [exact ed_zb_wf|]. split; [constructor|].
  split; [solve_dagree|]. split; [solve_nagree|]. split.
  { intros e He. unfold dpot, dval. cbn [ed_za ed_zb dtab dvars dtens tget map].
    assert (e "b" < 2) by (apply He; right; left; reflexivity).
    assert (e "a" < 2) by (apply He; left; reflexivity).
    destruct (e "b") as [|[|n]]; [| |lia]; destruct (e "a") as [|[|m]]; try lia; cbn; try reflexivity;
    (pose proof (exp_pos 0); pose proof (exp_pos 1); lra). }
  eexists _, e_b1. split; [reflexivity|]. split; [solve_drange|]. repeat split.
Qed.

Lemma ed_zeros : forall e, d_in_range ed_za e -> dpot ed_zc e = 0%R -> dpot ed_za e = 0%R.
Proof.
  intros e He. unfold dpot, dval. cbn [ed_za ed_zc dtab dvars dtens tget map].
  assert (e "b" < 2) by (apply He; right; left; reflexivity).
  assert (e "a" < 2) by (apply He; left; reflexivity).
  destruct (e "b") as [|[|n]]; [| |lia]; destruct (e "a") as [|[|m]]; try lia; cbn; try reflexivity;
    (pose proof (exp_pos 2); pose proof (exp_pos (1/3)); pose proof (exp_pos 4); lra).
Qed.

(** ** C20 *)
Definition ed_x (x : R) : dense := dtab ["x"] [1] [([0], Fin x)].
Lemma ed_x_wf x : wf_dense (ed_x x). Proof. solve_dwf. Qed.
Lemma d_equals_sym_refuted : exists f g, wf_dense f /\ wf_dense g /\ d_cards_agree f g /\
  d_equals f g (1/10000) (1/10000) = Ok true /\ d_equals g f (1/10000) (1/10000) = Ok false.
Proof.
  exists (ed_x 1), (ed_x (1 + 20001/100000000)). split; [apply ed_x_wf|]. split; [apply ed_x_wf|].
  split; [solve_dagree|].
  split; cbn -[Rle_dec Rabs Rdiv]; unfold Rle_b;
    match goal with |- context [Rle_dec ?a ?b] => destruct (Rle_dec a b) as [H|H] end; try reflexivity; exfalso;
    revert H; unfold Rabs; repeat destruct Rcase_abs; lra.
Qed.
(** A variable with one value in [f] and two values in [g]. *)
Lemma d_equals_cards_ignored : exists f g v, wf_dense f /\ wf_dense g /\ d_has_card f v 1 /\ d_has_card g v 2 /\
  d_equals f g (1/10000) (1/10000) = Ok true.
Proof.
  exists (ed_x 1), (dtab ["x"] [2] [([0], Fin 1); ([1], Fin 1)]), "x".
  split; [apply ed_x_wf|]. split; [solve_dwf|]. split; [left; reflexivity|]. split; [left; reflexivity|].
  cbn -[Rle_dec Rabs Rdiv]. unfold Rle_b.
  repeat match goal with |- context [Rle_dec ?a ?b] => destruct (Rle_dec a b) as [H|H] end; try reflexivity; exfalso;
    revert H; unfold Rabs; repeat destruct Rcase_abs; lra.
Qed.
Lemma visclose_sym0 x y atol : visclose x y 0 atol = visclose y x 0 atol.
Proof.
  destruct x as [|x| |], y as [|y| |]; try reflexivity. cbn. unfold Rle_b.
  rewrite (Rabs_minus_sym x y). rewrite !Rmult_0_l. reflexivity.
Qed.
Lemma seteq_perm (l m : list string) : NoDup l -> NoDup m -> (forall v, In v l <-> In v m) -> Permutation l m.
Proof. intros. now apply NoDup_Permutation. Qed.
Lemma d_equals_reorder f g o1 o2 rtol atol : wf_dense f -> wf_dense g -> d_cards_agree f g ->
  Permutation (dvars f) o1 -> Permutation (dvars g) o2 ->
  exists f' g' b, d_reorder f o1 = Ok f' /\ d_reorder g o2 = Ok g' /\
    d_equals f g rtol atol = Ok b /\ d_equals f' g' rtol atol = Ok b.
Proof.
  intros Hf Hg Hc P1 P2.
  destruct (d_reorder_spec f o1 Hf P1) as (f' & E1 & W1 & V1 & C1 & _ & X1).
  destruct (d_reorder_spec g o2 Hg P2) as (g' & E2 & W2 & V2 & C2 & _ & X2).
  destruct (d_equals_spec f g rtol atol) as (b & Eb & Hb); auto.
  destruct (d_equals_spec f' g' rtol atol) as (b' & Eb' & Hb'); auto.
  { intros v c c' H1 H2. apply C1 in H1. apply C2 in H2. eauto. }
  exists f', g', b. do 3 (split; [assumption|]). rewrite Eb'. f_equal.
  assert (HS : forall v, (In v (dvars f') <-> In v (dvars f)) /\ (In v (dvars g') <-> In v (dvars g))).
  { intros v. rewrite V1, V2. split; split; apply Permutation_in; auto using Permutation_sym. }
  apply eq_true_iff_eq. rewrite Hb, Hb'. split; intros [A B]; (split; [intros v; destruct (HS v); specialize (A v); tauto|]);
    intros e He.
  - rewrite <- X1, <- X2. apply B. intros v c H. apply He, C1, H.
  - rewrite X1, X2. apply B. intros v c H. apply He, C1, H.
Qed.
Lemma d_equals_refl f rtol atol : wf_dense f -> (0 <= rtol)%R -> (0 <= atol)%R -> d_equals f f rtol atol = Ok true.
Proof.
  intros Hf Hr Ha. destruct (d_equals_spec f f rtol atol) as (b & -> & Hb); auto.
  { intros v c c' H1 H2. apply d_has_card_iff in H1, H2; auto. destruct H1 as [_ ->], H2 as [_ ->]. reflexivity. }
  f_equal. apply Hb. split; [reflexivity|]. intros e He. apply visclose_refl; auto. now apply (wd_vals f Hf).
Qed.
Lemma d_equals_sym_abs f g atol : wf_dense f -> wf_dense g -> d_cards_agree f g ->
  d_equals f g 0 atol = d_equals g f 0 atol.
Proof.
  intros Hf Hg Hc.
  assert (Hc' : d_cards_agree g f) by (intros v c c' A1 A2; symmetry; eapply Hc; eauto).
  destruct (d_equals_spec f g 0 atol) as (b & -> & Hb); auto.
  destruct (d_equals_spec g f 0 atol) as (b' & -> & Hb'); auto. f_equal.
  apply eq_true_iff_eq. rewrite Hb, Hb'. split; intros [A B]; (split; [intros v; symmetry; apply A|]); intros e He;
    rewrite visclose_sym0; apply B.
  - apply (d_range_same g f); auto. apply NoDup_Permutation; [apply (ws_vars g Hg)|apply (ws_vars f Hf)|]. intros v. symmetry. apply A.
  - apply (d_range_same f g); auto. apply NoDup_Permutation; [apply (ws_vars f Hf)|apply (ws_vars g Hg)|]. intros v. symmetry. apply A.
Qed.

(** ** C23 counterexample *)
Definition ex_p : dict (list nat) R := [([0], 1%R)].
Lemma sparse_dense_reduce_refuted : exists vars cards p vrs values s d,
  mk_sparse_probs vars cards p NInf = Ok s /\ mk_dense_probs vars cards p None = Ok d /\
  (forall k x, In (k, x) p -> Forall2 (fun i c => i < c) k cards /\ (0 <= x)%R) /\
  NoDup vrs /\ incl vrs vars /\
  s_reduce s vrs values = Err KeyError /\ exists r, d_reduce d vrs (map Z.of_nat values) = Ok r.
Proof.
  exists ["x"], [2], ex_p, ["x"], [1]. eexists _, _. split; [reflexivity|]. split; [reflexivity|].
  split. { intros k x [H|[]]. injection H as <- <-. split; [repeat constructor|lra]. }
  split; [repeat constructor; cbn; tauto|]. split; [intros v H; exact H|]. split; [reflexivity|].
  eexists. reflexivity.
Qed.
