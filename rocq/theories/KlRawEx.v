(** Examples for the divergence from a factor that is not normalised. *)
From Coq Require Import String List Reals Lra Permutation.
Import ListNotations.
From Verif Require Import KlRaw SparseExamples MxSmall.
Local Open Scope string_scope.
Local Open Scope nat_scope.
Local Open Scope list_scope.

Definition kr_p : sparse := {| svars := ["a"]; scards := [1]; stbl := [([0], Fin 0)]; sdef := NInf |}.
Definition kr_q : sparse := {| svars := ["a"]; scards := [1]; stbl := [([0], Fin 1)]; sdef := NInf |}.
Lemma kr_p_wf : wf_sparse kr_p. Proof. solve_wf. Qed.
Lemma kr_q_wf : wf_sparse kr_q. Proof. solve_wf. Qed.
Lemma kr_weight : weight_of kr_p = 1%R.
Proof. rewrite (weight_by_table _ kr_p_wf eq_refl). unfold Rsum. cbn. rewrite exp_0. ring. Qed.
Lemma kr_ex : oracle_ok id_oracle /\ wf_sparse kr_p /\ wf_sparse kr_q /\ zero_default kr_p /\ zero_default kr_q /\
  Permutation (svars kr_p) (svars kr_q) /\ cards_agree kr_p kr_q /\ svars kr_p <> [] /\ (0 < weight_of kr_p)%R /\
  ~ (exists e, in_range kr_p e /\ 0 < spot kr_p e /\ spot kr_q e = 0)%R /\ s_kl_divergence id_oracle kr_p kr_q false = Err ValueError.
Proof.
  assert (C : cards_agree kr_p kr_q) by solve_agree.
  assert (W : (0 < weight_of kr_p)%R) by (rewrite kr_weight; lra).
  assert (R0' : forall e, in_range kr_p e -> e "a" = 0).
  { intros e H. specialize (H "a" 1). assert (e "a" < 1); [|Lia.lia]. apply H. unfold has_card. cbn. now left. }
  assert (N : ~ (exists e, in_range kr_p e /\ 0 < spot kr_p e /\ spot kr_q e = 0)%R).
  { intros (e & H & _ & Z). apply R0' in H. unfold spot, sval in Z. cbn [kr_q svars stbl sdef map] in Z. rewrite H in Z. cbn in Z. pose proof (exp_pos 1). lra. }
  do 10 (split; [solve [assumption|exact id_oracle_ok|exact kr_p_wf|exact kr_q_wf|reflexivity|apply Permutation_refl|discriminate]|]).
  destruct (kl_raw_spec id_oracle kr_p kr_q id_oracle_ok kr_p_wf kr_q_wf eq_refl eq_refl (Permutation_refl _) C) as [_ K]; [discriminate|exact W|].
  destruct (K N) as (_ & _ & E). apply E. rewrite kr_weight.
  cbn [kr_p svars sum_over]. change (card_of {| svars := ["a"]; scards := [1]; stbl := [([0], Fin 0)]; sdef := NInf |} "a") with 1.
  cbn [seq map]. unfold Rsum. cbn [fold_right]. unfold spot, sval. cbn. rewrite exp_0. unfold kl_term.
  destruct (Req_EM_T (1 / 1) 0) as [Z|Z]; [exfalso; lra|].
  replace (1 / 1 / exp 1)%R with (exp (- (1)))%R by (rewrite exp_Ropp; field; apply Rgt_not_eq, exp_pos). rewrite ln_exp. lra.
Qed.
Lemma kr_cov_ex : shaped 1 (Mat 1 1 (fun _ _ => (-1)%R), Mat 1 1 (fun _ _ => 0%R), Fin 0) /\ (mdet (Mat 1 1 (fun _ _ => (-1)%R)) < 0)%R /\ mdet (Mat 1 1 (fun _ _ => 0%R)) = 0%R.
Proof. split; [repeat split|]. rewrite !mdet_1 by reflexivity. cbn [ent]. split; [lra|reflexivity]. Qed.
