(** Examples and counterexamples for factorised dense tables. *)
From Coq Require Import ZArith Lia Lra.
From Verif Require Export FactTabFails.
From Verif Require Import DenseGraphEx DenseProofs BaseFacts GaussModel.
Local Open Scope string_scope.
Local Open Scope nat_scope.
Local Open Scope list_scope.

Definition two (_ : string) : nat := 2.
Definition nm2 : string -> list aname := std_names two.
(** A table of binary variables given by its log values. *)
Definition tv (vars : list string) (w : list nat -> val) : dense :=
  {| dvars := vars; dtens := {| tshape := map two vars; tget := w |}; dcards := map two vars; dnames := names_default vars (map two vars) |}.
Lemma tv_tab vars w : NoDup vars -> (forall k, is_lp (w k)) -> tab two nm2 (tv vars w).
Proof.
  intros Hn Hw. destruct (dfn_good two vars (fun _ => 0%R) Hn (fun v _ => le_n 2)) as [[[W1 W2 W3 W4 W5] _] G2 _ G4 _].
  split; [split; [split; assumption|]|exact G2|exact G4]. intros e _. apply Hw.
Qed.
Definition cst (vars : list string) (c : R) : dense := tv vars (fun _ => Fin c).
Lemma cst_tab vars c : NoDup vars -> tab two nm2 (cst vars c).
Proof. intros H. apply tv_tab; [exact H|]. intros k. exact I. Qed.
Lemma cst_pot vars c e : dpot (cst vars c) e = exp c. Proof. reflexivity. Qed.
Lemma cst_nz vars c e : dpot (cst vars c) e <> 0%R. Proof. rewrite cst_pot. pose proof (exp_pos c). lra. Qed.
(** A table with a zero entry, over x and y. *)
Definition xy0 : dense := tv ["x"; "y"] (fun k => match k with [0; 0] => NInf | [0; 1] => Fin 2 | _ => Fin 1 end).
Lemma xy0_tab : tab two nm2 xy0.
Proof. apply tv_tab; [nodups|]. intros k. destruct k as [|[|[|i]] [|[|[|j]] [|]]]; exact I. Qed.
Ltac tabs := first [exact xy0_tab | apply cst_tab; nodups].
Definition ex_ft : ft := {| ft_vars := ["x"; "y"; "z"]; ft_factors := [xy0; cst ["y"; "z"] 1] |}.
Lemma ex_all f : In f (ft_factors ex_ft) -> tab two nm2 f.
Proof. intros [<-|[<-|[]]]; tabs. Qed.
Lemma ex_made : exists a, mk_ft id_oracle [xy0; cst ["y"; "z"] 1] = Ok a /\ (forall f, In f (ft_factors a) -> tab two nm2 f) /\ ft_factors a <> [] /\ 1 < length (ft_factors a).
Proof.
  rewrite (mk_ft_ok two nm2) by exact ex_all. eexists. split; [reflexivity|]. cbn [ft_factors].
  split; [apply cps_all; exact ex_all|]. split; [discriminate|cbn; lia].
Qed.

(** division *)
Lemma not_close_scope g f v : (In v (dvars g) /\ ~ In v (dvars f)) \/ (~ In v (dvars g) /\ In v (dvars f)) -> ~ tclose g f.
Proof. intros H [C _]. pose proof (C v). tauto. Qed.
Lemma div_hyps : (forall f, In f (ft_factors ex_ft) -> tab two nm2 f) /\ tab two nm2 (cst ["x"] 3) /\
  (forall e, d_in_range (cst ["x"] 3) e -> dpot (cst ["x"] 3) e <> 0%R) /\ (forall g, In g (ft_factors ex_ft) -> ~ tclose g (cst ["x"] 3)) /\
  exists g, In g (ft_factors ex_ft) /\ incl (dvars (cst ["x"] 3)) (dvars g).
Proof.
  split; [exact ex_all|]. split; [tabs|]. split; [intros e _; apply cst_nz|]. split.
  - intros g [<-|[<-|[]]]; apply (not_close_scope _ _ "y"); left; (split; [cbn; tauto|]); intros [E|[]]; discriminate E.
  - exists xy0. split; [now left|]. intros v [<-|[]]. now left.
Qed.
Definition pair_ft (f g : dense) : ft := {| ft_vars := ["x"; "y"]; ft_factors := [f; g] |}.
Lemma close_cst vars c d : (Rabs (c - d) <= 1 / 10000 + 1 / 10000 * Rabs d)%R -> tclose (cst vars c) (cst vars d).
Proof. intros H. split; [reflexivity|]. intros e _. cbn. unfold Rle_b, default_tol. destruct (Rle_dec _ _); [reflexivity|contradiction]. Qed.
Lemma not_close_cst vars c d : (1 / 10000 + 1 / 10000 * Rabs d < Rabs (c - d))%R -> NoDup vars -> ~ tclose (cst vars c) (cst vars d).
Proof.
  intros H Hn [_ C]. specialize (C (fun _ => 0)). cbn in C. unfold Rle_b, default_tol in C. destruct (Rle_dec _ _) as [HR|]; [lra|].
  assert (false = true); [|discriminate]. apply C. apply (tb_range two nm2); [now apply cst_tab|]. intros v _. unfold two. lia.
Qed.
Definition tiny : R := (1 / 20000)%R.
Lemma tiny_close vars : tclose (cst vars 0) (cst vars tiny).
Proof.
  apply close_cst. unfold tiny. rewrite Rabs_left by lra. pose proof (Rabs_pos (1 / 20000)). lra.
Qed.
Lemma pair_all x y : tab two nm2 x -> tab two nm2 y -> forall f, In f (ft_factors (pair_ft x y)) -> tab two nm2 f.
Proof. intros X Y f [<-|[<-|[]]]; assumption. Qed.
Lemma divide_close_refuted o : exists a f r, (forall g, In g (ft_factors a) -> tab two nm2 g) /\ tab two nm2 f /\
  (forall e, dpot f e <> 0%R) /\ ft_divide o a f = Ok r /\ exists e, trange (ft_factors a) e /\ tprod (ft_factors r) e <> (tprod (ft_factors a) e / dpot f e)%R.
Proof.
  assert (T : forall f, In f (ft_factors (pair_ft (cst ["x"] 0) (cst ["y"] 1))) -> tab two nm2 f) by (apply pair_all; tabs).
  assert (Tf : tab two nm2 (cst ["x"] tiny)) by tabs.
  destruct (ft_divide_removal two nm2 o (pair_ft (cst ["x"] 0) (cst ["y"] 1)) (cst ["x"] tiny) [] (cst ["x"] 0) [cst ["y"] 1] T Tf eq_refl)
    as (r & Er & _ & _ & _ & P); [cbn; lia|intros h []|apply tiny_close|].
  exists (pair_ft (cst ["x"] 0) (cst ["y"] 1)), (cst ["x"] tiny), r. split; [exact T|]. split; [exact Tf|]. split; [intros e; apply cst_nz|]. split; [exact Er|].
  exists (fun _ => 0). split.
  - apply (tb_trange two nm2); [exact T|]. intros v _. unfold two. lia.
  - intros C. pose proof (P (fun _ => 0)) as P0. rewrite cst_pot, exp_0, Rmult_1_l in P0. rewrite P0, cst_pot in C.
    assert (Z : tprod (ft_factors r) (fun _ => 0) <> 0%R).
    { rewrite <- P0. unfold tprod. cbn [pair_ft ft_factors map fold_right]. rewrite !cst_pot. pose proof (exp_pos 0). pose proof (exp_pos 1). nra. }
    assert (E1 : exp tiny = 1%R). { pose proof (exp_pos tiny). apply (Rmult_eq_reg_l (tprod (ft_factors r) (fun _ => 0))); [|exact Z]. rewrite C at 1. field. lra. }
    rewrite <- exp_0 in E1. apply exp_inv in E1. unfold tiny in E1. lra.
Qed.
Lemma removal_hyps : (forall f, In f (ft_factors (pair_ft (cst ["x"] 0) (cst ["y"] 1))) -> tab two nm2 f) /\ tab two nm2 (cst ["x"] tiny) /\
  ft_factors (pair_ft (cst ["x"] 0) (cst ["y"] 1)) = [] ++ cst ["x"] 0 :: [cst ["y"] 1] /\ 1 < length (ft_factors (pair_ft (cst ["x"] 0) (cst ["y"] 1))) /\
  (forall h, In h [] -> ~ tclose h (cst ["x"] tiny)) /\ tclose (cst ["x"] 0) (cst ["x"] tiny).
Proof. split; [apply pair_all; tabs|]. split; [tabs|]. split; [reflexivity|]. split; [cbn; lia|]. split; [intros h []|apply tiny_close]. Qed.
(** No single factor covers the scope of the divisor, though the product does. *)
Lemma divide_split_refuted o : exists a f j q, (forall g, In g (ft_factors a) -> tab two nm2 g) /\ tab two nm2 f /\ (forall e, dpot f e <> 0%R) /\
  ft_joint a = Ok j /\ d_divide j f = Ok q /\ ft_divide o a f = Err PyException.
Proof.
  assert (T : forall f, In f (ft_factors (pair_ft (cst ["x"] 0) (cst ["y"] 1))) -> tab two nm2 f) by (apply pair_all; tabs).
  assert (Tf : tab two nm2 (cst ["x"; "y"] 1)) by tabs.
  destruct (ft_joint_spec two nm2 (pair_ft (cst ["x"] 0) (cst ["y"] 1))) as (j & Ej & Tj & Vj & _); [discriminate|exact T|].
  destruct (tb_div two nm2 j (cst ["x"; "y"] 1) Tj Tf) as (q & Eq & _).
  { intros v [<-|[<-|[]]]; apply Vj; [exists (cst ["x"] 0)|exists (cst ["y"] 1)]; cbn; tauto. }
  { intros e _. apply cst_nz. }
  exists (pair_ft (cst ["x"] 0) (cst ["y"] 1)), (cst ["x"; "y"] 1), j, q. split; [exact T|]. split; [exact Tf|]. split; [intros e; apply cst_nz|].
  split; [exact Ej|]. split; [exact Eq|]. apply (ft_divide_disjoint two nm2); [exact T|exact Tf|].
  intros g [<-|[<-|[]]] C; [specialize (C "y")|specialize (C "x")]; cbn in C; (destruct C as [E|[]]; [tauto|discriminate E]).
Qed.
Lemma disjoint_hyps : (forall f, In f (ft_factors ex_ft) -> tab two nm2 f) /\ tab two nm2 (cst ["x"; "z"] 1) /\
  forall g, In g (ft_factors ex_ft) -> ~ incl (dvars (cst ["x"; "z"] 1)) (dvars g).
Proof.
  split; [exact ex_all|]. split; [tabs|]. intros g [<-|[<-|[]]] C; [specialize (C "z")|specialize (C "x")]; cbn in C;
  (destruct C as [E|[E|[]]]; [tauto|discriminate E|discriminate E]).
Qed.
(** The variables of the object are not those of its factors any more. *)
Lemma multiply_scope_refuted o : oracle_ok o -> exists a f r, (forall g, In g (ft_factors a) -> tab two nm2 g) /\ tab two nm2 f /\
  ft_multiply o a f = Ok r /\ tscope (ft_factors r) "z" /\ ~ In "z" (ft_vars r).
Proof.
  intros Ho. assert (T : forall f, In f (ft_factors (pair_ft (cst ["x"] 0) (cst ["y"] 1))) -> tab two nm2 f) by (apply pair_all; tabs).
  assert (Tf : tab two nm2 (cst ["z"] 1)) by tabs.
  destruct (ft_multiply_spec two nm2 o _ _ T Tf) as (r & Er & _ & _ & Vr & Sr & _).
  exists (pair_ft (cst ["x"] 0) (cst ["y"] 1)), (cst ["z"] 1), r. split; [exact T|]. split; [exact Tf|]. split; [exact Er|].
  split; [apply Sr; right; now left|]. rewrite Vr. intros C.
  apply so_In in C; [|exact Ho|apply NoDup_dedup]. cbn in C. destruct C as [E|[E|[]]]; discriminate E.
Qed.

(** marginals and evidence *)
Lemma marginal_refuted o : oracle_ok o -> exists a j m, (forall g, In g (ft_factors a) -> tab two nm2 g) /\ ft_joint a = Ok j /\
  d_marginalize o j ["x"] true = Ok m /\ forall r, ft_marginalize o a ["x"] true <> Ok r.
Proof.
  intros Ho. assert (T : forall f, In f (ft_factors (pair_ft (cst ["x"] 0) (cst ["y"] 1))) -> tab two nm2 f) by (apply pair_all; tabs).
  exists (pair_ft (cst ["x"] 0) (cst ["y"] 1)). eexists _, _. split; [exact T|]. split; [reflexivity|]. split; [reflexivity|].
  intros r. apply ft_marginalize_fails.
Qed.
Lemma reduce_refuted : exists a j m, (forall g, In g (ft_factors a) -> tab two nm2 g) /\ ft_joint a = Ok j /\
  d_reduce j ["x"] [1%Z] = Ok m /\ ft_reduce a ["x"] [1%Z] = Err AttributeError.
Proof.
  assert (T : forall f, In f (ft_factors (pair_ft (cst ["x"] 0) (cst ["y"] 1))) -> tab two nm2 f) by (apply pair_all; tabs).
  exists (pair_ft (cst ["x"] 0) (cst ["y"] 1)). eexists _, _. split; [exact T|]. split; [reflexivity|]. split; [reflexivity|].
  apply (ft_reduce_fails two nm2); [discriminate|exact T|nodups|reflexivity|]. intros v z [E|[]]. inversion E; subst. unfold two. cbn. lia.
Qed.
Lemma reduce_hyps : ft_factors ex_ft <> [] /\ (forall f, In f (ft_factors ex_ft) -> tab two nm2 f) /\ NoDup ["y"] /\ length [1%Z] = length ["y"] /\
  forall v z, In (v, z) (combine ["y"] [1%Z]) -> (0 <= z < Z.of_nat (two v))%Z.
Proof.
  split; [discriminate|]. split; [exact ex_all|]. split; [nodups|]. split; [reflexivity|]. intros v z [E|[]]. inversion E; subst. unfold two. cbn. lia.
Qed.

(** equality *)
Lemma cst_diff : ~ tclose (cst ["x"] 0) (cst ["x"] 1) /\ ~ tclose (cst ["x"] 1) (cst ["x"] 0).
Proof.
  split; apply not_close_cst; try nodups; [rewrite (Rabs_left (0 - 1)) by lra; rewrite (Rabs_right 1) by lra; lra|].
  rewrite (Rabs_right (1 - 0)) by lra. rewrite Rabs_R0. lra.
Qed.
Lemma eqb_close vars c : NoDup vars -> tcloseb (cst vars c) (cst vars c) = true.
Proof. intros H. apply tcloseb_iff, (tclose_refl two nm2). now apply cst_tab. Qed.
Lemma eqb_far g f : ~ tclose g f -> tcloseb g f = false.
Proof. intros H. destruct (tcloseb g f) eqn:E; [|reflexivity]. apply tcloseb_iff in E. contradiction. Qed.
Definition dupl (f g : dense) : ft := {| ft_vars := ["x"]; ft_factors := [f; g] |}.
Lemma dupl_all x y : tab two nm2 x -> tab two nm2 y -> forall f, In f (ft_factors (dupl x y)) -> tab two nm2 f.
Proof. intros X Y f [<-|[<-|[]]]; assumption. Qed.
Lemma equals_refl_refuted : exists a, (forall f, In f (ft_factors a) -> tab two nm2 f) /\ ft_equals a a = Ok false.
Proof.
  exists (dupl (cst ["x"] 0) (cst ["x"] 0)). split; [apply dupl_all; tabs|].
  rewrite (ft_equals_count two nm2); try reflexivity; try (apply dupl_all; tabs). cbn [dupl ft_factors tpairs fold_right length].
  unfold trow. cbn [filter]. rewrite eqb_close by nodups. reflexivity.
Qed.
Lemma equals_different_refuted : exists a b, (forall f, In f (ft_factors a) -> tab two nm2 f) /\ (forall f, In f (ft_factors b) -> tab two nm2 f) /\
  ft_equals a b = Ok true /\ forall e, tprod (ft_factors a) e <> tprod (ft_factors b) e.
Proof.
  destruct cst_diff as [D1 D2].
  exists (dupl (cst ["x"] 0) (cst ["x"] 1)), (dupl (cst ["x"] 0) (cst ["x"] 0)). split; [apply dupl_all; tabs|]. split; [apply dupl_all; tabs|]. split.
  - rewrite (ft_equals_count two nm2); try reflexivity; try (apply dupl_all; tabs). cbn [dupl ft_factors tpairs fold_right length].
    unfold trow. cbn [filter]. rewrite (eqb_close ["x"] 0) by nodups. rewrite (eqb_far _ _ D2). reflexivity.
  - intros e. unfold tprod. cbn [dupl ft_factors map fold_right]. rewrite !cst_pot, exp_0. pose proof (exp_ineq1 1). lra.
Qed.
Lemma refl_hyps : (forall f, In f (ft_factors (dupl (cst ["x"] 0) (cst ["x"] 1))) -> tab two nm2 f) /\
  ForallOrdPairs (fun f g => ~ tclose f g /\ ~ tclose g f) (ft_factors (dupl (cst ["x"] 0) (cst ["x"] 1))).
Proof.
  split; [apply dupl_all; tabs|]. destruct cst_diff. constructor; [constructor; [now split|constructor]|]. constructor; [constructor|constructor].
Qed.
Lemma sep_hyps : tsep_rows [cst ["x"] 0; cst ["x"] 1] [cst ["x"] 1; cst ["x"] 0] /\ tsep_cols [cst ["x"] 0; cst ["x"] 1] [cst ["x"] 1; cst ["x"] 0].
Proof.
  destruct cst_diff as [D1 D2]. split; intros f [<-|[<-|[]]]; (constructor; [constructor; [|constructor]|constructor; [constructor|constructor]]); tauto.
Qed.
Lemma kl_hyps : ft_factors ex_ft <> [] /\ (forall f, In f (ft_factors ex_ft) -> tab two nm2 f) /\ tab two nm2 (cst ["z"; "x"; "y"] 1) /\
  (forall v, tscope (ft_factors ex_ft) v <-> In v (dvars (cst ["z"; "x"; "y"] 1))) /\ (0 < d_weight_of (cst ["z"; "x"; "y"] 1))%R /\
  exists j, ft_joint ex_ft = Ok j /\ (0 < d_weight_of j)%R.
Proof.
  split; [discriminate|]. split; [exact ex_all|]. split; [tabs|]. split.
  { intros v. rewrite <- tscope_concat. cbn. tauto. }
  pose proof (exp_pos 1). pose proof (exp_pos 2). pose proof (exp_pos (1 + 1)). pose proof (exp_pos (2 + 1)).
  split; [cbn; rewrite ?cst_pot; cbn; lra|]. eexists. split; [reflexivity|]. cbn. lra.
Qed.
