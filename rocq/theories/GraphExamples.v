(** Concrete models used by the examples of the cluster graph properties. *)
From Verif Require Export GraphCalib SparseExamples.
Local Open Scope string_scope.
Local Open Scope nat_scope.

(** A chain of three binary tables (names chosen to stress the identifiers), a table nested in
    the first one, and one table over three variables. *)
Definition gx_ab : sparse :=
  {| svars := ["a"; "b,c"]; scards := [2; 2];
     stbl := [([0; 0], Fin 1); ([0; 1], Fin 0); ([1; 0], Fin (-2)); ([1; 1], Fin 3)]; sdef := NInf |}.
Definition gx_bc : sparse :=
  {| svars := ["b,c"; "1#c"]; scards := [2; 2];
     stbl := [([0; 0], Fin 2); ([0; 1], Fin 0); ([1; 0], Fin (1/2)); ([1; 1], Fin 0)]; sdef := NInf |}.
Definition gx_cd : sparse :=
  {| svars := ["1#c"; "d"]; scards := [2; 2];
     stbl := [([0; 0], Fin 0); ([0; 1], Fin (-1)); ([1; 0], Fin 4); ([1; 1], Fin (1/3))]; sdef := NInf |}.
Definition gx_a : sparse := {| svars := ["a"]; scards := [2]; stbl := [([0], Fin 1); ([1], Fin 5)]; sdef := NInf |}.
Definition gx_abc : sparse :=
  {| svars := ["a"; "b,c"; "1#c"]; scards := [2; 2; 2];
     stbl := [([0; 0; 0], Fin 1); ([1; 1; 1], Fin 0)]; sdef := NInf |}.
Definition two : string -> nat := fun _ => 2.
Definition gx_chain : list sparse := [gx_ab; gx_bc; gx_cd].

Ltac solve_sgood :=
  split; [solve_wf|reflexivity|];
  let v := fresh in let c := fresh in let H := fresh in
  intros v c H; unfold has_card in H; cbn in H; unfold two; intuition congruence.
Lemma gx_ab_good : sgood two gx_ab. Proof. solve_sgood. Qed.
Lemma gx_bc_good : sgood two gx_bc. Proof. solve_sgood. Qed.
Lemma gx_cd_good : sgood two gx_cd. Proof. solve_sgood. Qed.
Lemma gx_a_good : sgood two gx_a. Proof. solve_sgood. Qed.
Lemma gx_abc_good : sgood two gx_abc. Proof. solve_sgood. Qed.
Lemma gx_chain_good : forall f, In f (gx_a :: gx_abc :: gx_chain) -> sgood two f.
Proof.
  intros f [<-|[<-|[<-|[<-|[<-|[]]]]]];
    auto using gx_ab_good, gx_bc_good, gx_cd_good, gx_a_good, gx_abc_good.
Qed.
Definition zero_env : env := fun _ => 0.
Lemma gx_pos : forall f, In f (gx_a :: gx_abc :: gx_chain) -> spot f zero_env <> 0%R.
Proof.
  intros f H. assert (G : forall x, pot (Fin x) <> 0%R) by (intros x; cbn; pose proof (exp_pos x); lra).
  repeat (destruct H as [<-|H]; [cbn; apply G|]). destruct H.
Qed.
(** Observing a = 0 as ordinary evidence and d = 0 as special evidence. *)
Definition gx_ev : option (dict string nat) := Some [("a", 0); ("zzz", 7)].
Definition gx_special : dict string nat := [("d", 0)].
Definition gx_env : env := fun v => if string_dec v "zzz" then 7 else 0.
Lemma gx_env_ev : agrees_opt gx_ev gx_env.
Proof. intros v x H. apply dget_In in H. cbn in H. repeat (destruct H as [H|H]; [inversion H; reflexivity|]). destruct H. Qed.
Lemma gx_env_special : agrees gx_special gx_env.
Proof. intros v x H. apply dget_In in H. cbn in H. repeat (destruct H as [H|H]; [inversion H; reflexivity|]). destruct H. Qed.
Lemma gx_positive : has_positive spot (gx_a :: gx_chain) gx_ev gx_special gx_env.
Proof.
  split; [exact gx_env_ev|]. split; [exact gx_env_special|]. intros f H.
  assert (G : forall x, pot (Fin x) <> 0%R) by (intros x; cbn; pose proof (exp_pos x); lra).
  repeat (destruct H as [<-|H]; [cbn; apply G|]). destruct H.
Qed.
Lemma gx_built : exists g, mk_graph (sparse_ops rev_oracle) rev_oracle (gx_a :: gx_chain) gx_ev gx_special = Ok g.
Proof.
  apply (mk_graph_some (sparse_ops rev_oracle) two (sgood two) spot (sparse_lawful two rev_oracle rev_oracle_ok)
          rev_oracle _ gx_ev gx_special gx_env rev_oracle_ok); [|exact gx_positive].
  intros f H. apply gx_chain_good. cbn in *. tauto.
Qed.

(** [ab, a, abc]: the first table absorbs the second and is then no longer available. *)
Lemma nested_refuted : exists fs final a b, (forall f, In f fs -> sgood two f) /\
  (forall o, oracle_ok o -> exists final', absorb_subsets (sparse_ops o) fs = Ok final') /\
  absorb_subsets (sparse_ops id_oracle) fs = Ok final /\ In a final /\ In b final /\
  strict_in (svars a) (svars b).
Proof.
  exists [gx_ab; gx_a; gx_abc].
  assert (G : forall f, In f [gx_ab; gx_a; gx_abc] -> sgood two f).
  { intros f H. apply gx_chain_good. cbn in *. tauto. }
  eexists _, _, _. split; [exact G|]. split.
  { intros o Ho. exact (absorb_succeeds (sparse_ops o) two (sgood two) spot (sparse_lawful two o Ho) _ G). }
  split; [cbv -[Rplus IZR Rdiv]; reflexivity|]. split; [left; reflexivity|]. split; [right; left; reflexivity|].
  split; [intros v H; cbn in *; tauto|]. intros C. specialize (C "1#c"). cbn in C.
  destruct C as [C|[C|[]]]; [tauto|discriminate|discriminate].
Qed.
