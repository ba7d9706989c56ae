(** Examples and counterexamples for the data frames and the printed tables. *)
From Coq Require Import Sorted.
From Verif Require Export ShowThm.
From Verif Require Import DenseExamples GraphModel.
Local Open Scope nat_scope.
Local Open Scope string_scope.
Local Open Scope list_scope.

(** Three names, two of them the same, for a variable with two values. *)
Definition twice_names : list (list aname) := [[AStr "x"; AStr "x"; AStr "y"]].
Definition twice_tens : tensor val := {| tshape := [2]; tget := fun k => if eqb k [0] then Fin 1 else Fin 2 |}.
Definition twice : dense := {| dvars := ["a"]; dtens := twice_tens; dcards := [2]; dnames := [("a", [AStr "x"; AStr "x"; AStr "y"])] |}.
Lemma twice_made : mk_dense ["a"] None twice_tens (Some twice_names) = Ok twice.
Proof. reflexivity. Qed.
Lemma twice_wf : wf_dense twice.
Proof.
  split; [split|].
  - repeat (constructor; [cbn; intuition congruence|]); constructor.
  - reflexivity.
  - reflexivity.
  - reflexivity.
  - intros v ns c H Hc. unfold d_has_card in Hc. cbn in Hc. destruct Hc as [E|[]]. injection E as <- <-. cbn in H. injection H as <-. reflexivity.
  - intros e _. unfold dval, twice, twice_tens. cbn [dtens tget dvars]. destruct (eqb _ _); exact I.
Qed.
Lemma names_repeat : exists vars t names f fr, mk_dense vars None t (Some names) = Ok f /\ wf_dense f /\ d_get_df f true = Ok fr /\ ~ NoDup (map (@removelast cell) (fr_rows fr)).
Proof.
  do 5 eexists. split; [exact twice_made|]. split; [exact twice_wf|]. split; [reflexivity|]. cbn [fr_rows map removelast]. intros N. inversion N as [|? ? H _]; subst. apply H. now left.
Qed.
Definition probd : dense := dtab ["prob"] [2] [([0], Fin 1); ([1], Fin 2)].
Lemma columns_repeat : exists f fr, wf_dense f /\ d_get_df f false = Ok fr /\ ~ NoDup (fr_cols fr).
Proof.
  exists probd. eexists. split; [solve_dwf|]. split; [reflexivity|]. cbn [fr_cols]. intros N. inversion N as [|? ? H _]; subst. apply H. now left.
Qed.
Lemma ed_ab_names v ns : dget (dnames ed_ab) v = Some ns -> NoDup ns.
Proof.
  intros H. apply dget_In in H. cbn in H. destruct H as [H|[H|[]]]; inversion H; subst; repeat (constructor; [cbn; intuition congruence|]); constructor.
Qed.

(** A variable that takes the name of a column. *)
Definition named_col (v : string) (x y : R) (i j : nat) : sparse := {| svars := [v]; scards := [2]; stbl := [([i], Fin x); ([j], Fin y)]; sdef := NInf |}.
Lemma named_col_wf v x y i j : i < 2 -> j < 2 -> i <> j -> wf_sparse (named_col v x y i j).
Proof.
  intros Hi Hj N. split; [split|]; cbn [named_col svars scards stbl].
  - constructor; [intros []|constructor].
  - reflexivity.
  - intros k z [H|[H|[]]]; inversion H; subst; (constructor; [assumption|constructor]).
  - constructor; [|constructor; [intros []|constructor]]. intros [H|[]]. injection H as H. congruence.
  - intros k z [H|[H|[]]]; inversion H; subst; exact I.
Qed.
Lemma log_prob_lost : exists f g d, wf_sparse f /\ wf_sparse g /\ svars f = svars g /\ stbl f <> [] /\ stbl f <> stbl g /\ s_to_df f = Ok d /\ s_to_df g = Ok d.
Proof.
  exists (named_col "log_prob" 1 2 0 1), (named_col "log_prob" 3 4 0 1). eexists. split; [apply named_col_wf; lia|]. split; [apply named_col_wf; lia|].
  split; [reflexivity|]. split; [discriminate|]. split; [|split; reflexivity]. cbn [named_col stbl]. intros H. injection H as H _. apply (f_equal (fun x => (x - 1)%R)) in H. lra.
Qed.
Lemma assignment_lost : exists f g d, wf_sparse f /\ wf_sparse g /\ svars f = svars g /\ stbl f <> [] /\ sval f <> sval g /\ s_to_df f = Ok d /\ s_to_df g = Ok d.
Proof.
  exists (named_col "assignment" 1 2 0 1), (named_col "assignment" 1 2 1 0). eexists. split; [apply named_col_wf; lia|]. split; [apply named_col_wf; lia|].
  split; [reflexivity|]. split; [discriminate|]. split; [|split; reflexivity]. intros H. apply (f_equal (fun h => h (fun _ => 0))) in H. cbn in H. injection H as H. lra.
Qed.
Definition no_rows : sparse := {| svars := ["a"]; scards := [2]; stbl := []; sdef := Fin 0 |}.
Lemma no_rows_wf : wf_sparse no_rows.
Proof.
  split; [split|]; cbn [no_rows svars scards stbl].
  - constructor; [intros []|constructor].
  - reflexivity.
  - intros k z [].
  - constructor.
  - intros k z [].
Qed.
Lemma empty_raises : exists f, wf_sparse f /\ mk_sparse (svars f) (scards f) (stbl f) (sdef f) = Ok f /\ s_to_df f = Err KeyError.
Proof. exists no_rows. split; [exact no_rows_wf|]. split; reflexivity. Qed.

(** Text. *)
Definition short (v : val) : string := "1.0".
Lemma short_plain v : plain (short v).
Proof. split; [discriminate|]. cbn. tauto. Qed.
Lemma wide_wf : wf_sparse wide_table.
Proof.
  split; [split|]; cbn [wide_table svars scards stbl].
  - constructor; [intros []|constructor].
  - reflexivity.
  - intros k z [H|[]]. inversion H; subst. constructor; [apply Nat.lt_succ_diag_r|constructor].
  - constructor; [intros []|constructor].
  - intros k z [H|[]]. inversion H; subst. exact I.
Qed.
Lemma wide_shifts : exists f, wf_sparse f /\ svars f <> [] /\ Forall plain (svars f) /\ forall fmt, (forall v, plain (fmt v)) ->
  exists head row, lines (s_repr fmt f) = [head; row; ""] /\ cells head = [(0, "a"); (8, "prob")] /\ cells row = [(0, "10000000"); (16, fmt (Fin 1))].
Proof.
  exists wide_table. split; [exact wide_wf|]. split; [discriminate|]. split; [repeat constructor; discriminate|]. intros fmt H.
  destruct (wide_text fmt H) as (head & row & A & B & C). exists head, row. split; [exact A|]. split; [exact B|]. rewrite C. cbn [vexp]. now rewrite exp_0.
Qed.
Definition scalar : dense := dtab [] [] [([], Fin 0)].
Lemma scalar_shifts fmt : (forall v, plain (fmt v)) -> exists f head row, wf_dense f /\
  lines (d_repr fmt f) = [head; row; ""] /\ cells head = [(8, "prob")] /\ cells row = [(0, fmt (Fin 1))].
Proof.
  intros H. exists scalar. unfold d_repr. change (dvars scalar) with (@nil string). rewrite text_lines.
  - do 2 eexists. split; [solve_dwf|]. split; [reflexivity|]. split; [reflexivity|]. change (vexp _) with (Fin (exp 0)). rewrite exp_0.
    exact (cell_last 0 (fmt (Fin 1)) (H _)).
  - constructor.
  - intros k v Hk. apply in_map_iff in Hk. destruct Hk as (i & [= <- _] & Hi). change (tindices (dtens scalar)) with [@nil nat] in Hi. destruct Hi as [<-|[]]. split; [reflexivity|apply H].
Qed.
Lemma ed_ab_plain : Forall plain (dvars ed_ab).
Proof. repeat constructor; discriminate. Qed.
Lemma ed_ab_cards v c : d_has_card ed_ab v c -> c <= 10 ^ 7.
Proof.
  intros H. unfold d_has_card in H. cbn in H. assert (L : c <= 3) by (destruct H as [H|[H|[]]]; inversion H; lia).
  eapply Nat.le_trans; [exact L|]. apply (Nat.le_trans _ (10 ^ 1)); [cbn; lia|]. apply Nat.pow_le_mono_r; lia.
Qed.
Definition es_ab : sparse := {| svars := ["a"; "temperature"]; scards := [2; 3]; stbl := [([1; 2], Fin 1); ([0; 1], NInf)]; sdef := NInf |}.
Lemma es_ab_wf : wf_sparse es_ab.
Proof.
  split; [split|]; cbn [es_ab svars scards stbl].
  - repeat (constructor; [cbn; intuition congruence|]); constructor.
  - reflexivity.
  - intros k z [H|[H|[]]]; inversion H; subst; repeat (constructor; [lia|]); constructor.
  - repeat (constructor; [cbn; intuition congruence|]); constructor.
  - intros k z [H|[H|[]]]; inversion H; subst; exact I.
Qed.
Lemma es_ab_cards v c : has_card es_ab v c -> c <= 10 ^ 7.
Proof.
  intros H. unfold has_card in H. cbn in H. assert (L : c <= 3) by (destruct H as [H|[H|[]]]; inversion H; lia).
  eapply Nat.le_trans; [exact L|]. apply (Nat.le_trans _ (10 ^ 1)); [cbn; lia|]. apply Nat.pow_le_mono_r; lia.
Qed.
Lemma es_ab_plain : Forall plain (svars es_ab).
Proof. repeat constructor; discriminate. Qed.
