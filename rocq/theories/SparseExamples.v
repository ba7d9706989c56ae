(** Concrete sparse factors used by the non-vacuity examples and the counterexamples. *)
From Verif Require Export SparseProofs3.
Local Open Scope string_scope.
Local Open Scope nat_scope.

(** Two ways Python may iterate a set. *)
Definition id_oracle : oracle := {| so := fun l => l; ko := fun l => l |}.
Definition rev_oracle : oracle := {| so := @rev string; ko := @rev (list nat) |}.
Lemma id_oracle_ok : oracle_ok id_oracle.
Proof. split; intros; apply Permutation_refl. Qed.
Lemma rev_oracle_ok : oracle_ok rev_oracle.
Proof. split; intros; apply Permutation_rev. Qed.

(** A factor over a (2 values) and b (3 values) with two stored entries, one of them a
    stored zero, and a factor over b and c. *)
Definition ex_ab : sparse :=
  {| svars := ["a"; "b"]; scards := [2; 3];
     stbl := [([0; 1], Fin 1); ([1; 2], Fin (-2)); ([1; 0], NInf)]; sdef := NInf |}.
Definition ex_bc : sparse :=
  {| svars := ["b"; "c"]; scards := [3; 2];
     stbl := [([1; 0], Fin (1/2)); ([1; 1], Fin 3); ([2; 1], Fin 0)]; sdef := NInf |}.
(** The same scope as [ex_ab] in the other order. *)
Definition ex_ba : sparse :=
  {| svars := ["b"; "a"]; scards := [3; 2];
     stbl := [([1; 0], Fin 0); ([2; 1], Fin 5)]; sdef := NInf |}.
(** Same scope as [ex_ab], finite default. *)
Definition ex_ab_fin : sparse :=
  {| svars := ["a"; "b"]; scards := [2; 3]; stbl := [([0; 1], Fin 1)]; sdef := Fin (-1) |}.
Definition ex_ba_fin : sparse :=
  {| svars := ["b"; "a"]; scards := [3; 2]; stbl := [([2; 1], Fin 5)]; sdef := Fin (-1) |}.
(** A factor over three variables. *)
Definition ex_abc : sparse :=
  {| svars := ["a"; "b"; "c"]; scards := [2; 2; 2];
     stbl := [([0; 0; 1], Fin 1); ([0; 1; 0], Fin 2); ([1; 0; 0], Fin 3)]; sdef := NInf |}.
(** An empty scope. *)
Definition ex_unit : sparse := {| svars := []; scards := []; stbl := [([], Fin 0)]; sdef := NInf |}.

Ltac solve_wf :=
  split; [split|]; cbn [svars scards stbl dkeys map fst];
  [ repeat (constructor; [cbn; intuition congruence|]); constructor
  | reflexivity
  | let k := fresh in let v := fresh in let H := fresh in
    intros k v H; cbn in H;
    repeat (destruct H as [H|H]; [injection H as <- <-; repeat constructor|]); destruct H
  | repeat (constructor; [cbn; intuition congruence|]); constructor
  | let k := fresh in let v := fresh in let H := fresh in
    intros k v H; cbn in H;
    repeat (destruct H as [H|H]; [injection H as <- <-; exact I|]); destruct H ].

Lemma ex_ab_wf : wf_sparse ex_ab. Proof. solve_wf. Qed.
Lemma ex_bc_wf : wf_sparse ex_bc. Proof. solve_wf. Qed.
Lemma ex_ba_wf : wf_sparse ex_ba. Proof. solve_wf. Qed.
Lemma ex_ab_fin_wf : wf_sparse ex_ab_fin. Proof. solve_wf. Qed.
Lemma ex_ba_fin_wf : wf_sparse ex_ba_fin. Proof. solve_wf. Qed.
Lemma ex_abc_wf : wf_sparse ex_abc. Proof. solve_wf. Qed.
Lemma ex_unit_wf : wf_sparse ex_unit. Proof. solve_wf. Qed.

Ltac solve_agree :=
  let v := fresh in let c := fresh in let c' := fresh in let H1 := fresh in let H2 := fresh in
  intros v c c' H1 H2; unfold has_card in H1, H2; cbn in H1, H2;
  intuition congruence.
Lemma ex_ab_bc_agree : cards_agree ex_ab ex_bc. Proof. solve_agree. Qed.
Lemma ex_ab_ba_agree : cards_agree ex_ab ex_ba. Proof. solve_agree. Qed.
Lemma ex_ab_ba_fin_agree : cards_agree ex_ab_fin ex_ba_fin. Proof. solve_agree. Qed.

Lemma weight_by_table f : wf_sparse f -> zero_default f -> weight_of f = Rsum (map pot (dvals (stbl f))).
Proof. intros. apply weight_total; auto. Qed.
Lemma ex_ab_pos : (0 < weight_of ex_ab)%R.
Proof.
  rewrite (weight_by_table _ ex_ab_wf eq_refl). unfold Rsum. cbn [ex_ab stbl dvals map snd pot fold_right].
  pose proof (exp_pos 1). pose proof (exp_pos (-2)). lra.
Qed.
Lemma ex_ba_pos : (0 < weight_of ex_ba)%R.
Proof.
  rewrite (weight_by_table _ ex_ba_wf eq_refl). unfold Rsum. cbn [ex_ba stbl dvals map snd pot fold_right].
  pose proof (exp_pos 0). pose proof (exp_pos 5). lra.
Qed.
Lemma ex_unit_pos : (0 < weight_of ex_unit)%R.
Proof.
  rewrite (weight_by_table _ ex_unit_wf eq_refl). unfold Rsum. cbn [ex_unit stbl dvals map snd pot fold_right].
  pose proof (exp_pos 0). lra.
Qed.

(** C04: no shared variable. *)
Definition ex_c : sparse := {| svars := ["c"]; scards := [2]; stbl := [([0], Fin 1); ([1], Fin 2)]; sdef := NInf |}.
Lemma ex_c_wf : wf_sparse ex_c. Proof. solve_wf. Qed.
Lemma ex_ab_c_agree : cards_agree ex_ab ex_c. Proof. solve_agree. Qed.

(** C06: a divisor over b that is zero where [ex_ab] is not. *)
Definition ex_b : sparse := {| svars := ["b"]; scards := [3]; stbl := [([2], Fin 1)]; sdef := NInf |}.
Lemma ex_b_wf : wf_sparse ex_b. Proof. solve_wf. Qed.
Lemma ex_ab_b_agree : cards_agree ex_ab ex_b. Proof. solve_agree. Qed.
Lemma ex_ab_b_pole : exists e, spot ex_ab e <> 0%R /\ spot ex_b e = 0%R.
Proof.
  exists (fun v => if string_dec v "b" then 1 else 0). unfold spot, sval. cbn. split; [|reflexivity].
  pose proof (exp_pos 1). lra.
Qed.

Lemma multiply_default_refuted_lemma : exists a b,
  wf_sparse a /\ wf_sparse b /\ sdef a = sdef b /\ is_lp (sdef a) /\ cards_agree a b /\
  forall o, oracle_ok o ->
  exists r e, s_multiply o a b = Ok r /\ in_range r e /\ spot r e <> (spot a e * spot b e)%R.
Proof.
  exists (one_entry "x" (Fin 1)), (one_entry "y" (Fin 1)).
  split; [apply one_entry_wf|]. split; [apply one_entry_wf|].
  split; [reflexivity|]. split; [exact I|]. split; [solve_agree|]. exact multiply_default_bad.
Qed.
Lemma divide_refuted_lemma : exists a b, wf_sparse a /\ wf_sparse b /\ sdef a = sdef b /\
  sdef a <> NaN /\ cards_agree a b /\
  forall o, oracle_ok o -> s_divide o a b = Err TypeError.
Proof.
  exists ex_ab, ex_c. split; [exact ex_ab_wf|]. split; [exact ex_c_wf|]. split; [reflexivity|].
  split; [discriminate|]. split; [exact ex_ab_c_agree|]. intros o Ho.
  apply divide_disjoint; auto using ex_ab_wf, ex_c_wf; try discriminate.
  cbn. intros v [<-|[<-|[]]] [H|[]]; discriminate.
Qed.

Lemma quotient_refuted_lemma : exists a b c, wf_sparse a /\ wf_sparse b /\ wf_sparse c /\
  zero_default a /\ zero_default b /\ zero_default c /\
  cards_agree a b /\ cards_agree a c /\ cards_agree b c /\
  forall o o', oracle_ok o -> oracle_ok o' ->
  exists q, s_divide o a b = Ok q /\ s_multiply o' q c = Err NotImplementedError.
Proof.
  exists ex_ab, ex_ba, ex_c.
  assert (H2 : cards_agree ex_ba ex_c) by solve_agree.
  split; [exact ex_ab_wf|]. split; [exact ex_ba_wf|]. split; [exact ex_c_wf|].
  do 3 (split; [reflexivity|]). split; [exact ex_ab_ba_agree|]. split; [exact ex_ab_c_agree|].
  split; [exact H2|]. intros o o' Ho Ho'.
  assert (Hsh : exists v, In v (svars ex_ab) /\ In v (svars ex_ba)) by (exists "a"; cbn; tauto).
  destruct (divide_spec o ex_ab ex_ba Ho ex_ab_wf ex_ba_wf ex_ab_ba_agree eq_refl) as (q & Hq & _);
    [discriminate|exact Hsh|].
  exists q. split; [exact Hq|].
  exact (quotient_unusable o o' ex_ab ex_ba ex_c q Ho Ho' ex_ab_wf ex_ba_wf ex_c_wf eq_refl eq_refl
           ex_ab_ba_agree ex_ab_c_agree H2 Hsh Hq).
Qed.

Lemma reduce_refuted_lemma : exists f vrs values, wf_sparse f /\ zero_default f /\
  NoDup vrs /\ incl vrs (svars f) /\
  (exists e, in_range f e /\ map e vrs = values) /\ s_reduce f vrs values = Err KeyError.
Proof.
  exists ex_ab, ["a"; "b"], [0; 0]. split; [exact ex_ab_wf|]. split; [reflexivity|].
  split; [apply (wf_vars _ ex_ab_wf)|]. split; [intros v H; exact H|]. split; [|reflexivity].
  exists (fun _ => 0). split; [|reflexivity]. intros v c H. unfold has_card in H. cbn in H.
  intuition (match goal with H : _ = _ |- _ => injection H as <- <- end; lia).
Qed.

(** C09: the value found belongs to another assignment. *)
Definition cyc : env := fun v => if string_dec v "c" then 1 else 0.
Lemma potential_refuted_lemma : exists f vrs e, wf_sparse f /\ zero_default f /\
  Permutation (svars f) vrs /\ in_range f e /\
  (exists x, s_potential f vrs (map e vrs) = Ok (Fin x) /\ x <> spot f e).
Proof.
  exists ex_abc, ["b"; "c"; "a"], cyc. split; [exact ex_abc_wf|]. split; [reflexivity|].
  split. { cbn. apply (perm_trans (l' := ["b"; "a"; "c"])); repeat constructor. }
  split. { intros v c H. unfold has_card in H. cbn in H. unfold cyc.
           intuition (match goal with H : _ = _ |- _ => injection H as <- <- end; cbn; lia). }
  exists (exp 3). split; [reflexivity|]. change (spot ex_abc cyc) with (exp 1).
  pose proof (exp_increasing 1 3). lra.
Qed.
Lemma potential_missing_lemma : exists f e, wf_sparse f /\ zero_default f /\ in_range f e /\
  s_potential f (svars f) (map e (svars f)) = Err KeyError.
Proof.
  exists ex_ab, (fun _ => 0). split; [exact ex_ab_wf|]. split; [reflexivity|]. split; [|reflexivity].
  intros v c H. unfold has_card in H. cbn in H.
  intuition (match goal with H : _ = _ |- _ => injection H as <- <- end; lia).
Qed.

Lemma kl_refuted_lemma : exists p q, wf_sparse p /\ wf_sparse q /\ zero_default p /\ zero_default q /\
  Permutation (svars p) (svars q) /\ cards_agree p q /\ (0 < weight_of p)%R /\ (0 < weight_of q)%R /\
  forall o, oracle_ok o -> s_kl_divergence o p q true = Err TypeError.
Proof.
  exists ex_unit, ex_unit. split; [exact ex_unit_wf|]. split; [exact ex_unit_wf|].
  do 2 (split; [reflexivity|]). split; [apply Permutation_refl|]. split; [solve_agree|].
  do 2 (split; [exact ex_unit_pos|]). intros o Ho.
  apply kl_empty_scope; auto using ex_unit_wf, ex_unit_pos; reflexivity.
Qed.
Lemma vacuous_refuted_lemma : exists f, wf_sparse f /\ zero_default f /\ (0 < weight_of f)%R /\
  forall o, oracle_ok o -> s_distance_from_vacuous o f = Err TypeError.
Proof.
  exists ex_unit. split; [exact ex_unit_wf|]. split; [reflexivity|]. split; [exact ex_unit_pos|].
  intros o Ho. apply vacuous_empty; auto using ex_unit_wf, ex_unit_pos; reflexivity.
Qed.

(** C13: with a common finite default and differing variable orders equality is not symmetric. *)
Lemma equals_asym_lemma : exists f g rtol atol, wf_sparse f /\ wf_sparse g /\ sdef f = sdef g /\
  is_lp (sdef f) /\ (0 <= rtol)%R /\ (0 <= atol)%R /\
  s_equals f g rtol atol = Ok false /\ s_equals g f rtol atol = Ok true.
Proof.
  exists {| svars := ["a"; "b"]; scards := [2; 2]; stbl := [([0; 0], Fin 1)]; sdef := Fin 1 |}.
  exists {| svars := ["b"; "a"]; scards := [2; 2]; stbl := []; sdef := Fin 1 |}. exists 0%R, 0%R.
  split; [solve_wf|]. split; [solve_wf|]. split; [reflexivity|]. split; [exact I|]. split; [lra|]. split; [lra|].
  split; [reflexivity|]. cbn. unfold Req_b. destruct (Req_EM_T 1 1) as [_|N]; [reflexivity|congruence].
Qed.
