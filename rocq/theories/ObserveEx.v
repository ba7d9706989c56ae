(** Concrete factors for C168. *)
From Coq Require Import String List Reals ZArith Lia Lra.
Import ListNotations.
From Verif Require Import ObserveFacts ElimFacts ElimEx SparseExamples DenseExamples FactChain FactMarg FactExamples2 GaussExamples.
Local Open Scope string_scope.
Local Open Scope nat_scope.
Local Open Scope list_scope.

Lemma observe_sparse_ex : oracle_ok id_oracle /\ exists card e0, sgood card SparseExamples.ex_ab /\ NoDup ["a"; "b"] /\
  incl (["a"] ++ ["b"]) (svars SparseExamples.ex_ab) /\ spot SparseExamples.ex_ab e0 <> 0%R.
Proof.
  split; [exact SparseExamples.id_oracle_ok|]. exists el_card, (fun v => if String.eqb v "b" then 1 else 0). split; [exact el_ab|].
  split; [repeat constructor; cbn; intuition discriminate|]. split; [intros v; cbn; tauto|].
  unfold spot, sval. cbn. apply Rgt_not_eq, exp_pos.
Qed.
Lemma observe_dense_ex : wf_dense ed_abc /\ NoDup (["c"] ++ ["a"]) /\ (forall v c, In v ["a"; "c"] -> d_has_card ed_abc v c -> 1 < c) /\ In "b" (dvars ed_abc).
Proof.
  split; [exact ed_abc_wf|]. split; [repeat constructor; cbn; intuition discriminate|]. split; [|cbn; tauto].
  intros v c H Hc. unfold d_has_card in Hc. cbn in H, Hc.
  destruct H as [<-|[<-|[]]]; (destruct Hc as [Hc|[Hc|[Hc|[]]]]; try discriminate; injection Hc as <-; lia).
Qed.
Lemma observe_gauss_ex : exists f, wf_gauss f /\ sym_prec f /\ NoDup (["c"] ++ ["a"]) /\ incl (["c"] ++ ["a"]) (ga_vars f) /\ In "b" (ga_vars f).
Proof.
  destruct (two_v_solid "a" "b" 2 1 2) as (S1 & _); [discriminate|lra|lra|].
  destruct (two_v_solid "b" "c" 2 1 2) as (S2 & _); [discriminate|lra|lra|].
  destruct (multiply_solid _ _ S1 S2) as (r & E & S & V & _).
  exists r. split; [exact (proj1 S)|]. split; [exact (solid_sym r S)|]. split; [repeat constructor; cbn; intuition discriminate|].
  split; [intros v Hv|]; rewrite V; cbn in *; intuition (subst; cbn; tauto).
Qed.
