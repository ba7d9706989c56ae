(** An instance for the laws of local computation. *)
From Coq Require Import String List Reals.
Import ListNotations.
From Verif Require Import ElimFacts SparseExamples.
Local Open Scope string_scope.
Local Open Scope nat_scope.
Local Open Scope list_scope.

Definition el_card (v : string) : nat := if string_dec v "b" then 3 else 2.
Lemma el_ab : sgood el_card ex_ab.
Proof.
  split; [exact ex_ab_wf|reflexivity|]. intros v c H. unfold has_card in H. cbn in H.
  destruct H as [H|[H|[]]]; injection H as <- <-; reflexivity.
Qed.
Lemma el_bc : sgood el_card ex_bc.
Proof.
  split; [exact ex_bc_wf|reflexivity|]. intros v c H. unfold has_card in H. cbn in H.
  destruct H as [H|[H|[]]]; injection H as <- <-; reflexivity.
Qed.
Lemma elim_ex : oracle_ok id_oracle /\ exists card, sgood card ex_ab /\ sgood card ex_bc /\
  (exists p, s_reduce ex_ab ["a"] [0] = Ok p) /\ eliminate_all (sparse_ops id_oracle) [ex_ab; ex_bc] ["a"; "b"] <> Ok [ex_ab; ex_bc].
Proof.
  split; [exact id_oracle_ok|]. exists el_card. split; [exact el_ab|]. split; [exact el_bc|]. split; [eexists; reflexivity|].
  intros E. destruct (eliminate_all_spec (sparse_ops id_oracle) el_card _ spot (sparse_lawful el_card id_oracle id_oracle_ok) ["a"; "b"] [ex_ab; ex_bc])
    as (rs & Er & _ & S & _).
  - repeat constructor; cbn; intuition discriminate.
  - intros f [<-|[<-|[]]]; [exact el_ab|exact el_bc].
  - rewrite E in Er. injection Er as <-. destruct (proj1 (S "a")) as [_ C]; [exists ex_ab; cbn; tauto|]. apply C. now left.
Qed.
