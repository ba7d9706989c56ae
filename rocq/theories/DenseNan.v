(** The first undefined entry is taken for the maximum. *)
From Coq Require Import String List Reals Lia.
Import ListNotations.
From Verif Require Import DenseProofs2 DenseProofs3 DenseProofs DenseExamples.
Local Open Scope string_scope.
Local Open Scope nat_scope.
Local Open Scope list_scope.
Lemma argmax_fold_nan (t : tensor val) rest : forall b, (tget t b = NaN \/ exists j, In j rest /\ tget t j = NaN) ->
  let m := fold_left (fun best j => if vgt (tget t j) (tget t best) then j else best) rest b in In m (b :: rest) /\ tget t m = NaN.
Proof.
  induction rest as [|j rest IH]; intros b H; cbn -[vgt].
  - destruct H as [H|(j & [] & _)]. split; [now left|exact H].
  - assert (K : tget t (if vgt (tget t j) (tget t b) then j else b) = NaN \/ exists k, In k rest /\ tget t k = NaN).
    { destruct H as [H|(k & [<-|Hk] & E)]; [| |right; now exists k]; left.
      - rewrite H. unfold vgt. destruct (tget t j); cbn; exact H.
      - rewrite E. unfold vgt. destruct (tget t b) eqn:Eb; cbn; assumption. }
    destruct (IH _ K) as (I & E). split; [|exact E]. destruct (vgt (tget t j) (tget t b)); cbn in I; tauto.
Qed.
Lemma argmax_nan f e : wf_shape f -> d_in_range f e -> dval f e = NaN ->
  exists e', d_argmax f = Ok (map e' (dvars f)) /\ d_in_range f e' /\ dval f e' = NaN.
Proof.
  intros W R N. unfold d_argmax, targmax. pose proof (d_env_index f e W R) as H0.
  destruct (tindices (dtens f)) as [|i rest] eqn:Ei; [destruct H0|].
  assert (K : tget (dtens f) i = NaN \/ exists j, In j rest /\ tget (dtens f) j = NaN).
  { destruct H0 as [->|H0]; [now left|right; now exists (map e (dvars f))]. }
  destruct (argmax_fold_nan (dtens f) rest i K) as (I & E). cbv zeta in I, E. set (m := fold_left _ rest i) in *.
  rewrite <- Ei in I. destruct (d_index_env f m W I) as [E1 E2]. exists (env_of (dvars f) m). rewrite E1.
  split; [reflexivity|]. split; [exact E2|]. unfold dval. now rewrite E1.
Qed.
Lemma argmax_nan_ex : let f := dtab ["a"] [3] [([0], Fin 5); ([1], NaN)] in wf_shape f /\ d_in_range f (fun _ => 1) /\ dval f (fun _ => 1) = NaN.
Proof.
  cbv zeta. split; [constructor; cbn|split; [|reflexivity]].
  - repeat constructor; intros [].
  - reflexivity.
  - reflexivity.
  - reflexivity.
  - intros v ns c H Hc. unfold d_has_card in Hc. cbn in Hc. destruct Hc as [Hc|[]]. injection Hc as <- <-. cbn in H. injection H as <-. reflexivity.
  - intros v c [H|[]]. injection H as <- <-. lia.
Qed.
