(** Summing out an axis of length zero. *)
From Coq Require Import String List Reals Lia.
Import ListNotations.
From Verif Require Import DenseProofs2 DenseProofs DenseExamples.
Local Open Scope string_scope.
Local Open Scope nat_scope.
Local Open Scope list_scope.

Lemma nth_replace_other {A} (l : list A) : forall i j x d, i <> j -> nth j (replace_nth l i x) d = nth j l d.
Proof. induction l as [|y l IH]; intros [|i] [|j] x d H; cbn; try reflexivity; try congruence. apply IH. congruence. Qed.
Lemma lse_axes_empty axes : forall t ax, In ax axes -> nth ax (tshape t) 0 = 0 -> lse_axes t axes = Err ValueError.
Proof.
  unfold lse_axes. induction axes as [|a r IH]; intros t ax; [intros []|]. intros H Z. cbn. unfold lse_axis at 1.
  destruct (Nat.eqb_spec (nth a (tshape t) 0) 0) as [E|E]; [reflexivity|]. cbn.
  destruct H as [->|H]; [congruence|]. apply (IH _ ax H). cbn. rewrite nth_replace_other; [exact Z|congruence].
Qed.
Lemma empty_axis o f vrs v : wf_shape f -> d_has_card f v 0 -> ~ In v vrs -> d_marginalize o f vrs true = Err ValueError.
Proof.
  intros W H N. apply (d_has_card_iff f v 0 W) in H as (Hv & Hc). unfold d_marginalize. cbn [d_marginal_vars].
  set (out := filter (fun v => negb (mem v vrs)) (dvars f)).
  assert (Ho : incl out (dvars f)) by (intros w Hw; apply filter_In in Hw; tauto).
  rewrite (mapM_py_index (dvars f) out Ho). cbn [bind].
  rewrite (lse_axes_empty _ _ (posn v (dvars f))); [reflexivity| |].
  - apply in_map_iff. exists v. split; [reflexivity|]. apply filter_In. split; [exact Hv|]. now rewrite (proj2 (mem_nIn v vrs) N).
  - rewrite (d_shape f W), nth_map_posn; [now rewrite <- Hc|exact Hv].
Qed.
Lemma empty_axis_ex : wf_shape (dtab ["a"; "b"] [2; 0] []) /\ d_has_card (dtab ["a"; "b"] [2; 0] []) "b" 0 /\ ~ In "b" ["a"].
Proof. assert (W : wf_dense (dtab ["a"; "b"] [2; 0] [])) by solve_dwf. split; [exact W|]. split; [right; now left|cbn; intuition discriminate]. Qed.
