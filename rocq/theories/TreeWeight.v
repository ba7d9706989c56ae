(** Weights on the directed edges of a tree: the weight of an edge exceeds the sum of the weights
    of the edges that continue it. *)
From Verif Require Export GraphCalib.

Section Weight.
Context (es : list (nat * nat)).
Definition succs (e : nat * nat) : list (nat * nat) :=
  filter (fun e' => Nat.eqb (fst e') (snd e) && negb (Nat.eqb (snd e') (fst e))) es.
Lemma In_succs i j a b : In (a, b) (succs (i, j)) <-> In (a, b) es /\ a = j /\ b <> i.
Proof. unfold succs. rewrite filter_In, andb_true_iff, negb_true_iff, Nat.eqb_eq, Nat.eqb_neq. cbn. tauto. Qed.

Context (r : nat) (ord : list (nat * nat)).
Let E (i j : nat) : Prop := In (i, j) es.
Hypothesis HT : tree_order E r ord.
Hypothesis Hn : NoDup (verts r ord).
Hypothesis Hall : forall x y, E x y -> In (x, y) ord \/ In (y, x) ord.
Let prec (e' e : nat * nat) : Prop := In e' (succs e).

Lemma parent_unique l a b : In (l, a) ord -> In (l, b) ord -> a = b.
Proof.
  intros H1 H2. unfold verts in Hn. apply NoDup_app_elim in Hn. destruct Hn as (N & _). clear - N H1 H2.
  induction ord as [|[x y] o IH]; [destruct H1|]. cbn in N. inversion N as [|? ? N1 N2]; subst.
  destruct H1 as [C1|H1], H2 as [C2|H2].
  - congruence.
  - inversion C1; subst. destruct (N1 (in_map fst _ _ H2)).
  - inversion C2; subst. destruct (N1 (in_map fst _ _ H1)).
  - auto.
Qed.
Lemma order_tail pre suf : tree_order E r (pre ++ suf) -> tree_order E r suf.
Proof. induction pre as [|[x y] pre IH]; [auto|]. cbn [app tree_order]. intros (H & _). auto. Qed.
Lemma parent_listed suf c l : tree_order E r suf -> In (c, l) suf -> In l (verts r suf).
Proof.
  induction suf as [|[x y] suf IH]; [intros _ []|]. cbn [tree_order]. intros (H1 & H2 & _) [C|C].
  - inversion C; subst. right. exact H2.
  - right. apply IH; assumption.
Qed.

Lemma down_acc pre : forall suf, ord = pre ++ suf -> forall l q, In (l, q) pre -> Acc prec (q, l).
Proof.
  induction pre as [|[l q] pre IH] using rev_ind; [intros _ _ l q []|].
  intros suf Eo. rewrite <- app_assoc in Eo. cbn [app] in Eo.
  assert (A : Acc prec (q, l)).
  { constructor. intros [a c] Hac. unfold prec in Hac. apply In_succs in Hac. destruct Hac as (He & -> & Hc).
    apply (IH _ Eo). destruct (Hall l c He) as [H|H].
    - exfalso. apply Hc. apply (parent_unique l); [exact H|]. rewrite Eo. apply in_or_app. right. now left.
    - rewrite Eo in H. apply in_app_or in H. destruct H as [H|[C|H]]; [exact H|congruence|exfalso].
      pose proof HT as T. rewrite Eo in T. apply order_tail in T. cbn [tree_order] in T. destruct T as (T1 & _ & T3 & _).
      apply T3. apply (parent_listed suf c l T1 H). }
  intros l1 q1 H. apply in_app_or in H. destruct H as [H|[C|[]]]; [exact (IH _ Eo l1 q1 H)|inversion C; subst; exact A].
Qed.
Lemma up_acc suf : forall pre, ord = pre ++ suf -> forall l q, In (l, q) suf -> Acc prec (l, q).
Proof.
  induction suf as [|[l q] suf IH]; [intros _ _ l q []|]. intros pre Eo.
  assert (Eo' : ord = (pre ++ [(l, q)]) ++ suf) by (now rewrite <- app_assoc).
  intros l1 q1 [C|H]; [|exact (IH _ Eo' l1 q1 H)]. inversion C; subst l1 q1. clear C.
  constructor. intros [a x] Hac. unfold prec in Hac. apply In_succs in Hac. destruct Hac as (He & -> & Hx).
  destruct (Hall q x He) as [H|H].
  - apply (IH _ Eo'). pose proof HT as T. rewrite Eo in T. apply order_tail in T. cbn [tree_order] in T. destruct T as (T1 & T2 & _).
    unfold verts in T2. apply in_app_or in T2. destruct T2 as [T2|[T2|[]]].
    + apply in_map_iff in T2. destruct T2 as ([q' y] & Eq & Hy). cbn in Eq. subst q'.
      rewrite (parent_unique q x y H); [exact Hy|]. rewrite Eo'. apply in_or_app. now right.
    + exfalso. unfold verts in Hn. apply NoDup_app_elim in Hn. destruct Hn as (_ & _ & N). apply (N q).
      * exact (in_map fst _ _ H).
      * now left.
  - apply (down_acc ord []); [now rewrite app_nil_r|exact H].
Qed.
Lemma edge_acc i j : In (i, j) es -> Acc prec (i, j).
Proof.
  intros H. destruct (Hall i j H) as [H1|H1].
  - exact (up_acc ord [] eq_refl i j H1).
  - apply (down_acc ord []); [now rewrite app_nil_r|exact H1].
Qed.

Fixpoint wt (d : nat) (e : nat * nat) : nat :=
  match d with 0 => 0 | S d => S (list_sum (map (wt d) (succs e))) end.
Lemma stable_all l : (forall e, In e l -> exists d0, forall d, d0 <= d -> wt d e = wt d0 e) ->
  exists d0, forall e d, In e l -> d0 <= d -> wt d e = wt d0 e.
Proof.
  induction l as [|e l IH]; intros H; [exists 0; intros e d []|].
  destruct (H e (or_introl eq_refl)) as (d1 & H1). destruct IH as (d2 & H2); [intros; apply H; now right|].
  exists (Nat.max d1 d2). intros e' d [<-|He] Hd.
  - rewrite (H1 d), (H1 (Nat.max d1 d2)); lia.
  - rewrite (H2 e' d He), (H2 e' (Nat.max d1 d2) He); lia.
Qed.
Lemma stable e : Acc prec e -> exists d0, forall d, d0 <= d -> wt d e = wt d0 e.
Proof.
  induction 1 as [e _ IH]. destruct (stable_all (succs e)) as (D & HD); [exact IH|].
  exists (S D). intros [|d] Hd; [lia|]. cbn [wt]. f_equal. f_equal. apply map_ext_in. intros e' He. apply HD; [exact He|lia].
Qed.
Theorem weights_exist : exists w : nat * nat -> nat, forall e, In e es -> w e = S (list_sum (map w (succs e))).
Proof.
  destruct (stable_all es) as (D & HD).
  { intros [i j] He. apply stable. now apply edge_acc. }
  exists (wt D). intros e He. rewrite <- (HD e (S D) He); [reflexivity|lia].
Qed.
End Weight.

(** Changing the marks after a message: the edge itself is cleared, its continuations are set. *)
Section Marks.
Context (es : list (nat * nat)) (w : nat * nat -> nat).
Definition total_marked (b : nat * nat -> bool) : nat := list_sum (map (fun e => if b e then w e else 0) es).
Definition pass_marks (e0 : nat * nat) (b : nat * nat -> bool) (e : nat * nat) : bool :=
  if pair_dec e e0 then false else if in_dec pair_dec e (succs es e0) then true else b e.
Lemma list_sum_filter l (P : nat * nat -> bool) : list_sum (map w (filter P l)) = list_sum (map (fun e => if P e then w e else 0) l).
Proof. induction l as [|e l IH]; [reflexivity|]. cbn [filter map]. destruct (P e); cbn [map list_sum fold_right]; unfold list_sum in *; lia. Qed.
Lemma marks_drop e0 b : In e0 es -> b e0 = true -> w e0 = S (list_sum (map w (succs es e0))) ->
  total_marked (pass_marks e0 b) < total_marked b.
Proof.
  intros He Hb Hw.
  assert (G : forall l, incl l es -> list_sum (map (fun e => if pass_marks e0 b e then w e else 0) l) +
     list_sum (map (fun e => if pair_dec e e0 then w e else 0) l) <=
     list_sum (map (fun e => if b e then w e else 0) l) +
     list_sum (map (fun e => if Nat.eqb (fst e) (snd e0) && negb (Nat.eqb (snd e) (fst e0)) then w e else 0) l)).
  { induction l as [|e l IH]; intros Hi; [cbn; lia|]. cbn [map list_sum fold_right].
    specialize (IH (fun x Hx => Hi x (or_intror Hx))). unfold list_sum in IH. unfold pass_marks at 1.
    destruct (pair_dec e e0) as [->|N]; [rewrite Hb; lia|].
    destruct (in_dec pair_dec e (succs es e0)) as [I|I].
    - unfold succs in I. apply filter_In in I. destruct I as [_ ->]. lia.
    - destruct (Nat.eqb (fst e) (snd e0) && negb (Nat.eqb (snd e) (fst e0))) eqn:C; [|lia].
      exfalso. apply I. apply filter_In. split; [apply Hi; now left|exact C]. }
  specialize (G es (incl_refl es)). unfold succs in Hw. rewrite list_sum_filter in Hw.
  assert (Hge : forall l, In e0 l -> w e0 <= list_sum (map (fun e => if pair_dec e e0 then w e else 0) l)).
  { induction l as [|e l IH]; [intros []|]. cbn [map list_sum fold_right]. intros [->|H].
    - destruct (pair_dec e0 e0); [lia|congruence].
    - specialize (IH H). unfold list_sum in IH. lia. }
  specialize (Hge es He). unfold total_marked. lia.
Qed.
Lemma marks_le b : total_marked b <= list_sum (map w es).
Proof. unfold total_marked. induction es as [|e l IH]; cbn; [lia|]. unfold list_sum in IH. destruct (b e); lia. Qed.
End Marks.
