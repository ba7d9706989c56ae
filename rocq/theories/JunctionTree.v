(** Eliminating the clusters of a calibrated tree, leaf by leaf (C36). *)
From Verif Require Export TreeOrder GraphInv.

Definition inv0 (x : R) : R := if Req_EM_T x 0 then 0%R else (/ x)%R.
Lemma inv0_zero : inv0 0 = 0%R.
Proof. unfold inv0. destruct (Req_EM_T 0 0); [reflexivity|congruence]. Qed.
Lemma inv0_mul x y : inv0 (x * y) = (inv0 x * inv0 y)%R.
Proof.
  unfold inv0. destruct (Req_EM_T x 0) as [->|Hx]; destruct (Req_EM_T y 0) as [->|Hy];
    try (destruct (Req_EM_T _ 0) as [_|C]; [ring|exfalso; apply C; ring]).
  destruct (Req_EM_T (x * y) 0) as [C|_]; [apply Rmult_integral in C; tauto|]. field. auto.
Qed.

Lemma sum_over_const_factor card vs (S : list string) (g h : env -> R) :
  (forall e e', (forall v, In v S -> e v = e' v) -> g e = g e') -> (forall v, In v vs -> ~ In v S) ->
  forall e, sum_over card vs (fun e => g e * h e)%R e = (g e * sum_over card vs h e)%R.
Proof.
  intros Hg Hd e. rewrite !sum_over_assign. rewrite <- Rsum_scal. f_equal. apply map_ext_in. intros k _. f_equal.
  apply Hg. intros v Hv. apply upds_other. intros C. exact (Hd v C Hv).
Qed.

Section Junction.
Context (card : string -> nat) (E : nat -> nat -> Prop) (n r : nat).
Context (U : nat -> list string) (psi : nat -> env -> R) (sep : nat -> nat -> list string)
        (sg : nat -> nat -> env -> R) (cc : nat -> nat -> R).
Hypothesis Unodup : forall i, NoDup (U i).
Hypothesis psi_ext : forall i e e', (forall v, In v (U i) -> e v = e' v) -> psi i e = psi i e'.
Hypothesis psi_nonneg : forall i e, (0 <= psi i e)%R.
Hypothesis psi_range : forall i e, psi i e <> 0%R -> in_card card (U i) e.
Hypothesis sep_incl : forall i j v, E i j -> In v (sep i j) -> In v (U i) /\ In v (U j).
Hypothesis sep_sym : forall i j v, E i j -> In v (sep i j) <-> In v (sep j i).
Hypothesis sg_ext : forall i j e e', E i j -> (forall v, In v (sep i j) -> e v = e' v) -> sg i j e = sg i j e'.
Hypothesis sg_sym : forall i j e, sg i j e = sg j i e.
Hypothesis Esym : forall i j, E i j -> E j i.
(** Calibration: the marginal of either end over the sepset is the edge potential, up to a
    constant. *)
Hypothesis calib : forall i j e, E i j -> in_card card (sep i j) e ->
  sum_over card (filter (fun v => negb (mem v (sep i j))) (U i)) (psi i) e = (cc i j * sg i j e)%R.

Let tord := tree_order E r.
Let vts := verts r.

(** Potential of the part of the tree listed in [o]. *)
Fixpoint Q (o : list (nat * nat)) (e : env) : R :=
  match o with
  | [] => psi r e
  | (l, p) :: o' => (Q o' e * inv0 (sg l p e) * psi l e)%R
  end.
Fixpoint K (o : list (nat * nat)) : R :=
  match o with [] => 1%R | (l, p) :: o' => (cc l p * K o')%R end.

Definition rip (T : list nat) : Prop := forall v x y, In x T -> In y T -> In v (U x) -> In v (U y) ->
  clos_refl_trans nat (fun a b => In a T /\ In b T /\ E a b /\ In v (sep a b)) x y.

Lemma rip_leaf l p o : tord ((l, p) :: o) -> rip (vts ((l, p) :: o)) ->
  rip (vts o) /\ (forall v x, In x (vts o) -> In v (U l) -> In v (U x) -> In v (sep l p)).
Proof.
  intros (T1 & T2 & T3 & T4 & T5) R. split.
  - intros v x y Hx Hy Hvx Hvy. set (phi := fun z => if Nat.eq_dec z l then p else z).
    assert (G : clos_refl_trans nat (fun a b => In a (vts o) /\ In b (vts o) /\ E a b /\ In v (sep a b)) (phi x) (phi y)).
    { pose proof (R v x y (or_intror Hx) (or_intror Hy) Hvx Hvy) as H. clear Hx Hy Hvx Hvy.
      induction H as [a b (H1 & H2 & H3 & H4)|a|a b c _ IH1 _ IH2]; [|apply rt_refl|eapply rt_trans; eauto].
      unfold phi. destruct (Nat.eq_dec a l) as [->|Na], (Nat.eq_dec b l) as [->|Nb].
      - apply rt_refl.
      - destruct H2 as [C|H2]; [cbn in C; congruence|]. fold (verts r o) in H2. rewrite (T5 b H2 H3). apply rt_refl.
      - destruct H1 as [C|H1]; [cbn in C; congruence|]. fold (verts r o) in H1. rewrite (T5 a H1 (Esym _ _ H3)). apply rt_refl.
      - apply rt_step. destruct H1 as [C|H1]; [cbn in C; congruence|]. destruct H2 as [C|H2]; [cbn in C; congruence|].
        split; [exact H1|]. split; [exact H2|]. split; assumption. }
    unfold phi in G. destruct (Nat.eq_dec x l) as [->|_]; [exfalso; apply T3; exact Hx|]. destruct (Nat.eq_dec y l) as [->|_]; [exfalso; apply T3; exact Hy|]. exact G.
  - intros v x Hx Hvl Hvx.
    pose proof (R v l x (or_introl eq_refl) (or_intror Hx) Hvl Hvx) as H. apply clos_rt_rt1n in H.
    assert (G : forall a, clos_refl_trans_1n nat (fun a b => In a (vts ((l, p) :: o)) /\ In b (vts ((l, p) :: o)) /\ E a b /\ In v (sep a b)) a x ->
      a = l -> In v (sep l p)).
    { clear H Hvx. intros a Ha. induction Ha as [a|a b c (A1 & A2 & A3 & A4) Ha IH]; intros ->; [exfalso; apply T3; exact Hx|].
      destruct A2 as [C|A2]; [apply IH; [exact Hx|symmetry; exact C]|]. fold (verts r o) in A2. rewrite (T5 b A2 A3) in A4. exact A4. }
    exact (G l H eq_refl).
Qed.

Lemma Q_ext o : tord o -> forall e e', (forall v x, In x (vts o) -> In v (U x) -> e v = e' v) -> Q o e = Q o e'.
Proof.
  induction o as [|[l p] o IH]; cbn [Q]; intros T e e' H.
  - apply psi_ext. intros v Hv. apply (H v r); [left; reflexivity|exact Hv].
  - destruct T as (T1 & T2 & T3 & T4 & T5). rewrite (IH T1 e e'), (sg_ext l p e e' T4), (psi_ext l e e'); [reflexivity| | |].
    + intros v Hv. apply (H v l); [left; reflexivity|exact Hv].
    + intros v Hv. apply (H v l); [left; reflexivity|]. now apply (sep_incl l p v T4).
    + intros v x Hx Hv. apply (H v x); [right; exact Hx|exact Hv].
Qed.
Lemma Q_zero o x e : tord o -> In x (vts o) -> psi x e = 0%R -> Q o e = 0%R.
Proof.
  induction o as [|[l p] o IH]; cbn [Q]; intros T Hx Hz.
  - destruct Hx as [<-|[]]. exact Hz.
  - destruct T as (T1 & _). destruct Hx as [<-|Hx]; [cbn in Hz; rewrite Hz; ring|]. rewrite (IH T1 Hx Hz). ring.
Qed.

Definition private (l p : nat) : list string := filter (fun v => negb (mem v (sep l p))) (U l).
Lemma In_private l p v : In v (private l p) <-> In v (U l) /\ ~ In v (sep l p).
Proof. unfold private. rewrite filter_In, negb_true_iff, mem_nIn. tauto. Qed.

Lemma leaf_sum l p o : tord ((l, p) :: o) -> rip (vts ((l, p) :: o)) -> forall e,
  sum_over card (private l p) (Q ((l, p) :: o)) e = (cc l p * Q o e)%R.
Proof.
  intros T R e. destruct (rip_leaf l p o T R) as [_ RL]. destruct T as (T1 & T2 & T3 & T4 & T5). cbn [Q].
  set (A := flat_map U (vts o)).
  assert (HA : forall v, In v A <-> exists x, In x (vts o) /\ In v (U x)).
  { intros v. unfold A. rewrite in_flat_map. reflexivity. }
  rewrite (sum_over_const_factor card (private l p) A (fun e => Q o e * inv0 (sg l p e))%R (psi l)).
  2:{ intros e1 e2 He. rewrite (Q_ext o T1 e1 e2), (sg_ext l p e1 e2 T4); [reflexivity| |].
      - intros v Hv. apply He, HA. exists p. split; [exact T2|]. now apply (sep_incl l p v T4).
      - intros v x Hx Hv. apply He, HA. eauto. }
  2:{ intros v Hv C. apply In_private in Hv. apply HA in C. destruct C as (x & Hx & Hvx). apply Hv. exact (RL v x Hx (proj1 Hv) Hvx). }
  (* where the edge potential or the range fails, the parent vanishes *)
  assert (Hp : ~ in_card card (sep l p) e -> psi p e = 0%R).
  { intros Hn. destruct (Req_EM_T (psi p e) 0) as [Z|Z]; [exact Z|]. exfalso. apply Hn. intros v Hv.
    apply (psi_range p e Z). now apply (sep_incl l p v T4). }
  assert (Hdec : in_card card (sep l p) e \/ ~ in_card card (sep l p) e).
  { unfold in_card. generalize (sep l p). intros s. induction s as [|v s IHs]; [left; intros v []|].
    destruct (lt_dec (e v) (card v)) as [I|I]; [|right; intros H; apply I, H; left; reflexivity].
    destruct IHs as [J|J]; [left; intros w [<-|Hw]; auto|right; intros H; apply J; intros w Hw; apply H; right; exact Hw]. }
  destruct Hdec as [Hin|Hout].
  - unfold private. rewrite (calib l p e T4 Hin). unfold inv0. destruct (Req_EM_T (sg l p e) 0) as [Z|Z].
    + rewrite (Q_zero o p e T1 T2); [ring|].
      assert (Hs : sum_over card (filter (fun v => negb (mem v (sep p l))) (U p)) (psi p) e = 0%R).
      { rewrite (calib p l e (Esym _ _ T4)); [rewrite sg_sym, Z; ring|]. intros v Hv. apply Hin. now apply (sep_sym p l v (Esym _ _ T4)). }
      destruct (Req_EM_T (psi p e) 0) as [Y|Y]; [exact Y|].
      rewrite sum_over_assign in Hs.
      set (vs := filter (fun v => negb (mem v (sep p l))) (U p)) in *.
      pose proof (Rsum_zero_all (fun k => psi p (upds e vs k)) _ (fun k _ => psi_nonneg _ _) Hs (map e vs)) as Kz. cbn beta in Kz.
      rewrite <- Kz; [apply psi_ext|].
      * intros v _. destruct (in_dec string_dec v vs) as [I|I].
        -- symmetry. apply (map_env_inj vs); [|exact I]. apply map_upds; [apply NoDup_filter, Unodup|apply map_length].
        -- symmetry. now apply upds_other.
      * apply In_assign_range. apply Forall2_map_self. intros v Hv. apply (psi_range p e Y). unfold vs in Hv. apply filter_In in Hv. tauto.
    + field. exact Z.
  - rewrite (Q_zero o p e T1 T2 (Hp Hout)). ring.
Qed.

Lemma tree_sum o : tord o -> rip (vts o) -> forall rem, NoDup rem ->
  (forall v, In v rem <-> (exists x, In x (vts o) /\ In v (U x)) /\ ~ In v (U r)) ->
  forall e, sum_over card rem (Q o) e = (K o * psi r e)%R.
Proof.
  induction o as [|[l p] o IH]; intros T R rem Hn Hrem e.
  - assert (rem = []).
    { destruct rem as [|v rem]; [reflexivity|]. exfalso. destruct (proj1 (Hrem v) (or_introl eq_refl)) as ((x & Hx & Hv) & Hnv).
      destruct Hx as [<-|[]]. contradiction. }
    subst rem. cbn. ring.
  - pose proof T as (T1 & T2 & T3 & T4 & T5). destruct (rip_leaf l p o T R) as [R1 RL].
    set (rem_o := filter (fun v => negb (mem v (private l p))) rem).
    assert (Hro : forall v, In v rem_o <-> In v rem /\ ~ In v (private l p)).
    { intros v. unfold rem_o. rewrite filter_In, negb_true_iff, mem_nIn. tauto. }
    assert (Hroot : In r (vts o)) by (unfold vts, verts; apply in_or_app; right; left; reflexivity).
    assert (HP : Permutation rem (rem_o ++ private l p)).
    { apply NoDup_Permutation; [exact Hn| |].
      - apply NoDup_app_intro; [now apply NoDup_filter|apply NoDup_filter, Unodup|]. intros v H1 H2. apply Hro in H1. tauto.
      - intros v. rewrite in_app_iff, Hro. split.
        + intros Hv. destruct (in_dec string_dec v (private l p)); tauto.
        + intros [[H _]|H]; [exact H|]. apply Hrem. apply In_private in H. destruct H as [H1 H2]. split.
          * exists l. split; [left; reflexivity|exact H1].
          * intros C. apply H2. exact (RL v r Hroot H1 C). }
    rewrite (sum_over_perm card rem _ _ HP Hn).
    2:{ intros e1 e2 He. apply (Q_ext ((l, p) :: o) T). intros v x _ _. apply He. }
    rewrite sum_over_app. rewrite (sum_over_ext_g card rem_o _ (fun e => cc l p * Q o e)%R (leaf_sum l p o T R)).
    rewrite sum_over_scal. rewrite (IH T1 R1 rem_o); [cbn [K]; ring|now apply NoDup_filter|].
    intros v. rewrite Hro, Hrem, In_private. split.
    + intros (((x & Hx & Hv) & Hnr) & Hnp). split; [|exact Hnr]. destruct Hx as [<-|Hx]; [|eauto]. cbn [fst] in Hv.
      destruct (in_dec string_dec v (sep l p)) as [I|I]; [|tauto]. exists p. split; [exact T2|]. now apply (sep_incl l p v T4).
    + intros ((x & Hx & Hv) & Hnr). split; [split; [|exact Hnr]|].
      * exists x. split; [right; exact Hx|exact Hv].
      * intros (C1 & C2). apply C2. exact (RL v x Hx C1 Hv).
Qed.

Lemma Q_product o e : Q o e = (Rprod (map (fun i => psi i e) (vts o)) * inv0 (Rprod (map (fun lp => sg (fst lp) (snd lp) e) o)))%R.
Proof.
  induction o as [|[l p] o IH]; cbn [Q map fst snd].
  - unfold vts, verts. cbn [map app Rprod fold_right]. unfold inv0. destruct (Req_EM_T 1 0) as [C|_]; [lra|]. field.
  - unfold vts, verts. cbn [map app fst]. rewrite !Rprod_cons, inv0_mul, IH. fold (verts r o) (vts o). ring.
Qed.
Lemma K_pos o : tord o -> (forall i j, E i j -> (0 < cc i j)%R) -> (0 < K o)%R.
Proof.
  intros T H. induction o as [|[l p] o IH]; cbn [K]; [lra|]. destruct T as (T1 & T2 & T3 & T4 & T5).
  apply Rmult_lt_0_compat; auto.
Qed.
Lemma K_one o : tord o -> (forall i j, E i j -> cc i j = 1%R) -> K o = 1%R.
Proof.
  intros T H. induction o as [|[l p] o IH]; cbn [K]; [reflexivity|]. destruct T as (T1 & T2 & T3 & T4 & T5).
  rewrite (H l p T4), (IH T1). ring.
Qed.
End Junction.
