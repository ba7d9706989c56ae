(** Trees: a connected graph without cycles can be listed so that every vertex after the first
    has exactly one neighbour among the earlier ones. *)
From Verif Require Export GraphTree.

Section TreeOrder.
Context (E : nat -> nat -> Prop) (n r : nat).
Hypothesis Esym : forall i j, E i j -> E j i.
Hypothesis Erange : forall i j, E i j -> i < n /\ j < n /\ i <> j.
Hypothesis Econn : forall i j, i < n -> j < n -> clos_refl_trans nat E i j.
Hypothesis Eacyc : forall l, ~ cycle E l.
Hypothesis Hr : r < n.

(** [o] lists (vertex, parent) pairs, the latest first. *)
Definition verts (o : list (nat * nat)) : list nat := map fst o ++ [r].
Fixpoint tree_order (o : list (nat * nat)) : Prop :=
  match o with
  | [] => True
  | (l, p) :: o' => tree_order o' /\ In p (verts o') /\ ~ In l (verts o') /\ E l p /\
                    (forall x, In x (verts o') -> E l x -> x = p)
  end.

Lemma tree_order_verts o : tree_order o -> NoDup (verts o) /\ (forall x, In x (verts o) -> x < n).
Proof.
  induction o as [|[l p] o IH]; cbn [tree_order]; intros H.
  - split; [repeat constructor; intros []|]. intros x [<-|[]]; exact Hr.
  - destruct H as (H1 & H2 & H3 & H4 & H5). destruct (IH H1) as [I1 I2]. split; [constructor; assumption|].
    intros x [<-|Hx]; [apply (Erange l p H4)|auto].
Qed.

(** Chains. *)
Fixpoint chain (x : nat) (l : list nat) : Prop := match l with [] => True | y :: l' => E x y /\ chain y l' end.
Lemma chain_nth x l : chain x l -> forall a u v, nth_error (x :: l) a = Some u -> nth_error (x :: l) (S a) = Some v -> E u v.
Proof.
  revert x. induction l as [|y l IH]; intros x H a u v Hu Hv.
  - destruct a as [|a]; cbn in Hv; [discriminate|]. destruct a; discriminate.
  - destruct H as [H1 H2]. destruct a as [|a].
    + cbn in Hu, Hv. inversion Hu; inversion Hv; subst. exact H1.
    + exact (IH y H2 a u v Hu Hv).
Qed.
Lemma chain_app x l y m : chain x (l ++ y :: m) <-> chain x (l ++ [y]) /\ chain y m.
Proof.
  revert x; induction l as [|z l IH]; intros x; cbn; [tauto|]. rewrite IH. tauto.
Qed.

(** Any two listed vertices are joined by a simple chain of listed vertices. *)
Definition joined (T : list nat) (x y : nat) : Prop :=
  x = y \/ exists l, chain x (l ++ [y]) /\ NoDup (x :: l ++ [y]) /\ incl (x :: l ++ [y]) T.
Lemma joined_weak T T' x y : incl T T' -> joined T x y -> joined T' x y.
Proof. intros H [->|(l & H1 & H2 & H3)]; [left; reflexivity|right]. exists l. repeat split; auto. intros z Hz. apply H, H3, Hz. Qed.
Lemma order_joined o : tree_order o -> forall x y, In x (verts o) -> In y (verts o) -> joined (verts o) x y.
Proof.
  induction o as [|[l p] o IH]; cbn [tree_order]; intros H x y Hx Hy.
  - destruct Hx as [<-|[]], Hy as [<-|[]]. left; reflexivity.
  - destruct H as (H1 & H2 & H3 & H4 & H5). specialize (IH H1). cbn in Hx, Hy. fold (verts o) in Hx, Hy.
    assert (Hinc : incl (verts o) (verts ((l, p) :: o))) by (intros z Hz; right; exact Hz).
    destruct Hx as [<-|Hx], Hy as [<-|Hy].
    + left; reflexivity.
    + right. destruct (IH p y H2 Hy) as [->|(m & M1 & M2 & M3)].
      * exists []. cbn. split; [tauto|]. split.
        -- constructor; [|repeat constructor; intros []]. intros [C|[]]. subst. contradiction.
        -- intros z [<-|[<-|[]]]; [left; reflexivity|now right].
      * exists (p :: m). cbn. split; [split; assumption|]. split.
        -- constructor; [|exact M2]. intros C. apply H3, M3. exact C.
        -- intros z [<-|Hz]; [left; reflexivity|]. right. now apply M3.
    + right. destruct (IH x p Hx H2) as [->|(m & M1 & M2 & M3)].
      * exists []. cbn. split; [split; [now apply Esym|exact I]|]. split.
        -- constructor; [|repeat constructor; intros []]. intros [C|[]]. subst. contradiction.
        -- intros z [<-|[<-|[]]]; [now right|left; reflexivity].
      * exists (m ++ [p]). split; [|split].
        -- rewrite <- app_assoc. cbn. apply chain_app. split; [exact M1|]. cbn. split; [now apply Esym|exact I].
        -- rewrite app_comm_cons. apply NoDup_app_intro; [exact M2|repeat constructor; intros []|].
           intros z Hz [<-|[]]. apply H3, M3, Hz.
        -- intros z Hz. rewrite app_comm_cons in Hz. apply in_app_or in Hz. destruct Hz as [Hz|[<-|[]]]; [right; now apply M3|left; reflexivity].
    + eapply joined_weak; [exact Hinc|]. now apply IH.
Qed.

(** A listed set that is not everything has a neighbour outside. *)
Lemma leave T x y : clos_refl_trans nat E x y -> In x T -> ~ In y T -> exists a b, In a T /\ ~ In b T /\ E a b.
Proof.
  intros H Hx Hy. apply clos_rt_rt1n in H. induction H as [x|x z y Hxz H IH]; [contradiction|].
  destruct (in_dec Nat.eq_dec z T) as [I|I]; [now apply IH|]. exists x, z. auto.
Qed.
Lemma extend o : tree_order o -> length (verts o) < n -> exists l p, tree_order ((l, p) :: o).
Proof.
  intros H Hlt. destruct (tree_order_verts o H) as [Hn Hin].
  assert (Hout : exists y, y < n /\ ~ In y (verts o)).
  { destruct (forallb (fun y => existsb (Nat.eqb y) (verts o)) (seq 0 n)) eqn:Ef.
    - exfalso. assert (Hinc : incl (seq 0 n) (verts o)).
      { intros y Hy. rewrite forallb_forall in Ef. specialize (Ef y Hy). apply existsb_exists in Ef.
        destruct Ef as (z & Hz & Hyz). apply Nat.eqb_eq in Hyz. now subst. }
      apply NoDup_incl_length in Hinc; [|apply seq_NoDup]. rewrite seq_length in Hinc. lia.
    - assert (G : exists y, In y (seq 0 n) /\ existsb (Nat.eqb y) (verts o) = false).
      { revert Ef. induction (seq 0 n) as [|y l IH]; cbn; [discriminate|]. intros Ef. apply andb_false_iff in Ef.
        destruct Ef as [Ef|Ef]; [exists y; auto|]. destruct (IH Ef) as (z & Hz & Hz2). exists z; auto. }
      destruct G as (y & Hy & Hf). apply in_seq in Hy. exists y. split; [lia|]. intros C.
      assert (existsb (Nat.eqb y) (verts o) = true) by (apply existsb_exists; exists y; split; [exact C|apply Nat.eqb_refl]). congruence. }
  destruct Hout as (y & Hy & Hny).
  assert (Hrv : In r (verts o)) by (unfold verts; apply in_or_app; right; left; reflexivity).
  destruct (leave (verts o) r y (Econn r y Hr Hy) Hrv Hny) as (p & l & Hp & Hl & Epl).
  exists l, p. cbn [tree_order]. split; [exact H|]. split; [exact Hp|]. split; [exact Hl|]. split; [now apply Esym|].
  intros x Hx Elx. destruct (order_joined o H x p Hx Hp) as [->|(m & M1 & M2 & M3)]; [reflexivity|].
  exfalso. apply (Eacyc (l :: x :: m ++ [p])). split; [cbn; rewrite app_length; cbn; lia|]. split; [|split].
  - constructor; [|exact M2]. intros C. apply Hl, M3, C.
  - apply (chain_nth l (x :: m ++ [p])). split; assumption.
  - intros u v Hu Hv. cbn in Hu. inversion Hu; subst u.
    change (l :: x :: m ++ [p]) with ((l :: x :: m) ++ [p]) in Hv. rewrite rev_app_distr in Hv. cbn in Hv. inversion Hv; subst v. exact Epl.
Qed.
Lemma grow m : forall o, tree_order o -> length (verts o) + m = n -> exists o', tree_order o' /\ length (verts o') = n.
Proof.
  induction m as [|m IH]; intros o H Hl; [exists o; split; [exact H|lia]|].
  destruct (extend o H) as (l & p & H'); [lia|]. apply (IH _ H'). cbn. unfold verts in Hl. lia.
Qed.
(** Every edge is a parent edge. *)
Lemma order_edges o : tree_order o -> forall x y, In x (verts o) -> In y (verts o) -> E x y -> In (x, y) o \/ In (y, x) o.
Proof.
  induction o as [|[l p] o IH]; cbn [tree_order]; intros H x y Hx Hy Hxy.
  - destruct Hx as [<-|[]], Hy as [<-|[]]. apply Erange in Hxy. lia.
  - destruct H as (H1 & H2 & H3 & H4 & H5). cbn in Hx, Hy. fold (verts o) in Hx, Hy. destruct Hx as [<-|Hx], Hy as [<-|Hy].
    + apply Erange in Hxy. lia.
    + left; left. now rewrite (H5 y Hy Hxy).
    + right; left. now rewrite (H5 x Hx (Esym _ _ Hxy)).
    + destruct (IH H1 x y Hx Hy Hxy) as [C|C]; [left|right]; right; exact C.
Qed.
Theorem tree_listing : exists o, tree_order o /\ Permutation (verts o) (seq 0 n) /\
  (forall x y, E x y -> In (x, y) o \/ In (y, x) o).
Proof.
  assert (Hstart : length (verts []) + (n - 1) = n) by (cbn; lia).
  destruct (grow (n - 1) [] I Hstart) as (o & Ho & Hl). exists o. split; [exact Ho|].
  destruct (tree_order_verts o Ho) as [Hn Hin].
  assert (HP : Permutation (verts o) (seq 0 n)).
  { apply NoDup_Permutation_bis; [exact Hn|rewrite seq_length; lia|]. intros x Hx. apply in_seq. specialize (Hin x Hx). lia. }
  split; [exact HP|]. intros x y Hxy. destruct (Erange x y Hxy) as (Hx & Hy & _).
  apply (order_edges o Ho x y); [| |exact Hxy]; apply (Permutation_in _ (Permutation_sym HP)); apply in_seq; lia.
Qed.
Lemma order_nodup o : tree_order o -> NoDup o /\ (forall x y, In (x, y) o -> ~ In (y, x) o) /\
  (forall x y, In (x, y) o -> E x y /\ In x (verts o) /\ In y (verts o)).
Proof.
  induction o as [|[l p] o IH]; cbn [tree_order]; intros H.
  - split; [constructor|]. split; intros x y [].
  - destruct H as (H1 & H2 & H3 & H4 & H5). destruct (IH H1) as (I1 & I2 & I3).
    assert (Hl : forall y, ~ In (l, y) o) by (intros y C; apply H3; apply (I3 l y C)).
    assert (Hl2 : forall y, ~ In (y, l) o) by (intros y C; apply H3; apply (I3 y l C)).
    split; [constructor; [apply Hl|exact I1]|]. split.
    + intros x y [C|C] [D|D].
      * inversion C; inversion D; subst. apply Erange in H4. lia.
      * inversion C; subst. exact (Hl2 _ D).
      * inversion D; subst. exact (Hl2 _ C).
      * exact (I2 x y C D).
    + intros x y [C|C]; [inversion C; subst|].
      * split; [exact H4|]. split; [left; reflexivity|right; exact H2].
      * destruct (I3 x y C) as (A & B & D). split; [exact A|]. split; right; assumption.
Qed.
End TreeOrder.
