(** Running intersection and sepsets of a constructed graph (C27, C28). *)
From Coq Require Export Relations.
From Verif Require Export GraphProd.

Section Tree.
Context {F V : Type} (ops : fops F V).

(** Variable [v] is in the scope of cluster [i]. *)
Definition in_scope (g : cgraph F V) (v : string) (i : nat) : Prop :=
  exists c, nth_error (g_cl g) i = Some c /\ In v (f_vars ops (cl_fac c)).
(** There is a message path from cluster [i] to cluster [j], with sepset [S] stored by [i]. *)
Definition edge_with (g : cgraph F V) (i j : nat) (S : list string) : Prop :=
  exists k p ci cj, nth_error (g_paths g) k = Some p /\ p_snd p = i /\ p_rcv p = j /\
    nth_error (g_cl g) i = Some ci /\ nth_error (g_cl g) j = Some cj /\ dget (cl_seps ci) (cl_id cj) = Some S.
Definition edge_var (g : cgraph F V) (v : string) (i j : nat) : Prop := exists S, edge_with g i j S /\ In v S.

Lemma edge_with_sep sepf g i j S : struct_ok sepf g -> (edge_with g i j S <-> sepf i j = Some S).
Proof.
  intros ST. split.
  - intros (k & p & ci & cj & H1 & <- & <- & H4 & H5 & H6). now rewrite (st_sep _ _ ST _ _ ci cj H4 H5) in H6.
  - intros H. destruct (st_edge _ _ ST i j S H) as (H1 & H2 & H3 & H4 & H5 & k & p & H6 & H7 & H8).
    destruct (nth_error (g_cl g) i) as [ci|] eqn:Ei; [|apply nth_error_None in Ei; lia].
    destruct (nth_error (g_cl g) j) as [cj|] eqn:Ej; [|apply nth_error_None in Ej; lia].
    exists k, p, ci, cj. repeat split; auto. rewrite (st_sep _ _ ST _ _ ci cj Ei Ej). exact H.
Qed.

Lemma in_scope_sc g v i : in_scope g v i <-> In v (sc (cluster_scopes ops g) i).
Proof.
  unfold in_scope, sc, cluster_scopes. split.
  - intros (c & Hc & Hv). rewrite (nth_error_nth (map (fun c0 => f_vars ops (cl_fac c0)) (g_cl g)) i [] (x := f_vars ops (cl_fac c))); [exact Hv|].
    rewrite nth_error_map, Hc. reflexivity.
  - intros H. destruct (nth_error (g_cl g) i) as [c|] eqn:E.
    + exists c. split; [reflexivity|]. rewrite (nth_error_nth (map (fun c0 => f_vars ops (cl_fac c0)) (g_cl g)) i [] (x := f_vars ops (cl_fac c))) in H; [exact H|].
      rewrite nth_error_map, E. reflexivity.
    + rewrite nth_overflow in H; [destruct H|]. rewrite map_length. now apply nth_error_None.
Qed.

Section Made.
Context (o : oracle) (factors : list F) (ev : option (dict string V)) (special : dict string V)
        (reduced final : list F) (g : cgraph F V).
Hypothesis Ho : oracle_ok o.
Hypothesis M : made ops o factors ev special reduced final g.
Let scopes := map (f_vars ops) final.
Let obs := all_evidence ev special.

Lemma made_sc i v : in_scope g v i <-> In v (sc scopes i).
Proof. rewrite in_scope_sc. rewrite (made_scopes _ _ _ _ _ _ _ _ M). reflexivity. Qed.
Lemma made_edge i j S : edge_with g i j S <-> graph_sep o scopes obs i j = Some S.
Proof. apply edge_with_sep. apply (mk_struct _ _ _ _ _ _ _ _ M). Qed.

(** C28 *)
Lemma made_sepset i j S : edge_with g i j S ->
  i <> j /\ S <> [] /\ NoDup S /\ edge_with g j i S /\
  (forall v, In v S -> in_scope g v i /\ in_scope g v j /\ ~ In v obs).
Proof.
  intros H. pose proof (proj1 (made_edge i j S) H) as E. split; [|split; [|split; [|split]]].
  - intros ->. unfold graph_sep in E. rewrite Nat.ltb_irrefl in E. discriminate.
  - intros ->. eapply graph_sep_none_empty; eauto.
  - eapply graph_sep_NoDup; eauto.
  - apply made_edge. now rewrite graph_sep_sym.
  - intros v Hv. apply (graph_sep_In o scopes obs i j S v Ho E) in Hv. rewrite !made_sc. tauto.
Qed.

(** C27: the edges of a variable are the star around the first cluster that contains it. *)
Lemma edge_var_star v i j : edge_var g v i j <-> ~ In v obs /\ i <> j /\ in_scope g v i /\ in_scope g v j /\
    (forall k, in_scope g v k -> Nat.min i j <= k).
Proof.
  split.
  - intros (S & HE & Hv). pose proof (proj1 (made_edge i j S) HE) as E.
    apply (graph_sep_In o scopes obs i j S v Ho E) in Hv. destruct Hv as (H1 & H2 & H3 & H4 & H5 & H6 & H7).
    rewrite !made_sc. repeat split; auto. intros k Hk. apply H7. now apply made_sc.
  - intros (H1 & H2 & H3 & H4 & H5). rewrite made_sc in H3, H4.
    assert (Hr : forall k, In v (sc scopes k) -> k < length scopes).
    { intros k Hk. destruct (le_lt_dec (length scopes) k) as [C|C]; [|exact C]. unfold sc in Hk.
      rewrite nth_overflow in Hk by exact C. destruct Hk. }
    assert (H5' : forall k, In v (sc scopes k) -> Nat.min i j <= k) by (intros k Hk; apply H5, made_sc, Hk).
    destruct (Nat.lt_total i j) as [C|[C|C]]; [|contradiction|].
    + rewrite Nat.min_l in H5' by lia. destruct (graph_sep_edge o scopes obs v i j Ho H1 C (Hr j H4) H3 H4 H5') as (S & HS & Hv).
      exists S. split; [now apply made_edge|exact Hv].
    + rewrite Nat.min_r in H5' by lia. destruct (graph_sep_edge o scopes obs v j i Ho H1 C (Hr i H3) H4 H3 H5') as (S & HS & Hv).
      exists S. split; [apply made_edge; now rewrite graph_sep_sym|exact Hv].
Qed.

Lemma first_holder v i : in_scope g v i -> exists k, in_scope g v k /\ forall j, in_scope g v j -> k <= j.
Proof.
  intros H. assert (D : forall k, in_scope g v k \/ ~ in_scope g v k).
  { intros k. rewrite made_sc. destruct (in_dec string_dec v (sc scopes k)); auto. }
  revert H. induction i as [i IH] using lt_wf_ind. intros H.
  assert (B : forall m, (exists k, k < m /\ in_scope g v k) \/ forall k, k < m -> ~ in_scope g v k).
  { induction m as [|m [(k & Hk & Hs)|Hm]]; [right; intros; lia|left; exists k; auto|].
    destruct (D m) as [C|C]; [left; exists m; auto|]. right. intros k Hk. destruct (Nat.eq_dec k m) as [->|]; [exact C|apply Hm; lia]. }
  destruct (B i) as [(k & Hk & Hs)|Hn]; [apply (IH k Hk Hs)|]. exists i. split; [exact H|].
  intros j Hj. destruct (le_lt_dec i j); [assumption|]. exfalso. eapply Hn; eauto.
Qed.

Lemma var_connected v i j : ~ In v obs -> in_scope g v i -> in_scope g v j -> clos_refl_trans nat (edge_var g v) i j.
Proof.
  intros Hv Hi Hj. destruct (first_holder v i Hi) as (c & Hc & Hmin).
  assert (G : forall x, in_scope g v x -> clos_refl_trans nat (edge_var g v) x c /\ clos_refl_trans nat (edge_var g v) c x).
  { intros x Hx. destruct (Nat.eq_dec x c) as [->|N]; [split; apply rt_refl|]. pose proof (Hmin x Hx).
    split; apply rt_step; apply edge_var_star; repeat split; auto; intros k Hk; pose proof (Hmin k Hk); lia. }
  eapply rt_trans; [apply G, Hi|apply G, Hj].
Qed.

(** A cycle through at least three different clusters. *)
Definition cycle (E : nat -> nat -> Prop) (l : list nat) : Prop :=
  3 <= length l /\ NoDup l /\ (forall a x y, nth_error l a = Some x -> nth_error l (S a) = Some y -> E x y) /\
  (forall x y, hd_error l = Some x -> hd_error (rev l) = Some y -> E y x).
Lemma var_acyclic v l : ~ cycle (edge_var g v) l.
Proof.
  intros (H1 & H2 & H3 & H4).
  destruct l as [|x0 [|x1 [|x2 l]]]; cbn in H1; try lia.
  assert (G : forall i j, edge_var g v i j -> forall x y, edge_var g v x y -> Nat.min i j = Nat.min x y).
  { intros i j E x y E'. apply edge_var_star in E, E'. destruct E as (_ & _ & A1 & A2 & A3), E' as (_ & _ & B1 & B2 & B3).
    assert (Hij : in_scope g v (Nat.min i j)) by (destruct (Nat.min_dec i j) as [->| ->]; assumption).
    assert (Hxy : in_scope g v (Nat.min x y)) by (destruct (Nat.min_dec x y) as [->| ->]; assumption).
    apply Nat.le_antisymm; [now apply A3|now apply B3]. }
  assert (E01 : edge_var g v x0 x1) by (apply (H3 0); reflexivity).
  assert (E12 : edge_var g v x1 x2) by (apply (H3 1); reflexivity).
  inversion H2 as [|? ? N0 H2']; subst. inversion H2' as [|? ? N1 H2'']; subst. cbn in N0, N1.
  pose proof (G _ _ E01 _ _ E12) as M1.
  destruct l as [|x3 l].
  - assert (E20 : edge_var g v x2 x0) by (apply H4; reflexivity). pose proof (G _ _ E01 _ _ E20). lia.
  - assert (E23 : edge_var g v x2 x3) by (apply (H3 2); reflexivity). pose proof (G _ _ E01 _ _ E23).
    inversion H2'' as [|? ? N2 _]; subst. cbn in *. lia.
Qed.
End Made.
End Tree.
