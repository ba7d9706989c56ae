(** The spanning trees and sepsets computed during graph construction (C27, C28). *)
From Verif Require Export GraphFacts.

(** ** Ordered pairs of a list *)
Fixpoint lpairs {A} (l : list A) : list (A * A) :=
  match l with [] => [] | x :: l' => map (fun y => (x, y)) l' ++ lpairs l' end.

Lemma filter_map_comm {A B} (f : A -> B) (p : B -> bool) l : filter p (map f l) = map f (filter (fun x => p (f x)) l).
Proof. induction l as [|x l IH]; cbn; [reflexivity|]. destruct (p (f x)); cbn; now rewrite IH. Qed.

Lemma lpairs_filter {A} (p : A -> bool) l :
  filter (fun e => p (fst e) && p (snd e)) (lpairs l) = lpairs (filter p l).
Proof.
  induction l as [|x l IH]; cbn [lpairs filter]; [reflexivity|].
  rewrite filter_app, IH, filter_map_comm. cbn [fst snd]. destruct (p x); cbn [andb lpairs].
  - reflexivity.
  - assert (E : filter (fun _ : A => false) l = []) by (clear; induction l; auto). now rewrite E.
Qed.

Lemma flat_map_ext_in {A B} (f g : A -> list B) l : (forall x, In x l -> f x = g x) -> flat_map f l = flat_map g l.
Proof.
  induction l as [|x l IH]; cbn; intros H; [reflexivity|]. rewrite H by (left; reflexivity).
  rewrite IH; [reflexivity|]. intros; apply H; right; assumption.
Qed.
Lemma lpairs_seq m k : lpairs (seq k m) = flat_map (fun i => map (fun j => (i, j)) (seq (S i) (k + m - S i))) (seq k m).
Proof.
  revert k; induction m as [|m IH]; intros k; cbn [seq lpairs flat_map]; [reflexivity|].
  f_equal.
  - replace (k + S m - S k) with m by lia. reflexivity.
  - rewrite IH. apply flat_map_ext_in. intros i Hi. replace (S k + m) with (k + S m) by lia. reflexivity.
Qed.
Lemma pairs_lpairs n : pairs n = lpairs (seq 0 n).
Proof. unfold pairs. rewrite lpairs_seq. reflexivity. Qed.

Lemma In_lpairs {A} (l : list A) a b : In (a, b) (lpairs l) -> In a l /\ In b l.
Proof.
  induction l as [|x l IH]; cbn; [tauto|]. rewrite in_app_iff, in_map_iff.
  intros [(y & E & Hy)|H]; [inversion E; subst; auto|]. apply IH in H. tauto.
Qed.
Lemma pairs_lt n i j : In (i, j) (pairs n) <-> i < j /\ j < n.
Proof.
  unfold pairs. rewrite in_flat_map. split.
  - intros (x & Hx & H). apply in_map_iff in H. destruct H as (y & E & Hy). inversion E; subst.
    apply in_seq in Hx, Hy. lia.
  - intros [H1 H2]. exists i. split; [apply in_seq; lia|]. apply in_map_iff. exists j. split; [reflexivity|].
    apply in_seq. lia.
Qed.
Lemma pairs_NoDup n : NoDup (pairs n).
Proof.
  unfold pairs. apply NoDup_flat_map.
  - apply seq_NoDup.
  - intros x _. apply NoDup_map_inj; [congruence|apply seq_NoDup].
  - intros x y [a b] _ _ Ha Hb. apply in_map_iff in Ha, Hb.
    destruct Ha as (? & Ea & _), Hb as (? & Eb & _). inversion Ea; inversion Eb; congruence.
Qed.

(** ** Adjacency after a sequence of add_edge *)
Definition nbrs_in (es : list (nat * nat)) (u : nat) : list nat :=
  flat_map (fun e => if Nat.eq_dec (fst e) u then [snd e] else if Nat.eq_dec (snd e) u then [fst e] else []) es.

Lemma dkeys_dset {K W} {E : EqDec K} (d : dict K W) k v :
  dkeys (dset d k v) = if dmem d k then dkeys d else dkeys d ++ [k].
Proof.
  unfold dmem. induction d as [|[k0 v0] d IH]; cbn; [reflexivity|].
  destruct (eq_dec k k0) as [->|N]; cbn; [reflexivity|]. unfold dkeys in *. rewrite IH.
  destruct (dget d k); reflexivity.
Qed.
Lemma dmem_In {K W} {E : EqDec K} (d : dict K W) k : dmem d k = true <-> In k (dkeys d).
Proof.
  unfold dmem. destruct (dget d k) as [w|] eqn:H.
  - split; [|reflexivity]. intros _. apply dget_In in H. apply in_map_iff. exists (k, w). auto.
  - split; [discriminate|]. intros C. apply dget_None in H. contradiction.
Qed.
Lemma dmem_dset {K W} {E : EqDec K} (d : dict K W) k v k' : dmem (dset d k v) k' = (if eq_dec k' k then true else dmem d k').
Proof.
  unfold dmem. destruct (eq_dec k' k) as [->|N]; [now rewrite dget_dset_eq|now rewrite dget_dset_ne by auto].
Qed.

Definition add_keys (ks : list nat) (u : nat) : list nat := if mem u ks then ks else ks ++ [u].
Lemma dmem_mem {K W} {E : EqDec K} (d : dict K W) k : dmem d k = mem k (dkeys d).
Proof.
  apply eq_true_iff_eq. rewrite dmem_In, mem_In. tauto.
Qed.

Lemma add_node_keys g u : dkeys (nx_add_node g u) = add_keys (dkeys g) u.
Proof.
  unfold nx_add_node, add_keys. rewrite dmem_mem. destruct (mem u (dkeys g)) eqn:E; [reflexivity|].
  rewrite dkeys_dset, dmem_mem, E. reflexivity.
Qed.
Lemma link_keys g u v : In u (dkeys g) -> dkeys (nx_link g u v) = dkeys g.
Proof. intros H. unfold nx_link. rewrite dkeys_dset. now rewrite (proj2 (dmem_In g u) H). Qed.
Lemma In_add_keys ks u w : In w (add_keys ks u) <-> In w ks \/ w = u.
Proof.
  unfold add_keys. destruct (mem u ks) eqn:E.
  - apply mem_In in E. split; [tauto|]. intros [H| ->]; auto.
  - rewrite in_app_iff. cbn. intuition congruence.
Qed.
Lemma add_edge_keys g u v : dkeys (nx_add_edge g u v) = add_keys (add_keys (dkeys g) u) v.
Proof.
  unfold nx_add_edge. assert (K : dkeys (nx_add_node (nx_add_node g u) v) = add_keys (add_keys (dkeys g) u) v)
    by (now rewrite !add_node_keys).
  rewrite link_keys; rewrite link_keys; rewrite ?K; rewrite ?In_add_keys; auto.
Qed.

Lemma dget_or_node g u w : dget_or (nx_add_node g u) w [] = dget_or g w [].
Proof.
  unfold nx_add_node, dget_or. destruct (dmem g u) eqn:E; [reflexivity|].
  destruct (Nat.eq_dec w u) as [->|N].
  - rewrite dget_dset_eq. unfold dmem in E. destruct (dget g u); [discriminate|reflexivity].
  - now rewrite dget_dset_ne by auto.
Qed.
Lemma dget_or_link g u v w : dget_or (nx_link g u v) w [] =
  if Nat.eq_dec w u then (let l := dget_or g u [] in if mem v l then l else l ++ [v]) else dget_or g w [].
Proof.
  unfold nx_link. unfold dget_or at 1. destruct (Nat.eq_dec w u) as [->|N].
  - now rewrite dget_dset_eq.
  - rewrite dget_dset_ne by auto. reflexivity.
Qed.
Lemma add_edge_adj g u v w : u <> v -> ~ In v (dget_or g u []) -> ~ In u (dget_or g v []) ->
  dget_or (nx_add_edge g u v) w [] = dget_or g w [] ++ nbrs_in [(u, v)] w.
Proof.
  intros Huv Hv Hu. unfold nx_add_edge, nbrs_in. cbn [flat_map fst snd]. rewrite app_nil_r.
  rewrite !dget_or_link, !dget_or_node.
  apply mem_nIn in Hv, Hu. cbn zeta.
  destruct (Nat.eq_dec w v) as [->|N].
  - destruct (Nat.eq_dec v u) as [E|_]; [congruence|]. rewrite Hu.
    destruct (Nat.eq_dec u v) as [E|_]; [congruence|]. destruct (Nat.eq_dec v v); [reflexivity|congruence].
  - destruct (Nat.eq_dec w u) as [->|N'].
    + rewrite Hv. destruct (Nat.eq_dec u u); [reflexivity|congruence].
    + destruct (Nat.eq_dec u w); [congruence|]. destruct (Nat.eq_dec v w); [congruence|]. now rewrite app_nil_r.
Qed.

(** Edge lists without loops and without two edges on the same two nodes. *)
Definition simple (es : list (nat * nat)) : Prop :=
  NoDup es /\ (forall u v, In (u, v) es -> u <> v /\ ~ In (v, u) es).
Lemma in_nbrs es u v : In v (nbrs_in es u) -> In (u, v) es \/ In (v, u) es.
Proof.
  unfold nbrs_in. rewrite in_flat_map. intros ([a b] & Hin & H). cbn [fst snd] in H.
  destruct (Nat.eq_dec a u) as [->|]; [destruct H as [<-|[]]; auto|].
  destruct (Nat.eq_dec b u) as [->|]; [destruct H as [<-|[]]; auto|destruct H].
Qed.

Lemma fold_add_edges es : forall g0 pre, simple (pre ++ es) -> (forall w, dget_or g0 w [] = nbrs_in pre w) ->
  let g := fold_left (fun t e => nx_add_edge t (fst e) (snd e)) es g0 in
  (forall w, dget_or g w [] = nbrs_in (pre ++ es) w) /\
  dkeys g = fold_left add_keys (flat_map (fun e => [fst e; snd e]) es) (dkeys g0).
Proof.
  induction es as [|[u v] es IH]; intros g0 pre Hs H0; cbn zeta.
  - cbn. rewrite app_nil_r. auto.
  - cbn [fold_left flat_map app fst snd].
    assert (E : pre ++ (u, v) :: es = (pre ++ [(u, v)]) ++ es) by (now rewrite <- app_assoc).
    rewrite E in *. destruct (IH (nx_add_edge g0 u v) (pre ++ [(u, v)])) as [H1 H2]; auto.
    { destruct Hs as [Hn Hs]. assert (Huv : In (u, v) ((pre ++ [(u, v)]) ++ es)).
      { rewrite !in_app_iff. left; right; left; reflexivity. }
      destruct (Hs u v Huv) as [Hne Hrev].
      assert (Hpre : ~ In (u, v) pre /\ ~ In (v, u) pre).
      { split.
        - intros C. apply NoDup_app_elim in Hn. destruct Hn as (Hn & _). apply NoDup_app_elim in Hn.
          destruct Hn as (_ & _ & Hd). apply (Hd (u, v)); [exact C|left; reflexivity].
        - intros C. apply Hrev. rewrite !in_app_iff. tauto. }
      intros w. rewrite add_edge_adj.
      - rewrite H0. unfold nbrs_in. rewrite flat_map_app. reflexivity.
      - exact Hne.
      - rewrite H0. intros C. apply in_nbrs in C. tauto.
      - rewrite H0. intros C. apply in_nbrs in C. tauto. }
    cbn zeta in *. split; [exact H1|]. rewrite H2, add_edge_keys. reflexivity.
Qed.

(** Edges read back, for a graph with the nodes of [K] in order. *)
Lemma nx_edges_adj (g : nxgraph) : NoDup (dkeys g) -> forall seen, nx_edges_from seen g =
  (fix go (seen : list nat) (ks : list nat) : list (nat * nat) :=
     match ks with
     | [] => []
     | u :: ks' => map (fun v => (u, v)) (filter (fun v => negb (mem v seen)) (dget_or g u [])) ++ go (u :: seen) ks'
     end) seen (dkeys g).
Proof.
  intros Hn. 
  assert (G : forall (g' : nxgraph) seen, (forall u l, In (u, l) g' -> dget_or g u [] = l) -> nx_edges_from seen g' =
   (fix go (seen : list nat) (ks : list nat) : list (nat * nat) :=
     match ks with
     | [] => []
     | u :: ks' => map (fun v => (u, v)) (filter (fun v => negb (mem v seen)) (dget_or g u [])) ++ go (u :: seen) ks'
     end) seen (dkeys g')).
  { induction g' as [|[u l] g' IH]; intros seen H; cbn; [reflexivity|].
    rewrite (H u l (or_introl eq_refl)). f_equal. apply IH. intros; apply H; right; assumption. }
  intros seen. apply G. intros u l H. unfold dget_or. now rewrite (In_dget g u l Hn H).
Qed.

(** ** The complete graph on a list and its spanning star *)
Lemma nbrs_app es fs u : nbrs_in (es ++ fs) u = nbrs_in es u ++ nbrs_in fs u.
Proof. apply flat_map_app. Qed.
Lemma nbrs_none es u : (forall a b, In (a, b) es -> a <> u /\ b <> u) -> nbrs_in es u = [].
Proof.
  unfold nbrs_in. induction es as [|[a b] es IH]; cbn [flat_map fst snd]; intros H; [reflexivity|].
  destruct (H a b (or_introl eq_refl)). destruct (Nat.eq_dec a u); [congruence|]. destruct (Nat.eq_dec b u); [congruence|].
  apply IH. intros; apply H; right; assumption.
Qed.
Definition star (k : nat) (L : list nat) : list (nat * nat) := map (fun y => (k, y)) L.
Lemma nbrs_star_center u L : nbrs_in (star u L) u = L.
Proof.
  unfold nbrs_in, star. induction L as [|y L IH]; cbn [map flat_map fst snd]; [reflexivity|].
  destruct (Nat.eq_dec u u); [|congruence]. cbn. now rewrite IH.
Qed.
Lemma nbrs_star_other a u L : a <> u -> NoDup L -> nbrs_in (star a L) u = if mem u L then [a] else [].
Proof.
  intros N. unfold nbrs_in, star. induction 1 as [|y L Hy Hn IH]; cbn [map flat_map fst snd mem]; [reflexivity|].
  destruct (Nat.eq_dec a u); [congruence|]. rewrite IH.
  destruct (Nat.eq_dec y u) as [->|Ny]; destruct (eq_dec u _) as [E|E]; try congruence.
  - apply mem_nIn in Hy. now rewrite Hy.
  - reflexivity.
Qed.
Lemma nbrs_lpairs A u B : NoDup (A ++ u :: B) -> nbrs_in (lpairs (A ++ u :: B)) u = A ++ B.
Proof.
  induction A as [|a A IH]; cbn [app lpairs]; intros Hn; inversion Hn as [|? ? Ha Hn']; subst; rewrite nbrs_app.
  - fold (star u B). rewrite nbrs_star_center, nbrs_none; [apply app_nil_r|].
    intros x y H. apply In_lpairs in H. split; intros ->; tauto.
  - fold (star a (A ++ u :: B)). rewrite nbrs_star_other; [|intros ->; apply Ha; apply in_or_app; right; left; reflexivity|exact Hn'].
    rewrite (proj2 (mem_In u (A ++ u :: B))) by (apply in_or_app; right; left; reflexivity).
    cbn. now rewrite IH.
Qed.

Lemma NoDup_lpairs {A} (l : list A) : NoDup l -> NoDup (lpairs l).
Proof.
  induction 1 as [|x l Hx Hn IH]; cbn; [constructor|]. apply NoDup_app_intro; [|exact IH|].
  - apply NoDup_map_inj; [congruence|exact Hn].
  - intros [a b] Ha Hb. apply in_map_iff in Ha. destruct Ha as (y & E & _). inversion E; subst.
    apply In_lpairs in Hb. tauto.
Qed.
Lemma lpairs_anti {A} (l : list A) a b : NoDup l -> In (a, b) (lpairs l) -> a <> b /\ ~ In (b, a) (lpairs l).
Proof.
  induction 1 as [|x l Hx Hn IH]; cbn; [tauto|]. rewrite !in_app_iff, !in_map_iff.
  intros [(y & E & Hy)|H].
  - inversion E; subst. split; [congruence|]. intros [(z & E' & Hz)|H']; [inversion E'; subst; tauto|].
    apply In_lpairs in H'. tauto.
  - destruct (IH H) as [H1 H2]. split; [exact H1|]. intros [(z & E' & Hz)|H']; [|tauto].
    inversion E'; subst. apply In_lpairs in H. tauto.
Qed.
Lemma simple_lpairs l : NoDup l -> simple (lpairs l).
Proof. intros H. split; [now apply NoDup_lpairs|]. intros u v Hin. now apply lpairs_anti. Qed.
Lemma star_incl k L : incl (star k L) (lpairs (k :: L)).
Proof. intros e He. cbn. apply in_or_app. left. exact He. Qed.
Lemma simple_star k L : NoDup (k :: L) -> simple (star k L).
Proof.
  intros Hn. destruct (simple_lpairs (k :: L) Hn) as [H1 H2]. split.
  - cbn in H1. now apply NoDup_app_elim in H1.
  - intros u v H. destruct (H2 u v (star_incl k L _ H)) as [H3 H4]. split; [exact H3|].
    intros C. apply H4. now apply star_incl.
Qed.

Lemma add_keys_incl l : forall ks, incl l ks -> fold_left add_keys l ks = ks.
Proof.
  induction l as [|x l IH]; intros ks H; cbn; [reflexivity|].
  assert (E : add_keys ks x = ks).
  { unfold add_keys. now rewrite (proj2 (mem_In x ks)) by (apply H; left; reflexivity). }
  rewrite E. apply IH. intros y Hy. apply H. right; exact Hy.
Qed.
Lemma add_keys_star k L : forall ks, In k ks -> NoDup (ks ++ L) ->
  fold_left add_keys (flat_map (fun e => [fst e; snd e]) (star k L)) ks = ks ++ L.
Proof.
  induction L as [|y L IH]; intros ks Hk Hn; cbn [star map flat_map app fold_left fst snd]; [now rewrite app_nil_r|].
  assert (E : add_keys ks k = ks) by (unfold add_keys; now rewrite (proj2 (mem_In k ks)) by assumption).
  rewrite E. assert (E2 : add_keys ks y = ks ++ [y]).
  { unfold add_keys. rewrite (proj2 (mem_nIn y ks)); [reflexivity|]. intros C. apply NoDup_app_elim in Hn.
    destruct Hn as (_ & _ & Hd). apply (Hd y); [exact C|left; reflexivity]. }
  rewrite E2. fold (star k L). rewrite IH; [now rewrite <- app_assoc| |now rewrite <- app_assoc].
  apply in_or_app; left; exact Hk.
Qed.
Lemma keys_lpairs k0 k1 L : NoDup (k0 :: k1 :: L) ->
  fold_left add_keys (flat_map (fun e => [fst e; snd e]) (lpairs (k0 :: k1 :: L))) [] = k0 :: k1 :: L.
Proof.
  intros Hn. change (lpairs (k0 :: k1 :: L)) with ((k0, k1) :: star k0 L ++ lpairs (k1 :: L)).
  cbn [flat_map app fold_left fst snd]. rewrite flat_map_app, fold_left_app.
  assert (E : add_keys (add_keys [] k0) k1 = [k0; k1]).
  { unfold add_keys. cbn. destruct (eq_dec k1 k0) as [E|N]; [|reflexivity]. inversion Hn; subst. exfalso. apply H1.
    left. congruence. }
  rewrite E. rewrite add_keys_star; [|left; reflexivity|exact Hn]. apply add_keys_incl.
  intros x Hx. apply in_flat_map in Hx. destruct Hx as ([a b] & Hab & Hx). apply In_lpairs in Hab.
  cbn [fst snd] in Hx. destruct Hx as [<-|[<-|[]]]; right; apply Hab.
Qed.

Lemma filter_none {A} (f : A -> bool) l : (forall x, In x l -> f x = false) -> filter f l = [].
Proof.
  induction l as [|x l IH]; cbn; intros H; [reflexivity|]. rewrite H by (left; reflexivity).
  apply IH. intros; apply H; right; assumption.
Qed.

(** edges() of the complete graph. *)
Lemma edges_complete (g : nxgraph) K : NoDup K -> dkeys g = K ->
  (forall A u B, K = A ++ u :: B -> dget_or g u [] = A ++ B) -> nx_edges g = lpairs K.
Proof.
  intros Hn HK Hadj. unfold nx_edges. rewrite nx_edges_adj by (now rewrite HK). rewrite HK.
  assert (G : forall ks A seen, K = A ++ ks -> (forall x, In x seen <-> In x A) ->
   (fix go (seen : list nat) (ks : list nat) : list (nat * nat) :=
     match ks with
     | [] => []
     | u :: ks' => map (fun v => (u, v)) (filter (fun v => negb (mem v seen)) (dget_or g u [])) ++ go (u :: seen) ks'
     end) seen ks = lpairs ks).
  { induction ks as [|u ks IH]; intros A seen HA Hs; cbn [lpairs]; [reflexivity|].
    rewrite (Hadj A u ks HA), filter_app. rewrite filter_none, filter_true.
    - cbn [app]. f_equal. apply (IH (A ++ [u])); [now rewrite <- app_assoc|].
      intros x. rewrite in_app_iff. cbn. rewrite Hs. intuition congruence.
    - intros x Hx. apply negb_true_iff, mem_nIn. rewrite Hs. intros C. rewrite HA in Hn. apply NoDup_app_elim in Hn.
      destruct Hn as (_ & _ & Hd). apply (Hd x); [exact C|right; exact Hx].
    - intros x Hx. apply negb_false_iff, mem_In. now apply Hs. }
  apply (G K [] []); [reflexivity|tauto].
Qed.

(** Kruskal's algorithm on the complete graph. *)
Lemma kruskal_star k0 : forall L comp acc, NoDup L -> ~ In (comp k0) L -> (forall y, In y L -> comp y = y) ->
  exists comp', fold_left kruskal_step (star k0 L) (comp, acc) = (comp', acc ++ star k0 L) /\
    (forall w, comp w = comp k0 \/ In w L -> comp' w = comp' k0).
Proof.
  induction L as [|y L IH]; intros comp acc Hn Hc Hid.
  - exists comp. cbn. rewrite app_nil_r. split; [reflexivity|]. intros w [H|[]]. exact H.
  - inversion Hn as [|? ? Hy Hn']; subst. cbn [star map fold_left kruskal_step].
    rewrite (Hid y (or_introl eq_refl)).
    destruct (Nat.eqb (comp k0) y) eqn:E; [apply Nat.eqb_eq in E; exfalso; apply Hc; left; congruence|].
    set (comp1 := fun w => if Nat.eqb (comp w) (comp k0) then y else comp w).
    assert (H1 : comp1 k0 = y) by (unfold comp1; now rewrite Nat.eqb_refl).
    destruct (IH comp1 (acc ++ [(k0, y)])) as (comp' & H2 & H3).
    + exact Hn'.
    + rewrite H1. exact Hy.
    + intros z Hz. unfold comp1. rewrite (Hid z (or_intror Hz)).
      destruct (Nat.eqb z (comp k0)) eqn:Ez; [|reflexivity]. apply Nat.eqb_eq in Ez. subst z. exfalso. apply Hc. right; exact Hz.
    + exists comp'. fold (star k0 L). rewrite H2. rewrite <- app_assoc. split; [reflexivity|].
      intros w [Hw|[<-|Hw]].
      * apply H3. left. rewrite H1. unfold comp1. now rewrite (proj2 (Nat.eqb_eq _ _) Hw).
      * apply H3. left. rewrite H1. unfold comp1. rewrite (Hid y (or_introl eq_refl)), Nat.eqb_sym, E. reflexivity.
      * apply H3. right; exact Hw.
Qed.
Lemma kruskal_same es : forall comp acc, (forall u v, In (u, v) es -> comp u = comp v) ->
  fold_left kruskal_step es (comp, acc) = (comp, acc).
Proof.
  induction es as [|[u v] es IH]; intros comp acc H; cbn [fold_left kruskal_step]; [reflexivity|].
  rewrite (proj2 (Nat.eqb_eq _ _) (H u v (or_introl eq_refl))). apply IH. intros; apply H; right; assumption.
Qed.
Lemma kruskal_complete k0 L : NoDup (k0 :: L) ->
  exists comp, fold_left kruskal_step (lpairs (k0 :: L)) (fun w => w, []) = (comp, star k0 L).
Proof.
  intros Hn. inversion Hn as [|? ? Hk Hn']; subst. cbn [lpairs]. fold (star k0 L). rewrite fold_left_app.
  destruct (kruskal_star k0 L (fun w => w) [] Hn' Hk (fun y _ => eq_refl)) as (comp & -> & Hc).
  exists comp. apply kruskal_same. intros u v H. apply In_lpairs in H.
  rewrite (Hc u), (Hc v); [reflexivity|right; apply H|right; apply H].
Qed.

Lemma add_nodes_spec ks : forall g, dkeys (fold_left nx_add_node ks g) = fold_left add_keys ks (dkeys g) /\
  forall w, dget_or (fold_left nx_add_node ks g) w [] = dget_or g w [].
Proof.
  induction ks as [|k ks IH]; intros g; cbn [fold_left]; [auto|]. destruct (IH (nx_add_node g k)) as [H1 H2].
  rewrite H1, add_node_keys. split; [reflexivity|]. intros w. now rewrite H2, dget_or_node.
Qed.
Lemma add_keys_NoDup ks : forall pre, NoDup (pre ++ ks) -> fold_left add_keys ks pre = pre ++ ks.
Proof.
  induction ks as [|k ks IH]; intros pre Hn; cbn; [now rewrite app_nil_r|].
  assert (E : add_keys pre k = pre ++ [k]).
  { unfold add_keys. rewrite (proj2 (mem_nIn k pre)); [reflexivity|]. intros C. apply NoDup_app_elim in Hn.
    destruct Hn as (_ & _ & Hd). apply (Hd k); [exact C|left; reflexivity]. }
  rewrite E, IH; rewrite <- app_assoc; [reflexivity|exact Hn].
Qed.

(** The spanning tree of a complete graph is the star at its first node, with its edges read
    back in the direction (first node, other node). *)
Lemma mst_complete (g : nxgraph) k0 L : NoDup (k0 :: L) -> dkeys g = k0 :: L -> nx_edges g = lpairs (k0 :: L) ->
  nx_edges (nx_mst g) = star k0 L.
Proof.
  intros Hn HK He. unfold nx_mst. rewrite He.
  destruct (kruskal_complete k0 L Hn) as (comp & ->). rewrite HK.
  set (g0 := fold_left nx_add_node (k0 :: L) []).
  assert (K0 : dkeys g0 = k0 :: L).
  { unfold g0. rewrite (proj1 (add_nodes_spec (k0 :: L) [])). cbn [dkeys map]. now apply (add_keys_NoDup (k0 :: L) []). }
  assert (A0 : forall w, dget_or g0 w [] = nbrs_in [] w).
  { intros w. unfold g0. rewrite (proj2 (add_nodes_spec (k0 :: L) [])). reflexivity. }
  destruct (fold_add_edges (star k0 L) g0 [] (simple_star k0 L Hn) A0) as [A1 K1]. cbn zeta in A1, K1.
  set (t := fold_left (fun t e => nx_add_edge t (fst e) (snd e)) (star k0 L) g0) in *. cbn [app] in A1.
  rewrite K0 in K1. rewrite add_keys_incl in K1.
  2:{ intros x Hx. apply in_flat_map in Hx. destruct Hx as ([a b] & Hab & Hx). apply star_incl, In_lpairs in Hab.
      cbn [fst snd] in Hx. destruct Hx as [<-|[<-|[]]]; apply Hab. }
  unfold nx_edges. rewrite nx_edges_adj by (now rewrite K1). rewrite K1.
  inversion Hn as [|? ? Hk Hn']; subst. rewrite A1, nbrs_star_center.
  rewrite filter_true by reflexivity. fold (star k0 L).
  assert (G : forall ks seen, incl ks L -> In k0 seen ->
   (fix go (seen : list nat) (ks : list nat) : list (nat * nat) :=
     match ks with
     | [] => []
     | u :: ks' => map (fun v => (u, v)) (filter (fun v => negb (mem v seen)) (dget_or t u [])) ++ go (u :: seen) ks'
     end) seen ks = []).
  { induction ks as [|u ks IH]; intros seen Hi Hs; [reflexivity|].
    rewrite A1. rewrite nbrs_star_other; [|intros ->; apply Hk; apply Hi; left; reflexivity|exact Hn'].
    rewrite (proj2 (mem_In u L)) by (apply Hi; left; reflexivity). cbn [filter].
    rewrite (proj2 (mem_In k0 seen) Hs). cbn [negb map app]. apply IH; [|right; exact Hs].
    intros x Hx. apply Hi. right; exact Hx. }
  rewrite G; [apply app_nil_r|apply incl_refl|left; reflexivity].
Qed.

(** ** The edges for one variable *)
Definition holders (scopes : list (list string)) (v : string) : list nat :=
  filter (fun i => mem v (sc scopes i)) (seq 0 (length scopes)).

Lemma fold_left_filter {A B} (f : A -> B -> A) (p : B -> bool) l : forall a,
  fold_left (fun a b => if p b then f a b else a) l a = fold_left f (filter p l) a.
Proof. induction l as [|b l IH]; intros a; cbn; [reflexivity|]. destruct (p b); cbn; apply IH. Qed.

Lemma holders_NoDup scopes v : NoDup (holders scopes v).
Proof. apply NoDup_filter, seq_NoDup. Qed.
Lemma In_holders scopes v i : In i (holders scopes v) <-> i < length scopes /\ In v (sc scopes i).
Proof. unfold holders. rewrite filter_In, in_seq, mem_In. split; intros [H1 H2]; split; auto; lia. Qed.

Lemma mem_non_rip scopes ev v i j : mem v (non_rip scopes ev i j) = true <->
  In v (sc scopes i) /\ In v (sc scopes j) /\ ~ In v ev.
Proof. unfold non_rip. rewrite mem_In, In_set_diff, In_set_inter. tauto. Qed.

Lemma var_graph_eq scopes ev v : ~ In v ev ->
  var_graph scopes ev v = fold_left (fun g e => nx_add_edge g (fst e) (snd e)) (lpairs (holders scopes v)) [].
Proof.
  intros Hev. unfold var_graph.
  rewrite (fold_left_filter (fun g e => nx_add_edge g (fst e) (snd e)) (fun e => mem v (non_rip scopes ev (fst e) (snd e)))).
  f_equal. unfold holders. rewrite <- lpairs_filter, <- pairs_lpairs. apply filter_ext.
  intros [i j]. cbn [fst snd]. apply eq_true_iff_eq. rewrite mem_non_rip, andb_true_iff, !mem_In. tauto.
Qed.
Lemma var_graph_observed scopes ev v : In v ev -> var_graph scopes ev v = [].
Proof.
  intros Hev. unfold var_graph.
  rewrite (fold_left_filter (fun g e => nx_add_edge g (fst e) (snd e)) (fun e => mem v (non_rip scopes ev (fst e) (snd e)))).
  rewrite filter_none; [reflexivity|]. intros [i j] _. cbn [fst snd]. apply not_true_iff_false. rewrite mem_non_rip. tauto.
Qed.

Definition var_edges (scopes : list (list string)) (ev : list string) (v : string) : list (nat * nat) :=
  if mem v ev then [] else match holders scopes v with [] => [] | k :: L => star k L end.

Lemma var_tree scopes ev v : nx_edges (nx_mst (var_graph scopes ev v)) = var_edges scopes ev v.
Proof.
  unfold var_edges. destruct (mem v ev) eqn:E.
  - apply mem_In in E. rewrite var_graph_observed by exact E. reflexivity.
  - apply mem_nIn in E. rewrite var_graph_eq by exact E. pose proof (holders_NoDup scopes v) as Hn.
    destruct (holders scopes v) as [|k0 [|k1 L]]; [reflexivity|reflexivity|].
    set (g := fold_left _ _ _).
    destruct (fold_add_edges (lpairs (k0 :: k1 :: L)) [] [] (simple_lpairs _ Hn) (fun w => eq_refl)) as [HA HK].
    cbn zeta in HA, HK. fold g in HA, HK. cbn [app dkeys map] in HA, HK. rewrite keys_lpairs in HK by exact Hn.
    apply mst_complete; [exact Hn|exact HK|]. apply edges_complete; auto.
    intros A u B HAB. rewrite HA. rewrite HAB in *. now apply nbrs_lpairs.
Qed.

(** ** The sepset dictionary *)
Definition nonempty_opt {A} (l : list A) : option (list A) := match l with [] => None | _ => Some l end.

Lemma sep_step (v : string) es : NoDup es -> forall (d : dict (nat * nat) (list string)) e l,
  dget d e = nonempty_opt l ->
  dget (fold_left (fun d e => match dget d e with Some l => dset d e (l ++ [v]) | None => dset d e [v] end) es d) e =
  nonempty_opt (l ++ if mem e es then [v] else []).
Proof.
  induction 1 as [|e0 es He0 Hn IH]; intros d e l Hd; cbn [fold_left mem].
  - now rewrite app_nil_r.
  - destruct (eq_dec e e0) as [->|N].
    + rewrite (IH _ e0 (l ++ [v])).
      * apply mem_nIn in He0. rewrite He0, app_nil_r. reflexivity.
      * rewrite Hd. destruct l as [|x l]; cbn [nonempty_opt]; rewrite dget_dset_eq; reflexivity.
    + apply IH. destruct (dget d e0); rewrite dget_dset_ne by exact N; exact Hd.
Qed.

Lemma var_edges_NoDup scopes ev v : NoDup (var_edges scopes ev v).
Proof.
  unfold var_edges. destruct (mem v ev); [constructor|]. pose proof (holders_NoDup scopes v).
  destruct (holders scopes v) as [|k L]; [constructor|]. now apply simple_star.
Qed.

Definition sep_vars (o : oracle) (scopes : list (list string)) (ev : list string) (e : nat * nat) : list string :=
  filter (fun v => mem e (var_edges scopes ev v)) (unique_vars o scopes).

Lemma rip_lookup o scopes ev e : dget (rip_sepsets o scopes ev) e = nonempty_opt (sep_vars o scopes ev e).
Proof.
  unfold rip_sepsets, sep_vars.
  assert (G : forall vs d l, dget d e = nonempty_opt l ->
    dget (fold_left (fun d v =>
               fold_left (fun d e =>
                            match dget d e with
                            | Some l => dset d e (l ++ [v])
                            | None => dset d e [v]
                            end) (nx_edges (nx_mst (var_graph scopes ev v))) d) vs d) e =
    nonempty_opt (l ++ filter (fun v => mem e (var_edges scopes ev v)) vs)).
  { induction vs as [|v vs IH]; intros d l Hd; cbn [fold_left filter]; [now rewrite app_nil_r|].
    rewrite (IH _ (l ++ if mem e (var_edges scopes ev v) then [v] else [])).
    - rewrite <- app_assoc. destruct (mem e (var_edges scopes ev v)); reflexivity.
    - rewrite var_tree. apply sep_step; [apply var_edges_NoDup|exact Hd]. }
  apply (G _ [] []). reflexivity.
Qed.

Lemma In_var_edges scopes ev v i j : In (i, j) (var_edges scopes ev v) <->
  ~ In v ev /\ exists L, holders scopes v = i :: L /\ In j L.
Proof.
  unfold var_edges. destruct (mem v ev) eqn:E.
  - apply mem_In in E. cbn. tauto.
  - apply mem_nIn in E. destruct (holders scopes v) as [|k L].
    + split; [intros []|]. intros (_ & L & H & _). discriminate.
    + unfold star. rewrite in_map_iff. split.
      * intros (y & H & Hy). inversion H; subst. eauto.
      * intros (_ & L' & H & Hj). inversion H; subst. eauto.
Qed.

Lemma unique_vars_In o scopes v : oracle_ok o -> In v (unique_vars o scopes) <-> exists s, In s scopes /\ In v s.
Proof.
  intros Ho. unfold unique_vars. rewrite (so_In o _ v Ho (NoDup_dedup _)), In_dedup, in_concat. tauto.
Qed.
Lemma unique_vars_NoDup o scopes : oracle_ok o -> NoDup (unique_vars o scopes).
Proof. intros Ho. apply so_NoDup; [exact Ho|apply NoDup_dedup]. Qed.

(** The holders of a variable are listed in increasing order, so its edges go from the
    smallest holder to the others. *)
Lemma filter_seq_sorted p m : forall k i L, filter p (seq k m) = i :: L -> k <= i < k + m /\ forall j, In j L -> i < j < k + m.
Proof.
  induction m as [|m IH]; intros k i L H; cbn in H; [discriminate|]. destruct (p k).
  - inversion H; subst. split; [lia|]. intros j Hj. apply filter_In in Hj. rewrite in_seq in Hj. lia.
  - apply IH in H. destruct H as [H1 H2]. split; [lia|]. intros j Hj. specialize (H2 j Hj). lia.
Qed.
Lemma In_sep_vars o scopes ev v i j : oracle_ok o ->
  In v (sep_vars o scopes ev (i, j)) <->
  ~ In v ev /\ i < j /\ j < length scopes /\ In v (sc scopes i) /\ In v (sc scopes j) /\
  (forall k, k < i -> ~ In v (sc scopes k)).
Proof.
  intros Ho. unfold sep_vars. rewrite filter_In, mem_In, In_var_edges, (unique_vars_In o scopes v Ho). split.
  - intros (_ & Hev & L & HL & Hj). split; [exact Hev|].
    pose proof HL as HL'. unfold holders in HL'. apply filter_seq_sorted in HL'. destruct HL' as [H1 H2].
    specialize (H2 j Hj).
    assert (Hi : In i (holders scopes v)) by (rewrite HL; left; reflexivity).
    assert (Hj' : In j (holders scopes v)) by (rewrite HL; right; exact Hj).
    apply In_holders in Hi, Hj'. split; [lia|]. split; [lia|]. split; [apply Hi|]. split; [apply Hj'|].
    intros k Hk C. assert (Hk' : In k (holders scopes v)) by (apply In_holders; split; [lia|exact C]).
    rewrite HL in Hk'. destruct Hk' as [->|Hk']; [lia|].
    unfold holders in HL. apply filter_seq_sorted in HL. destruct HL as [_ HL]. specialize (HL k Hk'). lia.
  - intros (Hev & Hij & Hj & Hi & Hjv & Hmin). split; [|split; [exact Hev|]].
    + exists (sc scopes j). split; [|exact Hjv]. unfold sc. apply nth_In. exact Hj.
    + assert (Hi' : In i (holders scopes v)) by (apply In_holders; split; [lia|exact Hi]).
      assert (Hj' : In j (holders scopes v)) by (apply In_holders; split; [lia|exact Hjv]).
      destruct (holders scopes v) as [|k L] eqn:E; [destruct Hi'|].
      assert (Hk : In k (holders scopes v)) by (rewrite E; left; reflexivity). apply In_holders in Hk.
      assert (k = i).
      { destruct Hi' as [->|Hi']; [reflexivity|]. unfold holders in E. apply filter_seq_sorted in E.
        destruct E as [_ E]. specialize (E i Hi'). exfalso. apply (Hmin k); [lia|apply Hk]. }
      subst k. exists L. split; [reflexivity|]. destruct Hj' as [->|Hj']; [lia|exact Hj'].
Qed.
Lemma sep_vars_NoDup o scopes ev e : oracle_ok o -> NoDup (sep_vars o scopes ev e).
Proof. intros Ho. apply NoDup_filter. now apply unique_vars_NoDup. Qed.
