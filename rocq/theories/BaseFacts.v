(** Facts about the Python built-ins of Base.v (proofs only, no model). *)
From Verif Require Import Base.

Lemma bind_ok {A B} (m : res A) (k : A -> res B) b :
  bind m k = Ok b -> exists a, m = Ok a /\ k a = Ok b.
Proof. destruct m as [a|e]; cbn; intros H; [eauto|discriminate]. Qed.

Lemma mem_In {A} {E : EqDec A} (x : A) l : mem x l = true <-> In x l.
Proof.
  induction l as [|y l IH]; cbn; [split; [discriminate|tauto]|].
  destruct (eq_dec x y) as [->|N]; [tauto|].
  rewrite IH. split; [tauto|]. intros [->|H]; [congruence|exact H].
Qed.
Lemma mem_nIn {A} {E : EqDec A} (x : A) l : mem x l = false <-> ~ In x l.
Proof. rewrite <- mem_In. destruct (mem x l); split; congruence. Qed.

Lemma eqb_true {A} {E : EqDec A} (x y : A) : eqb x y = true <-> x = y.
Proof. unfold eqb; destruct (eq_dec x y); split; congruence. Qed.
Lemma eqb_refl {A} {E : EqDec A} (x : A) : eqb x x = true.
Proof. apply eqb_true; reflexivity. Qed.

Lemma subsetb_incl {A} {E : EqDec A} (l m : list A) : subsetb l m = true <-> incl l m.
Proof.
  unfold subsetb, incl. rewrite forallb_forall.
  split; intros H x Hx; apply mem_In || rewrite <- mem_In; auto.
Qed.
Lemma seteqb_iff {A} {E : EqDec A} (l m : list A) :
  seteqb l m = true <-> (forall x, In x l <-> In x m).
Proof.
  unfold seteqb. rewrite andb_true_iff, !subsetb_incl. unfold incl. firstorder.
Qed.

Lemma In_dedup {A} {E : EqDec A} (x : A) l : In x (dedup l) <-> In x l.
Proof.
  induction l as [|y l IH]; cbn; [tauto|].
  rewrite filter_In, IH. unfold eqb.
  destruct (eq_dec y x) as [->|N]; cbn; intuition congruence.
Qed.
Lemma NoDup_filter {A} (f : A -> bool) l : NoDup l -> NoDup (filter f l).
Proof.
  induction 1 as [|x l Hx Hn IH]; cbn; [constructor|].
  destruct (f x); [constructor; [rewrite filter_In; tauto|exact IH]|exact IH].
Qed.
Lemma NoDup_dedup {A} {E : EqDec A} (l : list A) : NoDup (dedup l).
Proof.
  induction l as [|y l IH]; cbn; constructor.
  - rewrite filter_In, eqb_refl. cbn. intuition discriminate.
  - apply NoDup_filter, IH.
Qed.
Lemma filter_true {A} (f : A -> bool) l : (forall x, In x l -> f x = true) -> filter f l = l.
Proof.
  induction l as [|x l IH]; cbn; intros H; [reflexivity|].
  rewrite H by (left; reflexivity). f_equal. apply IH; intros; apply H; right; assumption.
Qed.
Lemma dedup_NoDup_id {A} {E : EqDec A} (l : list A) : NoDup l -> dedup l = l.
Proof.
  induction 1 as [|x l Hx Hn IH]; cbn; [reflexivity|].
  rewrite IH. f_equal. apply filter_true. intros y Hy. unfold eqb.
  destruct (eq_dec x y); [subst; contradiction|reflexivity].
Qed.
Lemma filter_length_le {A} (f : A -> bool) l : length (filter f l) <= length l.
Proof. induction l as [|x l IH]; cbn; [lia|destruct (f x); cbn; lia]. Qed.
Lemma dedup_length_le {A} {E : EqDec A} (l : list A) : length (dedup l) <= length l.
Proof.
  induction l as [|x l IH]; cbn; [lia|].
  pose proof (filter_length_le (fun y => negb (eqb x y)) (dedup l)). lia.
Qed.
Lemma nodupb_iff {A} {E : EqDec A} (l : list A) : nodupb l = true <-> NoDup l.
Proof.
  unfold nodupb. rewrite Nat.eqb_eq. split.
  - induction l as [|x l IH]; cbn; [constructor|]. intros H.
    pose proof (filter_length_le (fun y => negb (eqb x y)) (dedup l)).
    pose proof (dedup_length_le l).
    assert (HN : NoDup l) by (apply IH; lia).
    constructor; [|exact HN].
    rewrite dedup_NoDup_id in * by exact HN.
    intros Hin. apply in_split in Hin. destruct Hin as (l1 & l2 & ->).
    rewrite filter_app in H. cbn in H. rewrite eqb_refl in H. cbn in H.
    rewrite !app_length in H. cbn in H.
    pose proof (filter_length_le (fun y => negb (eqb x y)) l1).
    pose proof (filter_length_le (fun y => negb (eqb x y)) l2). lia.
  - intros H. now rewrite dedup_NoDup_id.
Qed.

Lemma In_set_diff {A} {E : EqDec A} (x : A) l m : In x (set_diff l m) <-> In x l /\ ~ In x m.
Proof.
  unfold set_diff. rewrite filter_In, In_dedup.
  destruct (mem x m) eqn:Hm; cbn.
  - rewrite mem_In in Hm. intuition discriminate.
  - rewrite mem_nIn in Hm. tauto.
Qed.
Lemma NoDup_set_diff {A} {E : EqDec A} (l m : list A) : NoDup (set_diff l m).
Proof. apply NoDup_filter, NoDup_dedup. Qed.
Lemma In_set_inter {A} {E : EqDec A} (x : A) l m : In x (set_inter l m) <-> In x l /\ In x m.
Proof. unfold set_inter. rewrite filter_In, In_dedup, mem_In. tauto. Qed.
Lemma NoDup_set_inter {A} {E : EqDec A} (l m : list A) : NoDup (set_inter l m).
Proof. apply NoDup_filter, NoDup_dedup. Qed.

(** index *)
Lemma index_opt_In {A} {E : EqDec A} (x : A) l : In x l -> exists i, index_opt x l = Some i.
Proof.
  induction l as [|y l IH]; cbn; [tauto|].
  destruct (eq_dec x y) as [->|N]; [eauto|].
  intros [->|H]; [congruence|]. destruct (IH H) as (i & ->). cbn. eauto.
Qed.
Lemma index_opt_nth {A} {E : EqDec A} (x : A) l i :
  index_opt x l = Some i -> nth_error l i = Some x.
Proof.
  revert i; induction l as [|y l IH]; cbn; intros i H; [discriminate|].
  destruct (eq_dec x y) as [->|N].
  - injection H as <-. reflexivity.
  - destruct (index_opt x l) as [j|] eqn:Hj; cbn in H; [|discriminate].
    injection H as <-. cbn. auto.
Qed.
Lemma index_opt_nth_NoDup {A} {E : EqDec A} (x : A) l i :
  NoDup l -> nth_error l i = Some x -> index_opt x l = Some i.
Proof.
  intros Hn; revert i; induction Hn as [|y l Hy Hn IH]; intros i H; [destruct i; discriminate|].
  destruct i as [|i]; cbn in *.
  - injection H as ->. destruct (eq_dec x x); [reflexivity|congruence].
  - destruct (eq_dec x y) as [->|N].
    + exfalso. apply Hy. eapply nth_error_In; eauto.
    + now rewrite (IH _ H).
Qed.
Lemma py_index_In {A} {E : EqDec A} (x : A) l :
  In x l -> exists i, py_index l x = Ok i /\ nth_error l i = Some x.
Proof.
  intros H. destruct (index_opt_In x l H) as (i & Hi).
  exists i. unfold py_index. rewrite Hi. split; [reflexivity|]. now apply index_opt_nth.
Qed.
Lemma py_index_nIn {A} {E : EqDec A} (x : A) l : ~ In x l -> py_index l x = Err ValueError.
Proof.
  intros H. unfold py_index. destruct (index_opt x l) as [i|] eqn:Hi; [|reflexivity].
  apply index_opt_nth, nth_error_In in Hi. contradiction.
Qed.

Lemma Forall2_length {A B} (P : A -> B -> Prop) l m : Forall2 P l m -> length l = length m.
Proof. induction 1; cbn; congruence. Qed.

(** mapM *)
Lemma mapM_ok {A B} (f : A -> res B) (g : A -> B) l :
  (forall x, In x l -> f x = Ok (g x)) -> mapM f l = Ok (map g l).
Proof.
  induction l as [|x l IH]; cbn; intros H; [reflexivity|].
  rewrite H by (left; reflexivity). cbn. rewrite IH; [reflexivity|].
  intros y Hy; apply H; right; exact Hy.
Qed.
Lemma mapM_Ok_inv {A B} (f : A -> res B) l r :
  mapM f l = Ok r -> Forall2 (fun x y => f x = Ok y) l r.
Proof.
  revert r; induction l as [|x l IH]; cbn; intros r H.
  - injection H as <-. constructor.
  - apply bind_ok in H. destruct H as (y & Hy & H).
    apply bind_ok in H. destruct H as (ys & Hys & H). injection H as <-.
    constructor; auto.
Qed.
Lemma mapM_length {A B} (f : A -> res B) l r : mapM f l = Ok r -> length r = length l.
Proof. intros H. apply mapM_Ok_inv in H. symmetry. eapply Forall2_length; eauto. Qed.
Lemma mapM_app {A B} (f : A -> res B) l1 l2 :
  mapM f (l1 ++ l2) =
  (let* r1 := mapM f l1 in let* r2 := mapM f l2 in Ok (r1 ++ r2)).
Proof.
  induction l1 as [|x l IH]; cbn.
  - destruct (mapM f l2); reflexivity.
  - destruct (f x); cbn; [|reflexivity]. rewrite IH.
    destruct (mapM f l); cbn; [|reflexivity]. destruct (mapM f l2); reflexivity.
Qed.
Lemma mapM_exists {A B} (f : A -> res B) l :
  (forall x, In x l -> exists y, f x = Ok y) -> exists r, mapM f l = Ok r.
Proof.
  induction l as [|x l IH]; cbn; intros H; [eauto|].
  destruct (H x (or_introl eq_refl)) as (y & ->). cbn.
  destruct IH as (r & ->); [intros z Hz; apply H; right; exact Hz|]. cbn. eauto.
Qed.

(** foldM *)
Lemma foldM_app {A S} (f : S -> A -> res S) l1 l2 s :
  foldM f (l1 ++ l2) s = (let* s' := foldM f l1 s in foldM f l2 s').
Proof.
  revert s; induction l1 as [|x l IH]; cbn; intros s; [reflexivity|].
  destruct (f s x); cbn; [apply IH|reflexivity].
Qed.
Lemma foldM_ok {A S} (f : S -> A -> res S) (g : S -> A -> S) (I : S -> Prop) l s :
  I s -> (forall s x, I s -> In x l -> f s x = Ok (g s x) /\ I (g s x)) ->
  foldM f l s = Ok (fold_left g l s) /\ I (fold_left g l s).
Proof.
  revert s; induction l as [|x l IH]; cbn; intros s Hs H; [split; [reflexivity|exact Hs]|].
  destruct (H s x Hs (or_introl eq_refl)) as [-> Hi]. cbn.
  apply IH; [exact Hi|]. intros s' y Hs' Hy; apply H; [exact Hs'|right; exact Hy].
Qed.

(** dictionaries *)
Section DictFacts.
  Context {K V : Type} {E : EqDec K}.
  Implicit Types d : dict K V.

  Lemma dget_dset d k v k' :
    dget (dset d k v) k' = if eq_dec k' k then Some v else dget d k'.
  Proof.
    induction d as [|[k0 v0] d IH]; cbn.
    - destruct (eq_dec k' k); reflexivity.
    - destruct (eq_dec k k0) as [->|N]; cbn.
      + destruct (eq_dec k' k0); reflexivity.
      + rewrite IH. destruct (eq_dec k' k0) as [->|]; [|reflexivity].
        destruct (eq_dec k0 k) as [->|]; [congruence|reflexivity].
  Qed.
  Lemma dget_dset_eq d k v : dget (dset d k v) k = Some v.
  Proof. rewrite dget_dset. destruct (eq_dec k k); congruence. Qed.
  Lemma dget_dset_ne d k v k' : k' <> k -> dget (dset d k v) k' = dget d k'.
  Proof. intros H. rewrite dget_dset. destruct (eq_dec k' k); congruence. Qed.

  Lemma dget_In d k v : dget d k = Some v -> In (k, v) d.
  Proof.
    induction d as [|[k0 v0] d IH]; cbn; [discriminate|].
    destruct (eq_dec k k0) as [->|N]; [intros [= ->]; left; reflexivity|right; auto].
  Qed.
  Lemma In_dget d k v : NoDup (dkeys d) -> In (k, v) d -> dget d k = Some v.
  Proof.
    unfold dkeys. induction d as [|[k0 v0] d IH]; cbn; [tauto|].
    intros Hn [H|H]; inversion Hn as [|? ? Hk Hn']; subst.
    - injection H as -> ->. destruct (eq_dec k k); congruence.
    - destruct (eq_dec k k0) as [->|N]; [|auto].
      exfalso. apply Hk. change k0 with (fst (k0, v)). now apply in_map.
  Qed.
  Lemma dget_None d k : dget d k = None <-> ~ In k (dkeys d).
  Proof.
    unfold dkeys. induction d as [|[k0 v0] d IH]; cbn; [tauto|].
    destruct (eq_dec k k0) as [->|N].
    - split; [discriminate|tauto].
    - rewrite IH. intuition congruence.
  Qed.
  Lemma dget_Some_key d k v : dget d k = Some v -> In k (dkeys d).
  Proof. intros H. apply dget_In in H. unfold dkeys. change k with (fst (k, v)). now apply in_map. Qed.
  Lemma In_dkeys_dget d k : In k (dkeys d) -> exists v, dget d k = Some v.
  Proof.
    intros H. destruct (dget d k) as [v|] eqn:Hv; [eauto|].
    apply dget_None in Hv. contradiction.
  Qed.
  Lemma dkeys_dset d k v :
    dkeys (dset d k v) = if in_dec eq_dec k (dkeys d) then dkeys d else dkeys d ++ [k].
  Proof.
    unfold dkeys. induction d as [|[k0 v0] d IH]; cbn [dset map fst app].
    - destruct (in_dec eq_dec k []) as [[]|]; reflexivity.
    - destruct (eq_dec k k0) as [->|N]; cbn [map fst].
      + destruct (in_dec eq_dec k0 (k0 :: map fst d)) as [|H]; [reflexivity|].
        exfalso; apply H; left; reflexivity.
      + rewrite IH. destruct (in_dec eq_dec k (map fst d)) as [H|H];
          destruct (in_dec eq_dec k (k0 :: map fst d)) as [H'|H']; try reflexivity.
        * exfalso; apply H'; right; exact H.
        * exfalso. destruct H' as [->|H']; [congruence|contradiction].
  Qed.
  Lemma NoDup_app_one {A} (l : list A) x : NoDup l -> ~ In x l -> NoDup (l ++ [x]).
  Proof.
    intros Hn Hx. apply NoDup_rev in Hn. rewrite <- (rev_involutive (l ++ [x])).
    apply NoDup_rev. rewrite rev_app_distr. cbn. constructor; [|exact Hn].
    rewrite <- in_rev. exact Hx.
  Qed.
  Lemma NoDup_dset d k v : NoDup (dkeys d) -> NoDup (dkeys (dset d k v)).
  Proof.
    intros H. rewrite dkeys_dset. destruct (in_dec eq_dec k (dkeys d)); [exact H|].
    now apply NoDup_app_one.
  Qed.
  Lemma In_dkeys_dset d k v k' : In k' (dkeys (dset d k v)) <-> k' = k \/ In k' (dkeys d).
  Proof.
    rewrite dkeys_dset. destruct (in_dec eq_dec k (dkeys d)) as [H|H].
    - split; [tauto|]. intros [->|?]; assumption.
    - rewrite in_app_iff. cbn. intuition.
  Qed.
  Lemma dset_new d k v : ~ In k (dkeys d) -> dset d k v = d ++ [(k, v)].
  Proof.
    unfold dkeys. induction d as [|[k0 v0] d IH]; cbn; intros H; [reflexivity|].
    destruct (eq_dec k k0) as [->|N]; [tauto|]. rewrite IH; tauto.
  Qed.
  Lemma dmem_In d k : dmem d k = true <-> In k (dkeys d).
  Proof.
    unfold dmem. destruct (dget d k) as [v|] eqn:H.
    - apply dget_Some_key in H. tauto.
    - apply dget_None in H. intuition discriminate.
  Qed.

  (** folding dset over a list of pairs with distinct keys appends them *)
  Lemma fold_dset_NoDup (l : list (K * V)) d :
    NoDup (dkeys d ++ dkeys l) ->
    fold_left (fun d kv => dset d (fst kv) (snd kv)) l d = d ++ l.
  Proof.
    revert d; induction l as [|[k v] l IH]; cbn; intros d H.
    - now rewrite app_nil_r.
    - rewrite dset_new.
      + rewrite IH.
        * now rewrite <- app_assoc.
        * unfold dkeys in *. rewrite map_app. cbn. rewrite <- app_assoc. exact H.
      + apply NoDup_remove_2 in H. intros Hin. apply H. apply in_or_app. left; exact Hin.
  Qed.
  Lemma dict_of_NoDup (l : list (K * V)) : NoDup (dkeys l) -> dict_of l = l.
  Proof. intros H. unfold dict_of. now rewrite fold_dset_NoDup. Qed.
End DictFacts.

Lemma dget_map {K V W} {E : EqDec K} (g : V -> W) (d : dict K V) k :
  dget (map (fun kv => (fst kv, g (snd kv))) d) k = option_map g (dget d k).
Proof.
  induction d as [|[k0 v0] d IH]; cbn; [reflexivity|].
  destruct (eq_dec k k0); [reflexivity|exact IH].
Qed.
Lemma dkeys_map {K V W} (g : V -> W) (d : dict K V) :
  dkeys (map (fun kv => (fst kv, g (snd kv))) d) = dkeys d.
Proof. unfold dkeys. rewrite map_map. reflexivity. Qed.

Lemma dkeys_combine {K V} (l : list K) (m : list V) :
  length m = length l -> dkeys (combine l m) = l.
Proof.
  revert m; induction l as [|x l IH]; intros [|y m] H; cbn in *; try reflexivity; try discriminate.
  f_equal. apply IH. lia.
Qed.
Lemma dvals_combine {K V} (l : list K) (m : list V) :
  length m = length l -> dvals (combine l m) = m.
Proof.
  revert m; induction l as [|x l IH]; intros [|y m] H; cbn in *; try reflexivity; try discriminate.
  f_equal. apply IH. lia.
Qed.

(** product / assignments *)
Lemma In_product {A} (ls : list (list A)) a :
  In a (product ls) <-> Forall2 (fun x l => In x l) a ls.
Proof.
  revert a; induction ls as [|l ls IH]; cbn; intros a.
  - split; [intros [<-|[]]; constructor|]. intros H; inversion H; left; reflexivity.
  - rewrite in_flat_map. split.
    + intros (x & Hx & H). apply in_map_iff in H. destruct H as (b & <- & Hb).
      constructor; [exact Hx|]. now apply IH.
    + intros H. inversion H as [|x b ? ? Hx Hb]; subst.
      exists x. split; [exact Hx|]. apply in_map. now apply IH.
Qed.
Lemma In_assignments cards a :
  In a (assignments cards) <-> Forall2 (fun i c => i < c) a cards.
Proof.
  unfold assignments. rewrite In_product.
  revert a; induction cards as [|c cs IH]; cbn; intros a.
  - split; intros H; inversion H; constructor.
  - split; intros H; inversion H as [|x y l l' Hx Hl]; subst; constructor.
    + rewrite in_seq in Hx. lia.
    + now apply IH.
    + rewrite in_seq. lia.
    + now apply IH.
Qed.
Lemma NoDup_app_intro {A} (l1 l2 : list A) :
  NoDup l1 -> NoDup l2 -> (forall x, In x l1 -> In x l2 -> False) -> NoDup (l1 ++ l2).
Proof.
  induction 1 as [|x l Hx Hn IH]; cbn; intros H2 Hd; [exact H2|].
  constructor.
  - rewrite in_app_iff. intros [?|?]; [tauto|]. eapply Hd; eauto.
  - apply IH; [exact H2|]. intros y H3 H4. eapply Hd; eauto.
Qed.
Lemma NoDup_app_elim {A} (l1 l2 : list A) :
  NoDup (l1 ++ l2) -> NoDup l1 /\ NoDup l2 /\ (forall x, In x l1 -> In x l2 -> False).
Proof.
  induction l1 as [|x l IH]; cbn; intros H.
  - split; [constructor|split; [exact H|tauto]].
  - inversion H as [|? ? Hx Hn]; subst. destruct (IH Hn) as (H1 & H2 & H3).
    rewrite in_app_iff in Hx. split; [constructor; tauto|]. split; [exact H2|].
    intros y [->|Hy] Hy2; [tauto|eauto].
Qed.
Lemma NoDup_map_inj {A B} (f : A -> B) l :
  (forall x y, In x l -> In y l -> f x = f y -> x = y) -> NoDup l -> NoDup (map f l).
Proof.
  induction l as [|x l IH]; cbn; intros Hi Hn; [constructor|].
  inversion Hn; subst. constructor.
  - rewrite in_map_iff. intros (y & Hy & Hin).
    assert (y = x) by (apply Hi; auto). subst. contradiction.
  - apply IH; auto.
Qed.
Lemma NoDup_flat_map {A B} (f : A -> list B) l :
  NoDup l -> (forall x, In x l -> NoDup (f x)) ->
  (forall x y b, In x l -> In y l -> In b (f x) -> In b (f y) -> x = y) ->
  NoDup (flat_map f l).
Proof.
  induction 1 as [|x l Hx Hn IH]; cbn; intros H1 H2; [constructor|].
  apply NoDup_app_intro.
  - apply H1; auto.
  - apply IH; intros; eauto.
  - intros b Hb Hb'. apply in_flat_map in Hb'. destruct Hb' as (y & Hy & Hby).
    assert (x = y) by (eapply H2; eauto). subst. contradiction.
Qed.
Lemma NoDup_product {A} (ls : list (list A)) :
  Forall (fun l => NoDup l) ls -> NoDup (product ls).
Proof.
  induction 1 as [|l ls Hl Hls IH]; cbn; [repeat constructor; tauto|].
  apply NoDup_flat_map; [exact Hl| |].
  - intros x _. apply NoDup_map_inj; [congruence|exact IH].
  - intros x y b _ _ Hx Hy. apply in_map_iff in Hx. apply in_map_iff in Hy.
    destruct Hx as (b1 & <- & _). destruct Hy as (b2 & Heq & _). congruence.
Qed.
Lemma NoDup_assignments cards : NoDup (assignments cards).
Proof.
  apply NoDup_product. apply Forall_forall. intros l Hl. apply in_map_iff in Hl.
  destruct Hl as (c & <- & _). apply seq_NoDup.
Qed.

(** string sort *)
Lemma sinsert_perm x l : Permutation (x :: l) (sinsert x l).
Proof.
  induction l as [|y l IH]; cbn; [reflexivity|].
  destruct (String.leb x y); [reflexivity|].
  rewrite perm_swap. now constructor.
Qed.
Lemma ssort_perm l : Permutation l (ssort l).
Proof.
  induction l as [|x l IH]; cbn; [constructor|].
  rewrite <- sinsert_perm. now constructor.
Qed.

(** stable descending sort *)
Lemma insert_desc_perm {A K} lt (key : A -> K) x l : Permutation (x :: l) (insert_desc lt key x l).
Proof.
  induction l as [|y l IH]; cbn; [reflexivity|].
  destruct (lt (key x) (key y)); [|reflexivity]. rewrite perm_swap. now constructor.
Qed.
Lemma sort_desc_perm {A K} lt (key : A -> K) l : Permutation l (sort_desc lt key l).
Proof.
  unfold sort_desc. induction l as [|x l IH]; cbn; [constructor|].
  rewrite <- insert_desc_perm. now constructor.
Qed.

(** nth_error facts *)
Lemma nth_error_ext {A} (l m : list A) : (forall i, nth_error l i = nth_error m i) -> l = m.
Proof.
  revert m; induction l as [|x l IH]; intros [|y m] H; [reflexivity| | |].
  - specialize (H 0); discriminate.
  - specialize (H 0); discriminate.
  - pose proof (H 0) as H0. cbn in H0. injection H0 as ->. f_equal.
    apply IH. intros i. exact (H (S i)).
Qed.
Lemma list_set_spec {A} (l : list A) i x :
  i < length l ->
  exists l', list_set l i x = Ok l' /\ length l' = length l /\
    forall j, nth_error l' j = if Nat.eq_dec j i then Some x else nth_error l j.
Proof.
  revert i; induction l as [|y l IH]; cbn; intros i Hi; [lia|].
  destruct i as [|i].
  - eexists; split; [reflexivity|]. split; [reflexivity|]. intros [|j]; reflexivity.
  - destruct (IH i) as (l' & -> & Hl & Hn); [lia|]. cbn.
    eexists; split; [reflexivity|]. split; [cbn; lia|]. intros [|j]; cbn [nth_error].
    + destruct (Nat.eq_dec 0 (S i)); [lia|reflexivity].
    + rewrite Hn. destruct (Nat.eq_dec j i), (Nat.eq_dec (S j) (S i)); reflexivity || lia.
Qed.
Lemma py_nth_ok {A} (l : list A) i : i < length l -> exists x, py_nth l i = Ok x /\ nth_error l i = Some x.
Proof.
  intros H. unfold py_nth. destruct (nth_error l i) as [x|] eqn:Hx; [eauto|].
  apply nth_error_None in Hx. lia.
Qed.

(** oracle facts *)
Lemma so_perm o l : oracle_ok o -> NoDup l -> Permutation l (so o l).
Proof. intros [H _]; apply H. Qed.
Lemma ko_perm o l : oracle_ok o -> NoDup l -> Permutation l (ko o l).
Proof. intros [_ H]; apply H. Qed.
Lemma so_In o l x : oracle_ok o -> NoDup l -> (In x (so o l) <-> In x l).
Proof.
  intros Ho Hn. pose proof (so_perm o l Ho Hn) as HP.
  split; apply Permutation_in; [symmetry|]; exact HP.
Qed.
Lemma so_NoDup o l : oracle_ok o -> NoDup l -> NoDup (so o l).
Proof. intros Ho Hn. eapply Permutation_NoDup; [apply so_perm; eassumption|exact Hn]. Qed.
Lemma ko_In o l x : oracle_ok o -> NoDup l -> (In x (ko o l) <-> In x l).
Proof.
  intros Ho Hn. pose proof (ko_perm o l Ho Hn) as HP.
  split; apply Permutation_in; [symmetry|]; exact HP.
Qed.
Lemma ko_NoDup o l : oracle_ok o -> NoDup l -> NoDup (ko o l).
Proof. intros Ho Hn. eapply Permutation_NoDup; [apply ko_perm; eassumption|exact Hn]. Qed.
