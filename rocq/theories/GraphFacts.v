(** Proofs about cluster identifiers and about absorbing factors (C24 - C26). *)
From Coq Require Import DecimalString DecimalFacts DecimalNat.
From Verif Require Export GraphModel BaseFacts.

(** ** Identifiers *)
Fixpoint no_hash (s : string) : Prop :=
  match s with
  | EmptyString => True
  | String c s' => c <> "#"%char /\ no_hash s'
  end.

Lemma no_hash_uint d : no_hash (NilEmpty.string_of_uint d).
Proof. induction d; cbn; try exact I; (split; [discriminate|assumption]). Qed.

Lemma append_assoc (a b c : string) : String.append (String.append a b) c = String.append a (String.append b c).
Proof. induction a as [|x a IH]; cbn; [reflexivity|now rewrite IH]. Qed.

Lemma hash_split (a b x y : string) : no_hash a -> no_hash b ->
  String.append a (String "#" x) = String.append b (String "#" y) -> a = b /\ x = y.
Proof.
  revert b; induction a as [|c a IH]; intros [|d b]; cbn; intros Ha Hb H.
  - now inversion H.
  - inversion H; subst. tauto.
  - inversion H; subst. tauto.
  - inversion H; subst. destruct (IH b) as [-> ->]; tauto.
Qed.

Lemma dec_string_inj i j : dec_string i = dec_string j -> i = j.
Proof.
  unfold dec_string. intros H.
  assert (E : Some (Nat.to_uint i) = Some (Nat.to_uint j)).
  { rewrite <- (NilEmpty.usu (Nat.to_uint i)), <- (NilEmpty.usu (Nat.to_uint j)). now rewrite H. }
  inversion E as [E']. rewrite <- (Unsigned.of_to i), <- (Unsigned.of_to j). now rewrite E'.
Qed.

Lemma cluster_id_inj i j vs ws : cluster_id i vs = cluster_id j ws -> i = j.
Proof.
  unfold cluster_id. rewrite !append_assoc. cbn. intros H. inversion H as [H'].
  rewrite ?append_assoc in H'. cbn in H'.
  apply hash_split in H'; [|apply no_hash_uint..]. now apply dec_string_inj.
Qed.

Lemma in_enum {A} (l : list A) i x : In (i, x) (enum l) <-> nth_error l i = Some x.
Proof.
  unfold enum. enough (G : forall k, In (i, x) (combine (seq k (length l)) l) <-> k <= i /\ nth_error l (i - k) = Some x).
  { rewrite G, Nat.sub_0_r. split; [tauto|intros; split; [lia|assumption]]. }
  induction l as [|y l IH]; intros k; cbn [length seq combine In].
  - split; [tauto|]. intros [_ H]. destruct (i - k); discriminate.
  - rewrite IH. split.
    + intros [H|[Hk H]].
      * inversion H; subst. rewrite Nat.sub_diag. split; [lia|reflexivity].
      * split; [lia|]. replace (i - k) with (S (i - S k)) by lia. exact H.
    + intros [Hk H]. destruct (Nat.eq_dec i k) as [->|N].
      * left. rewrite Nat.sub_diag in H. inversion H; reflexivity.
      * right. split; [lia|]. replace (i - k) with (S (i - S k)) in H by lia. exact H.
Qed.
Lemma map_fst_enum {A} (l : list A) : map fst (enum l) = seq 0 (length l).
Proof.
  unfold enum. generalize 0. induction l as [|x l IH]; intros k; cbn; [reflexivity|]. now rewrite IH.
Qed.
Lemma map_snd_enum {A} (l : list A) : map snd (enum l) = l.
Proof.
  unfold enum. generalize 0. induction l as [|x l IH]; intros k; cbn; [reflexivity|]. now rewrite IH.
Qed.
Lemma enum_length {A} (l : list A) : length (enum l) = length l.
Proof. rewrite <- (map_length snd), map_snd_enum. reflexivity. Qed.
Lemma nth_error_enum {A} (l : list A) i : nth_error (enum l) i = option_map (fun x => (i, x)) (nth_error l i).
Proof.
  unfold enum. enough (G : forall k, nth_error (combine (seq k (length l)) l) i = option_map (fun x => (k + i, x)) (nth_error l i)) by apply G.
  revert i. induction l as [|x l IH]; intros [|i] k; cbn; try reflexivity.
  - now rewrite Nat.add_0_r.
  - rewrite IH. destruct (nth_error l i); cbn; [|reflexivity]. do 2 f_equal. lia.
Qed.

Lemma new_cluster_id {F V} (ops : fops F V) special i f :
  cl_id (new_cluster ops special (i, f)) = cluster_id i (f_vars ops f).
Proof. unfold new_cluster. cbn. destruct (subset_evidence special (f_vars ops f)); reflexivity. Qed.
Lemma new_cluster_fac {F V} (ops : fops F V) special i f :
  cl_fac (new_cluster ops special (i, f)) = f.
Proof. unfold new_cluster. cbn. destruct (subset_evidence special (f_vars ops f)); reflexivity. Qed.

Lemma ids_unique {F V} (ops : fops F V) special (final : list F) :
  NoDup (map cl_id (map (new_cluster ops special) (enum final))).
Proof.
  rewrite map_map.
  apply NoDup_map_inj.
  - intros [i f] [j f'] Hi Hj H. rewrite !new_cluster_id in H. apply cluster_id_inj in H. subst j.
    apply in_enum in Hi, Hj. congruence.
  - apply NoDup_map_inv with (f := fst). rewrite map_fst_enum. apply seq_NoDup.
Qed.

(** ** Absorbing sub-scope factors *)
Lemma marked_mark mask i j : i < length mask -> marked (mark mask i) j = if Nat.eq_dec j i then true else marked mask j.
Proof.
  intros H. unfold mark, marked. destruct (list_set_spec mask i true H) as (l & -> & Hl & Hn).
  specialize (Hn j). destruct (Nat.eq_dec j i) as [->|N].
  - now apply nth_error_nth.
  - destruct (nth_error mask j) as [b|] eqn:E.
    + rewrite (nth_error_nth l j false Hn). now rewrite (nth_error_nth mask j false E).
    + apply nth_error_None in E, Hn. now rewrite !nth_overflow by lia.
Qed.
Lemma mark_length mask i : length (mark mask i) = length mask.
Proof.
  unfold mark. destruct (lt_dec i (length mask)) as [H|H].
  - destruct (list_set_spec mask i true H) as (l & -> & Hl & _). exact Hl.
  - destruct (list_set mask i true) eqn:E; [|reflexivity]. exfalso. apply H. clear H.
    revert i l E. induction mask as [|b mask IH]; intros [|i] l E; cbn in *; try discriminate; try lia.
    destruct (list_set mask i true) as [l'|] eqn:E'; [|discriminate]. apply IH in E'. lia.
Qed.

(** The product of a group of input positions: the first one times the others in order. *)
Definition group_product {F V} (ops : fops F V) (factors : list F) (i : nat) (js : list nat) : res F :=
  let* fi := py_nth factors i in
  foldM (fun acc j => let* fj := py_nth factors j in f_mul ops acc fj) js fi.

Lemma py_nth_some {A} (l : list A) i x : nth_error l i = Some x -> py_nth l i = Ok x.
Proof. unfold py_nth. intros ->. reflexivity. Qed.
Lemma py_nth_inv {A} (l : list A) i x : py_nth l i = Ok x -> nth_error l i = Some x.
Proof. unfold py_nth. destruct (nth_error l i); intros H; inversion H; reflexivity. Qed.

Section Absorb.
Context {F V : Type} (ops : fops F V) (factors : list F).
Let n := length factors.

(** Scope of the factor at a position, strict inclusion of scopes. *)
Definition scope_at (j : nat) : list string := match nth_error factors j with Some f => f_vars ops f | None => [] end.
Definition strict_in (l m : list string) : Prop := incl l m /\ ~ incl m l.
Lemma strict_iff (l m : list string) : strict_subsetb l m = true <-> strict_in l m.
Proof.
  unfold strict_subsetb, strict_in. rewrite andb_true_iff, negb_true_iff, <- not_true_iff_false, !subsetb_incl.
  tauto.
Qed.

(** The inner loop.  [M] are the positions marked before it started. *)
Definition inner_inv (M : nat -> Prop) (i : nat) (done : list nat) (s : F * list nat * list bool) : Prop :=
  let '(prod, taken, mask) := s in
  length mask = n /\ group_product ops factors i taken = Ok prod /\
  NoDup taken /\ (forall j, In j taken -> j < n /\ j <> i /\ ~ M j /\ In j done) /\
  (forall j, j < n -> marked mask j = true <-> M j \/ In j taken \/ (j = i /\ taken <> [])).

Lemma group_product_snoc i js j fj p :
  nth_error factors j = Some fj -> group_product ops factors i js = Ok p ->
  group_product ops factors i (js ++ [j]) = f_mul ops p fj.
Proof.
  unfold group_product. intros Hj H. apply bind_ok in H. destruct H as (fi & -> & H). cbn [bind].
  rewrite foldM_app, H. cbn [bind foldM]. rewrite (py_nth_some _ _ _ Hj). cbn [bind].
  destruct (f_mul ops p fj); reflexivity.
Qed.

Lemma inner_step M i done j fj s s' :
  i < n -> ~ M i -> ~ In j done -> nth_error factors j = Some fj ->
  inner_inv M i done s -> absorb_inner ops i s (j, fj) = Ok s' -> inner_inv M i (done ++ [j]) s'.
Proof.
  intros Hi HMi Hnd Hj. destruct s as [[prod taken] mask]. intros (Hl & Hp & Hn & Ht & Hm) H.
  assert (Hjn : j < n) by (apply nth_error_Some; congruence).
  unfold absorb_inner in H.
  destruct (negb (Nat.eqb i j) && negb (marked mask j) && strict_subsetb (f_vars ops fj) (f_vars ops prod)) eqn:E.
  - rewrite !andb_true_iff, !negb_true_iff, Nat.eqb_neq in E. destruct E as [[Hij Hmk] Hs].
    apply bind_ok in H. destruct H as (p & Hmul & H). inversion H; subst s'; clear H.
    assert (Hmark : forall k, marked (mark (mark mask j) i) k = true <-> k = i \/ k = j \/ marked mask k = true).
    { intros k. rewrite marked_mark by (rewrite mark_length; lia). rewrite marked_mark by lia.
      destruct (Nat.eq_dec k i), (Nat.eq_dec k j); intuition congruence. }
    cbn. repeat split.
    + now rewrite !mark_length.
    + rewrite (group_product_snoc i taken j fj prod Hj Hp). exact Hmul.
    + apply NoDup_app_intro; [exact Hn|repeat constructor; tauto|].
      intros x Hx [<-|[]]. apply Hnd. now apply Ht.
    + rewrite in_app_iff in H. destruct H as [H|[<-|[]]]; [now apply Ht|exact Hjn].
    + rewrite in_app_iff in H. destruct H as [H|[<-|[]]]; [now apply Ht|congruence].
    + rewrite in_app_iff in H. destruct H as [H|[<-|[]]]; [now apply Ht|].
      intros C. assert (marked mask j = true) by (apply Hm; tauto). congruence.
    + rewrite in_app_iff in H |- *. destruct H as [H|[<-|[]]]; [left; now apply Ht|right; left; reflexivity].
    + intros H'. apply Hmark in H'. rewrite in_app_iff. cbn. destruct H' as [->|[->|H']].
      * right. right. split; [reflexivity|]. destruct taken; discriminate.
      * tauto.
      * apply Hm in H'; [|assumption]. destruct H' as [H'|[H'|[H' _]]]; [tauto|tauto|].
        right. right. split; [exact H'|]. destruct taken; discriminate.
    + intros H'. apply Hmark. rewrite in_app_iff in H'. cbn in H'.
      destruct H' as [H'|[[H'|[H'|[]]]|[H' _]]].
      * right. right. apply Hm; tauto.
      * right. right. apply Hm; tauto.
      * right. left. congruence.
      * left. exact H'.
  - inversion H; subst s'; clear H. cbn. repeat split; try assumption; try (now apply Ht); try (now apply Hm).
    rewrite in_app_iff. left. now apply Ht.
Qed.

Lemma inner_fold M i : forall l done s s',
  i < n -> ~ M i -> (forall j f, In (j, f) l -> nth_error factors j = Some f) ->
  NoDup (done ++ map fst l) ->
  inner_inv M i done s -> foldM (absorb_inner ops i) l s = Ok s' -> inner_inv M i (done ++ map fst l) s'.
Proof.
  induction l as [|[j fj] l IH]; intros done s s' Hi HM Hl Hn Hs H.
  - cbn in H. inversion H; subst. cbn. now rewrite app_nil_r.
  - cbn [foldM] in H. apply bind_ok in H. destruct H as (s1 & H1 & H).
    assert (E : done ++ map fst ((j, fj) :: l) = (done ++ [j]) ++ map fst l) by (cbn; now rewrite <- app_assoc).
    rewrite E. apply IH with (s := s1); auto.
    + intros k f Hk. apply Hl. right; exact Hk.
    + now rewrite <- E.
    + eapply inner_step; eauto.
      * intros C. apply NoDup_app_elim in Hn. destruct Hn as (_ & _ & Hd). apply (Hd j); [exact C|left; reflexivity].
      * apply Hl. left; reflexivity.
Qed.

Lemma enum_NoDup : NoDup (map fst (enum factors)).
Proof. rewrite map_fst_enum. apply seq_NoDup. Qed.

(** The groups built so far. *)
Definition group_ok (g : list nat) (f : F) : Prop :=
  match g with [] => False | i :: js => i < n /\ group_product ops factors i js = Ok f end.
Definition outer_inv (groups : list (list nat)) (s : absorb_state F) : Prop :=
  length (ab_mask s) = n /\ Forall2 group_ok groups (ab_final s) /\ NoDup (concat groups) /\
  (forall j, In j (concat groups) -> j < n) /\
  (forall j, j < n -> marked (ab_mask s) j = true <-> In j (concat groups)).

Lemma outer_step groups i fi s s' : nth_error factors i = Some fi ->
  outer_inv groups s -> absorb_outer ops factors s (i, fi) = Ok s' ->
  (s' = s /\ marked (ab_mask s) i = true /\ outer_inv groups s') \/
  (exists prod taken mask,
     marked (ab_mask s) i = false /\
     foldM (absorb_inner ops i) (enum factors) (fi, [], ab_mask s) = Ok (prod, taken, mask) /\
     ab_mask s' = mask /\
     inner_inv (fun j => In j (concat groups)) i (seq 0 n) (prod, taken, mask) /\
     (taken = [] /\ outer_inv groups s' \/
      taken <> [] /\ outer_inv (groups ++ [i :: taken]) s')).
Proof.
  intros Hfi (Hl & Hf & Hn & Hb & Hm) H. unfold absorb_outer in H.
  assert (Hi : i < n) by (apply nth_error_Some; congruence).
  destruct (marked (ab_mask s) i) eqn:Hmk.
  - left. inversion H; subst. repeat split; auto; now apply Hm.
  - right. apply bind_ok in H. destruct H as ([[prod taken] mask] & Hin & H).
    exists prod, taken, mask. split; [reflexivity|]. split; [exact Hin|].
    assert (HMi : ~ In i (concat groups)).
    { intros C. apply (Hm i Hi) in C. congruence. }
    assert (I : inner_inv (fun j => In j (concat groups)) i (seq 0 n) (prod, taken, mask)).
    { unfold n. rewrite <- map_fst_enum. change (map fst (enum factors)) with ([] ++ map fst (enum factors)).
      eapply inner_fold; [exact Hi|exact HMi| | | |exact Hin].
      - intros j f Hj. now apply in_enum.
      - cbn. apply enum_NoDup.
      - cbn. repeat split; auto.
        + unfold group_product. rewrite (py_nth_some _ _ _ Hfi). reflexivity.
        + constructor.
        + tauto.
        + intros H'. left. now apply Hm.
        + intros [H'|[[]|[_ H']]]; [now apply Hm|congruence]. }
    inversion H; subst s'; clear H. split; [reflexivity|]. split; [exact I|].
    destruct I as (Il & Ip & In1 & It & Im). cbn.
    destruct (list_eq_dec Nat.eq_dec taken []) as [->|Hne].
    + left. split; [reflexivity|]. assert (Hmi : marked mask i = false).
      { apply not_true_iff_false. rewrite (Im i Hi). cbn. intuition congruence. }
      unfold outer_inv. cbn. rewrite Hmi. repeat split; auto; intros H'.
      * apply Im in H'; [|assumption]. cbn in H'. intuition congruence.
      * apply Im; [assumption|]. tauto.
    + right. split; [exact Hne|]. assert (Hmi : marked mask i = true).
      { apply (Im i Hi). tauto. }
      unfold outer_inv. cbn. rewrite Hmi. rewrite concat_app. cbn [concat]. rewrite app_nil_r.
      repeat split; auto.
      * apply Forall2_app; [exact Hf|]. repeat constructor; assumption.
      * apply NoDup_app_intro; [exact Hn| |].
        -- constructor; [|exact In1]. intros C. apply It in C. tauto.
        -- intros x Hx [<-|Hx']; [tauto|]. apply It in Hx'. tauto.
      * intros j Hj. rewrite in_app_iff in Hj. destruct Hj as [Hj|[<-|Hj]]; [now apply Hb|exact Hi|now apply It].
      * intros H'. apply Im in H'; [|assumption]. rewrite in_app_iff. cbn. intuition congruence.
      * intros H'. apply Im; [assumption|]. rewrite in_app_iff in H'. cbn in H'. intuition congruence.
Qed.

Lemma rest_step groups i fi s : nth_error factors i = Some fi -> outer_inv groups s ->
  outer_inv (if marked (ab_mask s) i then groups else groups ++ [[i]]) (absorb_rest s (i, fi)) /\
  (forall j, j < n -> marked (ab_mask (absorb_rest s (i, fi))) j = true <-> marked (ab_mask s) j = true \/ j = i).
Proof.
  intros Hfi (Hl & Hf & Hn & Hb & Hm). unfold absorb_rest.
  assert (Hi : i < n) by (apply nth_error_Some; congruence).
  destruct (marked (ab_mask s) i) eqn:Hmk.
  - split; [repeat split; auto; now apply Hm|]. intros j Hj. split; [tauto|]. intros [H| ->]; auto.
  - assert (HMi : ~ In i (concat groups)).
    { intros C. apply (Hm i Hi) in C. congruence. }
    assert (G : forall j, marked (mark (ab_mask s) i) j = true <-> marked (ab_mask s) j = true \/ j = i).
    { intros j. rewrite marked_mark by lia. destruct (Nat.eq_dec j i); intuition congruence. }
    split; [|intros j _; apply G].
    unfold outer_inv. cbn. rewrite concat_app. cbn. repeat split.
    + now rewrite mark_length.
    + apply Forall2_app; [exact Hf|]. repeat constructor; [assumption|].
      unfold group_product. rewrite (py_nth_some _ _ _ Hfi). reflexivity.
    + apply NoDup_app_intro; [exact Hn|repeat constructor; tauto|]. intros x Hx [<-|[]]. tauto.
    + intros j Hj. rewrite in_app_iff in Hj. destruct Hj as [Hj|[<-|[]]]; [now apply Hb|exact Hi].
    + intros H'. apply G in H'. rewrite in_app_iff. destruct H' as [H'| ->]; [left; now apply Hm|right; left; reflexivity].
    + intros H'. apply G. rewrite in_app_iff in H'. destruct H' as [H'|[H'|[]]]; [left; now apply Hm|right; congruence].
Qed.

(** ** The whole function (C25) *)
Lemma outer_fold : forall l groups s s',
  (forall j f, In (j, f) l -> nth_error factors j = Some f) ->
  outer_inv groups s -> foldM (absorb_outer ops factors) l s = Ok s' ->
  exists groups', outer_inv groups' s'.
Proof.
  induction l as [|[i fi] l IH]; intros groups s s' Hl Hs H; cbn [foldM] in H.
  - inversion H; subst. eauto.
  - apply bind_ok in H. destruct H as (s1 & H1 & H).
    assert (Hi : nth_error factors i = Some fi) by (apply Hl; left; reflexivity).
    assert (Hl' : forall j f, In (j, f) l -> nth_error factors j = Some f) by (intros; apply Hl; right; assumption).
    destruct (outer_step groups i fi s s1 Hi Hs H1) as [(_ & _ & Hs1)|(p & t & m & _ & _ & _ & _ & [[_ Hs1]|[_ Hs1]])];
      eapply IH; eauto.
Qed.

Lemma rest_fold : forall l groups s,
  (forall j f, In (j, f) l -> nth_error factors j = Some f) -> outer_inv groups s ->
  let s' := fold_left absorb_rest l s in
  exists singles, outer_inv (groups ++ map (fun i => [i]) singles) s' /\
    (forall i, In i singles -> i < n /\ marked (ab_mask s) i = false) /\
    (forall j, j < n -> marked (ab_mask s') j = true <-> marked (ab_mask s) j = true \/ In j (map fst l)).
Proof.
  induction l as [|[i fi] l IH]; intros groups s Hl Hs; cbn zeta.
  - exists []. cbn. rewrite app_nil_r. split; [exact Hs|]. split; [intros i []|]. intros j Hj. tauto.
  - assert (Hi : nth_error factors i = Some fi) by (apply Hl; left; reflexivity).
    assert (Hin : i < n) by (apply nth_error_Some; congruence).
    destruct (rest_step groups i fi s Hi Hs) as [H1 H2].
    specialize (IH _ (absorb_rest s (i, fi)) (fun j f Hj => Hl j f (or_intror Hj)) H1). cbn zeta in IH.
    cbn [fold_left]. destruct IH as (singles & Hg & Hsg & Hmk).
    exists ((if marked (ab_mask s) i then [] else [i]) ++ singles). split; [|split].
    + rewrite map_app. destruct (marked (ab_mask s) i); cbn [map app]; [exact Hg|].
      rewrite <- app_assoc in Hg. exact Hg.
    + intros j Hj. apply in_app_or in Hj. destruct Hj as [Hj|Hj].
      * destruct (marked (ab_mask s) i) eqn:E; [destruct Hj|]. destruct Hj as [<-|[]]. auto.
      * destruct (Hsg j Hj) as [Hjn Hjm]. split; [exact Hjn|]. apply not_true_iff_false.
        apply not_true_iff_false in Hjm. intros C. apply Hjm. apply H2; tauto.
    + intros j Hj. rewrite Hmk by exact Hj. rewrite H2 by exact Hj. cbn [map fst In].
      split; [intros [[H|H]|H]; auto|intros [H|[H|H]]; auto].
Qed.

Lemma outer_inv_init : outer_inv [] {| ab_mask := repeat false n; ab_dict := []; ab_final := [] |}.
Proof.
  unfold outer_inv. cbn. repeat split; try constructor; try contradiction.
  - apply repeat_length.
  - unfold marked. intros H'. rewrite nth_repeat in H'. discriminate.
Qed.

Lemma absorb_groups final : absorb_subsets ops factors = Ok final ->
  exists groups, Permutation (concat groups) (seq 0 n) /\ Forall2 group_ok groups final.
Proof.
  unfold absorb_subsets. intros H. apply bind_ok in H. destruct H as (s & Hs & H).
  assert (He : forall j f, In (j, f) (enum factors) -> nth_error factors j = Some f) by (intros; now apply in_enum).
  destruct (outer_fold _ [] _ s He outer_inv_init Hs) as (groups & Hg).
  destruct (rest_fold (enum factors) groups s He Hg) as (singles & Hr & _ & Hmk).
  cbn zeta in *. set (s' := fold_left absorb_rest (enum factors) s) in *. clearbody s'.
  apply bind_ok in H. destruct H as (u & _ & H). inversion H; subst final; clear H.
  exists (groups ++ map (fun i => [i]) singles). destruct Hr as (Hl & Hf & Hn & Hb & Hm).
  split; [|exact Hf]. apply NoDup_Permutation; [exact Hn|apply seq_NoDup|].
  intros j. rewrite in_seq. split.
  - intros Hj. apply Hb in Hj. lia.
  - intros [_ Hj]. cbn in Hj. apply Hm; [exact Hj|]. apply Hmk; [exact Hj|]. right. rewrite map_fst_enum.
    apply in_seq. fold n. lia.
Qed.

(** The closing assertion never fires: the only failures are failing products.  [P] is any
    property of factors preserved by products. *)
Section AbsorbErr.
Variable P : F -> Prop.
Hypothesis P_mul : forall a b r, P a -> P b -> f_mul ops a b = Ok r -> P r.
Hypothesis P_all : forall f, In f factors -> P f.
Lemma absorb_inner_err i : forall l s e, (forall j f, In (j, f) l -> P f) -> P (fst (fst s)) ->
  foldM (absorb_inner ops i) l s = Err e -> exists a b, P a /\ P b /\ f_mul ops a b = Err e.
Proof.
  induction l as [|[j fj] l IH]; intros s e Hl Hs H; cbn [foldM] in H; [discriminate|].
  assert (Hj : P fj) by (apply (Hl j fj); left; reflexivity).
  destruct (absorb_inner ops i s (j, fj)) as [s'|e'] eqn:E; cbn [bind] in H;
    destruct s as [[prod taken] mask]; unfold absorb_inner in E; cbn [fst] in Hs;
    destruct (negb (Nat.eqb i j) && negb (marked mask j) && strict_subsetb (f_vars ops fj) (f_vars ops prod));
    try discriminate.
  - destruct (f_mul ops prod fj) as [p|] eqn:Em; cbn [bind] in E; [|discriminate]. inversion E; subst s'.
    eapply IH; [| |exact H]; [|exact (P_mul _ _ _ Hs Hj Em)]. intros k f Hk. apply (Hl k f). right; exact Hk.
  - inversion E; subst s'. eapply IH; [| |exact H]; [|exact Hs]. intros k f Hk. apply (Hl k f). right; exact Hk.
  - inversion H; subst e'. destruct (f_mul ops prod fj) eqn:Em; cbn [bind] in E; [discriminate|].
    inversion E; subst. eauto.
Qed.
Lemma absorb_outer_err : forall l s e, (forall j f, In (j, f) l -> P f) ->
  foldM (absorb_outer ops factors) l s = Err e -> exists a b, P a /\ P b /\ f_mul ops a b = Err e.
Proof.
  induction l as [|[i fi] l IH]; intros s e Hl H; cbn [foldM] in H; [discriminate|].
  destruct (absorb_outer ops factors s (i, fi)) as [s'|e'] eqn:E; cbn [bind] in H.
  { eapply IH; [|exact H]. intros k f Hk. apply (Hl k f). right; exact Hk. }
  inversion H; subst e'. unfold absorb_outer in E. destruct (marked (ab_mask s) i); [discriminate|].
  destruct (foldM (absorb_inner ops i) (enum factors) (fi, [], ab_mask s)) as [[[p t] m]|e'] eqn:Ei;
    cbn [bind] in E; [discriminate|]. inversion E; subst. eapply absorb_inner_err; [| |exact Ei].
  - intros j f Hj. apply P_all. apply in_enum in Hj. eapply nth_error_In; eauto.
  - cbn. apply (Hl i fi). left; reflexivity.
Qed.
Lemma absorb_err_in e : absorb_subsets ops factors = Err e -> exists a b, P a /\ P b /\ f_mul ops a b = Err e.
Proof.
  unfold absorb_subsets. intros H.
  destruct (foldM (absorb_outer ops factors) (enum factors) _) as [s|e'] eqn:E; cbn [bind] in H.
  - exfalso.
    assert (He : forall j f, In (j, f) (enum factors) -> nth_error factors j = Some f) by (intros; now apply in_enum).
    destruct (outer_fold _ [] _ s He outer_inv_init E) as (groups & Hg).
    destruct (rest_fold (enum factors) groups s He Hg) as (singles & Hr & _ & Hmk). cbn zeta in *.
    assert (A : forallb (fun b => b) (ab_mask (fold_left absorb_rest (enum factors) s)) = true).
    { apply forallb_forall. intros b Hb. apply In_nth_error in Hb. destruct Hb as (j & Hj).
      destruct Hr as (Hl & _). assert (Hjn : j < n).
      { rewrite <- Hl. apply nth_error_Some. congruence. }
      assert (M : marked (ab_mask (fold_left absorb_rest (enum factors) s)) j = true).
      { apply Hmk; [exact Hjn|]. right. rewrite map_fst_enum. apply in_seq. fold n. lia. }
      unfold marked in M. now rewrite (nth_error_nth _ _ _ Hj) in M. }
    rewrite A in H. discriminate.
  - inversion H; subst. eapply absorb_outer_err; [|exact E].
    intros j f Hj. apply P_all. apply in_enum in Hj. eapply nth_error_In; eauto.
Qed.
End AbsorbErr.
Lemma absorb_err e : absorb_subsets ops factors = Err e -> exists a b, f_mul ops a b = Err e.
Proof.
  intros H. destruct (absorb_err_in (fun _ => True)) with (e := e) as (a & b & _ & _ & E); auto. eauto.
Qed.

(** ** Scopes (C26) *)
Section Scopes.
Hypothesis mul_vars : forall a b r, f_mul ops a b = Ok r ->
  forall v, In v (f_vars ops r) <-> In v (f_vars ops a) \/ In v (f_vars ops b).

Lemma scope_at_some j f : nth_error factors j = Some f -> scope_at j = f_vars ops f.
Proof. unfold scope_at. intros ->. reflexivity. Qed.

Lemma strict_in_ext l m m' : (forall v : string, In v m <-> In v m') -> strict_in l m -> strict_in l m'.
Proof. unfold strict_in, incl. firstorder. Qed.

Definition inner_scope (i : nat) (done : list nat) (s : F * list nat * list bool) : Prop :=
  let '(prod, taken, mask) := s in
  length mask = n /\
  (forall v, In v (f_vars ops prod) <-> In v (scope_at i)) /\
  (forall j, In j taken -> j < n /\ strict_in (scope_at j) (scope_at i)) /\
  (forall j, In j done -> strict_in (scope_at j) (scope_at i) -> marked mask j = true).

Lemma strict_irrefl (l : list string) : ~ strict_in l l.
Proof. unfold strict_in. tauto. Qed.

Lemma inner_scope_fold i : forall l done s s', i < n ->
  (forall j f, In (j, f) l -> nth_error factors j = Some f) ->
  inner_scope i done s -> foldM (absorb_inner ops i) l s = Ok s' -> inner_scope i (done ++ map fst l) s'.
Proof.
  induction l as [|[j fj] l IH]; intros done s s' Hi Hl Hs H.
  - cbn in H. inversion H; subst. cbn. now rewrite app_nil_r.
  - cbn [foldM] in H. apply bind_ok in H. destruct H as (s1 & H1 & H).
    replace (done ++ map fst ((j, fj) :: l)) with ((done ++ [j]) ++ map fst l) by (cbn; now rewrite <- app_assoc).
    apply IH with (s := s1); auto; [intros; apply Hl; right; assumption|]. clear IH H s'.
    assert (Hj : nth_error factors j = Some fj) by (apply Hl; left; reflexivity).
    assert (Hjn : j < n) by (apply nth_error_Some; congruence).
    destruct s as [[prod taken] mask]. destruct Hs as (Hm & Hv & Ht & Hd). unfold absorb_inner in H1.
    destruct (negb (Nat.eqb i j) && negb (marked mask j) && strict_subsetb (f_vars ops fj) (f_vars ops prod)) eqn:E.
    + rewrite !andb_true_iff, !negb_true_iff, Nat.eqb_neq in E. destruct E as [[Hij Hmk] Hst].
      apply strict_iff in Hst. apply bind_ok in H1. destruct H1 as (p & Hp & H1). inversion H1; subst; clear H1.
      assert (Hmark : forall k, marked (mark (mark mask j) i) k = true <-> k = i \/ k = j \/ marked mask k = true).
      { intros k. rewrite marked_mark by (rewrite mark_length; lia). rewrite marked_mark by lia.
        destruct (Nat.eq_dec k i), (Nat.eq_dec k j); intuition congruence. }
      cbn. split; [now rewrite !mark_length|]. split; [|split].
      * intros v. rewrite (mul_vars _ _ _ Hp v), Hv. destruct Hst as [Hst _]. specialize (Hst v). rewrite Hv in Hst. tauto.
      * intros k Hk. apply in_app_or in Hk. destruct Hk as [Hk|[<-|[]]]; [now apply Ht|]. split; [exact Hjn|].
        rewrite (scope_at_some j fj Hj). eapply strict_in_ext; [exact Hv|exact Hst].
      * intros k Hk Hsk. apply Hmark. apply in_app_or in Hk. destruct Hk as [Hk|[<-|[]]]; [|tauto].
        right; right. now apply Hd.
    + inversion H1; subst; clear H1. cbn. split; [exact Hm|]. split; [exact Hv|]. split; [exact Ht|].
      intros k Hk Hsk. apply in_app_or in Hk. destruct Hk as [Hk|[<-|[]]]; [now apply Hd|].
      destruct (marked mask j) eqn:Hmk; [reflexivity|].
      rewrite !andb_false_iff, !negb_false_iff, Nat.eqb_eq in E. destruct E as [[E|E]|E]; [| |].
      * subst j. exfalso. eapply strict_irrefl; eauto.
      * exact E.
      * exfalso. apply not_true_iff_false in E. apply E. apply strict_iff.
        rewrite (scope_at_some j fj Hj) in Hsk. eapply strict_in_ext; [|exact Hsk]. intros v. symmetry. apply Hv.
Qed.

Definition heads (groups : list (list nat)) : list nat := map (hd 0) groups.
Definition active (groups : list (list nat)) (s : absorb_state F) (k : nat) : Prop :=
  In k (heads groups) \/ marked (ab_mask s) k = false.
Definition order_inv (m : nat) (groups : list (list nat)) (s : absorb_state F) : Prop :=
  (forall k, k < m -> active groups s k -> forall j, j < n -> strict_in (scope_at j) (scope_at k) ->
     marked (ab_mask s) j = true) /\
  (forall h k, In h (heads groups) -> active groups s k -> k < h -> ~ strict_in (scope_at h) (scope_at k)) /\
  (forall g, In g groups -> exists i c js, g = i :: c :: js /\ i < m /\ c < n /\ strict_in (scope_at c) (scope_at i)) /\
  Forall2 (fun g f => forall v, In v (f_vars ops f) <-> In v (scope_at (hd 0 g))) groups (ab_final s).

Lemma order_step m fi groups s s' : nth_error factors m = Some fi ->
  outer_inv groups s -> order_inv m groups s -> absorb_outer ops factors s (m, fi) = Ok s' ->
  exists groups', outer_inv groups' s' /\ order_inv (S m) groups' s'.
Proof.
  intros Hfi Ho (HA & HB & HC & HD) H. assert (Hmn : m < n) by (apply nth_error_Some; congruence).
  pose proof H as H0. destruct (outer_step groups m fi s s' Hfi Ho H) as
    [(-> & Hmk & Ho')|(prod & taken & mask & Hmk & Hin & Hmask & Hinv & Hcase)].
  - exists groups. split; [exact Ho'|]. split; [|split; [exact HB|split; [|exact HD]]].
    + intros k Hk Ha j Hj Hst. destruct (Nat.eq_dec k m) as [->|N]; [|apply (HA k); auto; lia].
      destruct Ha as [Ha|Ha]; [|congruence]. unfold heads in Ha. apply in_map_iff in Ha.
      destruct Ha as (g & Hg & Hgin). destruct (HC g Hgin) as (i & c & js & -> & Hi & _). cbn in Hg. lia.
    + intros g Hg. destruct (HC g Hg) as (i & c & js & -> & Hi & Hrest). exists i, c, js. split; [reflexivity|]. split; [lia|exact Hrest].
  - assert (Hsc : inner_scope m ([] ++ map fst (enum factors)) (prod, taken, mask)).
    { eapply inner_scope_fold; [exact Hmn| | |exact Hin].
      - intros j f Hj. now apply in_enum.
      - cbn. destruct Ho as (Hl & _). repeat split; auto; try contradiction.
        + rewrite (scope_at_some m fi Hfi). tauto.
        + rewrite (scope_at_some m fi Hfi). tauto. }
    destruct Hsc as (Hlen & Hv & Ht & Hd). cbn [app] in Hd. rewrite map_fst_enum in Hd. fold n in Hd.
    destruct Hinv as (_ & _ & _ & Htk & Him).
    assert (Hmono : forall j, j < n -> marked (ab_mask s) j = true -> marked mask j = true).
    { intros j Hj Hm. apply Him; [exact Hj|]. left. destruct Ho as (_ & _ & _ & _ & Hom). now apply Hom. }
    assert (Hub : forall k, k < n -> marked mask k = false -> marked (ab_mask s) k = false).
    { intros k Hk Hm. apply not_true_iff_false. intros C. apply Hmono in C; [congruence|exact Hk]. }
    destruct Hcase as [[Htn Ho']|[Htn Ho']].
    + subst taken. exists groups. split; [exact Ho'|].
      assert (Hmi : marked mask m = false).
      { apply not_true_iff_false. rewrite (Him m Hmn). cbn.
        destruct Ho as (_ & _ & _ & _ & Hom). rewrite <- (Hom m Hmn). intuition congruence. }
      assert (Hfin : ab_final s' = ab_final s).
      { unfold absorb_outer in H0. rewrite Hmk, Hin in H0. cbn [bind] in H0. inversion H0; cbn. now rewrite Hmi. }
      assert (Hact : forall k, active groups s' k -> k < n -> active groups s k).
      { intros k [Hk|Hk] Hkn; [left; exact Hk|right]. rewrite Hmask in Hk. now apply Hub. }
      split; [|split; [|split]].
      * intros k Hk Ha j Hj Hst. rewrite Hmask. destruct (Nat.eq_dec k m) as [->|N].
        -- apply Hd; [apply in_seq; lia|exact Hst].
        -- apply Hmono; [exact Hj|]. apply (HA k); auto; [lia|]. apply Hact; [exact Ha|lia].
      * intros h k Hh Ha Hlt. apply HB; auto. apply Hact; [exact Ha|].
        unfold heads in Hh. apply in_map_iff in Hh. destruct Hh as (g & Hg & Hgin).
        destruct (HC g Hgin) as (i & c & js & -> & Hi & _). cbn in Hg. lia.
      * intros g Hg. destruct (HC g Hg) as (i & c & js & -> & Hi & Hrest). exists i, c, js. split; [reflexivity|]. split; [lia|exact Hrest].
      * now rewrite Hfin.
    + exists (groups ++ [m :: taken]). split; [exact Ho'|].
      assert (Hmi : marked mask m = true) by (apply (Him m Hmn); tauto).
      assert (Hfin : ab_final s' = ab_final s ++ [prod]).
      { unfold absorb_outer in H0. rewrite Hmk, Hin in H0. cbn [bind] in H0. inversion H0; cbn. now rewrite Hmi. }
      assert (Hh : heads (groups ++ [m :: taken]) = heads groups ++ [m]) by (unfold heads; rewrite map_app; reflexivity).
      assert (Hact : forall k, active (groups ++ [m :: taken]) s' k -> k < n -> active groups s k).
      { intros k [Hk|Hk] Hkn.
        - rewrite Hh in Hk. apply in_app_or in Hk. destruct Hk as [Hk|[<-|[]]]; [left; exact Hk|]. right. exact Hmk.
        - right. rewrite Hmask in Hk. now apply Hub. }
      assert (Hheads : forall h, In h (heads groups) -> h < m).
      { intros h Hhi. unfold heads in Hhi. apply in_map_iff in Hhi. destruct Hhi as (g & Hg & Hgin).
        destruct (HC g Hgin) as (i & c & js & -> & Hi & _). cbn in Hg. lia. }
      split; [|split; [|split]].
      * intros k Hk Ha j Hj Hst. rewrite Hmask. destruct (Nat.eq_dec k m) as [->|N].
        -- apply Hd; [apply in_seq; lia|exact Hst].
        -- apply Hmono; [exact Hj|]. apply (HA k); auto; [lia|]. apply Hact; [exact Ha|lia].
      * intros h k Hhi Ha Hlt Hst. rewrite Hh in Hhi. apply in_app_or in Hhi. destruct Hhi as [Hhi|[<-|[]]].
        -- apply (HB h k); auto. apply Hact; [exact Ha|]. specialize (Hheads h Hhi). lia.
        -- assert (C : marked (ab_mask s) m = true); [|congruence].
           apply (HA k); auto. apply Hact; [exact Ha|lia].
      * intros g Hg. apply in_app_or in Hg. destruct Hg as [Hg|[<-|[]]].
        -- destruct (HC g Hg) as (i & c & js & -> & Hi & Hrest). exists i, c, js. split; [reflexivity|]. split; [lia|exact Hrest].
        -- destruct taken as [|c js]; [congruence|]. exists m, c, js. destruct (Ht c (or_introl eq_refl)).
           split; [reflexivity|]. split; [lia|]. split; assumption.
      * rewrite Hfin. apply Forall2_app; [exact HD|]. repeat constructor; apply Hv.
Qed.

Lemma order_fold : forall l m groups s s',
  (forall p j f, nth_error l p = Some (j, f) -> j = m + p /\ nth_error factors j = Some f) ->
  outer_inv groups s -> order_inv m groups s -> foldM (absorb_outer ops factors) l s = Ok s' ->
  exists groups', outer_inv groups' s' /\ order_inv (m + length l) groups' s'.
Proof.
  induction l as [|[i fi] l IH]; intros m groups s s' Hl Ho Hs H; cbn [foldM] in H.
  - inversion H; subst. cbn. rewrite Nat.add_0_r. eauto.
  - apply bind_ok in H. destruct H as (s1 & H1 & H).
    destruct (Hl 0 i fi eq_refl) as [-> Hfi]. rewrite Nat.add_0_r in *.
    destruct (order_step m fi groups s s1 Hfi Ho Hs H1) as (g1 & Ho1 & Hs1).
    cbn [length]. rewrite Nat.add_succ_r, <- Nat.add_succ_l. apply (IH (S m) g1 s1); auto.
    intros p j f Hp. destruct (Hl (S p) j f Hp) as [-> Hf]. split; [lia|exact Hf].
Qed.

Lemma absorb_not_nested final : absorb_subsets ops factors = Ok final ->
  (forall c i j, c < length factors -> i < j -> strict_in (scope_at c) (scope_at i) -> strict_in (scope_at i) (scope_at j) -> False) ->
  forall a b, In a final -> In b final -> ~ strict_in (f_vars ops a) (f_vars ops b).
Proof.
  unfold absorb_subsets. intros H Hchain a b Ha Hb Hst. apply bind_ok in H. destruct H as (s & Hs & H).
  assert (He : forall j f, In (j, f) (enum factors) -> nth_error factors j = Some f) by (intros; now apply in_enum).
  set (s0 := {| ab_mask := repeat false n; ab_dict := []; ab_final := [] |} : absorb_state F).
  assert (Hs0 : foldM (absorb_outer ops factors) (enum factors) s0 = Ok s) by exact Hs.
  destruct (fun h1 h2 h3 => order_fold (enum factors) 0 [] s0 s h1 h2 h3 Hs0) as (groups & Hg & (HA & HB & HC & HD)).
  { intros p j f Hp. rewrite nth_error_enum in Hp. destruct (nth_error factors p) eqn:E; [|discriminate].
    inversion Hp; subst. split; [lia|exact E]. }
  { apply outer_inv_init. }
  { repeat split; try contradiction; [lia|constructor]. }
  rewrite enum_length in *. cbn [Nat.add] in *. fold n in HA, HC.
  destruct (rest_fold (enum factors) groups s He Hg) as (singles & Hr & Hsg & _).
  cbn zeta in *. set (s' := fold_left absorb_rest (enum factors) s) in *.
  apply bind_ok in H. destruct H as (u & _ & H). inversion H; subst final; clear H.
  destruct Hr as (_ & Hf & Hnd & _).
  (* every final factor has a head with the same scope which is active after the first loop *)
  assert (Hhead : forall f, In f (ab_final s') -> exists h, h < n /\ (forall v, In v (f_vars ops f) <-> In v (scope_at h)) /\
             ((In h (heads groups) /\ exists c, c < n /\ strict_in (scope_at c) (scope_at h)) \/ marked (ab_mask s) h = false)).
  { apply Forall2_app_inv_l in Hf. destruct Hf as (f1 & f2 & Hf1 & Hf2 & Hfe). rewrite Hfe.
    assert (E1 : f1 = ab_final s).
    { destruct Hg as (_ & Hgf & _). clear - Hf1 Hgf. revert Hgf. generalize (ab_final s).
      induction Hf1 as [|g f gs fs H1 _ IH]; intros l Hl; inversion Hl as [|? f' ? fs' H2 Hl']; subst; [reflexivity|].
      f_equal; [|now apply IH]. destruct g; [destruct H1|]. cbn in H1, H2. destruct H1 as [_ H1], H2 as [_ H2]. congruence. }
    intros f Hfin. apply in_app_or in Hfin. destruct Hfin as [Hfin|Hfin].
    - subst f1. clear - Hfin HD HC. revert HC. induction HD as [|g f' gs fs H1 _ IH]; intros HC; [destruct Hfin|].
      destruct Hfin as [->|Hfin].
      + destruct (HC g (or_introl eq_refl)) as (i & c & js & -> & Hi & Hc & Hs). exists i. split; [exact Hi|]. split; [exact H1|].
        left. split; [left; reflexivity|eauto].
      + destruct IH as (h & Hh & Hv & Hor); auto; [intros; apply HC; right; assumption|].
        exists h. split; [exact Hh|]. split; [exact Hv|]. destruct Hor as [[Hin Hc]|Hm]; [left; split; [right; exact Hin|exact Hc]|right; exact Hm].
    - clear - Hfin Hf2 Hsg. revert Hfin Hf2. generalize f2. induction singles as [|i singles IH]; intros l Hfin Hf2;
        inversion Hf2 as [|? f' ? fs' H2 Hl']; subst; [destruct Hfin|]. destruct Hfin as [->|Hfin].
      + cbn in H2. destruct H2 as [Hi H2]. unfold group_product in H2. apply bind_ok in H2. destruct H2 as (fi & Hfi & H2).
        inversion H2; subst fi. apply py_nth_inv in Hfi. exists i. split; [exact Hi|]. rewrite (scope_at_some _ _ Hfi).
        split; [tauto|]. right. apply Hsg. left; reflexivity.
      + apply (IH (fun k Hk => Hsg k (or_intror Hk)) fs' Hfin Hl'). }
  destruct (Hhead a Ha) as (ia & Hia & Hva & Hora), (Hhead b Hb) as (ib & Hib & Hvb & Horb).
  assert (Hst' : strict_in (scope_at ia) (scope_at ib)) by (clear - Hst Hva Hvb; unfold strict_in, incl in *; firstorder).
  assert (Hactb : active groups s ib) by (destruct Horb as [[Hin _]|Hm]; [left; exact Hin|right; exact Hm]).
  destruct Hora as [[Hin (c & Hcn & Hc)]|Hm].
  - destruct (lt_eq_lt_dec ia ib) as [[Hlt| ->]|Hlt].
    + exact (Hchain c ia ib Hcn Hlt Hc Hst').
    + eapply strict_irrefl; eauto.
    + eapply HB; eauto.
  - assert (marked (ab_mask s) ia = true); [|congruence]. apply (HA ib); auto.
Qed.
End Scopes.
End Absorb.
