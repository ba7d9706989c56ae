(** Finite sums over lists, assignments and environments. *)
From Verif Require Export SparseProofs.

Lemma Rsum_app l m : Rsum (l ++ m) = (Rsum l + Rsum m)%R.
Proof. unfold Rsum. induction l as [|x l IH]; cbn [app fold_right]; [ring|]. rewrite IH. ring. Qed.
Lemma Rsum_perm l m : Permutation l m -> Rsum l = Rsum m.
Proof.
  unfold Rsum. induction 1 as [|x l m _ IH|x y l|l m n _ IH1 _ IH2]; cbn [fold_right].
  - reflexivity.
  - now rewrite IH.
  - ring.
  - congruence.
Qed.
Lemma Rsum_cons x l : Rsum (x :: l) = (x + Rsum l)%R.
Proof. reflexivity. Qed.
Lemma Rsum_ext {A} (f g : A -> R) l : (forall x, In x l -> f x = g x) -> Rsum (map f l) = Rsum (map g l).
Proof. intros H. f_equal. now apply map_ext_in. Qed.
Lemma Rsum_zero {A} (f : A -> R) l : (forall x, In x l -> f x = 0%R) -> Rsum (map f l) = 0%R.
Proof.
  induction l as [|x l IH]; intros H; [reflexivity|]. cbn [map]. rewrite Rsum_cons.
  rewrite H by (left; reflexivity). rewrite IH; [ring|]. intros y Hy. apply H. right; exact Hy.
Qed.
Lemma Rsum_nonneg {A} (f : A -> R) l : (forall x, In x l -> 0 <= f x)%R -> (0 <= Rsum (map f l))%R.
Proof.
  induction l as [|x l IH]; intros H; [unfold Rsum; cbn; lra|]. cbn [map]. rewrite Rsum_cons.
  specialize (IH (fun y Hy => H y (or_intror Hy))). specialize (H x (or_introl eq_refl)). lra.
Qed.
Lemma Rsum_plus {A} (f g : A -> R) l :
  Rsum (map (fun x => f x + g x)%R l) = (Rsum (map f l) + Rsum (map g l))%R.
Proof. induction l as [|x l IH]; cbn [map]; rewrite ?Rsum_cons, ?IH; [unfold Rsum; cbn|]; ring. Qed.
Lemma Rsum_minus {A} (f g : A -> R) l :
  Rsum (map (fun x => f x - g x)%R l) = (Rsum (map f l) - Rsum (map g l))%R.
Proof. induction l as [|x l IH]; cbn [map]; rewrite ?Rsum_cons, ?IH; [unfold Rsum; cbn|]; ring. Qed.
Lemma Rsum_scal {A} c (f : A -> R) l : Rsum (map (fun x => c * f x)%R l) = (c * Rsum (map f l))%R.
Proof. induction l as [|x l IH]; cbn [map]; rewrite ?Rsum_cons, ?IH; [unfold Rsum; cbn|]; ring. Qed.
Lemma Rsum_le {A} (f g : A -> R) l : (forall x, In x l -> f x <= g x)%R ->
  (Rsum (map f l) <= Rsum (map g l))%R.
Proof.
  induction l as [|x l IH]; intros H; [unfold Rsum; cbn; lra|]. cbn [map]. rewrite !Rsum_cons.
  specialize (IH (fun y Hy => H y (or_intror Hy))). specialize (H x (or_introl eq_refl)). lra.
Qed.
Lemma Rsum_zero_all {A} (f : A -> R) l : (forall x, In x l -> 0 <= f x)%R ->
  Rsum (map f l) = 0%R -> forall x, In x l -> f x = 0%R.
Proof.
  induction l as [|x l IH]; intros H H0 y Hy; [destruct Hy|]. cbn [map] in H0. rewrite Rsum_cons in H0.
  pose proof (Rsum_nonneg f l (fun y Hy => H y (or_intror Hy))).
  pose proof (H x (or_introl eq_refl)).
  destruct Hy as [<-|Hy]; [lra|]. apply IH; auto; [|lra]. intros z Hz. apply H. right; exact Hz.
Qed.
Lemma Rsum_flat_map {A B} (g : B -> R) (h : A -> list B) l :
  Rsum (map g (flat_map h l)) = Rsum (map (fun x => Rsum (map g (h x))) l).
Proof.
  induction l as [|x l IH]; [reflexivity|]. cbn [flat_map map]. rewrite map_app, Rsum_app, Rsum_cons, IH.
  reflexivity.
Qed.
Lemma Rsum_swap {A B} (g : A -> B -> R) l m :
  Rsum (map (fun x => Rsum (map (g x) m)) l) = Rsum (map (fun y => Rsum (map (fun x => g x y) l)) m).
Proof.
  induction l as [|x l IH]; cbn [map].
  - rewrite Rsum_zero; [reflexivity|]. reflexivity.
  - rewrite Rsum_cons, IH, <- Rsum_plus. reflexivity.
Qed.

(** environments *)
Fixpoint upds (e : env) (vs : list string) (k : key) : env :=
  match vs, k with
  | v :: vs', i :: k' => upds (upd e v i) vs' k'
  | _, _ => e
  end.
Lemma upd_same e v i : upd e v i v = i.
Proof. unfold upd. destruct (string_dec v v); congruence. Qed.
Lemma upd_other e v i w : w <> v -> upd e v i w = e w.
Proof. unfold upd. destruct (string_dec w v); congruence. Qed.
Lemma upds_other vs : forall e k w, ~ In w vs -> upds e vs k w = e w.
Proof.
  induction vs as [|v vs IH]; intros e [|i k] w H; cbn [upds]; try reflexivity.
  rewrite IH by (intros C; apply H; right; exact C). apply upd_other.
  intros ->. apply H. left; reflexivity.
Qed.
Lemma map_upds vs : forall e k, NoDup vs -> length k = length vs -> map (upds e vs k) vs = k.
Proof.
  induction vs as [|v vs IH]; intros e [|i k] Hn Hl; try discriminate; [reflexivity|].
  inversion Hn as [|? ? Hv Hn']; subst. cbn [upds map]. f_equal.
  - rewrite upds_other by exact Hv. apply upd_same.
  - apply IH; [exact Hn'|]. cbn in Hl. lia.
Qed.

Definition ext (g : env -> R) : Prop := forall e e', (forall v, e v = e' v) -> g e = g e'.

Lemma sum_over_assign card vs g : forall e,
  sum_over card vs g e = Rsum (map (fun k => g (upds e vs k)) (assignments (map card vs))).
Proof.
  induction vs as [|v vs IH]; intros e; cbn [sum_over map].
  - unfold assignments, Rsum. cbn. ring.
  - change (assignments (card v :: map card vs)) with
      (flat_map (fun x => map (cons x) (assignments (map card vs))) (seq 0 (card v))).
    rewrite Rsum_flat_map. apply Rsum_ext. intros i _. rewrite IH, map_map. reflexivity.
Qed.
Lemma sum_over_ext_g card vs g h : (forall e, g e = h e) -> forall e,
  sum_over card vs g e = sum_over card vs h e.
Proof.
  intros H. induction vs as [|v vs IH]; intros e; cbn [sum_over]; [apply H|].
  apply Rsum_ext. intros i _. apply IH.
Qed.
Lemma sum_over_ext_card card card' vs g : (forall v, In v vs -> card v = card' v) -> forall e,
  sum_over card vs g e = sum_over card' vs g e.
Proof.
  induction vs as [|v vs IH]; intros H e; cbn [sum_over]; [reflexivity|].
  rewrite (H v (or_introl eq_refl)). apply Rsum_ext. intros i _. apply IH.
  intros w Hw. apply H. right; exact Hw.
Qed.
Lemma sum_over_ext card vs g : ext g -> ext (sum_over card vs g).
Proof.
  intros Hg. induction vs as [|v vs IH]; [exact Hg|]. intros e e' H. cbn [sum_over].
  apply Rsum_ext. intros i _. apply IH. intros w. unfold upd. destruct (string_dec w v); auto.
Qed.
Lemma sum_over_app card vs ws g e :
  sum_over card (vs ++ ws) g e = sum_over card vs (sum_over card ws g) e.
Proof.
  revert e; induction vs as [|v vs IH]; intros e; cbn [app sum_over]; [reflexivity|].
  apply Rsum_ext. intros i _. apply IH.
Qed.
Lemma sum_over_perm card vs ws g : Permutation vs ws -> NoDup vs -> ext g -> forall e,
  sum_over card vs g e = sum_over card ws g e.
Proof.
  intros HP. induction HP as [|x l m HP IH|x y l|l m n HP1 IH1 HP2 IH2]; intros Hn Hg e.
  - reflexivity.
  - inversion Hn; subst. cbn [sum_over]. apply Rsum_ext. intros i _. now apply IH.
  - cbn [sum_over]. rewrite Rsum_swap. apply Rsum_ext. intros i _. apply Rsum_ext. intros j _.
    apply sum_over_ext; [exact Hg|]. intros v. unfold upd.
    destruct (string_dec v x), (string_dec v y); subst; try reflexivity.
    inversion Hn as [|? ? H1 H2]; subst. exfalso. apply H1. left; reflexivity.
  - rewrite IH1 by auto. apply IH2; auto. eapply Permutation_NoDup; eauto.
Qed.
Lemma sum_over_agree card vs g (S : list string) :
  (forall e e', (forall v, In v S -> e v = e' v) -> g e = g e') -> forall e e',
  (forall v, In v S -> ~ In v vs -> e v = e' v) ->
  sum_over card vs g e = sum_over card vs g e'.
Proof.
  intros Hg. induction vs as [|v vs IH]; intros e e' H; cbn [sum_over].
  - apply Hg. intros v Hv. apply H; auto.
  - apply Rsum_ext. intros i _. apply IH. intros w Hw Hnw. unfold upd.
    destruct (string_dec w v) as [->|N]; [reflexivity|]. apply H; [exact Hw|].
    intros [C|C]; [congruence|contradiction].
Qed.
Lemma sum_over_nonneg card vs g : (forall e, 0 <= g e)%R -> forall e, (0 <= sum_over card vs g e)%R.
Proof.
  intros H e. rewrite sum_over_assign. apply Rsum_nonneg. intros k _. apply H.
Qed.
Lemma sum_over_scal card vs c g e :
  sum_over card vs (fun e => c * g e)%R e = (c * sum_over card vs g e)%R.
Proof. rewrite !sum_over_assign. now rewrite Rsum_scal. Qed.

(** tables *)
Lemma Rsum_sub {A} {E : EqDec A} (f : A -> R) (L M : list A) : NoDup L -> NoDup M -> incl M L ->
  (forall x, In x L -> ~ In x M -> f x = 0%R) -> Rsum (map f L) = Rsum (map f M).
Proof.
  intros HL HM Hi H0.
  assert (HP : Permutation L (M ++ filter (fun x => negb (mem x M)) L)).
  { apply NoDup_Permutation; [exact HL| |].
    - apply NoDup_app_intro; [exact HM|now apply NoDup_filter|].
      intros x Hx Hx'. apply filter_In in Hx'. destruct Hx' as [_ Hx'].
      apply negb_true_iff, mem_nIn in Hx'. contradiction.
    - intros x. rewrite in_app_iff, filter_In. split.
      + intros Hx. destruct (mem x M) eqn:Hm; [left; now apply mem_In|right; auto].
      + intros [Hx|[Hx _]]; auto. }
  rewrite (Rsum_perm _ _ (Permutation_map f HP)), map_app, Rsum_app.
  rewrite (Rsum_zero f (filter _ L)); [ring|].
  intros x Hx. apply filter_In in Hx. destruct Hx as [Hx Hm]. apply negb_true_iff, mem_nIn in Hm. auto.
Qed.

Lemma table_sum (h : val -> R) (t : table) d (L : list key) :
  NoDup L -> NoDup (dkeys t) -> incl (dkeys t) L -> h d = 0%R ->
  Rsum (map (fun k => h (dget_or t k d)) L) = Rsum (map h (dvals t)).
Proof.
  intros HL Ht Hi Hd. rewrite (Rsum_sub _ L (dkeys t) HL Ht Hi).
  - f_equal. unfold dkeys, dvals. rewrite !map_map. apply map_ext_in. intros [k v] Hk. cbn [fst snd].
    unfold dget_or. now rewrite (In_dget t k v Ht Hk).
  - intros k _ Hk. now rewrite dget_or_In.
Qed.

Lemma sval_ext f e e' : (forall v, In v (svars f) -> e v = e' v) -> sval f e = sval f e'.
Proof. intros H. unfold sval. now rewrite (map_ext_in e e' (svars f) H). Qed.
Lemma spot_ext f e e' : (forall v, In v (svars f) -> e v = e' v) -> spot f e = spot f e'.
Proof. intros H. unfold spot. now rewrite (sval_ext f e e' H). Qed.
Lemma spot_ext' f : ext (spot f).
Proof. intros e e' H. apply spot_ext. auto. Qed.
Lemma pot_nonneg v : (0 <= pot v)%R.
Proof. destruct v as [|a| |]; cbn; try lra. pose proof (exp_pos a). lra. Qed.

(** The sum of [h] of the log values over all assignments to the scope. *)
Lemma total_sum (h : val -> R) f e : wf_struct f -> h (sdef f) = 0%R ->
  sum_over (card_of f) (svars f) (fun e => h (sval f e)) e = Rsum (map h (dvals (stbl f))).
Proof.
  intros Hw Hd. rewrite sum_over_assign, <- (scards_map f Hw).
  rewrite <- (table_sum h (stbl f) (sdef f) (assignments (scards f))).
  - apply Rsum_ext. intros k Hk. apply In_assignments, Forall2_length in Hk.
    unfold sval. rewrite map_upds; [reflexivity|apply (wf_vars f Hw)|].
    now rewrite <- (wf_cards f Hw).
  - apply NoDup_assignments.
  - apply (wf_nodup f Hw).
  - intros k Hk. apply dget_or_incl in Hk. destruct Hk as (v & Hk).
    apply In_assignments. eapply wf_keys; eauto.
  - exact Hd.
Qed.
(** The same for the inner table of a nested form. *)
Lemma inner_sum (h : val -> R) f outer inner nt e : wf_struct f -> h (sdef f) = 0%R ->
  Permutation (svars f) (outer ++ inner) -> nested_of f outer inner nt ->
  sum_over (card_of f) inner (fun e => h (sval f e)) e =
  match dget nt (map e outer) with Some s => Rsum (map h (dvals s)) | None => 0%R end.
Proof.
  intros Hw Hd HP Hn.
  assert (Hno : NoDup (outer ++ inner)) by (eapply Permutation_NoDup; [exact HP|apply (wf_vars f Hw)]).
  apply NoDup_app_elim in Hno. destruct Hno as (_ & Hni & Hdis).
  assert (Hio : incl outer (svars f)).
  { intros v Hv. apply (Permutation_in v (Permutation_sym HP)), in_or_app. auto. }
  assert (Hii : incl inner (svars f)).
  { intros v Hv. apply (Permutation_in v (Permutation_sym HP)), in_or_app. auto. }
  rewrite sum_over_assign.
  assert (Hou : forall k, map (upds e inner k) outer = map e outer).
  { intros k. apply map_ext_in. intros v Hv. apply upds_other. intros C. eapply Hdis; eauto. }
  destruct (dget nt (map e outer)) as [s|] eqn:Hs.
  - pose proof (dget_In _ _ _ Hs) as Hsin.
    rewrite <- (table_sum h s (sdef f) (assignments (map (card_of f) inner))).
    + apply Rsum_ext. intros k Hk. apply In_assignments, Forall2_length in Hk. rewrite map_length in Hk.
      rewrite <- (nested_or f outer inner nt (upds e inner k) s Hn).
      * now rewrite map_upds.
      * now rewrite Hou.
    + apply NoDup_assignments.
    + apply (ntw_sub nt (no_wf _ _ _ _ Hn) _ _ Hsin).
    + intros k Hk. apply dget_or_incl in Hk. destruct Hk as (v & Hk). apply In_assignments.
      apply (src_range f outer inner nt _ s k v Hw Hn Hio Hii Hsin Hk).
    + exact Hd.
  - apply Rsum_zero. intros k _. rewrite (nested_absent f outer inner nt _ Hn); [exact Hd|].
    now rewrite Hou.
Qed.

(** logsumexp *)
Lemma lse_lp l : (forall v, In v l -> is_lp v) ->
  is_lp (lse l) /\ pot (lse l) = Rsum (map pot l).
Proof.
  intros H. unfold lse.
  assert (existsb is_nan l = false) as ->.
  { apply not_true_iff_false. rewrite existsb_exists. intros (v & Hv & Hn).
    specialize (H v Hv). destruct v; cbn in *; try discriminate; tauto. }
  assert (existsb is_pinf l = false) as ->.
  { apply not_true_iff_false. rewrite existsb_exists. intros (v & Hv & Hn).
    specialize (H v Hv). destruct v; cbn in *; try discriminate; tauto. }
  assert (H0 : (0 <= Rsum (map pot l))%R) by (apply Rsum_nonneg; intros; apply pot_nonneg).
  unfold rlog, Rlt_b, Req_b. destruct (Rlt_dec 0 (Rsum (map pot l))) as [Hp|Hp].
  - split; [exact I|]. cbn. now apply exp_ln.
  - destruct (Req_EM_T (Rsum (map pot l)) 0) as [Hz|Hz].
    + split; [exact I|]. cbn. lra.
    + exfalso. lra.
Qed.
Lemma lse_pos l : (forall v, In v l -> is_lp v) -> (0 < Rsum (map pot l))%R ->
  lse l = Fin (ln (Rsum (map pot l))).
Proof.
  intros H Hp. unfold lse.
  assert (existsb is_nan l = false) as ->.
  { apply not_true_iff_false. rewrite existsb_exists. intros (v & Hv & Hn).
    specialize (H v Hv). destruct v; cbn in *; try discriminate; tauto. }
  assert (existsb is_pinf l = false) as ->.
  { apply not_true_iff_false. rewrite existsb_exists. intros (v & Hv & Hn).
    specialize (H v Hv). destruct v; cbn in *; try discriminate; tauto. }
  unfold rlog, Rlt_b. destruct (Rlt_dec 0 (Rsum (map pot l))); [reflexivity|contradiction].
Qed.
Lemma pot_lp_inj x y : is_lp x -> is_lp y -> pot x = pot y -> x = y.
Proof.
  destruct x as [|a| |], y as [|b| |]; cbn; intros; try tauto.
  - pose proof (exp_pos b). lra.
  - pose proof (exp_pos a). lra.
  - f_equal. now apply exp_inv.
Qed.
