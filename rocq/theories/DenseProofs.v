(** Proofs for the dense factor: product, quotient, reorder, reduce, potential (C15, C17, C18). *)
From Coq Require Import ZArith.
From Verif Require Export DenseFacts.

#[global] Hint Resolve wd_s : core.
Lemma combine_map_In' {A B} (g : A -> B) l v c : In (v, c) (combine l (map g l)) <-> In v l /\ c = g v.
Proof.
  induction l as [|x l IH]; cbn [combine map]; [cbn; tauto|]. split.
  - intros [H|H]; [injection H as <- <-; split; [left|]; reflexivity|]. apply IH in H. split; [right; tauto|tauto].
  - intros [[->|H] ->]; [left; reflexivity|]. right. apply IH. auto.
Qed.

(** ** cardinalities and names by variable *)
Lemma d_shape f : wf_shape f -> tshape (dtens f) = map (d_card_of f) (dvars f).
Proof.
  intros [Hn Hl _ _ _]. unfold d_card_of. revert Hn Hl. generalize (dvars f) (tshape (dtens f)).
  induction l as [|v l IH]; intros [|c cs] Hn Hl; try discriminate; [reflexivity|].
  inversion Hn as [|? ? Hv Hn']; subst. cbn [map combine dget]. destruct (eq_dec v v); [|congruence].
  f_equal. rewrite (IH cs Hn') at 1 by (cbn in Hl; lia). apply map_ext_in. intros w Hw.
  destruct (eq_dec w v) as [->|]; [contradiction|reflexivity].
Qed.
Lemma d_has_card_iff f v c : wf_shape f -> (d_has_card f v c <-> In v (dvars f) /\ c = d_card_of f v).
Proof.
  intros Hw. unfold d_has_card. rewrite (d_shape f Hw) at 1. rewrite combine_map_In'. tauto.
Qed.
Lemma d_has_card_of f v : wf_shape f -> In v (dvars f) -> d_has_card f v (d_card_of f v).
Proof. intros Hw Hv. apply d_has_card_iff; auto. Qed.
Definition dname (f : dense) (v : string) : list aname := dget_or (dnames f) v [].
Lemma dname_get f v : wf_shape f -> In v (dvars f) -> dget (dnames f) v = Some (dname f v).
Proof.
  intros Hw Hv. rewrite <- (ws_keys f Hw) in Hv. destruct (In_dkeys_dget _ _ Hv) as (ns & H).
  unfold dname, dget_or. now rewrite H.
Qed.
Lemma dname_len f v : wf_shape f -> In v (dvars f) -> length (dedup (dname f v)) = d_card_of f v.
Proof.
  intros Hw Hv. apply (ws_names f Hw v); [now apply dname_get|]. now apply d_has_card_of.
Qed.
Lemma names_var f v ns : wf_shape f -> dget (dnames f) v = Some ns -> In v (dvars f).
Proof. intros Hw H. rewrite <- (ws_keys f Hw). eapply dget_Some_key; eauto. Qed.
Lemma names_of_ok f vs : wf_shape f -> incl vs (dvars f) -> names_of (dnames f) vs = Ok (map (dname f) vs).
Proof.
  intros Hw Hi. apply mapM_ok. intros v Hv. unfold dget_r. rewrite (dname_get f v Hw); auto.
Qed.

(** ** the constructor *)
Definition mkd (vars : list string) (t : tensor val) (nm : string -> list aname) : dense :=
  {| dvars := vars; dtens := t; dcards := tshape t; dnames := combine vars (map nm vars) |}.

Lemma names_given_ok vars (nm : string -> list aname) (card : string -> nat) :
  NoDup vars -> (forall v, In v vars -> length (dedup (nm v)) = card v) ->
  names_given vars (map card vars) (map nm vars) = Ok (combine vars (map nm vars)).
Proof.
  intros Hn Hl. unfold names_given. rewrite map_length, Nat.eqb_refl. cbn [py_assert bind].
  assert (G : forall l d, NoDup (dkeys d ++ l) -> (forall v, In v l -> length (dedup (nm v)) = card v) ->
     foldM (fun (d : dict string (list aname)) vnc => let '(v, (ns, c)) := vnc in
           let* _ := py_assert (Nat.eqb c (length (dedup ns))) in Ok (dset d v ns))
        (combine l (combine (map nm l) (map card l))) d = Ok (d ++ combine l (map nm l))).
  { induction l as [|v l IH]; intros d Hd H; cbn [map combine foldM]; [now rewrite app_nil_r|].
    rewrite (H v (or_introl eq_refl)), Nat.eqb_refl. cbn [py_assert bind].
    apply NoDup_app_elim in Hd as Hd'. destruct Hd' as (Hd1 & Hd2 & Hd3).
    rewrite dset_new by (intros C; apply (Hd3 v C); left; reflexivity).
    rewrite IH.
    - now rewrite <- app_assoc.
    - unfold dkeys. rewrite map_app. cbn [map fst]. rewrite <- app_assoc. exact Hd.
    - intros w Hw. apply H. right; exact Hw. }
  apply (G vars []); auto.
Qed.
Lemma mk_dense_ok vars t nm (card : string -> nat) : NoDup vars -> tshape t = map card vars ->
  (forall v, In v vars -> length (dedup (nm v)) = card v) ->
  mk_dense vars None t (Some (map nm vars)) = Ok (mkd vars t nm).
Proof.
  intros Hn Hs Hl. unfold mk_dense. rewrite (proj2 (nodupb_iff vars) Hn). cbn [negb raise_if bind].
  unfold ndim. rewrite Hs at 1. rewrite map_length, Nat.eqb_refl. cbn [negb raise_if bind mk_names].
  rewrite Hs, names_given_ok by assumption. cbn [bind]. rewrite <- Hs. reflexivity.
Qed.
Lemma mkd_wf vars t nm (card : string -> nat) : NoDup vars -> tshape t = map card vars ->
  (forall v, In v vars -> length (dedup (nm v)) = card v) ->
  wf_shape (mkd vars t nm) /\
  (forall v c, d_has_card (mkd vars t nm) v c <-> In v vars /\ c = card v) /\
  (forall v, In v vars -> dget (dnames (mkd vars t nm)) v = Some (nm v)) /\
  (forall v, In v vars -> d_card_of (mkd vars t nm) v = card v).
Proof.
  intros Hn Hs Hl.
  assert (Hc : forall v c, d_has_card (mkd vars t nm) v c <-> In v vars /\ c = card v).
  { intros v c. unfold d_has_card. cbn [mkd dvars dtens]. rewrite Hs. apply combine_map_In'. }
  assert (Hd : forall v, In v vars -> dget (dnames (mkd vars t nm)) v = Some (nm v)).
  { intros v Hv. cbn [mkd dnames]. apply In_dget.
    - rewrite dkeys_combine by apply map_length. exact Hn.
    - apply combine_map_In'. auto. }
  assert (Hw : wf_shape (mkd vars t nm)).
  { split; cbn [mkd dvars dtens dcards dnames].
    - exact Hn.
    - rewrite Hs. apply map_length.
    - reflexivity.
    - apply dkeys_combine. apply map_length.
    - intros v ns c H1 H2. apply Hc in H2. destruct H2 as [H2 ->]. specialize (Hd v H2). cbn [mkd dnames] in Hd.
      rewrite Hd in H1. injection H1 as <-. now apply Hl. }
  split; [exact Hw|]. split; [exact Hc|]. split; [exact Hd|].
  intros v Hv. pose proof (d_has_card_of _ v Hw Hv) as H. apply Hc in H. tauto.
Qed.

Lemma d_copy_ok f : wf_shape f -> d_copy f = Ok (mkd (dvars f) (dtens f) (dname f)).
Proof.
  intros Hw. unfold d_copy. rewrite (names_of_ok f _ Hw (incl_refl _)). cbn [bind].
  apply (mk_dense_ok _ _ _ (d_card_of f)); [apply (ws_vars f Hw)|now apply d_shape|].
  intros v Hv. now apply dname_len.
Qed.

(** ** consistency checks *)
Lemma foldM_unit {A} (g : A -> res unit) l :
  (forall x, In x l -> g x = Ok tt) -> foldM (fun _ x => g x) l tt = Ok tt.
Proof.
  induction l as [|x l IH]; intros H; [reflexivity|]. cbn [foldM]. rewrite (H x (or_introl eq_refl)). cbn [bind].
  apply IH. intros y Hy. apply H. right; exact Hy.
Qed.
Lemma foldM_unit_err {A} (g : A -> res unit) er l :
  (forall x, In x l -> g x = Ok tt \/ g x = Err er) -> (exists x, In x l /\ g x <> Ok tt) ->
  foldM (fun _ x => g x) l tt = Err er.
Proof.
  induction l as [|x l IH]; intros H [y [Hy Hn]]; [destruct Hy|]. cbn [foldM].
  destruct (H x (or_introl eq_refl)) as [E|E]; rewrite E; cbn [bind]; [|reflexivity].
  apply IH; [intros z Hz; apply H; right; exact Hz|]. destruct Hy as [->|Hy]; [congruence|eauto].
Qed.

Lemma var_cards_get f v : wf_shape f ->
  dget (d_var_cards f) v = if in_dec string_dec v (dvars f) then Some (d_card_of f v) else None.
Proof.
  intros Hw. unfold d_var_cards. rewrite (ws_cards f Hw).
  assert (Hk : dkeys (combine (dvars f) (tshape (dtens f))) = dvars f) by (apply dkeys_combine, (ws_ndim f Hw)).
  rewrite dict_of_NoDup by (rewrite Hk; apply (ws_vars f Hw)).
  destruct (in_dec string_dec v (dvars f)) as [H|H].
  - apply In_dget; [rewrite Hk; apply (ws_vars f Hw)|]. now apply d_has_card_of.
  - apply dget_None. now rewrite Hk.
Qed.
Lemma d_assert_cards_ok a b : wf_shape a -> wf_shape b -> d_cards_agree a b -> d_assert_cards a b = Ok tt.
Proof.
  intros Ha Hb Hc. unfold d_assert_cards. apply foldM_unit. intros v Hv.
  rewrite (var_cards_get b v Hb). destruct (in_dec string_dec v (dvars b)) as [H|H]; [|reflexivity].
  unfold dget_r. rewrite (var_cards_get a v Ha). destruct (in_dec string_dec v (dvars a)); [|contradiction].
  cbn [bind]. rewrite (Hc v (d_card_of a v) (d_card_of b v)); [|now apply d_has_card_of..].
  now rewrite Nat.eqb_refl.
Qed.
Lemma d_assert_cards_err a b : wf_shape a -> wf_shape b -> ~ d_cards_agree a b ->
  d_assert_cards a b = Err AssertionError.
Proof.
  intros Ha Hb Hc. unfold d_assert_cards. apply foldM_unit_err.
  - intros v Hv. rewrite (var_cards_get b v Hb). destruct (in_dec string_dec v (dvars b)) as [H|H]; [|auto].
    unfold dget_r. rewrite (var_cards_get a v Ha). destruct (in_dec string_dec v (dvars a)); [|contradiction].
    cbn [bind]. unfold py_assert. destruct (_ =? _); auto.
  - destruct (forallb (fun v => if in_dec string_dec v (dvars b) then Nat.eqb (d_card_of a v) (d_card_of b v) else true) (dvars a)) eqn:E.
    + exfalso. apply Hc. intros v c c' H1 H2. apply d_has_card_iff in H1; [|exact Ha].
      apply d_has_card_iff in H2; [|exact Hb]. destruct H1 as [H1 ->], H2 as [H2 ->].
      rewrite forallb_forall in E. specialize (E v H1). destruct (in_dec string_dec v (dvars b)); [|contradiction].
      now apply Nat.eqb_eq.
    + assert (X : exists v, In v (dvars a) /\ (if in_dec string_dec v (dvars b) then Nat.eqb (d_card_of a v) (d_card_of b v) else true) = false).
      { clear - E. induction (dvars a) as [|x l IH]; [discriminate|]. cbn [forallb] in E.
        apply andb_false_iff in E. destruct E as [E|E]; [exists x; split; [left; reflexivity|exact E]|].
        destruct (IH E) as (y & H1 & H2). exists y. split; [right; exact H1|exact H2]. }
      destruct X as (v & Hv & X). exists v. split; [exact Hv|]. rewrite (var_cards_get b v Hb).
      destruct (in_dec string_dec v (dvars b)); [|discriminate]. unfold dget_r. rewrite (var_cards_get a v Ha).
      destruct (in_dec string_dec v (dvars a)); [|contradiction]. cbn [bind]. rewrite X. discriminate.
Qed.
Lemma check_names_ok a b : names_agree a b -> check_names (dnames a) (dnames b) = Ok tt.
Proof.
  intros H. unfold check_names. apply foldM_unit. intros v _.
  destruct (dget (dnames a) v) as [x|] eqn:E1; [|reflexivity].
  destruct (dget (dnames b) v) as [y|] eqn:E2; [|reflexivity].
  rewrite (proj2 (eqb_true x y) (H v x y E1 E2)). reflexivity.
Qed.
Lemma check_names_err a b : ~ names_agree a b ->
  check_names (dnames a) (dnames b) = Err InconsistentAssignmentNamesError.
Proof.
  intros H. unfold check_names. apply foldM_unit_err.
  - intros v _. destruct (dget (dnames a) v), (dget (dnames b) v); auto. unfold raise_if.
    destruct (negb _); auto.
  - set (g := fun v => match dget (dnames a) v, dget (dnames b) v with Some x, Some y => eqb x y | _, _ => true end).
    destruct (forallb g (dedup (dkeys (dnames a) ++ dkeys (dnames b)))) eqn:E.
    + exfalso. apply H. intros v x y H1 H2. rewrite forallb_forall in E.
      assert (G : g v = true).
      { apply E. apply In_dedup, in_app_iff. left. eapply dget_Some_key; eauto. }
      unfold g in G. rewrite H1, H2 in G. now apply eqb_true.
    + assert (X : exists v, In v (dedup (dkeys (dnames a) ++ dkeys (dnames b))) /\ g v = false).
      { revert E. generalize (dedup (dkeys (dnames a) ++ dkeys (dnames b))). induction l as [|x l IH]; [discriminate|].
        intros E. cbn [forallb] in E. apply andb_false_iff in E. destruct E as [E|E]; [exists x; split; [left; reflexivity|exact E]|].
        destruct (IH E) as (y & H1 & H2). exists y. split; [right; exact H1|exact H2]. }
      destruct X as (v & Hv & X). exists v. split; [exact Hv|]. unfold g in X.
      destruct (dget (dnames a) v), (dget (dnames b) v); try discriminate. unfold raise_if. rewrite X. discriminate.
Qed.
Lemma dget_dupdate {V} (d d' : dict string V) v : NoDup (dkeys d') ->
  dget (dupdate d d') v = match dget d' v with Some x => Some x | None => dget d v end.
Proof.
  unfold dupdate. revert d; induction d' as [|[k x] d' IH]; intros d Hn; [reflexivity|]. cbn [fold_left].
  cbn [dkeys map fst] in Hn. inversion Hn as [|? ? Hk Hn']; subst. rewrite IH by exact Hn'. cbn [fst snd dget].
  rewrite dget_dset. destruct (eq_dec v k) as [->|N].
  - assert (E : dget d' k = None) by now apply dget_None. rewrite E. reflexivity.
  - reflexivity.
Qed.

(** A common cardinality function for two factors whose cardinalities agree. *)
Definition card2 (a b : dense) (v : string) : nat :=
  if in_dec string_dec v (dvars a) then d_card_of a v else d_card_of b v.
Lemma card2_l a b v : In v (dvars a) -> card2 a b v = d_card_of a v.
Proof. unfold card2. destruct (in_dec string_dec v (dvars a)); tauto. Qed.
Lemma card2_r a b v : wf_shape a -> wf_shape b -> d_cards_agree a b -> In v (dvars b) -> card2 a b v = d_card_of b v.
Proof.
  intros Ha Hb Hc Hv. unfold card2. destruct (in_dec string_dec v (dvars a)); [|reflexivity].
  apply (Hc v); now apply d_has_card_of.
Qed.
Lemma card2_shapes a b : wf_shape a -> wf_shape b -> d_cards_agree a b ->
  tshape (dtens a) = map (card2 a b) (dvars a) /\ tshape (dtens b) = map (card2 a b) (dvars b).
Proof.
  intros Ha Hb Hc. rewrite (d_shape a Ha), (d_shape b Hb). split; apply map_ext_in; intros v Hv; symmetry.
  - now apply card2_l.
  - now apply card2_r.
Qed.
Lemma card2_has a b v c : wf_shape a -> wf_shape b -> d_cards_agree a b ->
  ((In v (dvars a) \/ In v (dvars b)) /\ c = card2 a b v <-> d_has_card a v c \/ d_has_card b v c).
Proof.
  intros Ha Hb Hc. rewrite !d_has_card_iff by assumption. split.
  - intros [[H|H] ->]; [left|right]; split; auto.
    + now apply card2_l.
    + now apply card2_r.
  - intros [[H ->]|[H ->]]; split; auto; symmetry; [now apply card2_l|now apply card2_r].
Qed.

(** ** product and quotient *)
Lemma multiply_raw a b : wf_shape a -> wf_shape b -> d_cards_agree a b -> names_agree a b ->
  exists r, d_multiply a b = Ok r /\ wf_shape r /\
    (forall v, In v (dvars r) <-> In v (dvars a) \/ In v (dvars b)) /\
    (forall v c, d_has_card r v c <-> d_has_card a v c \/ d_has_card b v c) /\
    (forall v ns, dget (dnames r) v = Some ns <-> dget (dnames a) v = Some ns \/ dget (dnames b) v = Some ns) /\
    (forall e, d_in_range r e -> dval r e = vadd (dval a e) (dval b e)).
Proof.
  intros Ha Hb Hc Hn. unfold d_multiply. rewrite (d_assert_cards_ok a b Ha Hb Hc). cbn [bind].
  destruct (card2_shapes a b Ha Hb Hc) as [Sa Sb].
  destruct (tensor_operation_named (dtens a) (dtens b) (dvars a) (dvars b) vadd (card2 a b)
    (ws_vars a Ha) (ws_vars b Hb) Sa Sb) as (t & r & -> & Hr & Hir & Hs & _ & Hg).
  cbn [bind fst snd]. rewrite (check_names_ok a b Hn). cbn [bind].
  set (nm := fun v => if in_dec string_dec v (dvars b) then dname b v else dname a v).
  assert (Hu : forall v, In v r -> dget (dupdate (dnames a) (dnames b)) v = Some (nm v)).
  { intros v Hv. rewrite dget_dupdate by (rewrite (ws_keys b Hb); apply (ws_vars b Hb)). unfold nm.
    destruct (in_dec string_dec v (dvars b)) as [H|H].
    - now rewrite (dname_get b v Hb H).
    - assert (E : dget (dnames b) v = None) by (apply dget_None; now rewrite (ws_keys b Hb)). rewrite E.
      apply dname_get; [exact Ha|]. apply Hir in Hv. tauto. }
  unfold names_of. rewrite (mapM_ok _ nm).
  2: { intros v Hv. unfold dget_r. now rewrite (Hu v Hv). }
  cbn [bind].
  assert (Hlen : forall v, In v r -> length (dedup (nm v)) = card2 a b v).
  { intros v Hv. unfold nm. destruct (in_dec string_dec v (dvars b)) as [H|H].
    - rewrite dname_len by auto. symmetry. now apply card2_r.
    - apply Hir in Hv. rewrite dname_len by tauto. symmetry. apply card2_l. tauto. }
  rewrite (mk_dense_ok r t nm (card2 a b) Hr Hs Hlen).
  destruct (mkd_wf r t nm (card2 a b) Hr Hs Hlen) as (W & C & N & _).
  eexists. split; [reflexivity|]. split; [exact W|]. split; [exact Hir|]. split; [|split].
  - intros v c. rewrite C, Hir. now apply card2_has.
  - intros v ns. split.
    + intros H. assert (Hv : In v r) by (exact (names_var _ v _ W H)).
      rewrite (N v Hv) in H. injection H as <-. unfold nm.
      apply Hir in Hv. destruct (in_dec string_dec v (dvars b)) as [H|H]; [right|left]; apply dname_get; tauto.
    + intros H.
      assert (Hv : In v r).
      { apply Hir. rewrite <- (ws_keys a Ha), <- (ws_keys b Hb). destruct H as [H|H]; [left|right]; eapply dget_Some_key; eauto. }
      rewrite (N v Hv). f_equal. unfold nm. destruct (in_dec string_dec v (dvars b)) as [I|I].
      * destruct H as [H|H]; [|rewrite (dname_get b v Hb I) in H; congruence].
        symmetry. apply (Hn v); [exact H|]. now apply dname_get.
      * destruct H as [H|H].
        { unfold dname, dget_or. now rewrite H. }
        { exfalso. apply I. rewrite <- (ws_keys b Hb). eapply dget_Some_key; eauto. }
  - intros e He. unfold dval. cbn [mkd dvars dtens]. apply Hg. intros v Hv. apply He. apply C. auto.
Qed.
Lemma pot_vadd x y : is_lp x -> is_lp y -> pot (vadd x y) = (pot x * pot y)%R /\ is_lp (vadd x y).
Proof.
  destruct x as [|a| |], y as [|b| |]; cbn; intros; try tauto; split; auto; try ring. apply exp_plus.
Qed.
Lemma d_multiply_spec a b : wf_dense a -> wf_dense b -> d_cards_agree a b -> names_agree a b ->
  exists r, d_multiply a b = Ok r /\ wf_dense r /\
    (forall v, In v (dvars r) <-> In v (dvars a) \/ In v (dvars b)) /\
    (forall v c, d_has_card r v c <-> d_has_card a v c \/ d_has_card b v c) /\
    (forall v ns, dget (dnames r) v = Some ns <-> dget (dnames a) v = Some ns \/ dget (dnames b) v = Some ns) /\
    (forall e, d_in_range r e -> dval r e = vadd (dval a e) (dval b e) /\ dpot r e = (dpot a e * dpot b e)%R).
Proof.
  intros Ha Hb Hc Hn. destruct (multiply_raw a b Ha Hb Hc Hn) as (r & H1 & H2 & H3 & H4 & H5 & H6).
  assert (Hra : forall e, d_in_range r e -> d_in_range a e) by (intros e He v c H; apply He, H4; auto).
  assert (Hrb : forall e, d_in_range r e -> d_in_range b e) by (intros e He v c H; apply He, H4; auto).
  exists r. split; [exact H1|]. split; [split; [exact H2|]|].
  - intros e He. rewrite (H6 e He). apply pot_vadd; [apply (wd_vals a Ha)|apply (wd_vals b Hb)]; auto.
  - repeat (split; [assumption|]). intros e He. split; [auto|]. unfold dpot. rewrite (H6 e He).
    apply pot_vadd; [apply (wd_vals a Ha)|apply (wd_vals b Hb)]; auto.
Qed.
Lemma d_multiply_bad_cards a b : wf_shape a -> wf_shape b -> ~ d_cards_agree a b ->
  d_multiply a b = Err AssertionError /\ d_divide a b = Err AssertionError.
Proof. intros Ha Hb Hc. unfold d_multiply, d_divide. rewrite (d_assert_cards_err a b Ha Hb Hc). auto. Qed.
Lemma d_multiply_bad_names a b : wf_shape a -> wf_shape b -> d_cards_agree a b -> ~ names_agree a b ->
  d_multiply a b = Err InconsistentAssignmentNamesError /\
  d_divide a b = Err InconsistentAssignmentNamesError.
Proof.
  intros Ha Hb Hc Hn. unfold d_multiply, d_divide. rewrite (d_assert_cards_ok a b Ha Hb Hc). cbn [bind].
  destruct (card2_shapes a b Ha Hb Hc) as [Sa Sb].
  destruct (tensor_operation_named (dtens a) (dtens b) (dvars a) (dvars b) vadd (card2 a b)
    (ws_vars a Ha) (ws_vars b Hb) Sa Sb) as (t & r & -> & _).
  destruct (tensor_operation_named (dtens a) (dtens b) (dvars a) (dvars b) vsub (card2 a b)
    (ws_vars a Ha) (ws_vars b Hb) Sa Sb) as (t' & r' & -> & _).
  cbn [bind]. rewrite (check_names_err a b Hn). auto.
Qed.

(** The part shared by divide and cancel: [tb] is a tensor with the shape of [b]'s. *)
Lemma sub_raw a b tb : wf_shape a -> wf_shape b -> d_cards_agree a b -> names_agree a b ->
  tshape tb = tshape (dtens b) -> incl (dvars b) (dvars a) ->
  exists t r x, tensor_operation (dtens a) tb (dvars a) (dvars b) vsub = Ok (t, r) /\
    (let* ns := names_of (dnames a) r in mk_dense r None t (Some ns)) = Ok x /\ wf_shape x /\
    (forall v, In v (dvars x) <-> In v (dvars a)) /\
    (forall v c, d_has_card x v c <-> d_has_card a v c) /\
    (forall v ns, dget (dnames x) v = Some ns <-> dget (dnames a) v = Some ns) /\
    (forall e, d_in_range a e -> dval x e = vsub (dval a e) (tget tb (map e (dvars b)))).
Proof.
  intros Ha Hb Hc Hn Ht Hi. destruct (card2_shapes a b Ha Hb Hc) as [Sa Sb]. rewrite <- Ht in Sb.
  destruct (tensor_operation_named (dtens a) tb (dvars a) (dvars b) vsub (card2 a b)
    (ws_vars a Ha) (ws_vars b Hb) Sa Sb) as (t & r & -> & Hr & Hir & Hs & _ & Hg).
  assert (Hir' : forall v, In v r <-> In v (dvars a)).
  { intros v. rewrite Hir. split; [intros [H|H]; auto|auto]. }
  assert (Hlen : forall v, In v r -> length (dedup (dname a v)) = card2 a b v).
  { intros v Hv. apply Hir' in Hv. rewrite dname_len by auto. symmetry. now apply card2_l. }
  destruct (mkd_wf r t _ (card2 a b) Hr Hs Hlen) as (W & C & N & _).
  assert (C' : forall v c, d_has_card (mkd r t (dname a)) v c <-> d_has_card a v c).
  { intros v c. rewrite C, Hir', d_has_card_iff by auto. split; intros [H1 ->]; split; auto; [|symmetry]; now apply card2_l. }
  exists t, r, (mkd r t (dname a)). split; [reflexivity|]. split.
  { rewrite (names_of_ok a r Ha) by (intros v Hv; now apply Hir'). cbn [bind].
    apply (mk_dense_ok r t _ (card2 a b) Hr Hs Hlen). }
  split; [exact W|]. split; [exact Hir'|].
  split; [exact C'|]. split.
  - intros v ns. split; intros H.
    + assert (Hv : In v r) by (exact (names_var _ v _ W H)).
      rewrite (N v Hv) in H. injection H as <-. apply dname_get; auto. now apply Hir'.
    + assert (Hv : In v r) by (apply Hir'; rewrite <- (ws_keys a Ha); eapply dget_Some_key; eauto).
      rewrite (N v Hv). unfold dname, dget_or. now rewrite H.
  - intros e He. unfold dval. cbn [mkd dvars dtens]. apply Hg. intros v Hv. apply He. apply C'. apply C. auto.
Qed.
Lemma d_divide_spec a b : wf_shape a -> wf_shape b -> d_cards_agree a b -> names_agree a b ->
  incl (dvars b) (dvars a) ->
  exists r, d_divide a b = Ok r /\ wf_shape r /\
    (forall v, In v (dvars r) <-> In v (dvars a)) /\
    (forall v c, d_has_card r v c <-> d_has_card a v c) /\
    (forall v ns, dget (dnames r) v = Some ns <-> dget (dnames a) v = Some ns) /\
    (forall e, d_in_range a e -> dval r e = vsub (dval a e) (dval b e)).
Proof.
  intros Ha Hb Hc Hn Hi. unfold d_divide. rewrite (d_assert_cards_ok a b Ha Hb Hc). cbn [bind].
  destruct (sub_raw a b (dtens b) Ha Hb Hc Hn eq_refl Hi) as (t & r & x & -> & H1 & H2 & H3 & H4 & H5 & H6).
  cbn [bind fst snd]. rewrite (check_names_ok a b Hn). cbn [bind]. exists x. auto 10.
Qed.
Lemma pot_vsub x y : is_lp x -> is_lp y -> pot y <> 0%R -> pot (vsub x y) = (pot x / pot y)%R /\ is_lp (vsub x y).
Proof.
  destruct x as [|a| |], y as [|b| |]; cbn; intros H1 H2 H3; try tauto; try (exfalso; lra); split; auto.
  - unfold Rdiv. ring.
  - unfold Rdiv. rewrite <- exp_Ropp, <- exp_plus. reflexivity.
Qed.
Lemma d_divide_pot a b : wf_dense a -> wf_dense b -> d_cards_agree a b -> names_agree a b ->
  incl (dvars b) (dvars a) ->
  exists r, d_divide a b = Ok r /\ wf_shape r /\
    (forall v c, d_has_card r v c <-> d_has_card a v c) /\
    (forall v ns, dget (dnames r) v = Some ns <-> dget (dnames a) v = Some ns) /\
    (forall e, d_in_range a e -> dval r e = vsub (dval a e) (dval b e)) /\
    (forall e, d_in_range a e -> dpot b e <> 0%R -> dpot r e = (dpot a e / dpot b e)%R).
Proof.
  intros Ha Hb Hc Hn Hi. destruct (d_divide_spec a b Ha Hb Hc Hn Hi) as (r & H1 & H2 & H3 & H4 & H5 & H6).
  exists r. repeat (split; [assumption|]). intros e He Hz. unfold dpot. rewrite (H6 e He).
  apply pot_vsub; auto; [apply (wd_vals a Ha); auto|]. apply (wd_vals b Hb). intros v c H.
  apply He. apply d_has_card_iff; auto. apply d_has_card_iff in H; auto. destruct H as [H ->].
  split; [auto|]. symmetry. apply (Hc v); apply d_has_card_of; auto.
Qed.
(** The divisor has a variable the dividend lacks: KeyError. *)
Lemma d_divide_extra a b : wf_shape a -> wf_shape b -> d_cards_agree a b -> names_agree a b ->
  ~ incl (dvars b) (dvars a) -> d_divide a b = Err KeyError.
Proof.
  intros Ha Hb Hc Hn Hi. unfold d_divide. rewrite (d_assert_cards_ok a b Ha Hb Hc). cbn [bind].
  destruct (card2_shapes a b Ha Hb Hc) as [Sa Sb].
  destruct (tensor_operation_named (dtens a) (dtens b) (dvars a) (dvars b) vsub (card2 a b)
    (ws_vars a Ha) (ws_vars b Hb) Sa Sb) as (t & r & -> & Hr & Hir & _).
  cbn [bind fst snd]. rewrite (check_names_ok a b Hn). cbn [bind].
  assert (X : exists v, In v r /\ ~ In v (dvars a)).
  { destruct (forallb (fun v => mem v (dvars a)) (dvars b)) eqn:E.
    - exfalso. apply Hi. intros v Hv. rewrite forallb_forall in E. apply mem_In. auto.
    - assert (Y : exists v, In v (dvars b) /\ mem v (dvars a) = false).
      { clear - E. induction (dvars b) as [|x l IH]; [discriminate|]. cbn [forallb] in E.
        apply andb_false_iff in E. destruct E as [E|E]; [exists x; split; [left; reflexivity|exact E]|].
        destruct (IH E) as (y & H1 & H2). exists y. split; [right; exact H1|exact H2]. }
      destruct Y as (v & H1 & H2). exists v. split; [apply Hir; auto|]. now apply mem_nIn. }
  destruct X as (v & Hv & Hna). unfold names_of.
  assert (Hna' : ~ In v (dkeys (dnames a))) by now rewrite (ws_keys a Ha).
  apply dget_None in Hna'. clear - Hv Hna'.
  assert (G : mapM (dget_r (dnames a)) r = Err KeyError); [|now rewrite G].
  induction r as [|x l IH]; [destruct Hv|]. cbn [mapM]. unfold dget_r at 1.
  destruct (dget (dnames a) x) as [y|] eqn:E; [|reflexivity]. cbn [bind].
  destruct Hv as [->|Hv]; [congruence|]. rewrite (IH Hv). reflexivity.
Qed.

(** ** reorder *)
Lemma d_reorder_spec f order : wf_shape f -> Permutation (dvars f) order ->
  exists r, d_reorder f order = Ok r /\ wf_shape r /\ dvars r = order /\
    (forall v c, d_has_card r v c <-> d_has_card f v c) /\
    (forall v ns, dget (dnames r) v = Some ns <-> dget (dnames f) v = Some ns) /\
    (forall e, dval r e = dval f e).
Proof.
  intros Hw HP. unfold d_reorder.
  assert (Hno : NoDup order) by (eapply Permutation_NoDup; [exact HP|apply (ws_vars f Hw)]).
  assert (Hin : forall v, In v order <-> In v (dvars f)).
  { intros v. split; apply Permutation_in; auto using Permutation_sym. }
  assert (Hfin : forall t, tshape t = map (d_card_of f) order ->
     (forall e, tget t (map e order) = tget (dtens f) (map e (dvars f))) ->
     mk_dense order None t (Some (map (dname f) order)) = Ok (mkd order t (dname f)) /\
     wf_shape (mkd order t (dname f)) /\
    (forall v c, d_has_card (mkd order t (dname f)) v c <-> d_has_card f v c) /\
    (forall v ns, dget (dnames (mkd order t (dname f))) v = Some ns <-> dget (dnames f) v = Some ns) /\
    (forall e, dval (mkd order t (dname f)) e = dval f e)).
  { intros t Hs Hg.
    assert (Hlen : forall v, In v order -> length (dedup (dname f v)) = d_card_of f v).
    { intros v Hv. apply dname_len; auto. now apply Hin. }
    split; [now apply (mk_dense_ok order t _ (d_card_of f))|].
    destruct (mkd_wf order t _ (d_card_of f) Hno Hs Hlen) as (W & C & N & _).
    split; [exact W|]. split; [|split].
    - intros v c. rewrite C, d_has_card_iff, Hin by auto. tauto.
    - intros v ns. split; intros H.
      + assert (Hv : In v order) by (exact (names_var _ v _ W H)).
        rewrite (N v Hv) in H. injection H as <-. apply dname_get; auto. now apply Hin.
      + assert (Hv : In v order) by (apply Hin; rewrite <- (ws_keys f Hw); eapply dget_Some_key; eauto).
        rewrite (N v Hv). unfold dname, dget_or. now rewrite H.
    - intros e. apply Hg. }
  destruct (eqb order (dvars f)) eqn:E.
  - apply eqb_true in E. subst order. rewrite (d_copy_ok f Hw).
    destruct (Hfin (dtens f) (d_shape f Hw)) as (_ & W & C & N & G); [reflexivity|].
    eexists. split; [reflexivity|]. auto 10.
  - assert (Hs : seteqb order (dvars f) = true).
    { apply seteqb_iff. intros v. apply Hin. }
    rewrite Hs. cbn [negb raise_if bind]. rewrite mapM_py_index by (intros v Hv; now apply Hin). cbn [bind].
    destruct (transpose_named (dtens f) (dvars f) order (d_card_of f) (ws_vars f Hw) HP (d_shape f Hw)) as (t & -> & S & G).
    cbn [bind]. rewrite (names_of_ok f order Hw) by (intros v Hv; now apply Hin). cbn [bind].
    destruct (Hfin t S G) as (-> & W & C & N & V). eexists. split; [reflexivity|]. auto 10.
Qed.
Lemma d_reorder_err f order : wf_shape f -> ~ (forall v, In v order <-> In v (dvars f)) ->
  d_reorder f order = Err ValueError.
Proof.
  intros Hw H. unfold d_reorder. destruct (eqb order (dvars f)) eqn:E.
  - apply eqb_true in E. subst. exfalso. apply H. reflexivity.
  - destruct (seteqb order (dvars f)) eqn:E'; [|reflexivity]. exfalso. apply H. now apply seteqb_iff.
Qed.

(** ** indexing by an observation dictionary *)
Lemma norm_index_in n i : i < n -> norm_index n (Z.of_nat i) = Ok i.
Proof.
  intros H. unfold norm_index. destruct (Z.ltb_spec (Z.of_nat i) 0); [lia|].
  destruct (Z.leb_spec 0 (Z.of_nat i)); [|lia]. destruct (Z.ltb_spec (Z.of_nat i) (Z.of_nat n)); [|lia].
  cbn [andb]. now rewrite Nat2Z.id.
Qed.
Lemma norm_index_neg n i : 0 < i <= n -> norm_index n (- Z.of_nat i) = Ok (n - i).
Proof.
  intros H. unfold norm_index. destruct (Z.ltb_spec (- Z.of_nat i) 0); [|lia].
  destruct (Z.leb_spec 0 (- Z.of_nat i + Z.of_nat n)); [|lia].
  destruct (Z.ltb_spec (- Z.of_nat i + Z.of_nat n) (Z.of_nat n)); [|lia]. cbn [andb]. f_equal. lia.
Qed.
Lemma norm_index_bad n z : (z >= Z.of_nat n \/ z < - Z.of_nat n)%Z -> norm_index n z = Err IndexError.
Proof.
  intros H. unfold norm_index. destruct (Z.ltb_spec z 0).
  - destruct (Z.leb_spec 0 (z + Z.of_nat n)); [lia|]. reflexivity.
  - destruct (Z.ltb_spec z (Z.of_nat n)); [lia|]. now rewrite andb_false_r.
Qed.

(** [obs] observes every variable with value [obs v] in range. *)
Lemma tindex_named {A} (t : tensor A) vs (card : string -> nat) (obs : string -> option Z) (obsn : string -> option nat) :
  tshape t = map card vs ->
  (forall v, In v vs -> match obs v with Some z => exists i, norm_index (card v) z = Ok i /\ obsn v = Some i | None => obsn v = None end) ->
  exists t', tindex t (map obs vs) = Ok t' /\
    tshape t' = map card (filter (fun v => match obs v with Some _ => false | None => true end) vs) /\
    forall e, (forall v i, In v vs -> obsn v = Some i -> e v = i) ->
      tget t' (map e (filter (fun v => match obs v with Some _ => false | None => true end) vs)) = tget t (map e vs).
Proof.
  intros Hs Ho. unfold tindex. rewrite Hs.
  assert (Hn : norm_indices (map card vs) (map obs vs) = Ok (map obsn vs)).
  { clear Hs. induction vs as [|v vs IH]; [reflexivity|]. cbn [map norm_indices].
    specialize (IH (fun w Hw => Ho w (or_intror Hw))). specialize (Ho v (or_introl eq_refl)).
    destruct (obs v) as [z|].
    - destruct Ho as (i & -> & ->). cbn [bind]. rewrite IH. reflexivity.
    - rewrite IH, Ho. reflexivity. }
  rewrite Hn. cbn [bind]. eexists. split; [reflexivity|]. cbn [tshape tget]. split.
  - clear Hs Hn. induction vs as [|v vs IH]; [reflexivity|]. cbn [map kept_shape filter].
    specialize (IH (fun w Hw => Ho w (or_intror Hw))). specialize (Ho v (or_introl eq_refl)).
    destruct (obs v) as [z|].
    + destruct Ho as (i & _ & ->). exact IH.
    + rewrite Ho. cbn [map]. now f_equal.
  - intros e He. f_equal. clear Hs Hn. induction vs as [|v vs IH]; [reflexivity|]. cbn [map fill_index filter].
    specialize (IH (fun w Hw => Ho w (or_intror Hw)) (fun w i Hw => He w i (or_intror Hw))).
    specialize (Ho v (or_introl eq_refl)). specialize (He v).
    destruct (obs v) as [z|].
    + destruct Ho as (i & _ & Hi). rewrite Hi. f_equal; [symmetry; apply He; auto; now left|exact IH].
    + rewrite Ho. cbn [map]. now f_equal.
Qed.
Lemma tindex_err {A} (t : tensor A) vs (card : string -> nat) (obs : string -> option Z) v z :
  tshape t = map card vs -> In v vs -> obs v = Some z -> norm_index (card v) z = Err IndexError ->
  tindex t (map obs vs) = Err IndexError.
Proof.
  intros Hs Hv Ho Hi. unfold tindex. rewrite Hs. clear Hs.
  assert (G : norm_indices (map card vs) (map obs vs) = Err IndexError); [|now rewrite G].
  induction vs as [|w vs IH]; [destruct Hv|]. cbn [map norm_indices].
  destruct (string_dec w v) as [->|N].
  - rewrite Ho, Hi. reflexivity.
  - destruct Hv as [->|Hv]; [congruence|]. specialize (IH Hv). destruct (obs w) as [y|].
    + unfold norm_index. destruct (_ && _)%bool; cbn [bind]; [|reflexivity]. rewrite IH. reflexivity.
    + rewrite IH. reflexivity.
Qed.

Definition zip_obs (vrs : list string) (values : list Z) (v : string) : option Z := dget (dict_of (combine vrs values)) v.
Lemma zip_obs_spec vrs values v : NoDup vrs -> length values = length vrs ->
  (In v vrs -> exists z, zip_obs vrs values v = Some z /\ In (v, z) (combine vrs values)) /\
  (~ In v vrs -> zip_obs vrs values v = None) /\
  (forall z, In (v, z) (combine vrs values) -> zip_obs vrs values v = Some z).
Proof.
  intros Hn Hl. unfold zip_obs.
  assert (Hk : dkeys (combine vrs values) = vrs) by now apply dkeys_combine.
  rewrite dict_of_NoDup by now rewrite Hk. split; [|split].
  - intros Hv. rewrite <- Hk in Hv. destruct (In_dkeys_dget _ _ Hv) as (z & Hz). exists z. split; [exact Hz|]. now apply dget_In.
  - intros Hv. apply dget_None. now rewrite Hk.
  - intros z Hz. apply In_dget; [now rewrite Hk|exact Hz].
Qed.

(** C17: observed values, negative ones counted from the end. *)
Lemma d_reduce_raw f vrs values (obsn : string -> nat) : wf_shape f -> NoDup vrs -> length values = length vrs ->
  (forall v z, In (v, z) (combine vrs values) -> In v (dvars f) -> norm_index (d_card_of f v) z = Ok (obsn v)) ->
  exists r, d_reduce f vrs values = Ok r /\ wf_shape r /\
    dvars r = filter (fun v => negb (mem v vrs)) (dvars f) /\
    (forall v c, d_has_card r v c <-> d_has_card f v c /\ ~ In v vrs) /\
    (forall v ns, dget (dnames r) v = Some ns <-> dget (dnames f) v = Some ns /\ ~ In v vrs) /\
    (forall e, (forall v, In v vrs -> In v (dvars f) -> e v = obsn v) -> dval r e = dval f e).
Proof.
  intros Hw Hn Hl Ho. unfold d_reduce.
  change (map (dget (dict_of (combine vrs values))) (dvars f)) with (map (zip_obs vrs values) (dvars f)).
  destruct (tindex_named (dtens f) (dvars f) (d_card_of f) (zip_obs vrs values)
     (fun v => if mem v vrs then Some (obsn v) else None) (d_shape f Hw)) as (t & -> & S & G).
  { intros v Hv. destruct (zip_obs_spec vrs values v Hn Hl) as (Z1 & Z2 & Z3).
    destruct (mem v vrs) eqn:E.
    - apply mem_In in E. destruct (Z1 E) as (z & -> & Hz). exists (obsn v). split; [now apply Ho|reflexivity].
    - apply mem_nIn in E. now rewrite (Z2 E). }
  cbn [bind].
  assert (Hf : filter (fun v => match zip_obs vrs values v with Some _ => false | None => true end) (dvars f) =
               filter (fun v => negb (mem v vrs)) (dvars f)).
  { apply filter_ext. intros v. destruct (zip_obs_spec vrs values v Hn Hl) as (Z1 & Z2 & _).
    destruct (mem v vrs) eqn:E; cbn [negb].
    - apply mem_In in E. destruct (Z1 E) as (z & -> & _). reflexivity.
    - apply mem_nIn in E. now rewrite (Z2 E). }
  rewrite Hf in S, G. set (un := filter (fun v => negb (mem v vrs)) (dvars f)) in *.
  assert (Hun : forall v, In v un <-> In v (dvars f) /\ ~ In v vrs).
  { intros v. unfold un. now rewrite filter_In, negb_true_iff, mem_nIn. }
  rewrite (names_of_ok f un Hw) by (intros v Hv; apply Hun in Hv; tauto). cbn [bind].
  assert (Hnu : NoDup un) by (apply NoDup_filter, (ws_vars f Hw)).
  assert (Hlen : forall v, In v un -> length (dedup (dname f v)) = d_card_of f v).
  { intros v Hv. apply dname_len; auto. apply Hun in Hv. tauto. }
  rewrite (mk_dense_ok un t _ (d_card_of f) Hnu S Hlen).
  destruct (mkd_wf un t _ (d_card_of f) Hnu S Hlen) as (W & C & N & _).
  eexists. split; [reflexivity|]. split; [exact W|]. split; [reflexivity|]. split; [|split].
  - intros v c. rewrite C, d_has_card_iff, Hun by auto. tauto.
  - intros v ns. split; intros H.
    + assert (Hv : In v un) by (exact (names_var _ v _ W H)).
      rewrite (N v Hv) in H. injection H as <-. apply Hun in Hv. split; [|tauto]. apply dname_get; tauto.
    + destruct H as [H Hnv]. assert (Hv : In v un) by (apply Hun; split; [rewrite <- (ws_keys f Hw); eapply dget_Some_key; eauto|exact Hnv]).
      rewrite (N v Hv). unfold dname, dget_or. now rewrite H.
  - intros e He. unfold dval. cbn [mkd dvars dtens]. apply G. intros v i Hv Hi. destruct (mem v vrs) eqn:E; [|discriminate].
    injection Hi as <-. apply mem_In in E. auto.
Qed.
Lemma d_reduce_spec f vrs values : wf_dense f -> NoDup vrs -> length values = length vrs ->
  (forall v z c, In (v, z) (combine vrs values) -> d_has_card f v c -> (0 <= z < Z.of_nat c)%Z) ->
  exists r, d_reduce f vrs values = Ok r /\ wf_dense r /\
    dvars r = filter (fun v => negb (mem v vrs)) (dvars f) /\
    (forall v c, d_has_card r v c <-> d_has_card f v c /\ ~ In v vrs) /\
    (forall v ns, dget (dnames r) v = Some ns <-> dget (dnames f) v = Some ns /\ ~ In v vrs) /\
    (forall e, (forall v z, In (v, z) (combine vrs values) -> In v (dvars f) -> Z.of_nat (e v) = z) ->
       dval r e = dval f e).
Proof.
  intros Hw Hn Hl Hr.
  set (obsn := fun v => match zip_obs vrs values v with Some z => Z.to_nat z | None => 0 end).
  assert (Hz : forall v z, In (v, z) (combine vrs values) -> zip_obs vrs values v = Some z).
  { intros v z. apply zip_obs_spec; auto. }
  assert (Hob : forall v z, In (v, z) (combine vrs values) -> In v (dvars f) ->
     norm_index (d_card_of f v) z = Ok (obsn v) /\ z = Z.of_nat (obsn v) /\ obsn v < d_card_of f v).
  { intros v z H Hv. specialize (Hr v z _ H (d_has_card_of f v Hw Hv)).
    unfold obsn. rewrite (Hz v z H). rewrite <- (Z2Nat.id z) at 1 by lia. split; [apply norm_index_in; lia|].
    split; lia. }
  destruct (d_reduce_raw f vrs values obsn Hw Hn Hl) as (r & H1 & H2 & H3 & H4 & H5 & H6).
  { intros v z H Hv. now apply Hob. }
  exists r. split; [exact H1|]. split; [split; [exact H2|]|].
  - intros e He.
    set (e' := fun v => if mem v vrs then obsn v else e v).
    assert (Hee : dval r e = dval r e').
    { unfold dval. f_equal. apply map_ext_in. intros v Hv. unfold e'. rewrite H3 in Hv. apply filter_In in Hv.
      destruct Hv as [_ Hv]. apply negb_true_iff in Hv. now rewrite Hv. }
    rewrite Hee, H6.
    2: { intros v Hv _. unfold e'. now rewrite (proj2 (mem_In v vrs) Hv). }
    apply (wd_vals f Hw). intros v c Hvc. unfold e'. destruct (mem v vrs) eqn:E.
    + apply mem_In in E. destruct (proj1 (zip_obs_spec vrs values v Hn Hl) E) as (z & _ & Hzc).
      apply d_has_card_iff in Hvc; auto. destruct Hvc as [Hv ->]. now apply Hob with z.
    + apply He. apply H4. split; [exact Hvc|]. now apply mem_nIn.
  - repeat (split; [assumption|]). intros e He. apply H6. intros v Hv Hvf.
    destruct (proj1 (zip_obs_spec vrs values v Hn Hl) Hv) as (z & _ & Hzc).
    destruct (Hob v z Hzc Hvf) as (_ & E & _). specialize (He v z Hzc Hvf). lia.
Qed.
Lemma d_reduce_out_of_range f vrs values v z c : wf_shape f -> NoDup vrs -> length values = length vrs ->
  In (v, z) (combine vrs values) -> d_has_card f v c -> (z >= Z.of_nat c \/ z < - Z.of_nat c)%Z ->
  d_reduce f vrs values = Err IndexError.
Proof.
  intros Hw Hn Hl Hz Hc Hb. unfold d_reduce.
  change (map (dget (dict_of (combine vrs values))) (dvars f)) with (map (zip_obs vrs values) (dvars f)).
  apply d_has_card_iff in Hc; auto. destruct Hc as [Hv ->].
  rewrite (tindex_err (dtens f) (dvars f) (d_card_of f) _ v z (d_shape f Hw) Hv); [reflexivity| |].
  - now apply zip_obs_spec.
  - now apply norm_index_bad.
Qed.

(** C18 potential *)
Lemma d_potential_spec f vrs (e : env) : wf_dense f -> Permutation (dvars f) vrs -> d_in_range f e ->
  exists t, d_potential f vrs (map (fun v => Z.of_nat (e v)) vrs) = Ok t /\ tshape t = [] /\
    tget t [] = Fin (dpot f e).
Proof.
  intros Hw HP Hr. unfold d_potential.
  assert (Hn : NoDup vrs) by (eapply Permutation_NoDup; [exact HP|apply (ws_vars f Hw)]).
  assert (Hin : forall v, In v vrs <-> In v (dvars f)).
  { intros v. split; apply Permutation_in; auto using Permutation_sym. }
  assert (Hs : seteqb vrs (dvars f) = true) by (apply seteqb_iff; intros v; apply Hin).
  rewrite Hs. cbn [py_assert bind].
  set (values := map (fun v => Z.of_nat (e v)) vrs).
  change (map (dget (dict_of (combine vrs values))) (dvars f)) with (map (zip_obs vrs values) (dvars f)).
  assert (Hob : forall v, In v (dvars f) -> zip_obs vrs values v = Some (Z.of_nat (e v))).
  { intros v Hv. apply zip_obs_spec; [exact Hn|apply map_length|]. apply combine_map_In'. split; [now apply Hin|reflexivity]. }
  destruct (tindex_named (dtens f) (dvars f) (d_card_of f) (zip_obs vrs values)
     (fun v => if mem v (dvars f) then Some (e v) else None) (d_shape f Hw)) as (t & -> & S & G).
  { intros v Hv. rewrite (Hob v Hv), (proj2 (mem_In v (dvars f)) Hv). exists (e v). split; [|reflexivity].
    apply norm_index_in. apply Hr. apply d_has_card_of; auto. }
  assert (Hf : filter (fun v => match zip_obs vrs values v with Some _ => false | None => true end) (dvars f) = []).
  { clear - Hob. induction (dvars f) as [|v l IH]; [reflexivity|]. cbn [filter]. rewrite (Hob v) by (left; reflexivity).
    apply IH. intros w Hw. apply Hob. right; exact Hw. }
  rewrite Hf in S, G. cbn [map] in S, G. cbn [bind]. eexists. split; [reflexivity|]. cbn [tmap tshape tget].
  split; [exact S|]. rewrite (G e).
  - change (tget (dtens f) (map e (dvars f))) with (dval f e). pose proof (wd_vals f Hw e Hr). unfold dpot.
    destruct (dval f e); cbn in *; tauto.
  - intros v i Hv Hi. rewrite (proj2 (mem_In v (dvars f)) Hv) in Hi. congruence.
Qed.
Lemma d_potential_err f vrs a : ~ (forall v, In v vrs <-> In v (dvars f)) -> d_potential f vrs a = Err AssertionError.
Proof.
  intros H. unfold d_potential. destruct (seteqb vrs (dvars f)) eqn:E; [|reflexivity].
  exfalso. apply H. now apply seteqb_iff.
Qed.
