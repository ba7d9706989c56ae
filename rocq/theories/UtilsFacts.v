(** Proofs about the helpers of _factor_utils.py. *)
From Verif Require Export UtilsModel BaseFacts SumFacts.

(** * Names *)
Lemma new_vars_In va vb v : In v (new_vars va vb) <-> In v va \/ In v vb.
Proof.
  unfold new_vars. destruct (subsetb vb va) eqn:E1.
  - apply subsetb_incl in E1. split; [now left|]. intros [H|H]; auto.
  - destruct (subsetb va vb) eqn:E2.
    + apply subsetb_incl in E2. split; [now right|]. intros [H|H]; auto.
    + rewrite <- (Permutation_in' (eq_refl v) (ssort_perm _)), In_dedup, in_app_iff. tauto.
Qed.
Lemma new_vars_NoDup va vb : NoDup va -> NoDup vb -> NoDup (new_vars va vb).
Proof.
  intros Ha Hb. unfold new_vars. destruct (subsetb vb va); [exact Ha|]. destruct (subsetb va vb); [exact Hb|].
  eapply Permutation_NoDup; [apply ssort_perm|apply NoDup_dedup].
Qed.
Lemma new_vars_left va vb : incl vb va -> new_vars va vb = va.
Proof. intros H. unfold new_vars. apply subsetb_incl in H. now rewrite H. Qed.
Lemma new_vars_right va vb : ~ incl vb va -> incl va vb -> new_vars va vb = vb.
Proof.
  intros Hn H. unfold new_vars. destruct (subsetb vb va) eqn:E; [apply subsetb_incl in E; contradiction|].
  apply subsetb_incl in H. now rewrite H.
Qed.
Lemma sleb_total x y : String.leb x y = true \/ String.leb y x = true.
Proof. apply String.leb_total. Qed.
Definition sorted_names (l : list string) : Prop :=
  forall i j u v, i < j -> nth_error l i = Some u -> nth_error l j = Some v -> String.leb u v = true.
Lemma sleb_trans x y z : String.leb x y = true -> String.leb y z = true -> String.leb x z = true.
Proof.
  revert y z. induction x as [|a x IH]; intros y z Hxy Hyz; [destruct z; reflexivity|].
  destruct y as [|b y]; [discriminate|]. destruct z as [|c z]; [discriminate|].
  unfold String.leb in *. cbn [String.compare] in *.
  destruct (Ascii.compare a b) eqn:E1; [| |discriminate].
  - apply Ascii.compare_eq_iff in E1. subst b. destruct (Ascii.compare a c) eqn:E2; [|reflexivity|discriminate].
    exact (IH y z Hxy Hyz).
  - destruct (Ascii.compare b c) eqn:E2; [| |discriminate].
    + apply Ascii.compare_eq_iff in E2. subst c. now rewrite E1.
    + assert (E : Ascii.compare a c = Lt).
      { unfold Ascii.compare in *. apply N.compare_lt_iff in E1. apply N.compare_lt_iff in E2.
        apply N.compare_lt_iff. exact (N.lt_trans _ _ _ E1 E2). }
      now rewrite E.
Qed.
Lemma sinsert_sorted x l : sorted_names l -> sorted_names (sinsert x l).
Proof.
  induction l as [|y l IH]; intros Hs; cbn [sinsert].
  - intros i j u v Hij H1 H2. exfalso. destruct j; [lia|]. cbn in H2. destruct j; discriminate.
  - assert (Hl : sorted_names l).
    { intros i j u v Hij H1 H2. exact (Hs (S i) (S j) u v ltac:(lia) H1 H2). }
    assert (Hy : forall v, In v l -> String.leb y v = true).
    { intros v Hv. apply In_nth_error in Hv. destruct Hv as [k Hk]. exact (Hs 0 (S k) y v ltac:(lia) eq_refl Hk). }
    destruct (String.leb x y) eqn:E.
    + intros [|i] [|j] u v Hij H1 H2; try lia.
      * cbn in H1, H2. injection H1 as <-. destruct j as [|j]; cbn in H2.
        -- injection H2 as <-. exact E.
        -- apply sleb_trans with y; [exact E|]. apply Hy. eapply nth_error_In; exact H2.
      * cbn in H1, H2. exact (Hs i j u v ltac:(lia) H1 H2).
    + assert (E' : String.leb y x = true) by (destruct (sleb_total x y); congruence).
      intros [|i] [|j] u v Hij H1 H2; try lia.
      * cbn in H1, H2. injection H1 as <-. apply nth_error_In in H2.
        apply (Permutation_in _ (Permutation_sym (sinsert_perm x l))) in H2. destruct H2 as [<-|H2]; [exact E'|now apply Hy].
      * cbn in H1, H2. exact (IH Hl i j u v ltac:(lia) H1 H2).
Qed.
Lemma ssort_sorted l : sorted_names (ssort l).
Proof.
  unfold ssort. induction l as [|x l IH]; cbn [fold_right]; [|now apply sinsert_sorted].
  intros i j u v _ H. destruct i; discriminate.
Qed.
Lemma new_vars_sorted va vb : ~ incl vb va -> ~ incl va vb -> sorted_names (new_vars va vb).
Proof.
  intros H1 H2. unfold new_vars. destruct (subsetb vb va) eqn:E; [apply subsetb_incl in E; contradiction|].
  destruct (subsetb va vb) eqn:E'; [apply subsetb_incl in E'; contradiction|]. apply ssort_sorted.
Qed.

(** * Indexed operations *)
Lemma named_entry_at A vs i j u v : NoDup vs -> nth_error vs i = Some u -> nth_error vs j = Some v ->
  named_entry A vs u v = ent A i j.
Proof.
  intros Hd Hi Hj. unfold named_entry.
  rewrite (index_opt_nth_NoDup u vs i Hd Hi), (index_opt_nth_NoDup v vs j Hd Hj). reflexivity.
Qed.
Lemma index_opt_None {A} {E : EqDec A} (x : A) l : ~ In x l -> index_opt x l = None.
Proof.
  intros H. destruct (index_opt x l) as [i|] eqn:Ei; [|reflexivity].
  exfalso. apply H. apply index_opt_nth in Ei. eapply nth_error_In. exact Ei.
Qed.
Lemma named_entry_out A vs u v : ~ In u vs \/ ~ In v vs -> named_entry A vs u v = 0%R.
Proof.
  unfold named_entry. intros [H|H].
  - now rewrite (index_opt_None u vs H).
  - rewrite (index_opt_None v vs H). destruct (index_opt u vs); reflexivity.
Qed.
Lemma named_coord_at A vs i u : NoDup vs -> nth_error vs i = Some u -> named_coord A vs u = ent A i 0.
Proof. intros Hd Hi. unfold named_coord. now rewrite (index_opt_nth_NoDup u vs i Hd Hi). Qed.
Lemma named_coord_out A vs u : ~ In u vs -> named_coord A vs u = 0%R.
Proof. intros H. unfold named_coord. now rewrite (index_opt_None u vs H). Qed.

(** Independent reading: the entry of a matrix whose rows and columns are labelled by names. *)
Definition labelled (A : mat) (vs : list string) (u v : string) (x : R) : Prop :=
  (exists i j, nth_error vs i = Some u /\ nth_error vs j = Some v /\ x = ent A i j) \/
  ((~ In u vs \/ ~ In v vs) /\ x = 0%R).
Definition labelled1 (A : mat) (vs : list string) (u : string) (x : R) : Prop :=
  (exists i, nth_error vs i = Some u /\ x = ent A i 0) \/ (~ In u vs /\ x = 0%R).
Lemma labelled_named A vs u v x : NoDup vs -> labelled A vs u v x -> x = named_entry A vs u v.
Proof.
  intros Hd [(i & j & Hi & Hj & ->)|[H ->]].
  - symmetry. now apply named_entry_at.
  - symmetry. now apply named_entry_out.
Qed.
Lemma labelled1_named A vs u x : NoDup vs -> labelled1 A vs u x -> x = named_coord A vs u.
Proof.
  intros Hd [(i & Hi & ->)|[H ->]].
  - symmetry. now apply named_coord_at.
  - symmetry. now apply named_coord_out.
Qed.
Lemma nth_of_error {A} (l : list A) i x d : nth_error l i = Some x -> nth i l d = x.
Proof. intros H. now apply nth_error_nth. Qed.

Lemma ix_square_ok A B va vb op : nr A = length va -> nc A = length va -> nr B = length vb -> nc B = length vb ->
  indexed_square_matrix_operation A B va vb op =
  Ok (Mat (length (new_vars va vb)) (length (new_vars va vb))
        (fun i j => op (named_entry A va (nth i (new_vars va vb) ""%string) (nth j (new_vars va vb) ""%string))
                       (named_entry B vb (nth i (new_vars va vb) ""%string) (nth j (new_vars va vb) ""%string))),
      new_vars va vb).
Proof.
  intros H1 H2 H3 H4. unfold indexed_square_matrix_operation. rewrite H1, H2, H3, H4.
  unfold py_assert. now rewrite !Nat.eqb_refl.
Qed.
Lemma ix_column_ok A B va vb op : nr A = length va -> nc A = 1 -> nr B = length vb -> nc B = 1 ->
  indexed_column_vector_operation A B va vb op =
  Ok (Mat (length (new_vars va vb)) 1
        (fun i _ => op (named_coord A va (nth i (new_vars va vb) ""%string))
                       (named_coord B vb (nth i (new_vars va vb) ""%string))),
      new_vars va vb).
Proof.
  intros H1 H2 H3 H4. unfold indexed_column_vector_operation. rewrite H1, H2, H3, H4.
  unfold py_assert. now rewrite !Nat.eqb_refl.
Qed.

Lemma ix_square_spec A B va vb op : NoDup va -> NoDup vb ->
  nr A = length va -> nc A = length va -> nr B = length vb -> nc B = length vb ->
  exists r nv, indexed_square_matrix_operation A B va vb op = Ok (r, nv) /\
    nr r = length nv /\ nc r = length nv /\ NoDup nv /\ (forall v, In v nv <-> In v va \/ In v vb) /\
    (forall i j u v x y, nth_error nv i = Some u -> nth_error nv j = Some v ->
       labelled A va u v x -> labelled B vb u v y -> ent r i j = op x y).
Proof.
  intros Ha Hb H1 H2 H3 H4. rewrite (ix_square_ok A B va vb op H1 H2 H3 H4).
  eexists; eexists; split; [reflexivity|]. cbn [nr nc ent].
  repeat split; try reflexivity.
  - now apply new_vars_NoDup.
  - apply new_vars_In.
  - apply new_vars_In.
  - intros i j u v x y Hi Hj Hx Hy. rewrite (nth_of_error _ _ _ _ Hi), (nth_of_error _ _ _ _ Hj).
    now rewrite (labelled_named A va u v x Ha Hx), (labelled_named B vb u v y Hb Hy).
Qed.
Lemma ix_column_spec A B va vb op : NoDup va -> NoDup vb ->
  nr A = length va -> nc A = 1 -> nr B = length vb -> nc B = 1 ->
  exists r nv, indexed_column_vector_operation A B va vb op = Ok (r, nv) /\
    nr r = length nv /\ nc r = 1 /\ NoDup nv /\ (forall v, In v nv <-> In v va \/ In v vb) /\
    (forall i u x y, nth_error nv i = Some u ->
       labelled1 A va u x -> labelled1 B vb u y -> ent r i 0 = op x y).
Proof.
  intros Ha Hb H1 H2 H3 H4. rewrite (ix_column_ok A B va vb op H1 H2 H3 H4).
  eexists; eexists; split; [reflexivity|]. cbn [nr nc ent].
  repeat split; try reflexivity.
  - now apply new_vars_NoDup.
  - apply new_vars_In.
  - apply new_vars_In.
  - intros i u x y Hi Hx Hy. rewrite (nth_of_error _ _ _ _ Hi).
    now rewrite (labelled1_named A va u x Ha Hx), (labelled1_named B vb u y Hb Hy).
Qed.
Lemma ix_order A B va vb op r nv : indexed_square_matrix_operation A B va vb op = Ok (r, nv) ->
  (incl vb va -> nv = va) /\ (~ incl vb va -> incl va vb -> nv = vb) /\
  (~ incl vb va -> ~ incl va vb -> sorted_names nv).
Proof.
  intros H. unfold indexed_square_matrix_operation, py_assert in H.
  destruct (Nat.eqb (nr A) (nc A)); [|discriminate]. destruct (Nat.eqb (nr B) (nc B)); [|discriminate].
  destruct (Nat.eqb (length va) (nr A)); [|discriminate]. destruct (Nat.eqb (length vb) (nr B)); [|discriminate].
  cbn [bind] in H. injection H as _ <-.
  split; [apply new_vars_left|split; [apply new_vars_right|apply new_vars_sorted]].
Qed.
Lemma ix_same_names A B h k va vb op op' r nv r' nv' :
  indexed_square_matrix_operation A B va vb op = Ok (r, nv) ->
  indexed_column_vector_operation h k va vb op' = Ok (r', nv') -> nv = nv'.
Proof.
  intros H H'. unfold indexed_square_matrix_operation, py_assert in H.
  destruct (Nat.eqb (nr A) (nc A)); [|discriminate]. destruct (Nat.eqb (nr B) (nc B)); [|discriminate].
  destruct (Nat.eqb (length va) (nr A)); [|discriminate]. destruct (Nat.eqb (length vb) (nr B)); [|discriminate].
  cbn [bind] in H. injection H as _ <-.
  unfold indexed_column_vector_operation, py_assert in H'.
  destruct (Nat.eqb (nc h) 1); [|discriminate]. destruct (Nat.eqb (nc k) 1); [|discriminate].
  destruct (Nat.eqb (length va) (nr h)); [|discriminate]. destruct (Nat.eqb (length vb) (nr k)); [|discriminate].
  cbn [bind] in H'. now injection H' as _ <-.
Qed.
Lemma ix_square_bad A B va vb op :
  nr A <> nc A \/ nr B <> nc B \/ length va <> nr A \/ length vb <> nr B ->
  indexed_square_matrix_operation A B va vb op = Err AssertionError.
Proof.
  intros H. unfold indexed_square_matrix_operation, py_assert.
  destruct (Nat.eqb_spec (nr A) (nc A)); [|reflexivity]. destruct (Nat.eqb_spec (nr B) (nc B)); [|reflexivity].
  destruct (Nat.eqb_spec (length va) (nr A)); [|reflexivity]. destruct (Nat.eqb_spec (length vb) (nr B)); [|reflexivity].
  cbn. tauto.
Qed.
Lemma ix_column_bad A B va vb op :
  nc A <> 1 \/ nc B <> 1 \/ length va <> nr A \/ length vb <> nr B ->
  indexed_column_vector_operation A B va vb op = Err AssertionError.
Proof.
  intros H. unfold indexed_column_vector_operation, py_assert.
  destruct (Nat.eqb_spec (nc A) 1); [|reflexivity]. destruct (Nat.eqb_spec (nc B) 1); [|reflexivity].
  destruct (Nat.eqb_spec (length va) (nr A)); [|reflexivity]. destruct (Nat.eqb_spec (length vb) (nr B)); [|reflexivity].
  cbn. tauto.
Qed.

(** * remove_duplicate_values *)
Definition uniq_step (tol : R) (uniq : list R) (x : R) : list R :=
  if is_dup tol uniq x then uniq else uniq ++ [x].
Lemma is_dup_iff tol u x : is_dup tol u x = true <-> exists y, In y u /\ (Rabs (y - x) <= tol)%R.
Proof.
  unfold is_dup. rewrite existsb_exists. unfold Rle_b. split; intros (y & Hy & H); exists y; split; auto.
  - destruct (Rle_dec _ _); [assumption|discriminate].
  - destruct (Rle_dec _ _); [reflexivity|contradiction].
Qed.
(** [m] is obtained from [l] by deleting elements. *)
Inductive sublist {A} : list A -> list A -> Prop :=
  | sub_nil : sublist [] []
  | sub_skip x m l : sublist m l -> sublist m (x :: l)
  | sub_keep x m l : sublist m l -> sublist (x :: m) (x :: l).
Lemma sublist_refl {A} (l : list A) : sublist l l.
Proof. induction l; now constructor. Qed.
Lemma sublist_nil {A} (l : list A) : sublist [] l.
Proof. induction l; now constructor. Qed.
Lemma sublist_app {A} (a b c d : list A) : sublist a b -> sublist c d -> sublist (a ++ c) (b ++ d).
Proof. intros H Hc. induction H; cbn; [exact Hc|now constructor|now constructor]. Qed.
(** Elements far apart from each other: every element is farther than [tol] from all earlier ones. *)
Definition spread (tol : R) (l : list R) : Prop :=
  forall i j x y, i < j -> nth_error l i = Some x -> nth_error l j = Some y -> (tol < Rabs (x - y))%R.
Lemma spread_snoc tol l x : spread tol l -> (forall y, In y l -> (tol < Rabs (y - x))%R) -> spread tol (l ++ [x]).
Proof.
  intros Hs Hx i j a b Hij Ha Hb.
  assert (Hj : j < length (l ++ [x])) by (apply nth_error_Some; congruence).
  rewrite app_length in Hj. cbn in Hj. rewrite nth_error_app1 in Ha by lia.
  destruct (Nat.eq_dec j (length l)) as [->|Hn].
  - rewrite nth_error_app2 in Hb by lia. rewrite Nat.sub_diag in Hb. cbn in Hb. injection Hb as <-.
    apply Hx. eapply nth_error_In; exact Ha.
  - rewrite nth_error_app1 in Hb by lia. exact (Hs i j a b Hij Ha Hb).
Qed.
Lemma uniq_fold tol l : forall u pre, sublist u pre -> spread tol u ->
  (forall x, In x pre -> exists y, In y u /\ (Rabs (y - x) <= tol)%R) -> (0 <= tol)%R ->
  sublist (fold_left (uniq_step tol) l u) (pre ++ l) /\ spread tol (fold_left (uniq_step tol) l u) /\
  (forall x, In x (pre ++ l) -> exists y, In y (fold_left (uniq_step tol) l u) /\ (Rabs (y - x) <= tol)%R).
Proof.
  induction l as [|x l IH]; intros u pre H1 H2 H3 H0; cbn [fold_left].
  - rewrite app_nil_r. auto.
  - assert (E : pre ++ x :: l = (pre ++ [x]) ++ l) by now rewrite <- app_assoc.
    rewrite E. apply IH; [| | |exact H0]; unfold uniq_step; destruct (is_dup tol u x) eqn:D.
    + rewrite <- (app_nil_r u). apply sublist_app; [exact H1|apply sublist_nil].
    + apply sublist_app; [exact H1|apply sublist_refl].
    + exact H2.
    + apply spread_snoc; [exact H2|]. intros y Hy. apply Rnot_le_lt. intros Hle.
      assert (is_dup tol u x = true) by (apply is_dup_iff; exists y; auto). congruence.
    + intros z Hz. apply in_app_iff in Hz. destruct Hz as [Hz|[<-|[]]]; [now apply H3|now apply is_dup_iff].
    + intros z Hz. apply in_app_iff in Hz. destruct Hz as [Hz|[<-|[]]].
      * destruct (H3 z Hz) as (y & Hy & Hle). exists y. rewrite in_app_iff. auto.
      * exists x. rewrite in_app_iff. split; [right; now left|]. rewrite Rminus_diag_eq, Rabs_R0 by reflexivity. exact H0.
Qed.
Lemma remove_dups_spec x l tol : (0 <= tol)%R ->
  exists r, remove_duplicate_values (x :: l) tol = Ok r /\ sublist r (x :: l) /\ nth_error r 0 = Some x /\ spread tol r /\
    (forall y, In y (x :: l) -> exists z, In z r /\ (Rabs (z - y) <= tol)%R).
Proof.
  intros H0. unfold remove_duplicate_values, py_nth. cbn [nth_error bind fold_left].
  assert (Hx : is_dup tol [x] x = true).
  { apply is_dup_iff. exists x. split; [now left|]. rewrite Rminus_diag_eq, Rabs_R0 by reflexivity. exact H0. }
  rewrite Hx. eexists. split; [reflexivity|]. change (fun uniq x0 => if is_dup tol uniq x0 then uniq else uniq ++ [x0]) with (uniq_step tol).
  destruct (uniq_fold tol l [x] [x]) as (A & B & C); auto.
  - apply sublist_refl.
  - intros i j a b Hij Ha Hb. destruct j as [|j]; [lia|]. destruct j; discriminate.
  - intros y [<-|[]]. now apply is_dup_iff.
  - split; [exact A|]. split; [|split; [exact B|exact C]]. clear.
    assert (H : forall m u, nth_error u 0 = Some x -> nth_error (fold_left (uniq_step tol) m u) 0 = Some x).
    { induction m as [|y m IH]; intros u Hu; [exact Hu|]. cbn [fold_left]. apply IH. unfold uniq_step.
      destruct (is_dup tol u y); [exact Hu|]. destruct u; [discriminate|exact Hu]. }
    now apply H.
Qed.
(** With tolerance zero: the elements that do not occur earlier in the list, in order. *)
Definition first_occurrences (l : list R) : list R :=
  flat_map (fun i => match nth_error l i with
                     | Some x => if in_dec Req_EM_T x (firstn i l) then [] else [x]
                     | None => []
                     end) (seq 0 (length l)).
Lemma flat_map_ext_in {A B} (f g : A -> list B) l : (forall x, In x l -> f x = g x) -> flat_map f l = flat_map g l.
Proof.
  induction l as [|x l IH]; intros H; [reflexivity|]. cbn. rewrite (H x (or_introl eq_refl)), IH; [reflexivity|].
  intros y Hy. apply H. now right.
Qed.
Lemma first_occ_snoc l x : first_occurrences (l ++ [x]) =
  first_occurrences l ++ (if in_dec Req_EM_T x l then [] else [x]).
Proof.
  unfold first_occurrences. rewrite app_length. cbn [length]. rewrite seq_app, flat_map_app. cbn [seq flat_map plus]. f_equal.
  - apply flat_map_ext_in. intros i Hi. apply in_seq in Hi. rewrite nth_error_app1 by lia.
    rewrite firstn_app. replace (i - length l) with 0 by lia. now rewrite firstn_O, app_nil_r.
  - rewrite app_nil_r, nth_error_app2, Nat.sub_diag by lia. cbn [nth_error].
    rewrite firstn_app, Nat.sub_diag, firstn_O, app_nil_r, firstn_all. reflexivity.
Qed.
Lemma first_occ_In l x : In x (first_occurrences l) <-> In x l.
Proof.
  induction l as [|y l IH] using rev_ind; [reflexivity|]. rewrite first_occ_snoc, !in_app_iff, IH.
  destruct (in_dec Req_EM_T y l) as [H|H]; cbn; [|tauto]. split; [tauto|]. intros [Hx|[<-|[]]]; auto.
Qed.
Lemma uniq_zero l : fold_left (uniq_step 0) l [] = first_occurrences l.
Proof.
  induction l as [|y l IH] using rev_ind; [reflexivity|]. rewrite fold_left_app, IH, first_occ_snoc. cbn [fold_left].
  unfold uniq_step. destruct (is_dup 0 (first_occurrences l) y) eqn:D; destruct (in_dec Req_EM_T y l) as [H|H].
  - now rewrite app_nil_r.
  - exfalso. apply is_dup_iff in D. destruct D as (z & Hz & Hle). apply H. apply (proj1 (first_occ_In l z)) in Hz.
    replace y with z; [exact Hz|]. destruct (Req_dec z y) as [E|E]; [exact E|]. assert (N : (z - y <> 0)%R) by lra.
    apply Rabs_pos_lt in N. lra.
  - exfalso. assert (is_dup 0 (first_occurrences l) y = true); [|congruence]. apply is_dup_iff. exists y.
    split; [now apply first_occ_In|]. rewrite Rminus_diag_eq, Rabs_R0 by reflexivity. lra.
  - reflexivity.
Qed.
Lemma remove_dups_zero x l : remove_duplicate_values (x :: l) 0 = Ok (first_occurrences (x :: l)).
Proof.
  rewrite <- uniq_zero. unfold remove_duplicate_values, py_nth. cbn [nth_error bind fold_left].
  change (fun uniq x0 => if is_dup 0 uniq x0 then uniq else uniq ++ [x0]) with (uniq_step 0).
  assert (Hx : is_dup 0 [x] x = true).
  { apply is_dup_iff. exists x. split; [now left|]. rewrite Rminus_diag_eq, Rabs_R0 by reflexivity. lra. }
  rewrite Hx. reflexivity.
Qed.
Lemma remove_dups_empty tol : remove_duplicate_values [] tol = Err IndexError.
Proof. reflexivity. Qed.

(** * str.format *)
Inductive piece := Lit (s : list ascii) | Fld (name : string).
(** How a template is written: braces in literal text are doubled, a field is a name in braces. *)
Definition escape (c : ascii) : list ascii :=
  if (Ascii.eqb c "{" || Ascii.eqb c "}")%char%bool then [c; c] else [c].
Definition write_piece (p : piece) : list ascii :=
  match p with
  | Lit s => flat_map escape s
  | Fld n => "{"%char :: list_ascii_of_string n ++ ["}"%char]
  end.
Definition write (ps : list piece) : string := string_of_list_ascii (flat_map write_piece ps).
(** A usable field name: not empty, not a number, without the characters ! : . [ and braces. *)
Definition field_name (n : string) : Prop :=
  (exists c, In c (list_ascii_of_string n) /\ ~ (48 <= nat_of_ascii c <= 57)) /\
  (forall c, In c (list_ascii_of_string n) -> ~ In c ["!"; ":"; "."; "["; "{"; "}"]%char).
Definition piece_ok (p : piece) : Prop := match p with Lit _ => True | Fld n => field_name n end.
(** The text a piece stands for; None when its name has no value. *)
Definition piece_text (d : dict string string) (p : piece) : option (list ascii) :=
  match p with Lit s => Some s | Fld n => option_map list_ascii_of_string (dget d n) end.

Lemma fmt_open2 d s : fmt d None ("{" :: "{" :: s)%char = (let* r := fmt d None s in Ok ("{"%char :: r)).
Proof. reflexivity. Qed.
Lemma fmt_close2 d s : fmt d None ("}" :: "}" :: s)%char = (let* r := fmt d None s in Ok ("}"%char :: r)).
Proof. reflexivity. Qed.
Lemma fmt_lit d s r : fmt d None (flat_map escape s ++ r) = (let* x := fmt d None r in Ok (s ++ x)).
Proof.
  induction s as [|c s IH].
  - cbn. now destruct (fmt d None r).
  - cbn [flat_map]. rewrite <- app_assoc. unfold escape at 1.
    destruct (Ascii.eqb_spec c "{"%char) as [->|H1].
    + cbn [orb app]. rewrite fmt_open2, IH. now destruct (fmt d None r).
    + cbn [orb]. destruct (Ascii.eqb_spec c "}"%char) as [->|H2].
      * cbn [app]. rewrite fmt_close2, IH. now destruct (fmt d None r).
      * cbn [app fmt]. apply Ascii.eqb_neq in H1. apply Ascii.eqb_neq in H2. rewrite H1, H2, IH. now destruct (fmt d None r).
Qed.
Lemma fmt_name d n : forall acc r, (forall c, In c n -> ~ In c ["!"; ":"; "."; "["; "{"; "}"]%char) ->
  fmt d (Some acc) (n ++ "}"%char :: r) =
  (let* v := lookup_field d (string_of_list_ascii (rev acc ++ n)) in
   let* x := fmt d None r in Ok (list_ascii_of_string v ++ x)).
Proof.
  induction n as [|c n IH]; intros acc r H.
  - cbn [app fmt]. change (Ascii.eqb "}" "}")%char with true. cbn iota. now rewrite app_nil_r.
  - cbn [app fmt]. pose proof (H c (or_introl eq_refl)) as Hc. cbn in Hc.
    assert (N : forall a, In a ["!"; ":"; "."; "["; "{"; "}"]%char -> Ascii.eqb c a = false).
    { intros a Ha. apply Ascii.eqb_neq. intros ->. apply Hc. exact Ha. }
    rewrite (N "}"%char) by (cbn; tauto). unfold fmt_special. rewrite !N by (cbn; tauto). cbn [orb].
    rewrite IH; [|intros a Ha; apply H; now right]. cbn [rev]. now rewrite <- app_assoc.
Qed.
Lemma write_fmt d ps : Forall piece_ok ps -> fmt d None (flat_map write_piece ps) =
  match fold_right (fun p acc => match piece_text d p, acc with Some s, Some t => Some (s ++ t) | _, _ => None end) (Some []) ps with
  | Some t => Ok t
  | None => Err KeyError
  end.
Proof.
  induction 1 as [|p ps Hp Hps IH]; [reflexivity|]. cbn [flat_map fold_right]. destruct p as [s|n].
  - cbn [write_piece piece_text]. rewrite fmt_lit, IH. destruct (fold_right _ _ ps); reflexivity.
  - cbn [write_piece piece_text]. destruct Hp as [(c & Hc & Hd) Hn]. rewrite <- app_comm_cons, <- app_assoc. cbn [app].
    assert (E : fmt d None ("{"%char :: list_ascii_of_string n ++ "}"%char :: flat_map write_piece ps) =
                fmt d (Some []) (list_ascii_of_string n ++ "}"%char :: flat_map write_piece ps)).
    { cbn [fmt]. change (Ascii.eqb "{" "{")%char with true. cbn iota.
      destruct (list_ascii_of_string n) as [|a l] eqn:El; [destruct Hc|]. cbn [app].
      destruct (Ascii.eqb_spec a "{"%char) as [->|]; [|reflexivity]. exfalso.
      apply (Hn "{"%char (or_introl eq_refl)). cbn; tauto. }
    rewrite E, fmt_name by exact Hn. cbn [rev app]. rewrite string_of_list_ascii_of_string.
    unfold lookup_field. assert (F : forallb is_digit (list_ascii_of_string n) = false).
    { apply not_true_is_false. intros F. rewrite forallb_forall in F. specialize (F c Hc). unfold is_digit in F.
      apply andb_true_iff in F. destruct F as [F1 F2]. apply Nat.leb_le in F1, F2. apply Hd. split; assumption. }
    rewrite F. unfold dget_r. destruct (dget d n) as [v|]; cbn [bind option_map]; [|reflexivity].
    rewrite IH. destruct (fold_right _ _ ps); reflexivity.
Qed.
(** The text of a whole template. *)
Definition template_text (d : dict string string) (ps : list piece) : option string :=
  option_map string_of_list_ascii
    (fold_right (fun p acc => match piece_text d p, acc with Some s, Some t => Some (s ++ t) | _, _ => None end) (Some []) ps).
Lemma str_format_spec d ps : Forall piece_ok ps ->
  str_format (write ps) d = match template_text d ps with Some t => Ok t | None => Err KeyError end.
Proof.
  intros H. unfold str_format, write, template_text. rewrite list_ascii_of_string_of_list_ascii, (write_fmt d ps H).
  destruct (fold_right _ _ ps); reflexivity.
Qed.
Lemma format_list_spec d pss : Forall (Forall piece_ok) pss ->
  (forall r, format_list_elements (map write pss) d = Ok r <->
             Forall2 (fun ps t => template_text d ps = Some t) pss r) /\
  ((exists ps, In ps pss /\ template_text d ps = None) -> format_list_elements (map write pss) d = Err KeyError).
Proof.
  intros H. unfold format_list_elements. induction H as [|ps pss Hp Hps [IH1 IH2]].
  - split; [|intros (ps & [] & _)]. intros r. cbn. split; [intros [= <-]; constructor|]. inversion 1. reflexivity.
  - cbn [map mapM]. rewrite (str_format_spec d ps Hp). split.
    + intros r. destruct (template_text d ps) as [t|] eqn:Et; cbn [bind].
      * destruct (mapM (fun t0 => str_format t0 d) (map write pss)) as [ys|e] eqn:Em; cbn [bind].
        -- split.
           ++ intros [= <-]. constructor; [exact Et|]. now apply IH1.
           ++ intros HF. inversion HF as [|? ? ? ? H1 H2]; subst. apply IH1 in H2. congruence.
        -- split; [discriminate|]. intros HF. inversion HF as [|? ? ? ? H1 H2]; subst. apply IH1 in H2. discriminate.
      * split; [discriminate|]. intros HF. inversion HF; congruence.
    + intros (q & Hq & Hn). destruct (template_text d ps) as [t|] eqn:Et; cbn [bind]; [|reflexivity].
      destruct Hq as [<-|Hq]; [congruence|]. rewrite IH2 by (exists q; auto). reflexivity.
Qed.
(** formattable answers whether every template can be filled in. *)
Lemma formattable_spec d pss : Forall (Forall piece_ok) pss -> forall t,
  mk_template (Some (map write pss)) None None = Ok t ->
  formattable t d = Ok true /\ (forall ps, In ps pss -> template_text d ps <> None) \/
  formattable t d = Ok false /\ (exists ps, In ps pss /\ template_text d ps = None).
Proof.
  intros H t [= <-]. unfold formattable. cbn [t_vars]. destruct (format_list_spec d pss H) as [H1 H2].
  assert (D : (exists ps, In ps pss /\ template_text d ps = None) \/ (forall ps, In ps pss -> template_text d ps <> None)).
  { clear. induction pss as [|p pss IH]; [right; intros ? []|]. destruct IH as [(q & Hq & E)|IH].
    - left. exists q. split; [now right|exact E].
    - destruct (template_text d p) as [t|] eqn:E; [right|left; exists p; split; [now left|exact E]].
      intros q [<-|Hq]; [congruence|now apply IH]. }
  destruct D as [D|D].
  - right. rewrite (H2 D). split; [reflexivity|exact D].
  - left. split; [|exact D]. assert (F : exists r, Forall2 (fun ps t => template_text d ps = Some t) pss r).
    { clear - D. induction pss as [|p pss IH]; [exists []; constructor|].
      destruct IH as [r Hr]; [intros q Hq; apply D; now right|].
      destruct (template_text d p) as [t|] eqn:E; [|exfalso; exact (D p (or_introl eq_refl) E)].
      exists (t :: r). now constructor. }
    destruct F as [r Hr]. apply H1 in Hr. now rewrite Hr.
Qed.
(** The same for a conditional template; both lists must be given and each keeps its role. *)
Lemma formattable_conditional d vs pss qss : Forall (Forall piece_ok) pss -> Forall (Forall piece_ok) qss ->
  exists t, mk_template vs (Some (map write pss)) (Some (map write qss)) = Ok t /\
    t_vars t = None /\ t_conditioning t = Some (map write pss) /\ t_conditional t = Some (map write qss) /\
    (formattable t d = Ok true /\ (forall ps, In ps pss \/ In ps qss -> template_text d ps <> None) \/
     formattable t d = Ok false /\ (exists ps, (In ps pss \/ In ps qss) /\ template_text d ps = None)).
Proof.
  intros Hp Hq. eexists. split; [reflexivity|]. do 3 (split; [reflexivity|]).
  assert (L : forall pss, Forall (Forall piece_ok) pss ->
    (exists r, format_list_elements (map write pss) d = Ok r) /\ (forall ps, In ps pss -> template_text d ps <> None) \/
    format_list_elements (map write pss) d = Err KeyError /\ (exists ps, In ps pss /\ template_text d ps = None)).
  { intros l Hl. destruct (formattable_spec d l Hl _ eq_refl) as [(E & H)|(E & H)]; [left|right].
    - split; [|exact H]. unfold formattable in E. cbn [t_vars] in E. destruct (format_list_elements (map write l) d) as [r|x]; [eauto|]. destruct x; discriminate E.
    - split; [|exact H]. now apply (format_list_spec d l Hl). }
  unfold formattable, fmt_opt. cbn [t_vars t_conditioning t_conditional].
  destruct (L pss Hp) as [((r & ->) & Hp')|(-> & q & Hq1 & Hq2)]; cbn [bind].
  - destruct (L qss Hq) as [((r2 & ->) & Hq')|(-> & q & Hq1 & Hq2)]; cbn [bind].
    + left. split; [reflexivity|]. intros ps [H|H]; auto.
    + right. split; [reflexivity|]. exists q. auto.
  - right. split; [reflexivity|]. exists q. auto.
Qed.
Lemma template_one_sided vs l : mk_template vs (Some l) None = Err ValueError /\ mk_template vs None (Some l) = Err ValueError.
Proof. split; reflexivity. Qed.
