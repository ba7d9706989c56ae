(** Facts about the numpy operations on arrays whose axes carry variable names. *)
From Verif Require Export SparseProofs3 DenseSpec.

Lemma posn_map {A} {E : EqDec A} (v : A) l : In v l ->
  nth_error l (posn v l) = Some v /\ posn v l < length l.
Proof.
  intros H. unfold posn. destruct (index_opt_In v l H) as (i & Hi). rewrite Hi.
  apply index_opt_nth in Hi. split; [exact Hi|]. apply nth_error_Some. congruence.
Qed.
Lemma posn_nth {A} {E : EqDec A} l i (v : A) : NoDup l -> nth_error l i = Some v -> posn v l = i.
Proof. intros Hn H. unfold posn. now rewrite (index_opt_nth_NoDup v l i Hn H). Qed.
Lemma posn_inj {A} {E : EqDec A} (l : list A) v w : In v l -> In w l -> posn v l = posn w l -> v = w.
Proof.
  intros Hv Hw H. destruct (posn_map v l Hv) as [H1 _], (posn_map w l Hw) as [H2 _]. congruence.
Qed.
Lemma nth_map_posn {A B} {E : EqDec A} (g : A -> B) (v : A) l d : In v l -> nth (posn v l) (map g l) d = g v.
Proof.
  intros H. apply nth_error_nth. apply map_nth_error. now apply posn_map.
Qed.
Lemma posn_map_inj {A B} {E : EqDec A} {F : EqDec B} (g : A -> B) (v : A) l : In v l ->
  (forall x, In x l -> g x = g v -> x = v) -> posn (g v) (map g l) = posn v l.
Proof.
  intros Hv Hg. unfold posn. induction l as [|x l IH]; [destruct Hv|]. cbn [map index_opt].
  destruct (eq_dec v x) as [->|Hn].
  - destruct (eq_dec (g x) (g x)); congruence.
  - destruct (eq_dec (g v) (g x)) as [C|C].
    + exfalso. apply Hn. symmetry. apply Hg; [left; reflexivity|congruence].
    + destruct Hv as [->|Hv]; [congruence|].
      assert (IH' := IH Hv (fun x Hx => Hg x (or_intror Hx))).
      destruct (index_opt_In v l Hv) as (i & Hi). rewrite Hi in *.
      destruct (index_opt_In (g v) (map g l) (in_map g l v Hv)) as (j & Hj). rewrite Hj in *.
      cbn. congruence.
Qed.
Lemma mapM_py_index (l order : list string) : incl order l ->
  mapM (py_index l) order = Ok (map (fun v => posn v l) order).
Proof.
  intros H. apply mapM_ok. intros v Hv. unfold py_index, posn.
  destruct (index_opt_In v l (H v Hv)) as (i & ->). reflexivity.
Qed.

(** ** transpose *)
Lemma transpose_named {A} (t : tensor A) vs order (card : string -> nat) :
  NoDup vs -> Permutation vs order -> tshape t = map card vs ->
  exists t', transpose t (map (fun v => posn v vs) order) = Ok t' /\ tshape t' = map card order /\
    forall e, tget t' (map e order) = tget t (map e vs).
Proof.
  intros Hn HP Hs. unfold transpose.
  assert (Hno : NoDup order) by (eapply Permutation_NoDup; eauto).
  assert (Hin : forall v, In v order <-> In v vs).
  { intros v. split; apply Permutation_in; auto using Permutation_sym. }
  assert (Hd : ndim t = length vs) by (unfold ndim; rewrite Hs; apply map_length).
  assert (Hnd : NoDup (map (fun v => posn v vs) order)).
  { apply NoDup_map_inj; [|exact Hno]. intros x y Hx Hy. apply posn_inj; now apply Hin. }
  rewrite map_length, Hd, <- (Permutation_length HP), Nat.eqb_refl.
  rewrite (proj2 (nodupb_iff _) Hnd).
  assert (Hf : forallb (fun a => a <? length vs) (map (fun v => posn v vs) order) = true).
  { apply forallb_forall. intros a Ha. apply in_map_iff in Ha. destruct Ha as (v & <- & Hv).
    apply Nat.ltb_lt. apply posn_map. now apply Hin. }
  rewrite Hf. cbn [andb]. eexists. split; [reflexivity|]. cbn [tshape tget]. split.
  - rewrite map_map, Hs. apply map_ext_in. intros v Hv. apply nth_map_posn. now apply Hin.
  - intros e. f_equal. apply nth_error_ext. intros i.
    destruct (Nat.lt_ge_cases i (length vs)) as [Hi|Hi].
    2: { transitivity (@None nat); [|symmetry]; apply nth_error_None; rewrite map_length; [rewrite seq_length|]; exact Hi. }
    destruct (nth_error vs i) as [v|] eqn:Hv; [|apply nth_error_None in Hv; lia].
    rewrite (map_nth_error e _ _ Hv).
    rewrite (map_nth_error _ i (seq 0 (length vs)) (d := i)).
    2: { rewrite (nth_error_nth' _ 0) by (now rewrite seq_length). now rewrite seq_nth by exact Hi. }
    f_equal. assert (Hiv : In v vs) by (eapply nth_error_In; eauto).
    rewrite <- (posn_nth vs i v Hn Hv) at 1.
    rewrite (posn_map_inj (fun v => posn v vs) v order).
    + apply nth_map_posn. now apply Hin.
    + now apply Hin.
    + intros x Hx. apply posn_inj; auto. now apply Hin.
Qed.

(** ** expand_dims *)
Lemma expand_from_none {A} (one : A) axes : forall l pos, (forall i, pos <= i < pos + length l -> ~ In i axes) ->
  expand_from pos (length l) axes one l = l.
Proof.
  induction l as [|x l IH]; intros pos H; [reflexivity|]. cbn [length expand_from].
  rewrite (proj2 (mem_nIn pos axes)) by (apply H; cbn; lia). f_equal. apply IH.
  intros i Hi. apply H. cbn. lia.
Qed.
Lemma expand_from_ones {A} (one : A) axes l n : forall k pos, (forall i, pos <= i < pos + k -> In i axes) ->
  expand_from pos (k + n) axes one l = repeat one k ++ expand_from (pos + k) n axes one l.
Proof.
  induction k as [|k IH]; intros pos H; cbn [Nat.add expand_from repeat app]; [now rewrite Nat.add_0_r|].
  rewrite (proj2 (mem_In pos axes)) by (apply H; lia). f_equal. rewrite IH by (intros i Hi; apply H; lia).
  f_equal. f_equal. lia.
Qed.
Lemma expand_from_keep {A} (one : A) axes n l2 : forall l1 pos, (forall i, pos <= i < pos + length l1 -> ~ In i axes) ->
  expand_from pos (length l1 + n) axes one (l1 ++ l2) = l1 ++ expand_from (pos + length l1) n axes one l2.
Proof.
  induction l1 as [|x l1 IH]; intros pos H; cbn [length Nat.add expand_from app]; [now rewrite Nat.add_0_r|].
  rewrite (proj2 (mem_nIn pos axes)) by (apply H; cbn; lia). f_equal. rewrite IH by (intros i Hi; apply H; cbn; lia).
  f_equal. f_equal. lia.
Qed.
Lemma drop_from_none {A} axes : forall (l : list A) pos, (forall i, pos <= i < pos + length l -> ~ In i axes) ->
  drop_from pos axes l = l.
Proof.
  induction l as [|x l IH]; intros pos H; [reflexivity|]. cbn [drop_from].
  rewrite (proj2 (mem_nIn pos axes)) by (apply H; cbn; lia). f_equal. apply IH.
  intros i Hi. apply H. cbn. lia.
Qed.
Lemma drop_from_all {A} axes (l2 : list A) : forall l1 pos, (forall i, pos <= i < pos + length l1 -> In i axes) ->
  drop_from pos axes (l1 ++ l2) = drop_from (pos + length l1) axes l2.
Proof.
  induction l1 as [|x l1 IH]; intros pos H; cbn [app length]; [now rewrite Nat.add_0_r|]. cbn [drop_from].
  rewrite (proj2 (mem_In pos axes)) by (apply H; cbn; lia). rewrite IH by (intros i Hi; apply H; cbn; lia).
  f_equal. lia.
Qed.
Lemma drop_from_keep {A} axes (l2 : list A) : forall l1 pos, (forall i, pos <= i < pos + length l1 -> ~ In i axes) ->
  drop_from pos axes (l1 ++ l2) = l1 ++ drop_from (pos + length l1) axes l2.
Proof.
  induction l1 as [|x l1 IH]; intros pos H; cbn [app length]; [now rewrite Nat.add_0_r|]. cbn [drop_from].
  rewrite (proj2 (mem_nIn pos axes)) by (apply H; cbn; lia). rewrite IH by (intros i Hi; apply H; cbn; lia).
  replace (S pos + length l1) with (pos + S (length l1)) by lia. reflexivity.
Qed.

(** Inserting [m] axes of length one after the first [k] axes. *)
Lemma expand_dims_named {A} (t : tensor A) (l1 l2 : list nat) m : tshape t = l1 ++ l2 ->
  tshape (expand_dims t (seq (length l1) m)) = l1 ++ repeat 1 m ++ l2 /\
  forall i1 ones i2, length i1 = length l1 -> length ones = m -> length i2 = length l2 ->
    tget (expand_dims t (seq (length l1) m)) (i1 ++ ones ++ i2) = tget t (i1 ++ i2).
Proof.
  intros Hs. unfold expand_dims, ndim. cbn [tshape tget]. rewrite Hs, seq_length, app_length. split.
  - replace (m + (length l1 + length l2)) with (length l1 + (m + length l2)) by lia.
    rewrite expand_from_keep by (intros i Hi; rewrite in_seq; lia). f_equal. cbn [Nat.add].
    rewrite expand_from_ones by (intros i Hi; rewrite in_seq; lia). f_equal.
    apply expand_from_none. intros i Hi; rewrite in_seq; lia.
  - intros i1 ones i2 H1 Ho H2. f_equal.
    rewrite drop_from_keep by (intros i Hi; rewrite in_seq; lia). f_equal. cbn [Nat.add].
    rewrite drop_from_all by (intros i Hi; rewrite in_seq; lia).
    apply drop_from_none. intros i Hi; rewrite in_seq; lia.
Qed.

(** ** broadcasting *)
Lemma bshape_app s1 s2 t1 t2 r r' : bshape s1 s2 = Ok r -> bshape t1 t2 = Ok r' ->
  bshape (s1 ++ t1) (s2 ++ t2) = Ok (r ++ r').
Proof.
  revert s2 r; induction s1 as [|a s1 IH]; intros [|b s2] r H H'; cbn [bshape app] in *; try discriminate.
  - injection H as <-. exact H'.
  - destruct (bshape s1 s2) as [q|] eqn:Hq; [|discriminate]. cbn [bind] in H.
    rewrite (IH s2 q Hq H'). cbn [bind].
    destruct (a =? b); [injection H as <-; reflexivity|].
    destruct (a =? 1); [injection H as <-; reflexivity|].
    destruct (b =? 1); [injection H as <-; reflexivity|discriminate].
Qed.
Lemma bshape_same s : bshape s s = Ok s.
Proof. induction s as [|a s IH]; [reflexivity|]. cbn [bshape]. rewrite IH. cbn [bind]. now rewrite Nat.eqb_refl. Qed.
Lemma bshape_ones_l s : bshape (repeat 1 (length s)) s = Ok s.
Proof.
  induction s as [|a s IH]; [reflexivity|]. cbn [bshape length repeat]. rewrite IH. cbn [bind].
  destruct (1 =? a) eqn:E; [apply Nat.eqb_eq in E; now subst|]. reflexivity.
Qed.
Lemma bshape_ones_r s : bshape s (repeat 1 (length s)) = Ok s.
Proof.
  induction s as [|a s IH]; [reflexivity|]. cbn [bshape length repeat]. rewrite IH. cbn [bind].
  destruct (a =? 1) eqn:E; [reflexivity|]. cbn. reflexivity.
Qed.
Lemma broadcast_same_length s1 s2 : length s1 = length s2 -> broadcast_shapes s1 s2 = bshape s1 s2.
Proof.
  intros H. unfold broadcast_shapes, pad_shape. rewrite H, Nat.max_id, Nat.sub_diag. reflexivity.
Qed.
Lemma bindex_app s1 s2 i1 i2 : length s1 = length i1 -> length s2 = length i2 ->
  bindex (s1 ++ s2) (i1 ++ i2) = bindex s1 i1 ++ bindex s2 i2.
Proof.
  intros H1 H2. unfold bindex. rewrite !app_length, H1, H2, !Nat.sub_diag. cbn [skipn].
  rewrite <- map_app. f_equal. revert i1 H1; induction s1 as [|a s1 IH]; intros [|b i1] H1; try discriminate; [reflexivity|].
  cbn. f_equal. apply IH. cbn in H1. lia.
Qed.
Lemma bindex_in_range s i : Forall2 (fun i c => i < c) i s -> bindex s i = i.
Proof.
  intros H. unfold bindex. rewrite (Forall2_length _ _ _ H), Nat.sub_diag. cbn [skipn].
  induction H as [|x c i s Hx H IH]; [reflexivity|]. cbn [combine map fst snd]. rewrite IH. f_equal.
  destruct (c =? 1) eqn:E; [apply Nat.eqb_eq in E; lia|reflexivity].
Qed.
Lemma bindex_ones n i : length i = n -> bindex (repeat 1 n) i = repeat 0 n.
Proof.
  intros H. unfold bindex. rewrite repeat_length, H, Nat.sub_diag. cbn [skipn].
  revert i H; induction n as [|n IH]; intros [|x i] H; try discriminate; [reflexivity|].
  cbn. f_equal. apply IH. cbn in H. lia.
Qed.
Lemma map_in_range (card : string -> nat) (e : env) vs : (forall v, In v vs -> e v < card v) ->
  Forall2 (fun i c => i < c) (map e vs) (map card vs).
Proof.
  induction vs as [|v vs IH]; intros H; cbn [map]; constructor; [apply H; left; reflexivity|].
  apply IH. intros w Hw. apply H. right; exact Hw.
Qed.

(** ** tensor_operation *)
Lemma perm_filter {A} (p : A -> bool) l : Permutation l (filter (fun x => negb (p x)) l ++ filter p l).
Proof.
  induction l as [|x l IH]; [constructor|]. cbn [filter]. destruct (p x); cbn [negb].
  - apply Permutation_cons_app. exact IH.
  - cbn. now constructor.
Qed.
Lemma filter_ext_In' {A} (p q : A -> bool) l : (forall x, In x l -> p x = q x) -> filter p l = filter q l.
Proof. apply filter_ext_in. Qed.

Lemma tensor_operation_named ta tb va vb f (card : string -> nat) :
  NoDup va -> NoDup vb -> tshape ta = map card va -> tshape tb = map card vb ->
  exists t r, tensor_operation ta tb va vb f = Ok (t, r) /\ NoDup r /\
    (forall v, In v r <-> In v va \/ In v vb) /\ tshape t = map card r /\
    (va = vb -> r = va) /\
    forall e, (forall v, In v r -> e v < card v) ->
      tget t (map e r) = f (tget ta (map e va)) (tget tb (map e vb)).
Proof.
  intros Ha Hb Sa Sb. unfold tensor_operation.
  destruct (eqb va vb) eqn:E.
  - apply eqb_true in E. subst vb. unfold tbin.
    rewrite broadcast_same_length by congruence. rewrite Sa, Sb, bshape_same. cbn [bind].
    eexists _, va. split; [reflexivity|]. split; [exact Ha|]. split; [tauto|]. split; [reflexivity|].
    split; [reflexivity|]. intros e He. cbn [tget]. rewrite bindex_in_range by now apply map_in_range. reflexivity.
  - set (common := set_inter va vb).
    assert (Hcm : forall v, In v common <-> In v va /\ In v vb) by (intros v; apply In_set_inter).
    set (rem1 := filter (fun v => negb (mem v common)) va).
    set (rem2 := filter (fun v => negb (mem v common)) vb).
    set (cm := filter (fun v => mem v common) va).
    assert (H1 : forall v, In v rem1 <-> In v va /\ ~ In v vb).
    { intros v. unfold rem1. rewrite filter_In, negb_true_iff, mem_nIn, Hcm. tauto. }
    assert (H2 : forall v, In v rem2 <-> In v vb /\ ~ In v va).
    { intros v. unfold rem2. rewrite filter_In, negb_true_iff, mem_nIn, Hcm. tauto. }
    assert (H3 : forall v, In v cm <-> In v va /\ In v vb).
    { intros v. unfold cm. rewrite filter_In, mem_In, Hcm. tauto. }
    assert (N1 : NoDup rem1) by now apply NoDup_filter.
    assert (N2 : NoDup rem2) by now apply NoDup_filter.
    assert (N3 : NoDup cm) by now apply NoDup_filter.
    assert (P1 : Permutation va (rem1 ++ cm)) by apply perm_filter.
    assert (P2 : Permutation vb (rem2 ++ cm)).
    { apply NoDup_Permutation; [exact Hb| |].
      - apply NoDup_app_intro; auto. intros v Hv Hv'. apply H2 in Hv. apply H3 in Hv'. tauto.
      - intros v. rewrite in_app_iff, H2, H3. destruct (in_dec string_dec v va); tauto. }
    rewrite !mapM_py_index.
    2,3,4,5: intros v Hv; try apply H1 in Hv; try apply H2 in Hv; try apply H3 in Hv; tauto.
    cbn [bind]. rewrite <- !map_app.
    destruct (transpose_named ta va (rem1 ++ cm) card Ha P1 Sa) as (t1 & -> & S1 & G1). cbn [bind].
    destruct (transpose_named tb vb (rem2 ++ cm) card Hb P2 Sb) as (t2 & -> & S2 & G2). cbn [bind].
    rewrite map_app in S2.
    destruct (expand_dims_named t1 [] (map card (rem1 ++ cm)) (length rem2) S1) as [S1' G1']. cbn [length] in S1', G1'.
    destruct (expand_dims_named t2 (map card rem2) (map card cm) (length rem1) S2) as [S2' G2'].
    rewrite map_length in S2', G2'.
    set (t1' := expand_dims t1 (seq 0 (length rem2))) in *.
    set (t2' := expand_dims t2 (seq (length rem2) (length rem1))) in *.
    cbn [app] in S1'. rewrite map_app in S1'.
    assert (Hlen : length (tshape t1') = length (tshape t2')).
    { rewrite S1', S2', !app_length, !repeat_length, !map_length. reflexivity. }
    assert (HB : bshape (tshape t1') (tshape t2') = Ok (map card (rem2 ++ rem1 ++ cm))).
    { rewrite S1', S2', !map_app. apply bshape_app.
      - rewrite <- (map_length card rem2). apply bshape_ones_l.
      - apply bshape_app; [|apply bshape_same].
        rewrite <- (map_length card rem1). apply bshape_ones_r. }
    unfold tbin. rewrite broadcast_same_length by exact Hlen. rewrite HB. cbn [bind].
    eexists _, _. split; [reflexivity|]. split.
    { apply NoDup_app_intro; [exact N2|apply NoDup_app_intro; auto|].
      - intros v Hv Hv'. apply H1 in Hv. apply H3 in Hv'. tauto.
      - intros v Hv Hv'. apply H2 in Hv. apply in_app_iff in Hv'. rewrite H1, H3 in Hv'. tauto. }
    split.
    { intros v. rewrite !in_app_iff, H1, H2, H3. destruct (in_dec string_dec v va), (in_dec string_dec v vb); tauto. }
    split; [reflexivity|].
    split. { intros C. apply (proj2 (eqb_true va vb)) in C. congruence. }
    intros e He. cbn [tget].
    assert (R1 : Forall2 (fun i c => i < c) (map e rem1) (map card rem1)).
    { apply map_in_range. intros v Hv. apply He. rewrite !in_app_iff. tauto. }
    assert (R2 : Forall2 (fun i c => i < c) (map e rem2) (map card rem2)).
    { apply map_in_range. intros v Hv. apply He. rewrite !in_app_iff. tauto. }
    assert (R3 : Forall2 (fun i c => i < c) (map e cm) (map card cm)).
    { apply map_in_range. intros v Hv. apply He. rewrite !in_app_iff. tauto. }
    rewrite S1', S2', !map_app.
    rewrite !bindex_app by (rewrite ?app_length, ?map_length, ?repeat_length; reflexivity).
    rewrite !bindex_ones by apply map_length. rewrite !bindex_in_range by assumption.
    f_equal.
    + rewrite <- (G1 e), map_app.
      apply (G1' [] (repeat 0 (length rem2)) (map e rem1 ++ map e cm)); [reflexivity|apply repeat_length|].
      now rewrite app_length, !map_length, app_length.
    + rewrite <- (G2 e), map_app. symmetry.
      rewrite <- (G2' (map e rem2) (repeat 0 (length rem1)) (map e cm)); [reflexivity| | |].
      * now rewrite !map_length.
      * apply repeat_length.
      * now rewrite !map_length.
Qed.
