(** Facts about the sparse table model, up to the look-up characterisation of every
    operation. *)
From Verif Require Export BaseFacts TableSpec.

Definition env_of (vars : list string) (k : key) : env :=
  fun v => match index_opt v vars with Some i => nth i k 0 | None => 0 end.

Lemma map_env_of vars k : NoDup vars -> length k = length vars -> map (env_of vars k) vars = k.
Proof.
  intros Hn Hl. apply nth_error_ext. intros i.
  destruct (nth_error vars i) as [v|] eqn:Hv.
  - rewrite (map_nth_error _ _ _ Hv). unfold env_of.
    rewrite (index_opt_nth_NoDup _ _ _ Hn Hv).
    assert (Hi : i < length k) by (rewrite Hl; apply nth_error_Some; congruence).
    symmetry. now apply nth_error_nth'.
  - apply nth_error_None in Hv.
    assert (nth_error k i = None) as -> by (apply nth_error_None; lia).
    apply nth_error_None. rewrite map_length. exact Hv.
Qed.

Lemma map_env_inj (vars : list string) (e1 e2 : env) :
  map e1 vars = map e2 vars -> forall v, In v vars -> e1 v = e2 v.
Proof. intros H v Hv.
  induction vars as [|w vars IH]; [destruct Hv|]. cbn in H. injection H as H1 H2.
  destruct Hv as [->|Hv]; auto.
Qed.

(** rows *)
Lemma fill_row_spec_aux (a : key) (idx : list nat) : forall k row,
  NoDup idx -> length row = length a -> k + length idx <= length a ->
  (forall j, In j idx -> j < length a) ->
  exists row',
    foldM (fun row oi => let* x := py_nth a (fst oi) in list_set row (snd oi) (Some x))
          (combine (seq k (length idx)) idx) row = Ok row' /\
    length row' = length a /\
    (forall i j, nth_error idx i = Some j -> nth_error row' j = Some (nth_error a (k + i))) /\
    (forall j, ~ In j idx -> nth_error row' j = nth_error row j).
Proof.
  induction idx as [|j0 idx IH]; intros k row Hn Hr Hk Hj.
  - exists row. cbn. repeat split; auto. intros [|i] j H; discriminate.
  - inversion Hn as [|? ? Hj0 Hn']; subst. cbn [length seq combine foldM fst snd] in *.
    destruct (py_nth_ok a k) as (x & -> & Hx); [cbn in Hk; lia|]. cbn [bind].
    destruct (list_set_spec row j0 (Some x)) as (row1 & -> & Hl1 & Hn1).
    { rewrite Hr. apply Hj. left; reflexivity. }
    cbn [bind].
    destruct (IH (S k) row1) as (row' & Hf & Hl & Hin & Hout); auto; try lia.
    { intros j H. apply Hj. right; exact H. }
    exists row'. split; [exact Hf|]. split; [exact Hl|]. split.
    + intros [|i] j H; cbn in H.
      * injection H as <-. rewrite (Hout j0 Hj0), Hn1.
        destruct (Nat.eq_dec j0 j0); [|congruence]. rewrite Nat.add_0_r. now rewrite Hx.
      * rewrite (Hin i j H). f_equal. f_equal. lia.
    + intros j H. rewrite Hout by (intros C; apply H; right; exact C).
      rewrite Hn1. destruct (Nat.eq_dec j j0) as [->|]; [|reflexivity].
      exfalso. apply H. left; reflexivity.
Qed.

Lemma fill_row_spec (old order : list string) idx a :
  NoDup old -> Permutation old order ->
  mapM (py_index order) old = Ok idx -> length a = length old ->
  fill_row idx a = Ok (map (fun v => Some (env_of old a v)) order).
Proof.
  intros Hn HP Hidx Hla.
  assert (Hno : NoDup order) by (eapply Permutation_NoDup; eauto).
  apply mapM_Ok_inv in Hidx.
  assert (Hlen : length idx = length old) by (symmetry; eapply Forall2_length; eauto).
  assert (Hlo : length order = length old) by (symmetry; now apply Permutation_length).
  assert (Hnth : forall i v, nth_error old i = Some v ->
            exists j, nth_error idx i = Some j /\ nth_error order j = Some v).
  { clear - Hidx. induction Hidx as [|v j old idx Hv HF IH]; intros i w Hw.
    - destruct i; discriminate.
    - destruct i as [|i]; cbn in *; [|auto].
      injection Hw as ->. exists j. split; [reflexivity|].
      unfold py_index in Hv. destruct (index_opt w order) eqn:Hi; [|discriminate].
      injection Hv as <-. now apply index_opt_nth. }
  assert (Hnth' : forall i j, nth_error idx i = Some j ->
            exists v, nth_error old i = Some v /\ nth_error order j = Some v).
  { intros i j Hj. destruct (nth_error old i) as [v|] eqn:Hv.
    - destruct (Hnth _ _ Hv) as (j' & Hj' & Ho). assert (j' = j) by congruence. subst. eauto.
    - apply nth_error_None in Hv. assert (i < length idx) by (apply nth_error_Some; congruence). lia. }
  assert (HNidx : NoDup idx).
  { apply NoDup_nth_error. intros i i' Hi Heq.
    destruct (nth_error idx i) as [j|] eqn:Hj; [|apply nth_error_None in Hj; lia].
    destruct (Hnth' _ _ Hj) as (v & Hv & Ho).
    symmetry in Heq. destruct (Hnth' _ _ Heq) as (v' & Hv' & Ho').
    assert (v' = v) by congruence. subst.
    pose proof (index_opt_nth_NoDup _ _ _ Hn Hv). pose proof (index_opt_nth_NoDup _ _ _ Hn Hv').
    congruence. }
  unfold fill_row.
  destruct (fill_row_spec_aux a idx 0 (repeat None (length a))) as (row & -> & Hl & Hin & Hout);
    auto.
  - apply repeat_length.
  - lia.
  - intros j Hj. apply In_nth_error in Hj. destruct Hj as (i & Hi).
    destruct (Hnth' _ _ Hi) as (v & _ & Ho).
    assert (j < length order) by (apply nth_error_Some; congruence). lia.
  - f_equal. apply nth_error_ext. intros j.
    destruct (nth_error order j) as [v|] eqn:Hv.
    + rewrite (map_nth_error _ _ _ Hv).
      assert (Hvo : In v old).
      { apply (Permutation_in v (Permutation_sym HP)). eapply nth_error_In; eauto. }
      apply In_nth_error in Hvo. destruct Hvo as (i & Hi).
      destruct (Hnth _ _ Hi) as (j' & Hj' & Ho).
      assert (j' = j).
      { pose proof (index_opt_nth_NoDup _ _ _ Hno Ho).
        pose proof (index_opt_nth_NoDup _ _ _ Hno Hv). congruence. }
      subst j'. rewrite (Hin _ _ Hj'). cbn. unfold env_of.
      rewrite (index_opt_nth_NoDup _ _ _ Hn Hi).
      assert (Hi' : i < length a) by (rewrite Hla; apply nth_error_Some; congruence).
      rewrite (nth_error_nth' a 0 Hi'). reflexivity.
    + apply nth_error_None in Hv.
      assert (nth_error row j = None) as -> by (apply nth_error_None; lia).
      symmetry. apply nth_error_None. rewrite map_length. exact Hv.
Qed.

Lemma row_key_Some (e : env) vs : row_key (map (fun v => Some (e v)) vs) = Ok (map e vs).
Proof. induction vs as [|v vs IH]; cbn; [reflexivity|]. unfold row_key in IH. now rewrite IH. Qed.

(** nested tables *)
Definition nget (nt : ntd) (k1 k2 : key) : option val :=
  match dget nt k1 with Some s => dget s k2 | None => None end.

Record nt_wf (nt : ntd) : Prop := {
  ntw_nodup : NoDup (dkeys nt);
  ntw_sub : forall k s, In (k, s) nt -> NoDup (dkeys s) /\ s <> [] }.

Lemma dset_nonempty {K V} {E : EqDec K} (d : dict K V) k v : dset d k v <> [].
Proof. destruct d as [|[k0 v0] d]; cbn; [discriminate|]. destruct (eq_dec k k0); discriminate. Qed.

Lemma In_dset {K V} {E : EqDec K} (d : dict K V) k v k' v' :
  In (k', v') (dset d k v) -> (k' = k /\ v' = v) \/ In (k', v') d.
Proof.
  induction d as [|[k0 v0] d IH]; cbn.
  - intros [H|[]]. injection H as -> ->. left; auto.
  - destruct (eq_dec k k0) as [->|N]; cbn.
    + intros [H|H]; [injection H as -> ->; left; auto|right; right; exact H].
    + intros [H|H]; [right; left; exact H|]. destruct (IH H) as [?|?]; [left|right; right]; assumption.
Qed.

Lemma nset_wf (nt : ntd) k1 k2 v :
  nt_wf nt -> nt_wf (dset nt k1 (dset (dget_or nt k1 []) k2 v)).
Proof.
  intros [H1 H2]. split.
  - now apply NoDup_dset.
  - intros k s Hin. apply In_dset in Hin. destruct Hin as [[-> ->]|Hin]; [|eauto].
    split; [|apply dset_nonempty]. apply NoDup_dset.
    unfold dget_or. destruct (dget nt k1) as [s|] eqn:Hs; [|constructor].
    apply dget_In in Hs. apply (H2 _ _ Hs).
Qed.
Lemma nget_nset (nt : ntd) k1 k2 v k1' k2' :
  nget (dset nt k1 (dset (dget_or nt k1 []) k2 v)) k1' k2' =
  if eq_dec (k1', k2') (k1, k2) then Some v else nget nt k1' k2'.
Proof.
  unfold nget. rewrite dget_dset. destruct (eq_dec k1' k1) as [->|N].
  - rewrite dget_dset. destruct (eq_dec k2' k2) as [->|N2].
    + destruct (eq_dec (k1, k2) (k1, k2)); congruence.
    + destruct (eq_dec (k1, k2') (k1, k2)) as [C|_]; [congruence|].
      unfold dget_or. destruct (dget nt k1) as [s|]; reflexivity.
  - destruct (eq_dec (k1', k2') (k1, k2)) as [C|_]; [congruence|reflexivity].
Qed.

Definition split_key (outer inner old : list string) (k : key) : key * key :=
  (map (env_of old k) outer, map (env_of old k) inner).

Lemma split_key_inj outer inner old k k' :
  NoDup old -> Permutation old (outer ++ inner) ->
  length k = length old -> length k' = length old ->
  split_key outer inner old k = split_key outer inner old k' -> k = k'.
Proof.
  intros Hn HP Hk Hk' H. unfold split_key in H. injection H as H1 H2.
  rewrite <- (map_env_of old k Hn Hk), <- (map_env_of old k' Hn Hk').
  apply map_ext_in. intros v Hv.
  apply (Permutation_in v HP) in Hv. apply in_app_iff in Hv. destruct Hv as [Hv|Hv].
  - exact (map_env_inj _ _ _ H1 v Hv).
  - exact (map_env_inj _ _ _ H2 v Hv).
Qed.

Lemma get_nested_spec outer inner old t :
  NoDup old -> Permutation old (outer ++ inner) ->
  (forall k v, In (k, v) t -> length k = length old) -> NoDup (dkeys t) ->
  exists nt, get_nested outer inner old t = Ok nt /\ nt_wf nt /\
    (forall e : env, nget nt (map e outer) (map e inner) = dget t (map e old)) /\
    (forall k1 k2 v, nget nt k1 k2 = Some v ->
       exists k, In (k, v) t /\ (k1, k2) = split_key outer inner old k) /\
    (t = [] -> nt = []).
Proof.
  intros Hn HP Hlen Hnd. unfold get_nested.
  assert (Hno : NoDup (outer ++ inner)) by (eapply Permutation_NoDup; eauto).
  destruct (mapM_exists (py_index (outer ++ inner)) old) as (idx & Hidx).
  { intros v Hv. destruct (py_index_In v (outer ++ inner)) as (i & Hi & _);
      [eapply Permutation_in; eauto|eauto]. }
  rewrite Hidx. cbn [bind].
  set (step := fun (nt : ntd) (kv : key * val) =>
     dset nt (fst (split_key outer inner old (fst kv)))
       (dset (dget_or nt (fst (split_key outer inner old (fst kv))) [])
          (snd (split_key outer inner old (fst kv))) (snd kv))).
  assert (Hstep : forall (nt : ntd) kv, In kv t ->
     (let* row := fill_row idx (fst kv) in
      let* l1 := row_key (firstn (length outer) row) in
      let* l2 := row_key (skipn (length outer) row) in
      Ok (dset nt l1 (dset (dget_or nt l1 []) l2 (snd kv)))) = Ok (step nt kv)).
  { intros nt [k v] Hkv. cbn [fst snd].
    rewrite (fill_row_spec old (outer ++ inner) idx k Hn HP Hidx (Hlen _ _ Hkv)).
    cbn [bind]. rewrite map_app.
    assert (Hlo : length outer = length (map (fun v => Some (env_of old k v)) outer))
      by (now rewrite map_length).
    rewrite Hlo, firstn_app, firstn_all, skipn_app, skipn_all, Nat.sub_diag. cbn [firstn skipn].
    rewrite app_nil_r. cbn [app]. rewrite !row_key_Some. reflexivity. }
  assert (Hall : forall l (nt : ntd), incl l t -> NoDup (dkeys l) -> nt_wf nt ->
     exists nt', foldM (fun (nt : ntd) (kv : key * val) =>
           let* row := fill_row idx (fst kv) in
           let* l1 := row_key (firstn (length outer) row) in
           let* l2 := row_key (skipn (length outer) row) in
           Ok (dset nt l1 (dset (dget_or nt l1 []) l2 (snd kv)))) l nt = Ok nt' /\
       nt_wf nt' /\
       (forall k, length k = length old ->
          nget nt' (fst (split_key outer inner old k)) (snd (split_key outer inner old k)) =
          match dget l k with
          | Some v => Some v
          | None => nget nt (fst (split_key outer inner old k)) (snd (split_key outer inner old k))
          end) /\
       (forall k1 k2 v, nget nt' k1 k2 = Some v ->
          (exists k, In (k, v) l /\ (k1, k2) = split_key outer inner old k) \/
          nget nt k1 k2 = Some v)).
  { induction l as [|[k0 v0] l IH]; intros nt Hinc HN Hwf.
    - exists nt. cbn. split; [reflexivity|]. split; [exact Hwf|]. split; [reflexivity|]. tauto.
    - cbn [foldM]. rewrite Hstep by (apply Hinc; left; reflexivity). cbn [bind].
      unfold dkeys in HN. cbn [map fst] in HN. inversion HN as [|? ? Hk0 HN']; subst.
      destruct (IH (step nt (k0, v0))) as (nt' & Hf & Hwf' & Hg & Hr).
      + intros x Hx. apply Hinc. right; exact Hx.
      + exact HN'.
      + apply nset_wf, Hwf.
      + assert (Hl0 : length k0 = length old) by (eapply Hlen, Hinc; left; reflexivity).
        exists nt'. split; [exact Hf|]. split; [exact Hwf'|]. split.
        * intros k Hk. rewrite (Hg k Hk). cbn [dget].
          unfold step. cbn [fst snd]. rewrite nget_nset.
          destruct (eq_dec k k0) as [->|Nk].
          -- assert (dget l k0 = None) as -> by (apply dget_None; exact Hk0).
             destruct (eq_dec _ _) as [_|C]; [reflexivity|]. exfalso; apply C. reflexivity.
          -- destruct (dget l k) as [v|]; [reflexivity|].
             destruct (eq_dec _ _) as [C|_]; [|reflexivity].
             exfalso. apply Nk. apply (split_key_inj outer inner old k k0 Hn HP Hk Hl0).
             exact C.
        * intros k1 k2 v Hv. destruct (Hr _ _ _ Hv) as [(k & Hin & Heq)|Hv'].
          -- left. exists k. split; [right; exact Hin|exact Heq].
          -- unfold step in Hv'. cbn [fst snd] in Hv'. rewrite nget_nset in Hv'.
             destruct (eq_dec (k1, k2) _) as [C|_] in Hv'; [|right; exact Hv'].
             injection Hv' as ->. left. exists k0. split; [left; reflexivity|].
             rewrite C. reflexivity. }
  destruct (Hall t [] (incl_refl t) Hnd) as (nt & Hf & Hwf & Hg & Hr).
  { split; [constructor|intros k s []]. }
  exists nt. split; [exact Hf|]. split; [exact Hwf|]. split; [|split].
  - intros e. specialize (Hg (map e old)). rewrite map_length in Hg. specialize (Hg eq_refl).
    assert (Hsk : split_key outer inner old (map e old) = (map e outer, map e inner)).
    { unfold split_key.
      assert (He : forall v, In v old -> env_of old (map e old) v = e v).
      { apply map_env_inj. apply map_env_of; [exact Hn|]. apply map_length. }
      f_equal; apply map_ext_in; intros v Hv; apply He; apply (Permutation_in v (Permutation_sym HP));
        apply in_or_app; [left|right]; exact Hv. }
    rewrite Hsk in Hg. cbn [fst snd] in Hg. rewrite Hg. unfold nget. cbn.
    destruct (dget t (map e old)); reflexivity.
  - intros k1 k2 v Hv. destruct (Hr _ _ _ Hv) as [H|H]; [exact H|discriminate].
  - intros ->. cbn in Hf. congruence.
Qed.
