(** Proofs for the dense factor: marginal, cancel, equality, argmax, normalisation, KL
    divergence (C16, C19 - C22). *)
From Coq Require Import ZArith Classical_Prop.
From Verif Require Export DenseProofs.

(** ** sums over axes *)
Lemma sum_over_ext_range (card : string -> nat) vs g h : forall e,
  (forall e', (forall v, In v vs -> e' v < card v) -> (forall v, ~ In v vs -> e' v = e v) -> g e' = h e') ->
  sum_over card vs g e = sum_over card vs h e.
Proof.
  induction vs as [|v vs IH]; intros e H; cbn [sum_over].
  - apply H; [intros v []|reflexivity].
  - apply Rsum_ext. intros i Hi. apply in_seq in Hi. apply IH. intros e' H1 H2. apply H.
    + intros w [<-|Hw]; [|auto]. destruct (in_dec string_dec v vs) as [D|D]; [auto|].
      rewrite (H2 v D), upd_same. lia.
    + intros w Hw. rewrite H2 by (intros C; apply Hw; right; exact C). apply upd_other.
      intros ->. apply Hw. left; reflexivity.
Qed.
Lemma replace_nth_map {A} (g : string -> A) (vs : list string) v x : NoDup vs -> In v vs ->
  replace_nth (map g vs) (posn v vs) x = map (fun w => if string_dec w v then x else g w) vs.
Proof.
  unfold posn. induction vs as [|w vs IH]; intros Hn Hv; [destruct Hv|].
  inversion Hn as [|? ? Hw Hn']; subst. cbn [map index_opt]. destruct (eq_dec v w) as [->|N].
  - cbn [replace_nth]. destruct (string_dec w w); [|congruence]. f_equal. apply map_ext_in.
    intros u Hu. destruct (string_dec u w) as [->|]; [contradiction|reflexivity].
  - destruct Hv as [->|Hv]; [congruence|]. specialize (IH Hn' Hv).
    destruct (index_opt_In v vs Hv) as (i & Hi). rewrite Hi in *. cbn [option_map replace_nth].
    destruct (string_dec w v); [congruence|]. now f_equal.
Qed.

Lemma lse_axes_gen vs : NoDup vs -> forall out t (card : string -> nat) (S : list string),
  NoDup out -> incl out vs -> incl out S -> tshape t = map card vs -> (forall v, In v out -> 0 < card v) ->
  (forall e, (forall v, In v S -> e v < card v) -> is_lp (tget t (map e vs))) ->
  exists t', lse_axes t (map (fun v => posn v vs) out) = Ok t' /\
    tshape t' = map (fun v => if mem v out then 1 else card v) vs /\
    forall e, (forall v, In v S -> ~ In v out -> e v < card v) ->
      is_lp (tget t' (map e vs)) /\
      pot (tget t' (map e vs)) = sum_over card out (fun e => pot (tget t (map e vs))) e.
Proof.
  intros Hn. unfold lse_axes. induction out as [|v out IH]; intros t card S Ho Hi HiS Hs Hp Hlp.
  - exists t. split; [reflexivity|]. split; [exact Hs|]. intros e He. split; [|reflexivity].
    apply Hlp. intros v Hv. apply He; auto.
  - inversion Ho as [|? ? Hv Ho']; subst. cbn [map foldM].
    assert (Hvin : In v vs) by (apply Hi; left; reflexivity).
    assert (Hpv : 0 < card v) by (apply Hp; left; reflexivity).
    unfold lse_axis at 1. rewrite Hs. rewrite (nth_map_posn card v vs 0 Hvin).
    destruct (card v =? 0) eqn:E; [apply Nat.eqb_eq in E; lia|]. clear E. cbn [bind].
    set (card1 := fun w => if string_dec w v then 1 else card w).
    match goal with |- context [foldM lse_axis _ ?x] => set (t1 := x) end.
    assert (G1 : forall e, tget t1 (map e vs) = lse (map (fun i => tget t (map (upd e v i) vs)) (seq 0 (card v)))).
    { intros e. cbn [t1 tget]. f_equal. apply map_ext. intros i. f_equal.
      rewrite replace_nth_map by assumption. reflexivity. }
    assert (L1 : forall e, (forall w, In w S -> w <> v -> e w < card w) ->
       is_lp (tget t1 (map e vs)) /\
       pot (tget t1 (map e vs)) = sum_over card [v] (fun e => pot (tget t (map e vs))) e).
    { intros e He. rewrite G1. destruct (lse_lp (map (fun i => tget t (map (upd e v i) vs)) (seq 0 (card v)))) as [A B].
      - intros x Hx. apply in_map_iff in Hx. destruct Hx as (i & <- & Hx). apply in_seq in Hx. apply Hlp.
        intros w Hw. unfold upd. destruct (string_dec w v) as [->|N]; [lia|auto].
      - split; [exact A|]. rewrite B, map_map. reflexivity. }
    destruct (IH t1 card1 (filter (fun w => negb (eqb w v)) S)) as (t' & Ht' & S' & G').
    + exact Ho'.
    + intros w Hw. apply Hi. right; exact Hw.
    + intros w Hw. apply filter_In. split; [apply HiS; right; exact Hw|]. apply negb_true_iff, not_true_iff_false.
      rewrite eqb_true. intros ->. contradiction.
    + cbn [t1 tshape]. rewrite replace_nth_map by assumption. reflexivity.
    + intros w Hw. unfold card1. destruct (string_dec w v); [lia|]. apply Hp. right; exact Hw.
    + intros e He. apply L1. intros w Hw N.
      assert (Hw' : In w (filter (fun w => negb (eqb w v)) S)).
      { apply filter_In. split; [exact Hw|]. apply negb_true_iff, not_true_iff_false. now rewrite eqb_true. }
      specialize (He w Hw'). unfold card1 in He. destruct (string_dec w v); [congruence|exact He].
    + exists t'. split; [exact Ht'|]. split.
      * rewrite S'. apply map_ext. intros w. cbn [mem]. unfold card1.
        destruct (string_dec w v) as [N|N]; destruct (eq_dec w v) as [N'|N']; try congruence.
        all: destruct (mem _ out); try reflexivity; congruence.
      * intros e He.
        destruct (G' e) as [A B].
        { intros w Hw Hnw. apply filter_In in Hw. destruct Hw as [Hw Hwv]. apply negb_true_iff, not_true_iff_false in Hwv.
          rewrite eqb_true in Hwv. unfold card1. destruct (string_dec w v) as [->|N]; [congruence|].
          apply He; [exact Hw|]. intros [C|C]; [congruence|contradiction]. }
        split; [exact A|]. rewrite B.
        rewrite (sum_over_ext_card card1 card).
        2: { intros w Hw. unfold card1. destruct (string_dec w v) as [->|]; [contradiction|reflexivity]. }
        set (g := fun e => pot (tget t (map e vs))).
        assert (Hext : ext g).
        { intros e1 e2 H. unfold g. do 2 f_equal. apply map_ext. exact H. }
        rewrite (sum_over_perm card (v :: out) (out ++ [v]) g (Permutation_cons_append _ _) Ho Hext).
        rewrite sum_over_app. apply sum_over_ext_range. intros e' H1 H2. apply L1.
        intros w Hw N. destruct (in_dec string_dec w out) as [D|D]; [auto|].
        rewrite (H2 w D). apply He; [exact Hw|]. intros [C|C]; [congruence|contradiction].
Qed.

(** ** squeeze *)
Lemma unsqueeze_named (e : env) (card : string -> nat) (p : string -> bool) vs :
  (forall v, In v vs -> p v = true -> card v <> 1) -> (forall v, In v vs -> p v = false -> card v = 1) ->
  filter (fun n => negb (Nat.eqb n 1)) (map card vs) = map card (filter p vs) /\
  unsqueeze (map card vs) (map e (filter p vs)) = map (fun v => if p v then e v else 0) vs.
Proof.
  induction vs as [|v vs IH]; intros H1 H2; [split; reflexivity|].
  destruct (IH (fun w Hw => H1 w (or_intror Hw)) (fun w Hw => H2 w (or_intror Hw))) as [I1 I2].
  specialize (H1 v (or_introl eq_refl)). specialize (H2 v (or_introl eq_refl)).
  cbn [map filter unsqueeze]. destruct (p v) eqn:E.
  - destruct (card v =? 1) eqn:C; [apply Nat.eqb_eq in C; destruct (H1 eq_refl C)|]. cbn [negb map].
    split; [now f_equal|]. now f_equal.
  - rewrite (H2 eq_refl). cbn [Nat.eqb negb]. split; [exact I1|]. now f_equal.
Qed.

(** ** marginal, kept variables in the factor's own order and not of cardinality one *)
Lemma d_marginalize_spec o f vrs (keep : bool) (kept : list string) : wf_dense f ->
  kept = (if keep then vrs else so o (set_diff (dvars f) vrs)) ->
  kept = filter (fun v => mem v kept) (dvars f) ->
  (forall v c, d_has_card f v c -> In v kept -> c <> 1) ->
  (forall v c, d_has_card f v c -> ~ In v kept -> c <> 0) ->
  exists r, d_marginalize o f vrs keep = Ok r /\ wf_dense r /\ dvars r = kept /\
    (forall v c, d_has_card r v c <-> d_has_card f v c /\ In v kept) /\
    (forall v ns, dget (dnames r) v = Some ns <-> dget (dnames f) v = Some ns /\ In v kept) /\
    (forall e rm, d_in_range r e -> NoDup rm -> (forall v, In v rm <-> In v (dvars f) /\ ~ In v kept) ->
       dpot r e = sum_over (d_card_of f) rm (dpot f) e).
Proof.
  intros Hw Hk Hf H1 H0. unfold d_marginalize, d_marginal_vars. rewrite <- Hk.
  set (out := filter (fun v => negb (mem v kept)) (dvars f)).
  assert (Hout : forall v, In v out <-> In v (dvars f) /\ ~ In v kept).
  { intros v. unfold out. now rewrite filter_In, negb_true_iff, mem_nIn. }
  assert (Hno : NoDup out) by (apply NoDup_filter, (ws_vars f Hw)).
  assert (Hoi : incl out (dvars f)) by (intros v Hv; apply Hout in Hv; tauto).
  assert (Hki : forall v, In v kept -> In v (dvars f)).
  { intros v Hv. rewrite Hf in Hv. apply filter_In in Hv. tauto. }
  assert (Hnk : NoDup kept) by (rewrite Hf; apply NoDup_filter, (ws_vars f Hw)).
  rewrite (mapM_py_index (dvars f) out Hoi). cbn [bind].
  destruct (lse_axes_gen (dvars f) (ws_vars f Hw) out (dtens f) (d_card_of f) (dvars f) Hno Hoi Hoi (d_shape f Hw))
    as (t & -> & St & Gt).
  { intros v Hv. apply Hout in Hv. specialize (H0 v _ (d_has_card_of f v Hw (proj1 Hv)) (proj2 Hv)). lia. }
  { intros e He. apply (wd_vals f Hw e). intros v c Hc. apply d_has_card_iff in Hc; auto. destruct Hc as [Hv ->]. auto. }
  cbn [bind]. rewrite (names_of_ok f kept Hw) by exact Hki. cbn [bind].
  set (card1 := fun v => if mem v out then 1 else d_card_of f v) in St.
  assert (Hsq := fun e => unsqueeze_named e card1 (fun v => mem v kept) (dvars f)).
  assert (K1 : forall v, In v (dvars f) -> mem v kept = true -> card1 v <> 1).
  { intros v Hv Hm. apply mem_In in Hm. unfold card1.
    rewrite (proj2 (mem_nIn v out)) by (rewrite Hout; tauto). apply (H1 v); [apply d_has_card_of; auto|exact Hm]. }
  assert (K2 : forall v, In v (dvars f) -> mem v kept = false -> card1 v = 1).
  { intros v Hv Hm. apply mem_nIn in Hm. unfold card1.
    now rewrite (proj2 (mem_In v out)) by (rewrite Hout; tauto). }
  assert (Ssq : tshape (squeeze t) = map (d_card_of f) kept).
  { cbn [squeeze tshape]. rewrite St. destruct (Hsq (fun _ => 0) K1 K2) as [-> _]. rewrite <- Hf.
    apply map_ext_in. intros v Hv. unfold card1. now rewrite (proj2 (mem_nIn v out)) by (rewrite Hout; tauto). }
  assert (Hlen : forall v, In v kept -> length (dedup (dname f v)) = d_card_of f v).
  { intros v Hv. apply dname_len; auto. }
  rewrite (mk_dense_ok kept (squeeze t) _ (d_card_of f) Hnk Ssq Hlen).
  destruct (mkd_wf kept (squeeze t) _ (d_card_of f) Hnk Ssq Hlen) as (W & C & N & _).
  set (r := mkd kept (squeeze t) (dname f)) in *.
  assert (V : forall e, d_in_range r e -> is_lp (dval r e) /\ dpot r e = sum_over (d_card_of f) out (dpot f) e).
  { intros e He. unfold dpot, dval. cbn [r mkd dvars dtens squeeze tget]. rewrite St.
    rewrite Hf at 1 2. destruct (Hsq e K1 K2) as [_ ->].
    destruct (Gt (fun v => if mem v kept then e v else 0)) as [A B].
    { intros v Hv Hnv. rewrite Hout in Hnv. destruct (mem v kept) eqn:E; [|apply mem_nIn in E; tauto].
      apply He. apply C. apply mem_In in E. auto. }
    split; [exact A|]. rewrite B. apply (sum_over_agree _ _ _ (dvars f)).
    - intros e1 e2 H. do 2 f_equal. now apply map_ext_in.
    - intros v Hv Hnv. rewrite Hout in Hnv. destruct (mem v kept) eqn:E; [reflexivity|]. apply mem_nIn in E. tauto. }
  exists r. split; [reflexivity|]. split; [split; [exact W|intros e He; now apply V]|]. split; [reflexivity|].
  split; [|split].
  - intros v c. rewrite C, d_has_card_iff by auto. split; [intros [A ->]; auto|tauto].
  - intros v ns. split; intros H.
    + assert (Hv : In v kept) by (exact (names_var _ v _ W H)). rewrite (N v Hv) in H. injection H as <-.
      split; [|exact Hv]. apply dname_get; auto.
    + destruct H as [H Hv]. rewrite (N v Hv). unfold dname, dget_or. now rewrite H.
  - intros e rm He Hr Hrm. destruct (V e He) as [_ ->]. apply sum_over_perm.
    + apply NoDup_Permutation; auto. intros v. rewrite Hout, Hrm. tauto.
    + exact Hno.
    + intros e1 e2 H. unfold dpot, dval. do 2 f_equal. now apply map_ext.
Qed.

(** ** cancel *)
Lemma tset_same {A} (t : tensor A) k x : In k (tindices t) ->
  exists t', tset t k x = Ok t' /\ tshape t' = tshape t /\
    forall i, In i (tindices t) -> tget t' i = if eqb i k then x else tget t i.
Proof.
  intros Hk. unfold tindices in *. apply In_assignments in Hk. unfold tset, ndim.
  rewrite (Forall2_length _ _ _ Hk), Nat.leb_refl.
  assert (E : forallb (fun ni => snd ni <? fst ni) (combine (tshape t) k) = true).
  { clear x. induction Hk as [|i c k s Hi Hk IH]; [reflexivity|]. cbn [combine forallb fst snd].
    rewrite (proj2 (Nat.ltb_lt i c) Hi). exact IH. }
  rewrite E. cbn [andb]. eexists. split; [reflexivity|]. cbn [tshape tget]. split; [reflexivity|].
  intros i Hi. apply In_assignments in Hi. rewrite firstn_all2; [reflexivity|].
  rewrite (Forall2_length _ _ _ Hi). lia.
Qed.
Lemma tset_fold {A} (x : A) sel : forall t, (forall k, In k sel -> In k (tindices t)) ->
  exists t', foldM (fun t k => tset t k x) sel t = Ok t' /\ tshape t' = tshape t /\
    forall i, In i (tindices t) -> tget t' i = if mem i sel then x else tget t i.
Proof.
  induction sel as [|k sel IH]; intros t Hk.
  - exists t. split; [reflexivity|]. split; reflexivity.
  - cbn [foldM]. destruct (tset_same t k x) as (t1 & -> & S1 & G1); [apply Hk; left; reflexivity|]. cbn [bind].
    assert (T1 : tindices t1 = tindices t) by (unfold tindices; now rewrite S1).
    destruct (IH t1) as (t' & -> & S' & G').
    { intros k' Hk'. rewrite T1. apply Hk. right; exact Hk'. }
    exists t'. split; [reflexivity|]. split; [congruence|]. intros i Hi. rewrite G' by now rewrite T1.
    rewrite G1 by exact Hi. cbn [mem]. unfold eqb. destruct (eq_dec i k); destruct (mem i sel); reflexivity.
Qed.
Lemma d_cancel_same_vars a b : wf_dense a -> wf_dense b -> dvars a = dvars b -> dvars a <> [] ->
  d_cards_agree a b -> names_agree a b ->
  (forall e, d_in_range a e -> dpot b e = 0%R -> dpot a e = 0%R) ->
  exists r, d_cancel a b = Ok r /\ wf_dense r /\
    (forall v c, d_has_card r v c <-> d_has_card a v c) /\
    (forall v ns, dget (dnames r) v = Some ns <-> dget (dnames a) v = Some ns) /\
    (forall e, d_in_range a e -> dpot b e <> 0%R -> dpot r e = (dpot a e / dpot b e)%R) /\
    (forall e, d_in_range a e -> dpot b e = 0%R -> dpot r e = 0%R).
Proof.
  intros Ha Hb Hv Hne Hc Hn Hac.
  assert (Hsh : tshape (dtens b) = tshape (dtens a)).
  { rewrite (d_shape a Ha), (d_shape b Hb), Hv. apply map_ext_in. intros v Hi. symmetry.
    apply (Hc v); apply d_has_card_of; auto. now rewrite Hv. }
  unfold d_cancel. unfold tbin. rewrite broadcast_same_length by now rewrite Hsh.
  rewrite Hsh, bshape_same. cbn [bind].
  set (mask := {| tshape := tshape (dtens a); tget := _ |}).
  assert (Gm : forall i, In i (tindices mask) ->
     tget mask i = (veqb (tget (dtens b) i) NInf && veqb (tget (dtens a) i) NInf)%bool).
  { intros i Hi. unfold tindices in Hi. cbn [mask tshape] in Hi. apply In_assignments in Hi. cbn [mask tget].
    now rewrite !bindex_in_range. }
  assert (X : exists aug, tset_where (dtens b) mask (Fin 0) = Ok aug /\ tshape aug = tshape (dtens b) /\
     forall i, In i (tindices mask) -> tget aug i =
       if (veqb (tget (dtens b) i) NInf && veqb (tget (dtens a) i) NInf)%bool then Fin 0 else tget (dtens b) i).
  { unfold tset_where. set (sel := filter (tget mask) (tindices mask)).
    assert (TI : tindices mask = tindices (dtens b)) by (unfold tindices; cbn [mask tshape]; now rewrite Hsh).
    assert (Hsel : forall i, In i (tindices mask) -> mem i sel = (veqb (tget (dtens b) i) NInf && veqb (tget (dtens a) i) NInf)%bool).
    { intros i Hi. rewrite <- (Gm i Hi). destruct (tget mask i) eqn:E.
      - apply mem_In. apply filter_In. auto.
      - apply mem_nIn. intros C. apply filter_In in C. destruct C. congruence. }
    destruct (tset_fold (Fin 0) sel (dtens b)) as (aug & Haug & S & G).
    { intros k Hk. apply filter_In in Hk. rewrite <- TI. tauto. }
    destruct sel as [|k sel'] eqn:Es.
    - exists (dtens b). split; [reflexivity|]. split; [reflexivity|]. intros i Hi. rewrite <- (Hsel i Hi). reflexivity.
    - assert (Hd : (ndim mask =? 0) = false).
      { apply Nat.eqb_neq. unfold ndim. cbn [mask tshape]. rewrite (ws_ndim a Ha).
        destruct (dvars a); [congruence|discriminate]. }
      rewrite Hd. exists aug. split; [exact Haug|]. split; [exact S|].
      intros i Hi. rewrite G by now rewrite <- TI. rewrite (Hsel i Hi). reflexivity. }
  destruct X as (aug & -> & Saug & Gaug). cbn [bind].
  destruct (sub_raw a b aug Ha Hb Hc Hn Saug) as (t & r & x & -> & H1 & H2 & H3 & H4 & H5 & H6).
  { rewrite Hv. apply incl_refl. }
  cbn [bind fst snd]. rewrite (check_names_ok a b Hn). cbn [bind]. exists x. split; [exact H1|].
  assert (Hrb : forall e, d_in_range a e -> d_in_range b e).
  { intros e He v c H. apply d_has_card_iff in H; auto. destruct H as [H ->]. apply He.
    apply d_has_card_iff; auto. split; [now rewrite Hv|]. symmetry. apply (Hc v); apply d_has_card_of; auto. now rewrite Hv. }
  assert (Hval : forall e, d_in_range a e ->
     dval x e = if Req_EM_T (dpot b e) 0 then NInf else vsub (dval a e) (dval b e)).
  { intros e He. rewrite (H6 e He). rewrite Gaug.
    2: { unfold tindices. cbn [mask tshape]. apply In_assignments. rewrite (d_shape a Ha), <- Hv. apply map_in_range.
         intros v Hi. apply He. apply d_has_card_of; auto. }
    change (tget (dtens b) (map e (dvars b))) with (dval b e). rewrite <- Hv.
    change (tget (dtens a) (map e (dvars a))) with (dval a e).
    specialize (Hac e He). pose proof (wd_vals a Ha e He) as La. pose proof (wd_vals b Hb e (Hrb e He)) as Lb.
    unfold dpot in *. destruct (Req_EM_T (pot (dval b e)) 0) as [Z|Z].
    - specialize (Hac Z). destruct (dval b e) as [|y| |]; cbn in Lb, Z; try tauto; [|pose proof (exp_pos y); lra].
      destruct (dval a e) as [|y| |]; cbn in La, Hac; try tauto. pose proof (exp_pos y); lra.
    - destruct (dval b e) as [|y| |]; cbn in Lb, Z; try tauto. }
  split; [split; [exact H2|]|].
  { intros e He. assert (He' : d_in_range a e) by (intros v c H; apply He, H4, H). rewrite (Hval e He').
    destruct (Req_EM_T (dpot b e) 0) as [Z|Z]; [exact I|]. apply pot_vsub; auto; [now apply (wd_vals a Ha)|].
    apply (wd_vals b Hb). auto. }
  split; [exact H4|]. split; [exact H5|]. split.
  - intros e He Z. unfold dpot at 1. rewrite (Hval e He). destruct (Req_EM_T (dpot b e) 0); [contradiction|].
    apply pot_vsub; auto; [now apply (wd_vals a Ha)|]. apply (wd_vals b Hb). auto.
  - intros e He Z. unfold dpot. rewrite (Hval e He). destruct (Req_EM_T (dpot b e) 0); [reflexivity|contradiction].
Qed.

Lemma bshape_range : forall s1 s2 s idx, bshape s1 s2 = Ok s -> Forall2 (fun i c => i < c) idx s ->
  Forall2 (fun i c => i < c) (map (fun ni => if Nat.eqb (fst ni) 1 then 0 else snd ni) (combine s1 idx)) s1.
Proof.
  induction s1 as [|a s1 IH]; intros [|b s2] s idx H HF; cbn [bshape] in H; try discriminate.
  - constructor.
  - destruct (bshape s1 s2) as [q|] eqn:E; [|discriminate]. cbn [bind] in H.
    assert (exists n, s = n :: q /\ (n = a \/ a = 1)) as (n & -> & Hn).
    { destruct (a =? b) eqn:E1; [injection H as <-; eauto|].
      destruct (a =? 1) eqn:E2; [injection H as <-; apply Nat.eqb_eq in E2; eauto|].
      destruct (b =? 1) eqn:E3; [injection H as <-; eauto|discriminate]. }
    inversion HF as [|i ? idx' ? Hi HF']; subst. cbn [combine map fst snd]. constructor.
    + destruct (a =? 1) eqn:E1; [apply Nat.eqb_eq in E1; lia|]. apply Nat.eqb_neq in E1. destruct Hn; [subst; exact Hi|contradiction].
    + eapply IH; eauto.
Qed.
Lemma bindex_range s1 s2 s idx : broadcast_shapes s1 s2 = Ok s -> Forall2 (fun i c => i < c) idx s ->
  Forall2 (fun i c => i < c) (bindex s1 idx) s1.
Proof.
  unfold broadcast_shapes. intros H HF.
  pose proof (bshape_range _ _ _ _ H HF) as G.
  assert (Hl : length idx = Nat.max (length s1) (length s2)).
  { rewrite (Forall2_length _ _ _ HF). clear HF G. revert H. unfold pad_shape.
    assert (L : forall a b r, bshape a b = Ok r -> length r = length a).
    { induction a as [|x a IH]; intros [|y b] r H; cbn [bshape] in H; try discriminate; [injection H as <-; reflexivity|].
      destruct (bshape a b) as [q|] eqn:E; [|discriminate]. cbn [bind] in H. specialize (IH _ _ E).
      destruct (x =? y); [injection H as <-; cbn; lia|]. destruct (x =? 1); [injection H as <-; cbn; lia|].
      destruct (y =? 1); [injection H as <-; cbn; lia|discriminate]. }
    intros H. rewrite (L _ _ _ H), app_length, repeat_length. lia. }
  unfold bindex. rewrite Hl. unfold pad_shape in G. set (k := Nat.max (length s1) (length s2) - length s1) in *.
  clearbody k. clear H HF Hl. revert idx G. induction k as [|k IH]; intros idx G; [exact G|].
  destruct idx as [|i idx]; cbn [repeat app combine map skipn] in *; inversion G; subst.
  apply IH. assumption.
Qed.
Lemma d_cancel_positive a b : wf_dense a -> wf_dense b -> incl (dvars b) (dvars a) ->
  d_cards_agree a b -> names_agree a b ->
  (exists s, broadcast_shapes (tshape (dtens b)) (tshape (dtens a)) = Ok s) ->
  (forall e, d_in_range b e -> dpot b e <> 0%R) ->
  exists r, d_cancel a b = Ok r /\ wf_dense r /\
    (forall v c, d_has_card r v c <-> d_has_card a v c) /\
    (forall v ns, dget (dnames r) v = Some ns <-> dget (dnames a) v = Some ns) /\
    (forall e, d_in_range a e -> dpot r e = (dpot a e / dpot b e)%R).
Proof.
  intros Ha Hb Hi Hc Hn (s & Hbs) Hpos. unfold d_cancel, tbin. rewrite Hbs. cbn [bind].
  set (mask := {| tshape := s; tget := _ |}).
  assert (Hm : filter (tget mask) (tindices mask) = []).
  { destruct (filter (tget mask) (tindices mask)) as [|i l] eqn:E; [reflexivity|]. exfalso.
    assert (Hin : In i (filter (tget mask) (tindices mask))) by (rewrite E; left; reflexivity).
    apply filter_In in Hin. destruct Hin as [Hin Ht]. unfold tindices in Hin. cbn [mask tshape] in Hin.
    apply In_assignments in Hin. cbn [mask tget] in Ht. apply andb_true_iff in Ht. destruct Ht as [Ht _].
    pose proof (bindex_range _ _ _ _ Hbs Hin) as Hr.
    set (k := bindex (tshape (dtens b)) i) in *.
    assert (Hk : map (env_of (dvars b) k) (dvars b) = k).
    { apply map_env_of; [apply (ws_vars b Hb)|]. rewrite (Forall2_length _ _ _ Hr). apply (ws_ndim b Hb). }
    apply (Hpos (env_of (dvars b) k)).
    - intros v c Hvc. unfold d_has_card in Hvc. rewrite <- Hk in Hr. clear - Hr Hvc. revert Hr Hvc.
      generalize (env_of (dvars b) k). intros e. generalize (dvars b) (tshape (dtens b)). induction l as [|x l IH]; intros [|y m] Hr Hvc; try (destruct Hvc).
      + injection H as -> ->. cbn [map] in Hr. inversion Hr; subst; assumption.
      + cbn [map] in Hr. inversion Hr; subst; eauto.
    - unfold dpot, dval. rewrite Hk. destruct (tget (dtens b) k); cbn in *; try discriminate; reflexivity. }
  unfold tset_where. rewrite Hm. cbn [bind].
  destruct (sub_raw a b (dtens b) Ha Hb Hc Hn eq_refl Hi) as (t & r & x & -> & H1 & H2 & H3 & H4 & H5 & H6).
  cbn [bind fst snd]. rewrite (check_names_ok a b Hn). cbn [bind]. exists x. split; [exact H1|].
  assert (Hrb : forall e, d_in_range a e -> d_in_range b e).
  { intros e He v c H. apply d_has_card_iff in H; auto. destruct H as [H ->]. apply He.
    apply d_has_card_iff; auto. split; [auto|]. symmetry. apply (Hc v); apply d_has_card_of; auto. }
  assert (G : forall e, d_in_range a e -> dpot x e = (dpot a e / dpot b e)%R /\ is_lp (dval x e)).
  { intros e He. unfold dpot. rewrite (H6 e He). change (tget (dtens b) (map e (dvars b))) with (dval b e).
    apply pot_vsub; [now apply (wd_vals a Ha)|apply (wd_vals b Hb); auto|apply Hpos; auto]. }
  split; [split; [exact H2|]|].
  { intros e He. apply G. intros v c H. apply He, H4, H. }
  split; [exact H4|]. split; [exact H5|]. intros e He. now apply G.
Qed.

(** ** indices and environments *)
Lemma d_index_env f k : wf_shape f -> In k (tindices (dtens f)) ->
  map (env_of (dvars f) k) (dvars f) = k /\ d_in_range f (env_of (dvars f) k).
Proof.
  intros Hw Hk. unfold tindices in Hk. apply In_assignments in Hk.
  assert (E : map (env_of (dvars f) k) (dvars f) = k).
  { apply map_env_of; [apply (ws_vars f Hw)|]. rewrite (Forall2_length _ _ _ Hk). apply (ws_ndim f Hw). }
  split; [exact E|]. intros v c Hvc. unfold d_has_card in Hvc. rewrite <- E in Hk. clear - Hk Hvc. revert Hk Hvc.
  generalize (env_of (dvars f) k). intros e. generalize (dvars f) (tshape (dtens f)).
  induction l as [|x l IH]; intros [|y m] Hr Hvc; try (destruct Hvc).
  - injection H as -> ->. cbn [map] in Hr. inversion Hr; subst; assumption.
  - cbn [map] in Hr. inversion Hr; subst; eauto.
Qed.
Lemma d_env_index f e : wf_shape f -> d_in_range f e -> In (map e (dvars f)) (tindices (dtens f)).
Proof.
  intros Hw He. unfold tindices. rewrite (d_shape f Hw). apply In_assignments. apply map_in_range.
  intros v Hv. apply He. apply d_has_card_of; auto.
Qed.

(** ** equality *)
Lemma d_equals_spec f g rtol atol : wf_shape f -> wf_shape g -> d_cards_agree f g ->
  exists b, d_equals f g rtol atol = Ok b /\
    (b = true <-> (forall v, In v (dvars f) <-> In v (dvars g)) /\
       forall e, d_in_range f e -> visclose (dval f e) (dval g e) rtol atol = true).
Proof.
  intros Hf Hg Hc. unfold d_equals. destruct (seteqb (dvars f) (dvars g)) eqn:E; cbn [negb].
  2: { exists false. split; [reflexivity|]. split; [discriminate|]. intros [H _]. exfalso.
       assert (seteqb (dvars f) (dvars g) = true) by now apply seteqb_iff. congruence. }
  pose proof (proj1 (seteqb_iff _ _) E) as Hin.
  assert (HP : Permutation (dvars g) (dvars f)).
  { apply NoDup_Permutation; [apply (ws_vars g Hg)|apply (ws_vars f Hf)|]. intros v. now rewrite Hin. }
  destruct (d_reorder_spec g (dvars f) Hg HP) as (g' & -> & W & V & C & _ & G). cbn [bind].
  assert (Hsh : tshape (dtens g') = tshape (dtens f)).
  { rewrite (d_shape f Hf), (d_shape g' W), V. apply map_ext_in. intros v Hv. symmetry.
    apply (Hc v); [apply d_has_card_of; auto|]. apply C. apply d_has_card_of; auto. now rewrite V. }
  unfold tbin. rewrite broadcast_same_length by now rewrite Hsh. rewrite Hsh, bshape_same. cbn [bind].
  eexists. split; [reflexivity|]. rewrite forallb_forall. unfold telems, tindices. cbn [tshape tget].
  split.
  - intros H. split; [exact Hin|]. intros e He. apply H. apply in_map_iff. exists (map e (dvars f)). split.
    + pose proof (d_env_index f e Hf He) as Hk. unfold tindices in Hk. apply In_assignments in Hk.
      rewrite !bindex_in_range by exact Hk. rewrite <- (G e). unfold dval. now rewrite V.
    + exact (d_env_index f e Hf He).
  - intros [_ H] x Hx. apply in_map_iff in Hx. destruct Hx as (k & <- & Hk).
    destruct (d_index_env f k Hf Hk) as [E1 E2]. specialize (H _ E2). rewrite <- (G _) in H.
    unfold dval in H. rewrite V, E1 in H. apply In_assignments in Hk. now rewrite !bindex_in_range.
Qed.

(** ** argmax *)
Lemma product_lex (ls : list (list nat)) : (forall l, In l ls -> exists n, l = seq 0 n) ->
  forall l1 k l2, product ls = l1 ++ k :: l2 -> forall k', In k' l1 -> lex_lt k' k.
Proof.
  induction ls as [|l ls IH]; intros Hs l1 k l2 H k' Hk'.
  - cbn in H. destruct l1 as [|x l1]; [destruct Hk'|]. cbn in H. injection H as _ H. destruct l1; discriminate.
  - cbn [product] in H. destruct (Hs l (or_introl eq_refl)) as (n & ->).
    assert (IH' := IH (fun l H => Hs l (or_intror H))). clear IH Hs.
    set (P := product ls) in *.
    assert (G : forall m a l1 l2, flat_map (fun x => map (cons x) P) (seq a m) = l1 ++ k :: l2 ->
       In k' l1 -> lex_lt k' k).
    { clear l1 l2 H Hk'. induction m as [|m IHm]; intros a l1 l2 H Hk'.
      - cbn in H. destruct l1; discriminate.
      - cbn [seq flat_map] in H.
        destruct (Nat.lt_ge_cases (length l1) (length (map (cons a) P))) as [Hl|Hl].
        + (* k in the first block *)
          assert (Hsp : exists q, map (cons a) P = l1 ++ k :: q).
          { exists (firstn (length (map (cons a) P) - S (length l1)) l2).
            assert (E := f_equal (firstn (length (map (cons a) P))) H).
            rewrite firstn_app, Nat.sub_diag, firstn_all, firstn_O, app_nil_r in E. rewrite E at 1.
            rewrite firstn_app. rewrite firstn_all2 by lia. f_equal.
            replace (length (map (cons a) P) - length l1) with (S (length (map (cons a) P) - S (length l1))) by lia.
            reflexivity. }
          destruct Hsp as (q & Hq).
          assert (Hi : In k' (map (cons a) P)) by (rewrite Hq; apply in_app_iff; auto).
          assert (Hi' : In k (map (cons a) P)) by (rewrite Hq; apply in_app_iff; right; left; reflexivity).
          apply in_map_iff in Hi, Hi'. destruct Hi as (k0' & <- & _), Hi' as (k0 & <- & _).
          cbn. right. split; [reflexivity|].
          assert (E := f_equal (map (@tl nat)) Hq). rewrite map_map, map_app in E. cbn [map tl] in E.
          rewrite map_id in E. apply (IH' _ _ _ E). apply in_map_iff. exists (a :: k0'). auto.
        + (* k in a later block *)
          assert (Hsp : exists q, l1 = map (cons a) P ++ q /\
             flat_map (fun x => map (cons x) P) (seq (S a) m) = q ++ k :: l2).
          { exists (skipn (length (map (cons a) P)) l1).
            assert (E : firstn (length (map (cons a) P)) l1 = map (cons a) P).
            { assert (E := f_equal (firstn (length (map (cons a) P))) H).
              rewrite firstn_app, Nat.sub_diag, firstn_all, firstn_O, app_nil_r in E. rewrite E at 2.
              rewrite firstn_app. replace (length (map (cons a) P) - length l1) with 0 by lia. now rewrite app_nil_r. }
            split; [rewrite <- E at 1; symmetry; apply firstn_skipn|].
            rewrite <- (firstn_skipn (length (map (cons a) P)) l1), E, <- app_assoc in H.
            now apply app_inv_head in H. }
          destruct Hsp as (q & -> & Hq). apply in_app_iff in Hk'. destruct Hk' as [Hk'|Hk'].
          * apply in_map_iff in Hk'. destruct Hk' as (k0' & <- & _).
            assert (Hi : In k (flat_map (fun x => map (cons x) P) (seq (S a) m))).
            { rewrite Hq. apply in_app_iff. right; left; reflexivity. }
            apply in_flat_map in Hi. destruct Hi as (i & Hi & Hk). apply in_seq in Hi.
            apply in_map_iff in Hk. destruct Hk as (k0 & <- & _). cbn. left. lia.
          * eapply IHm; eauto. }
    eapply G; eauto.
Qed.
Lemma lex_lt_irrefl k : ~ lex_lt k k.
Proof. induction k as [|i k IH]; cbn; [tauto|]. intros [H|[_ H]]; [lia|auto]. Qed.
Lemma lex_lt_asym k l : lex_lt k l -> ~ lex_lt l k.
Proof.
  revert l; induction k as [|i k IH]; intros [|j l] H; cbn in *; try tauto.
  intros [C|[C1 C2]]; destruct H as [H|[H1 H2]]; try lia. exact (IH _ H2 C2).
Qed.
Lemma vgt_lp x y : is_lp x -> is_lp y -> vgt x y = vltb y x.
Proof. unfold vgt. destruct x, y; cbn [is_lp is_nan negb andb]; intros; try tauto; apply orb_false_r. Qed.

Lemma argmax_fold_d (t : tensor val) rest : forall best pre,
  (forall k, In k (best :: rest) -> is_lp (tget t k)) ->
  (forall k, In k pre -> (pot (tget t k) < pot (tget t best))%R) ->
  exists pre' post, let m := fold_left (fun best j => if vgt (tget t j) (tget t best) then j else best) rest best in
    pre ++ best :: rest = pre' ++ m :: post /\
    (forall k, In k pre' -> (pot (tget t k) < pot (tget t m))%R) /\
    (forall k, In k post -> (pot (tget t k) <= pot (tget t m))%R).
Proof.
  assert (G : forall rest best pre mid,
    (forall k, In k (best :: mid ++ rest) -> is_lp (tget t k)) ->
    (forall k, In k pre -> (pot (tget t k) < pot (tget t best))%R) ->
    (forall k, In k mid -> (pot (tget t k) <= pot (tget t best))%R) ->
    exists pre' post, let m := fold_left (fun best j => if vgt (tget t j) (tget t best) then j else best) rest best in
      pre ++ best :: mid ++ rest = pre' ++ m :: post /\
      (forall k, In k pre' -> (pot (tget t k) < pot (tget t m))%R) /\
      (forall k, In k post -> (pot (tget t k) <= pot (tget t m))%R)).
  { clear rest. induction rest as [|j rest IH]; intros best pre mid Hlp H1 H2.
    - exists pre, mid. cbn [fold_left]. rewrite app_nil_r. auto.
    - cbn [fold_left].
      assert (Lb : is_lp (tget t best)) by (apply Hlp; left; reflexivity).
      assert (Lj : is_lp (tget t j)) by (apply Hlp; right; apply in_app_iff; right; left; reflexivity).
      rewrite (vgt_lp _ _ Lj Lb). destruct (vltb (tget t best) (tget t j)) eqn:E.
      + pose proof (vltb_pot _ _ Lb Lj E) as Hlt.
        destruct (IH j (pre ++ best :: mid) []) as (pre' & post & A & B & C).
        * intros k Hk. apply Hlp. cbn [app] in Hk. right. apply in_app_iff. right. exact Hk.
        * intros k Hk. apply in_app_iff in Hk. destruct Hk as [Hk|[<-|Hk]]; [|exact Hlt|].
          -- specialize (H1 k Hk). lra.
          -- specialize (H2 k Hk). lra.
        * intros k [].
        * exists pre', post. cbn [app] in A. rewrite <- app_assoc in A. cbn [app] in A. auto.
      + pose proof (vltb_pot_false _ _ Lb Lj E) as Hle.
        destruct (IH best pre (mid ++ [j])) as (pre' & post & A & B & C).
        * intros k Hk. apply Hlp. rewrite <- app_assoc in Hk. exact Hk.
        * exact H1.
        * intros k Hk. apply in_app_iff in Hk. destruct Hk as [Hk|[<-|[]]]; auto.
        * exists pre', post. rewrite <- app_assoc in A. cbn [app] in A. auto. }
  intros best pre Hlp H1. apply (G rest best pre []); auto. intros k [].
Qed.
Lemma d_argmax_spec f : wf_dense f -> (exists e, d_in_range f e) ->
  exists e, d_argmax f = Ok (map e (dvars f)) /\ d_in_range f e /\
    (forall e', d_in_range f e' -> (dpot f e' <= dpot f e)%R) /\
    (forall e', d_in_range f e' -> lex_lt (map e' (dvars f)) (map e (dvars f)) -> (dpot f e' < dpot f e)%R).
Proof.
  intros Hw (e0 & He0). unfold d_argmax, targmax.
  pose proof (d_env_index f e0 Hw He0) as H0.
  destruct (tindices (dtens f)) as [|i rest] eqn:Ei; [destruct H0|].
  assert (Hlp : forall k, In k (i :: rest) -> is_lp (tget (dtens f) k)).
  { intros k Hk. rewrite <- Ei in Hk. destruct (d_index_env f k Hw Hk) as [E1 E2].
    rewrite <- E1. apply (wd_vals f Hw _ E2). }
  destruct (argmax_fold_d (dtens f) rest i [] Hlp) as (pre & post & Hm); [intros k []|].
  cbv zeta in Hm. set (m := fold_left _ rest i) in *. destruct Hm as (A & B & C). cbn [app] in A.
  assert (Hm : In m (tindices (dtens f))) by (rewrite Ei, A; apply in_app_iff; right; left; reflexivity).
  destruct (d_index_env f m Hw Hm) as [E1 E2].
  exists (env_of (dvars f) m). rewrite E1. split; [reflexivity|]. split; [exact E2|].
  assert (Pm : dpot f (env_of (dvars f) m) = pot (tget (dtens f) m)) by (unfold dpot, dval; now rewrite E1).
  rewrite Pm. split.
  - intros e' He'. pose proof (d_env_index f e' Hw He') as Hk. rewrite Ei, A in Hk. apply in_app_iff in Hk.
    destruct Hk as [Hk|[Hk|Hk]].
    + left. now apply B.
    + unfold dpot, dval. rewrite <- Hk. lra.
    + now apply C.
  - intros e' He' Hlt. pose proof (d_env_index f e' Hw He') as Hk. rewrite Ei, A in Hk. apply in_app_iff in Hk.
    destruct Hk as [Hk|[Hk|Hk]].
    + now apply B.
    + rewrite <- Hk in Hlt. exfalso. exact (lex_lt_irrefl _ Hlt).
    + exfalso. apply in_split in Hk. destruct Hk as (p1 & p2 & ->).
      rewrite A in Ei. unfold tindices, assignments in Ei.
      change (pre ++ m :: p1 ++ map e' (dvars f) :: p2) with (pre ++ (m :: p1) ++ map e' (dvars f) :: p2) in Ei.
      rewrite app_assoc in Ei.
      refine (lex_lt_asym _ _ Hlt (product_lex _ _ _ _ _ Ei m _)).
      * intros l Hl. apply in_map_iff in Hl. destruct Hl as (n & <- & _). eauto.
      * apply in_app_iff. right; left; reflexivity.
Qed.
Lemma d_argmax_names_spec f : wf_dense f -> (exists e, d_in_range f e) ->
  exists e l, d_argmax f = Ok (map e (dvars f)) /\ d_argmax_names f = Ok l /\ length l = length (dvars f) /\
    forall i v, nth_error (dvars f) i = Some v ->
      exists ns, dget (dnames f) v = Some ns /\ nth_error l i = nth_error ns (e v) /\ nth_error l i <> None.
Proof.
  intros Hw Hex. destruct (d_argmax_spec f Hw Hex) as (e & H1 & H2 & _).
  unfold d_argmax_names. unfold d_argmax in H1. rewrite H1. cbn [bind].
  set (g := fun v => nth (e v) (dname f v) (AInt 0)).
  assert (Hle : forall v, In v (dvars f) -> e v < length (dname f v)).
  { intros v Hv. eapply Nat.lt_le_trans; [|apply dedup_length_le]. rewrite dname_len by auto. apply H2. apply d_has_card_of; auto. }
  assert (HM : mapM (fun vi => let* ns := dget_r (dnames f) (fst vi) in py_nth ns (snd vi)) (combine (dvars f) (map e (dvars f))) =
    Ok (map g (dvars f))).
  { assert (Hd : forall v, In v (dvars f) -> dget (dnames f) v = Some (dname f v)) by (intros; apply dname_get; auto).
    revert Hle Hd. generalize (dvars f). induction l as [|v l IH]; intros Hle Hd; [reflexivity|].
    cbn [map combine mapM fst snd]. unfold dget_r at 1. rewrite (Hd v (or_introl eq_refl)). cbn [bind].
    unfold py_nth at 1. rewrite (nth_error_nth' _ (AInt 0)) by (apply Hle; left; reflexivity). cbn [bind].
    rewrite IH; [reflexivity| |]; intros w H; [apply Hle|apply Hd]; right; exact H. }
  rewrite HM. exists e, (map g (dvars f)). split; [exact H1|]. split; [reflexivity|]. split; [apply map_length|].
  intros i v Hv. exists (dname f v). assert (Hin : In v (dvars f)) by (eapply nth_error_In; eauto).
  split; [apply dname_get; auto|]. rewrite (map_nth_error g _ _ Hv).
  rewrite (nth_error_nth' _ (AInt 0)) by now apply Hle. split; [reflexivity|discriminate].
Qed.
