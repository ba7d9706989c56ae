(** The distribution arrays list every assignment once. *)
From Coq Require Import Sorted.
From Verif Require Export ArrModel.
From Verif Require Import SparseProofs3 DenseProofs3 DenseProofs2 SparseOps SparseBinop SumFacts.
Local Open Scope nat_scope.

Definition numv (x : val) : R := match x with Fin r => r | _ => 0%R end.
Lemma vexp_pot v : is_lp v -> vexp v = Fin (pot v).
Proof. destruct v; cbn; tauto. Qed.
Lemma sorted_pairs (l : list (list nat)) : (forall l1 k l2, l = l1 ++ k :: l2 -> forall k', In k' l1 -> lex_lt k' k) -> StronglySorted lex_lt l.
Proof.
  induction l as [|k l IH]; intros H; constructor.
  - apply IH. intros l1 k0 l2 E k' Hk'. apply (H (k :: l1) k0 l2); [now rewrite E|now right].
  - apply Forall_forall. intros k0 Hk0. apply in_split in Hk0. destruct Hk0 as (l1 & l2 & ->). apply (H (k :: l1) k0 l2); [reflexivity|now left].
Qed.
Theorem d_array_spec f : wf_dense f ->
  StronglySorted lex_lt (map fst (d_dense_array f)) /\
  (forall k x, In (k, x) (d_dense_array f) <-> exists e, d_in_range f e /\ k = map e (dvars f) /\ x = Fin (dpot f e)) /\
  Rsum (map (fun r => numv (snd r)) (d_dense_array f)) = d_weight_of f.
Proof.
  intros W. unfold d_dense_array. rewrite !map_map. cbn [fst snd]. split; [|split].
  - rewrite map_id. apply sorted_pairs. intros l1 k l2 E. unfold tindices, assignments in E. apply (product_lex _ ltac:(intros l Hl; apply in_map_iff in Hl; destruct Hl as (n & <- & _); now exists n) l1 k l2 E).
  - intros k x. rewrite in_map_iff. split.
    + intros (i & [= <- <-] & Hi). destruct (d_index_env f i W Hi) as (E1 & E2). exists (env_of (dvars f) i). split; [exact E2|]. split; [now symmetry|].
      pose proof (wd_vals f W _ E2) as L. unfold dpot, dval in *. rewrite E1 in *. now apply vexp_pot.
    + intros (e & He & -> & ->). exists (map e (dvars f)). split; [|exact (d_env_index f e W He)]. f_equal. apply vexp_pot. exact (wd_vals f W e He).
  - rewrite <- (map_map (tget (dtens f)) (fun v => numv (vexp v))). change (map (tget (dtens f)) (tindices (dtens f))) with (telems (dtens f)).
    transitivity (Rsum (map pot (telems (dtens f)))).
    + apply Rsum_ext. intros v Hv. rewrite (vexp_pot v); [reflexivity|]. now apply (telems_lp f).
    + rewrite (telems_sum f pot (fun _ => 0) W). reflexivity.
Qed.
Theorem s_array_spec f : wf_sparse f -> is_lp (sdef f) ->
  exists rows, s_dense_array f = Ok rows /\ NoDup (map fst rows) /\
  (forall k x, In (k, x) rows <-> exists e, in_range f e /\ k = map e (svars f) /\ x = Fin (spot f e)) /\
  Rsum (map (fun r => numv (snd r)) rows) = weight_of f.
Proof.
  intros W D. unfold s_dense_array, s_make_dense. rewrite (s_copy_ok f W). cbn [bind]. rewrite (vars_to_cards_ok f (svars f) W (incl_refl _)). cbn [bind stbl].
  destruct (complete_inner_spec (assignments (map (card_of f) (svars f))) (sdef f) (stbl f)) as (H1 & H2 & H3). specialize (H3 (wf_nodup f W)).
  set (t := complete_inner _ _ _) in *. eexists. split; [reflexivity|]. set (as_ := assignments (map (card_of f) (svars f))) in *.
  assert (HK : forall k, In k (dkeys t) <-> In k as_).
  { intros k. rewrite H2. split; [|tauto]. intros [H|H]; [|exact H]. unfold dkeys in H. apply in_map_iff in H. destruct H as ((k0 & v) & <- & H). cbn. apply In_assignments. rewrite <- (scards_map f W). exact (wf_keys f W k0 v H). }
  assert (HV : forall k v, In (k, v) t -> v = dget_or (stbl f) k (sdef f)).
  { intros k v H. rewrite <- H1. unfold dget_or. now rewrite (In_dget t k v H3 H). }
  assert (HL : forall k, is_lp (dget_or (stbl f) k (sdef f))).
  { intros k. unfold dget_or. destruct (dget (stbl f) k) as [v|] eqn:E; [|exact D]. exact (wf_vals f W k v (dget_In _ _ _ E)). }
  assert (HS : forall e, spot f e = pot (dget_or (stbl f) (map e (svars f)) (sdef f))) by reflexivity.
  assert (HE : forall k e, In k as_ -> map (upds e (svars f) k) (svars f) = k).
  { intros k e Hk. apply map_upds; [apply (wf_vars f W)|]. apply In_assignments in Hk. rewrite (Forall2_length _ _ _ Hk). apply map_length. }
  rewrite !map_map. cbn [fst snd]. split; [exact H3|]. split.
  - intros k x. rewrite in_map_iff. split.
    + intros ((k0 & v) & [= <- <-] & Hi). cbn [fst snd]. assert (Hk : In k0 as_) by (apply HK; unfold dkeys; apply in_map_iff; now exists (k0, v)).
      exists (upds (fun _ => 0) (svars f) k0). split; [now apply (in_range_upds f _ k0 W)|]. rewrite HS, (HE k0 _ Hk). split; [reflexivity|]. rewrite (HV k0 v Hi). apply vexp_pot, HL.
    + intros (e & He & -> & ->). assert (Hk : In (map e (svars f)) (dkeys t)).
      { apply HK. unfold as_. apply In_assign_range. clear -He W. assert (H : forall v, In v (svars f) -> e v < card_of f v) by (intros v Hv; apply He; apply has_card_iff; [exact W|now split]).
        induction (svars f) as [|v l IH]; cbn; constructor; [apply H; now left|apply IH; intros w Hw; apply H; now right]. }
      unfold dkeys in Hk. apply in_map_iff in Hk. destruct Hk as ((k & v) & Ek & Hi). exists (k, v). split; [|exact Hi]. cbn in *. subst k. f_equal. rewrite (HV _ v Hi), HS. apply vexp_pot, HL.
  - unfold weight_of. rewrite sum_over_assign. fold as_.
    transitivity (Rsum (map (fun k => pot (dget_or (stbl f) k (sdef f))) (dkeys t))).
    + unfold dkeys. rewrite map_map. apply Rsum_ext. intros (k & v) Hi. cbn [fst snd]. rewrite (HV k v Hi), vexp_pot by apply HL. reflexivity.
    + rewrite (Rsum_perm (map _ (dkeys t)) (map (fun k => pot (dget_or (stbl f) k (sdef f))) as_)).
      * apply Rsum_ext. intros k Hk. now rewrite HS, HE.
      * apply Permutation_map. apply NoDup_Permutation; [exact H3|apply NoDup_assignments|exact HK].
Qed.
