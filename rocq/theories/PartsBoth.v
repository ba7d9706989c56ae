(** The default rule "both" on tables with the same variables. *)
From Coq Require Import String List Lia Permutation.
Import ListNotations.
From Verif Require Export TableSpec SparseModel.
From Verif Require Import BaseFacts SparseFacts SparseBinop SparseOps.
Local Open Scope nat_scope.
Local Open Scope list_scope.

Lemma binop_both o a b f :
  oracle_ok o -> wf_struct a -> wf_struct b -> cards_agree a b ->
  veqb (sdef a) (sdef b) = true -> (forall v, In v (svars a) <-> In v (svars b)) -> svars a <> [] ->
  exists r, apply_binop o a b f RuleBoth = Ok r /\ (forall v, In v (svars r) <-> In v (svars a)) /\
    sdef r = f (sdef a) (sdef b) /\ (forall k x, In (k, x) (stbl r) -> length k = length (svars r)) /\
    forall e, sval r e = f (sval a e) (sval b e).
Proof.
  intros Ho Ha Hb Hc Hd Hs Hn0.
  assert (Ha_o : incl (b_rema o a b) (svars a)) by (intros v; rewrite In_b_rema by exact Ho; tauto).
  assert (Ha_i : incl (b_inter o a b) (svars a)) by (intros v; rewrite In_b_inter by exact Ho; tauto).
  assert (Hb_o : incl (b_remb o a b) (svars b)) by (intros v; rewrite In_b_remb by exact Ho; tauto).
  assert (Hb_i : incl (b_inter o a b) (svars b)) by (intros v; rewrite In_b_inter by exact Ho; tauto).
  assert (Ra : b_rema o a b = []).
  { destruct (b_rema o a b) as [|x l] eqn:E; [reflexivity|]. assert (In x (b_rema o a b)) as H by (rewrite E; left; reflexivity).
    apply In_b_rema in H; [|exact Ho]. rewrite Hs in H. tauto. }
  assert (Rb : b_remb o a b = []).
  { destruct (b_remb o a b) as [|x l] eqn:E; [reflexivity|]. assert (In x (b_remb o a b)) as H by (rewrite E; left; reflexivity).
    apply In_b_remb in H; [|exact Ho]. rewrite <- Hs in H. tauto. }
  destruct (nested_ok a _ _ Ha (perm_a o a b Ho (wf_vars a Ha))) as (na & Hna & Ha').
  destruct (nested_ok b _ _ Hb (perm_b o a b Ho (wf_vars b Hb))) as (nb & Hnb & Hb').
  rewrite (apply_binop_unfold o a b f RuleBoth na nb Ho Ha Hb Hc Hd Hna Hnb).
  unfold any_scope_op, any_scope_both. cbn [fst snd].
  pose proof (inter_cards o a b Ho Ha Hb Hc) as Hic. rewrite Hic.
  assert (Hne : forall d : val, make_dense_default (map (card_of b) (b_inter o a b)) d =
     Ok (map (fun x => (x, d)) (assignments (map (card_of b) (b_inter o a b))))).
  { intros d. destruct (svars a) as [|v0 l0] eqn:E0; [congruence|].
    assert (In v0 (b_inter o a b)) as Hv0. { apply In_b_inter; [exact Ho|]. rewrite E0. split; [left; reflexivity|apply Hs; left; reflexivity]. }
    destruct (b_inter o a b) as [|x l]; [destruct Hv0|]. reflexivity. }
  rewrite !Hne. cbn [bind].
  set (ci := map (card_of b) (b_inter o a b)) in *. set (d := sdef a) in *.
  set (dd := map (fun x => (x, d)) (assignments ci)).
  set (outer := ko o (dedup (dkeys na ++ dkeys nb))).
  set (combos := list_prod outer outer).
  set (SA := fun k => dget_or na k dd). set (SB := fun k => dget_or nb k dd).
  assert (Hdd : sdef b = d) by (symmetry; now apply veqb_eq).
  assert (Hsub : forall (nt : ntd) k, sub_or nt k (Some dd) = Ok (dget_or nt k dd)).
  { intros nt k. unfold sub_or, dget_or. destruct (dget nt k); reflexivity. }
  assert (Hddk : forall ki, In ki (dkeys dd) -> Forall2 (fun i c => i < c) ki ci).
  { intros ki Hki. unfold dd, dkeys in Hki. rewrite map_map in Hki. cbn [fst] in Hki.
    rewrite map_id in Hki. now apply In_assignments. }
  assert (Hout : forall k, In k outer <-> In k (dkeys na) \/ In k (dkeys nb)).
  { intros k. unfold outer. pose proof (proj2 Ho _ (NoDup_dedup (dkeys na ++ dkeys nb))) as Hko. split; intros H.
    - apply (Permutation_in _ (Permutation_sym Hko)) in H. apply in_app_iff. apply (proj1 (In_dedup _ _) H).
    - apply (Permutation_in _ Hko). apply In_dedup, in_app_iff, H. }
  assert (Hnil : forall k, In k outer -> k = []).
  { intros k H. apply Hout in H. destruct H as [H|H].
    - apply (src_range_outer a _ _ na k Ha Ha' Ha_o Ha_i) in H. rewrite Ra in H. inversion H. reflexivity.
    - apply (src_range_outer b _ _ nb k Hb Hb' Hb_o Hb_i) in H. rewrite Rb in H. inversion H. reflexivity. }
  assert (Hcom : forall ka kb, In (ka, kb) combos ->
     sub_or na ka (Some dd) = Ok (SA ka) /\ sub_or nb kb (Some dd) = Ok (SB kb) /\
     Forall2 (fun i c => i < c) ka (map (card_of a) (b_rema o a b)) /\
     Forall2 (fun i c => i < c) kb (map (card_of b) (b_remb o a b)) /\
     (forall ki, In ki (dkeys (SA ka)) \/ In ki (dkeys (SB kb)) ->
        Forall2 (fun i c => i < c) ki ci)).
  { intros ka kb H. apply in_prod_iff in H. destruct H as [Hka Hkb]. apply Hnil in Hka, Hkb. subst ka kb.
    split; [apply Hsub|]. split; [apply Hsub|]. split; [rewrite Ra; constructor|]. split; [rewrite Rb; constructor|].
    intros ki [Hki|Hki].
    - unfold SA, dget_or in Hki. destruct (dget na []) as [s|] eqn:E; [|now apply Hddk].
      apply dget_In in E. unfold dkeys in Hki. apply in_map_iff in Hki. destruct Hki as ([k' v] & <- & Hk'). cbn [fst].
      rewrite <- Hic. apply (src_range a _ _ na _ _ k' v Ha Ha' Ha_o Ha_i E Hk').
    - unfold SB, dget_or in Hki. destruct (dget nb []) as [s|] eqn:E; [|now apply Hddk].
      apply dget_In in E. unfold dkeys in Hki. apply in_map_iff in Hki. destruct Hki as ([k' v] & <- & Hk'). cbn [fst].
      apply (src_range b _ _ nb _ _ k' v Hb Hb' Hb_o Hb_i E Hk'). }
  destruct (apply_any_spec o na nb (Some dd) (Some dd) combos f d SA SB
              (length (b_rema o a b)) (length (b_remb o a b)) Ho) as (nt & Hnt & _).
  { intros ka kb H. destruct (Hcom ka kb H) as (H1 & H2 & H3 & H4 & _).
    apply Forall2_length in H3, H4. rewrite map_length in H3, H4. auto. }
  rewrite Hnt. cbn [bind].
  destruct (binop_core o a b f na nb na nb (Some dd) (Some dd) combos SA SB nt
              Ho Ha Hb Hc Hdd Ha' Hb' Hcom) as (r & Hr & Hres).
  - intros e He. split.
    + unfold SA. unfold dget_or at 2. destruct (dget na (map e (b_rema o a b))) as [s|] eqn:E.
      * apply (nested_or a _ _ na e s Ha' E).
      * fold d. unfold dd. rewrite dense_default_get. symmetry. apply (nested_absent a _ _ na e Ha' E).
    + unfold SB. unfold dget_or at 2. destruct (dget nb (map e (b_remb o a b))) as [s|] eqn:E.
      * fold d. rewrite <- Hdd. apply (nested_or b _ _ nb e s Hb' E).
      * fold d. unfold dd. rewrite dense_default_get. symmetry. rewrite <- Hdd. apply (nested_absent b _ _ nb e Hb' E).
  - exact Hnt.
  - exists r. split; [exact Hr|]. split; [|split; [|split]].
    + intros v. rewrite (br_vars _ _ _ _ _ _ Hres), (In_b_vars o a b Ho). rewrite <- Hs. tauto.
    + rewrite (br_def _ _ _ _ _ _ Hres), Hdd. reflexivity.
    + intros k x Hk. destruct (br_keys _ _ _ _ _ _ Hres k x Hk) as (_ & e & -> & _). apply map_length.
    + intros e. destruct (in_dec (fun x y => eq_dec x y) [] outer) as [Hi|Hi].
      * apply (br_in _ _ _ _ _ _ Hres). rewrite Ra, Rb. apply in_prod_iff. split; exact Hi.
      * rewrite (br_out _ _ _ _ _ _ Hres); [|rewrite Ra, Rb; intros H; apply in_prod_iff in H; tauto].
        rewrite Hout in Hi.
        rewrite (nested_absent a _ _ na e Ha'), (nested_absent b _ _ nb e Hb').
        -- fold d. now rewrite Hdd.
        -- rewrite Rb. cbn [map]. destruct (dget nb []) as [s|] eqn:E; [|reflexivity]. exfalso. apply Hi. right. apply dget_In in E. unfold dkeys. apply in_map_iff. eexists. split; [|exact E]. reflexivity.
        -- rewrite Ra. cbn [map]. destruct (dget na []) as [s|] eqn:E; [|reflexivity]. exfalso. apply Hi. left. apply dget_In in E. unfold dkeys. apply in_map_iff. eexists. split; [|exact E]. reflexivity.
Qed.
