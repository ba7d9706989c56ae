(** Copies of factorised tables. *)
From Coq Require Import String List Reals Permutation.
Import ListNotations.
From Verif Require Import FactTabFacts FactSparseFacts FactTabModel FactSparseModel OperFacts BaseFacts.
Local Open Scope string_scope.
Local Open Scope list_scope.
Lemma fz_copy_spec o a : oracle_ok o -> (forall g, In g (fz_factors a) -> wf_struct g) ->
  exists c, fz_copy o a = Ok c /\ fz_factors c = fz_factors a /\ NoDup (fz_vars c) /\ forall v, In v (fz_vars c) <-> exists f, In f (fz_factors a) /\ In v (svars f).
Proof.
  intros (Ho & _) T. unfold fz_copy, mk_fz. rewrite (copies_same _ T). cbn [bind]. rewrite (copies_same _ T). cbn [bind].
  eexists. split; [reflexivity|]. cbn [fz_factors fz_vars]. split; [reflexivity|].
  pose proof (Ho _ (NoDup_dedup (concat (map svars (fz_factors a))))) as P. split; [exact (Permutation_NoDup P (NoDup_dedup _))|].
  intros v. assert (In v (so o (dedup (concat (map svars (fz_factors a))))) <-> In v (dedup (concat (map svars (fz_factors a))))) as ->.
  { split; apply Permutation_in; [now apply Permutation_sym|exact P]. }
  rewrite In_dedup. rewrite in_concat. split.
  - intros (l & Hl & Hv). apply in_map_iff in Hl. destruct Hl as (f & <- & Hf). now exists f.
  - intros (f & Hf & Hv). exists (svars f). split; [now apply in_map|exact Hv].
Qed.
Lemma ft_copy_spec o a : oracle_ok o -> (forall g, In g (ft_factors a) -> wf_dense g) ->
  exists c, ft_copy o a = Ok c /\ Forall2 (fun x y => dvars y = dvars x /\ dtens y = dtens x /\ forall e, dval y e = dval x e) (ft_factors a) (ft_factors c) /\
    NoDup (ft_vars c) /\ forall v, In v (ft_vars c) <-> exists f, In f (ft_factors a) /\ In v (dvars f).
Proof.
  intros (Ho & _) T.
  assert (C : forall fs, (forall g, In g fs -> wf_dense g) -> mapM d_copy fs = Ok (map cp fs)).
  { induction fs as [|f fs IH]; intros H; [reflexivity|]. cbn [mapM map]. rewrite (d_copy_ok f (wd_s _ (H f (or_introl eq_refl)))). cbn [bind].
    rewrite IH by (intros g Hg; apply H; now right). reflexivity. }
  assert (W : forall g, In g (map cp (ft_factors a)) -> wf_dense g).
  { intros g Hg. apply in_map_iff in Hg. destruct Hg as (f & <- & Hf). destruct (OperFacts.d_copy_same f (T f Hf)) as (h & E & Wh & _).
    rewrite (d_copy_ok f (wd_s _ (T f Hf))) in E. injection E as <-. exact Wh. }
  unfold ft_copy, mk_ft. rewrite (C _ T). cbn [bind]. rewrite (C _ W). cbn [bind]. eexists. split; [reflexivity|]. cbn [ft_factors ft_vars]. split.
  { clear. induction (ft_factors a) as [|f fs IH]; cbn [map]; constructor; auto. }
  replace (map dvars (map cp (ft_factors a))) with (map dvars (ft_factors a)) by (rewrite map_map; reflexivity).
  pose proof (Ho _ (NoDup_dedup (concat (map dvars (ft_factors a))))) as P. split; [exact (Permutation_NoDup P (NoDup_dedup _))|].
  intros v. assert (In v (so o (dedup (concat (map dvars (ft_factors a))))) <-> In v (dedup (concat (map dvars (ft_factors a))))) as ->.
  { split; apply Permutation_in; [now apply Permutation_sym|exact P]. }
  rewrite In_dedup. rewrite in_concat. split.
  - intros (l & Hl & Hv). apply in_map_iff in Hl. destruct Hl as (f & <- & Hf). now exists f.
  - intros (f & Hf & Hv). exists (dvars f). split; [now apply in_map|exact Hv].
Qed.
