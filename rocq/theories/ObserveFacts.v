(** Observations in several steps. *)
From Coq Require Import String List Reals ZArith Lia.
Import ListNotations.
From Verif Require Export ObserveModel.
From Verif Require Import ElimFacts DenseLaws GaussReduce GaussFacts SparseExamples DenseGraphEx GraphLaws GraphLocalEx GaussExamples.
Local Open Scope string_scope.
Local Open Scope nat_scope.
Local Open Scope list_scope.

Section Lawful.
Context {F : Type} (ops : fops F nat) (card : string -> nat) (good : F -> Prop) (pt : F -> env -> R) (L : lawful ops card good pt).
Lemma observe_steps f vs ws us (e0 : env) : good f -> NoDup (vs ++ ws) -> NoDup us -> incl (vs ++ ws) (f_vars ops f) ->
  (forall v, In v us <-> In v vs \/ In v ws) -> pt f e0 <> 0%R ->
  exists a b r, observe (f_reduce ops) f vs (map e0 vs) = Ok a /\ observe (f_reduce ops) a ws (map e0 ws) = Ok b /\ observe (f_reduce ops) f us (map e0 us) = Ok r /\
    (forall v, In v (f_vars ops b) <-> In v (f_vars ops f) /\ ~ In v us) /\ (forall v, In v (f_vars ops r) <-> In v (f_vars ops f) /\ ~ In v us) /\
    (forall e, pt b e = pt r e) /\ forall e, (forall v, In v us -> e v = e0 v) -> pt b e = pt f e.
Proof.
  intros G N Nu I U P. unfold observe.
  destruct (NoDup_app_elim _ _ N) as (Nv & Nw & D).
  assert (Iv : incl vs (f_vars ops f)) by (intros v Hv; apply I, in_app_iff; now left).
  assert (Iu : incl us (f_vars ops f)) by (intros v Hv; apply I, in_app_iff; now apply U).
  destruct (lw_reduce_ok _ _ _ _ L f vs e0 G Nv Iv P) as (a & Ea).
  destruct (lw_reduce _ _ _ _ L f vs _ a G Nv Iv (map_length _ _) Ea) as (Ga & Va & Pa).
  assert (Iw : incl ws (f_vars ops a)) by (intros v Hv; apply Va; split; [apply I, in_app_iff; now right|intros C; exact (D v C Hv)]).
  assert (P' : pt a e0 <> 0%R) by now rewrite (Pa e0 eq_refl).
  destruct (lw_reduce_ok _ _ _ _ L a ws e0 Ga Nw Iw P') as (b & Eb).
  destruct (lw_reduce _ _ _ _ L a ws _ b Ga Nw Iw (map_length _ _) Eb) as (Gb & Vb & Pb).
  destruct (lw_reduce_ok _ _ _ _ L f us e0 G Nu Iu P) as (r & Er).
  destruct (lw_reduce _ _ _ _ L f us _ r G Nu Iu (map_length _ _) Er) as (Gr & Vr & Pr).
  assert (Hb : forall v, In v (f_vars ops b) <-> In v (f_vars ops f) /\ ~ In v us) by (intros v; rewrite Vb, Va, U; tauto).
  assert (Q : forall e, (forall v, In v us -> e v = e0 v) -> pt b e = pt f e).
  { intros e H. rewrite (Pb e), (Pa e); [reflexivity| |]; apply map_ext_in; intros v Hv; apply H, U; tauto. }
  exists a, b, r. do 3 (split; [assumption|]). split; [exact Hb|]. split; [exact Vr|]. split; [|exact Q].
  intros e. set (e1 := fun v => if mem v us then e0 v else e v).
  assert (E1 : forall v, In v us -> e1 v = e0 v) by (intros v Hv; unfold e1; now rewrite (proj2 (mem_In v us) Hv)).
  assert (X : forall g, good g -> (forall v, In v (f_vars ops g) -> ~ In v us) -> pt g e = pt g e1).
  { intros g Gg H. apply (lw_ext _ _ _ _ L); [exact Gg|]. intros v Hv. unfold e1. now rewrite (proj2 (mem_nIn v us) (H v Hv)). }
  rewrite (X b Gb), (X r Gr), (Q e1 E1), (Pr e1); [reflexivity|apply map_ext_in; exact E1| |]; intros v Hv; [now apply Vr in Hv|now apply Hb in Hv].
Qed.
End Lawful.

Lemma dense_steps f vs ws us (e0 : env) : wf_dense f -> NoDup (vs ++ ws) -> NoDup us -> (forall v, In v us <-> In v vs \/ In v ws) ->
  (forall v c, In v us -> d_has_card f v c -> e0 v < c) ->
  exists a b r, observe d_reduce f vs (map Z.of_nat (map e0 vs)) = Ok a /\ observe d_reduce a ws (map Z.of_nat (map e0 ws)) = Ok b /\
    observe d_reduce f us (map Z.of_nat (map e0 us)) = Ok r /\
    dvars b = dvars r /\ (forall v, In v (dvars r) <-> In v (dvars f) /\ ~ In v us) /\
    (forall v c, d_has_card b v c <-> d_has_card r v c) /\ (forall e, dval b e = dval r e) /\
    forall e, (forall v, In v us -> e v = e0 v) -> dval b e = dval f e.
Proof.
  intros W N Nu U R. unfold observe. destruct (NoDup_app_elim _ _ N) as (Nv & Nw & D).
  assert (Len : forall l : list string, length (map Z.of_nat (map e0 l)) = length l) by (intros l; now rewrite !map_length).
  assert (C : forall (l : list string) v z, In (v, z) (combine l (map Z.of_nat (map e0 l))) -> In v l /\ z = Z.of_nat (e0 v)).
  { induction l as [|x l IH]; cbn; [tauto|]. intros v z [E|E]; [injection E as <- <-; tauto|]. destruct (IH v z E); tauto. }
  destruct (d_reduce_spec f vs _ W Nv (Len vs)) as (a & Ea & Wa & Va & Ha & _ & Pa).
  { intros v z c H Hc. destruct (C _ _ _ H) as (Hv & ->). pose proof (R v c (proj2 (U v) (or_introl Hv)) Hc). lia. }
  destruct (d_reduce_spec a ws _ Wa Nw (Len ws)) as (b & Eb & Wb & Vb & Hb & _ & Pb).
  { intros v z c H Hc. destruct (C _ _ _ H) as (Hv & ->). apply Ha in Hc. pose proof (R v c (proj2 (U v) (or_intror Hv)) (proj1 Hc)). lia. }
  destruct (d_reduce_spec f us _ W Nu (Len us)) as (r & Er & Wr & Vr & Hr & _ & Pr).
  { intros v z c H Hc. destruct (C _ _ _ H) as (Hv & ->). pose proof (R v c Hv Hc). lia. }
  assert (V : dvars b = dvars r).
  { rewrite Vb, Va, Vr, filter_filter. apply filter_ext_in. intros v _.
    destruct (mem v us) eqn:Mu, (mem v vs) eqn:Mv, (mem v ws) eqn:Mw; cbn; try reflexivity; exfalso;
      repeat match goal with H : mem _ _ = true |- _ => apply mem_In in H | H : mem _ _ = false |- _ => apply mem_nIn in H end;
      pose proof (U v); tauto. }
  assert (Hv : forall v, In v (dvars r) <-> In v (dvars f) /\ ~ In v us).
  { intros v. rewrite Vr, filter_In, negb_true_iff. split; intros (A & B); (split; [exact A|]); now apply mem_nIn. }
  assert (Q : forall e, (forall v, In v us -> e v = e0 v) -> dval b e = dval f e).
  { intros e H. rewrite Pb, Pa; [reflexivity| |]; intros v z Hz _; destruct (C _ _ _ Hz) as (Hi & ->); rewrite (H v); [reflexivity|apply U; tauto|reflexivity|apply U; tauto]. }
  exists a, b, r. do 3 (split; [assumption|]). split; [exact V|]. split; [exact Hv|].
  split; [intros v c; rewrite Hb, Ha, Hr, U; tauto|]. split; [|exact Q].
  intros e. set (e1 := fun v => if mem v us then e0 v else e v).
  assert (E1 : forall v, In v us -> e1 v = e0 v) by (intros v Hi; unfold e1; now rewrite (proj2 (mem_In v us) Hi)).
  assert (X : map e (dvars r) = map e1 (dvars r)).
  { apply map_ext_in. intros v Hi. unfold e1. now rewrite (proj2 (mem_nIn v us) (proj2 (proj1 (Hv v) Hi))). }
  assert (Y : dval b e1 = dval r e1).
  { rewrite (Q e1 E1), (Pr e1); [reflexivity|]. intros v z Hz _. destruct (C _ _ _ Hz) as (Hi & ->). now rewrite (E1 v Hi). }
  unfold dval in *. rewrite V in *. now rewrite X.
Qed.

Lemma gauss_steps f vs ws us (e0 : string -> R) : wf_gauss f -> sym_prec f -> NoDup (vs ++ ws) -> NoDup us -> incl (vs ++ ws) (ga_vars f) ->
  (forall v, In v us <-> In v vs \/ In v ws) -> (exists v, In v (ga_vars f) /\ ~ In v us) ->
  exists a b r, observe g_reduce f vs (map e0 vs) = Ok a /\ observe g_reduce a ws (map e0 ws) = Ok b /\ observe g_reduce f us (map e0 us) = Ok r /\
    (forall v, In v (ga_vars b) <-> In v (ga_vars f) /\ ~ In v us) /\ (forall v, In v (ga_vars r) <-> In v (ga_vars f) /\ ~ In v us) /\
    (forall e, GaussExamples.lp b e = GaussExamples.lp r e) /\ forall e, (forall v, In v us -> e v = e0 v) -> GaussExamples.lp b e = GaussExamples.lp f e.
Proof.
  intros W S N Nu I U (k & Hk & Nk). unfold observe. destruct (NoDup_app_elim _ _ N) as (Nv & Nw & D).
  assert (Iv : incl vs (ga_vars f)) by (intros v Hv; apply I, in_app_iff; now left).
  assert (Iu : incl us (ga_vars f)) by (intros v Hv; apply I, in_app_iff; now apply U).
  destruct (g_reduce_spec f vs (map e0 vs) W S Nv Iv) as (a & Ea & Wa & Sa & Va & Pa); [intros C; apply Nk, U; left; exact (C k Hk)|apply map_length|].
  assert (Va' : forall v, In v (ga_vars a) <-> In v (ga_vars f) /\ ~ In v vs) by (intros v; rewrite Va; apply rest_In).
  destruct (g_reduce_spec a ws (map e0 ws) Wa Sa Nw) as (b & Eb & Wb & Sb & Vb & Pb).
  { intros v Hv. apply Va'. split; [apply I, in_app_iff; now right|]. intros C. exact (D v C Hv). }
  { intros C. apply Nk, U. right. apply C, Va'. split; [exact Hk|]. intros C'. apply Nk, U. now left. }
  { apply map_length. }
  destruct (g_reduce_spec f us (map e0 us) W S Nu Iu) as (r & Er & Wr & Sr & Vr & Pr); [intros C; exact (Nk (C k Hk))|apply map_length|].
  assert (Hb : forall v, In v (ga_vars b) <-> In v (ga_vars f) /\ ~ In v us) by (intros v; rewrite Vb, rest_In, Va', U; tauto).
  assert (Hr : forall v, In v (ga_vars r) <-> In v (ga_vars f) /\ ~ In v us) by (intros v; rewrite Vr; apply rest_In).
  assert (Q : forall e, (forall v, In v us -> e v = e0 v) -> GaussExamples.lp b e = GaussExamples.lp f e).
  { intros e H. unfold GaussExamples.lp. rewrite (Pb e), (Pa e); [reflexivity| |]; apply map_ext_in; intros v Hv; apply H, U; tauto. }
  exists a, b, r. do 3 (split; [assumption|]). split; [exact Hb|]. split; [exact Hr|]. split; [|exact Q].
  intros e. set (e1 := fun v => if mem v us then e0 v else e v).
  assert (E1 : forall v, In v us -> e1 v = e0 v) by (intros v Hv; unfold e1; now rewrite (proj2 (mem_In v us) Hv)).
  assert (X : forall g, (forall v, In v (ga_vars g) -> ~ In v us) -> GaussExamples.lp g e = GaussExamples.lp g e1).
  { intros g H. unfold GaussExamples.lp. f_equal. apply map_ext_in. intros v Hv. unfold e1. now rewrite (proj2 (mem_nIn v us) (H v Hv)). }
  rewrite (X b), (X r), (Q e1 E1); [symmetry; unfold GaussExamples.lp; apply Pr, map_ext_in; exact E1| |]; intros v Hv; [now apply Hr in Hv|now apply Hb in Hv].
Qed.
