(** Gaussian functions and their integrals over all but some variables, in any order. *)
From Verif Require Export NlgTree2.
Local Open Scope string_scope.
Local Open Scope list_scope.
Local Open Scope R_scope.

Definition gf (vs : list string) (p : renv -> R) : Prop :=
  exists g, ggood false g /\ (forall v, In v (ga_vars g) <-> In v vs) /\ forall e, gval g e = p e.
(** [p], a function of [vs], integrated over the variables of [vs] that are not in [ws], is [q]. *)
Definition down (vs ws : list string) (p q : renv -> R) : Prop :=
  incl ws vs /\ forall rem, NoDup rem -> (forall v, In v rem <-> In v vs /\ ~ In v ws) -> summ p rem /\ forall e, iint rem p e (q e).

Lemma gf_pos vs p e : gf vs p -> 0 < p e.
Proof. intros (g & (_ & _ & P & _) & _ & H). rewrite <- H. apply P. Qed.
Lemma gf_dep vs p e e' : gf vs p -> (forall v, In v vs -> e v = e' v) -> p e = p e'.
Proof. intros (g & _ & V & H) A. rewrite <- !H. apply FactMarg.gval_ext. intros v Hv. now apply A, V. Qed.
Lemma gf_same vs ws p q : (forall v, In v vs <-> In v ws) -> (forall e, q e = p e) -> gf vs p -> gf ws q.
Proof. intros H E (g & G & V & L). exists g. split; [exact G|]. split; [intros v; rewrite V; apply H|intros e; now rewrite E]. Qed.
Lemma gf_mul vs ws p q : gf vs p -> gf ws q -> gf (vs ++ ws) (fun e => p e * q e).
Proof.
  intros (g & G & V & L) (h & H & V' & L'). destruct (gmul_law false g h G H) as (r & _ & Gr & Vr & Lr). exists r. split; [exact Gr|].
  split; [intros v; now rewrite Vr, in_app_iff, V, V'|]. intros e. now rewrite Lr, L, L'.
Qed.
Lemma enum (vs ws : list string) : exists rem, NoDup rem /\ forall v, In v rem <-> In v vs /\ ~ In v ws.
Proof. exists (set_diff vs ws). split; [apply NoDup_set_diff|]. intros v. apply In_set_diff. Qed.

Lemma down_refl vs p : down vs vs p p.
Proof.
  split; [apply incl_refl|]. intros rem _ H. assert (rem = []) as -> by (destruct rem as [|v l]; [reflexivity|]; destruct (proj1 (H v) (or_introl eq_refl)); contradiction).
  split; [intros x Hx (v & Hv); destruct (Hv (Hx v (fun f => f)))|]. intros e. reflexivity.
Qed.
Lemma down_same vs vs' ws ws' p p' q q' : (forall v, In v vs <-> In v vs') -> (forall v, In v ws <-> In v ws') -> (forall e, p' e = p e) -> (forall e, q' e = q e) ->
  down vs ws p q -> down vs' ws' p' q'.
Proof.
  intros Hv Hw Hp Hq (I & D). split; [intros v H; now apply Hv, I, Hw|]. intros rem N H. destruct (D rem N) as (S & J); [intros v; now rewrite H, Hv, Hw|].
  split; [now apply (summ_fun p)|]. intros e. rewrite Hq. apply (iint_ext rem p); [intros e'; now rewrite Hp|apply J].
Qed.
(** One order is enough. *)
Lemma down_one vs ws p q rem : gf vs p -> ws <> [] -> incl ws vs -> NoDup rem -> (forall v, In v rem <-> In v vs /\ ~ In v ws) -> summ p rem ->
  (forall e, iint rem p e (q e)) -> down vs ws p q /\ gf ws q.
Proof.
  intros (g & G & V & L) NW I N H S J. destruct id_oracle_ok as (o & Ho). destruct ws as [|w ws]; [congruence|].
  assert (Sg : summ (gval g) rem) by (apply (summ_fun p); [exact L|exact S]).
  destruct (pl_int _ _ _ _ _ (gauss_plaws false o Ho) g rem w G N) as (h & Gh & Vh & Ih); cbn [gauss_ops f_vars] in *.
  - intros v Hv. now apply V, H.
  - apply V, I. now left.
  - intros C. apply H in C. destruct C as (_ & C). apply C. now left.
  - exact Sg.
  - assert (E : forall e, gval h e = q e).
    { intros e. apply (iint_unique rem (gval g) e); [apply Ih, Permutation_refl|]. apply (iint_ext rem p); [intros e'; now rewrite L|apply J]. }
    split.
    + split; [exact I|]. intros rem' N' H'. assert (HP : Permutation rem' rem) by (apply NoDup_Permutation; auto; intros v; now rewrite H', H).
      split; [apply (summ_same p rem); [intros v; now rewrite H', H|exact S]|]. intros e. rewrite <- E. apply (iint_ext rem' (gval g)); [exact L|now apply Ih].
    + exists h. split; [exact Gh|]. split; [|exact E]. intros v. rewrite Vh, V, H. split; [|intros Hv; split; [now apply I|tauto]].
      intros (A & B). destruct (in_dec string_dec v (w :: ws)) as [C|C]; [exact C|]. exfalso. apply B. now split.
Qed.
Lemma down_gf vs ws p q : gf vs p -> ws <> [] -> down vs ws p q -> gf ws q.
Proof.
  intros G NW (I & D). destruct (enum vs ws) as (rem & N & H). destruct (D rem N H) as (S & J). now apply (down_one vs ws p q rem).
Qed.
Lemma down_trans vs ws us p q r : gf vs p -> us <> [] -> down vs ws p q -> down ws us q r -> down vs us p r.
Proof.
  intros G NU D1 D2. pose proof D1 as (I1 & E1). pose proof D2 as (I2 & E2).
  assert (NW : ws <> []) by (intros ->; destruct us as [|u us]; [congruence|exact (I2 u (or_introl eq_refl))]).
  pose proof (down_gf vs ws p q G NW D1) as Gq. destruct (enum vs ws) as (r1 & N1 & H1). destruct (enum ws us) as (r2 & N2 & H2).
  destruct (E1 r1 N1 H1) as (S1 & J1). destruct (E2 r2 N2 H2) as (S2 & J2). destruct G as (g & G & V & L). destruct Gq as (h & Gh & Vh & Lh).
  destruct id_oracle_ok as (o & Ho).
  assert (HR : forall v, In v (r2 ++ r1) <-> In v vs /\ ~ In v us).
  { intros v. rewrite in_app_iff, H1, H2. split.
    - intros [(A & B)|(A & B)]; split; auto.
    - intros (A & B). destruct (in_dec string_dec v ws); [left|right]; now split. }
  assert (S : summ p (r2 ++ r1)).
  { apply (summ_fun (gval g)); [intros e; now rewrite L|].
    apply (pl_app _ _ _ _ _ (gauss_plaws false o Ho) g h r2 r1 G Gh N1); cbn [gauss_ops f_vars].
    - intros v Hv. now apply V, H1.
    - intros v. rewrite Vh, V, H1. split; [intros A; split; [now apply I1|tauto]|]. intros (A & B). destruct (in_dec string_dec v ws) as [C|C]; [exact C|]. exfalso. apply B. now split.
    - apply (summ_fun p); [exact L|exact S1].
    - intros e. rewrite Lh. apply (iint_ext r1 p); [intros e'; now rewrite L|apply J1].
    - intros v Hv. now apply Vh, H2.
    - apply (summ_fun q); [exact Lh|exact S2]. }
  apply (down_one vs us p r (r2 ++ r1)).
  - exists g. now split.
  - exact NU.
  - intros v Hv. now apply I1, I2.
  - apply NoDup_app_intro; auto. intros v A B. apply H2 in A. apply H1 in B. tauto.
  - exact HR.
  - exact S.
  - intros e. apply (iint_app r2 r1 p q); [exact J1|apply J2].
Qed.
(** A function of other variables. *)
Lemma down_mul vs ws p q c : (forall e, 0 < p e) -> (forall e, 0 < c e) -> (forall e e', (forall v, In v vs /\ ~ In v ws \/ e v = e' v) -> c e = c e') ->
  down vs ws p q -> down vs ws (fun e => p e * c e) (fun e => q e * c e).
Proof.
  intros Pp Pc Hc (I & D). split; [exact I|]. intros rem N H. destruct (D rem N H) as (S & J). split.
  - apply (summ_mul _ p c); auto. intros e e' A. apply Hc. intros v. destruct (in_dec string_dec v rem) as [B|B]; [left; now apply H|right; now apply A].
  - intros e. rewrite Rmult_comm. apply (iint_ext rem (fun e => c e * p e)); [intros e'; apply Rmult_comm|]. apply iint_scal; [|apply J].
    intros y Hy e' t. apply Hc. intros v. destruct (string_dec v y) as [->|Nv]; [left; now apply H|right; now apply setv_other].
Qed.
Lemma down_const vs ws p q k : (forall e, 0 < p e) -> 0 < k -> down vs ws p q -> down vs ws (fun e => k * p e) (fun e => k * q e).
Proof.
  intros Pp Hk D. apply (down_same vs vs ws ws (fun e => p e * k) _ (fun e => q e * k)); try reflexivity; try (intros e; ring).
  now apply (down_mul vs ws p q (fun _ => k)).
Qed.
(** A factor about the variables that stay can be divided out. *)
Lemma down_div vs ws p q c : (forall e, 0 < p e) -> (forall e, 0 < c e) -> (forall e e', (forall v, In v ws -> e v = e' v) -> c e = c e') ->
  down vs ws (fun e => p e * c e) (fun e => q e * c e) -> down vs ws p q.
Proof.
  intros Pp Pc Hc D.
  apply (down_same vs vs ws ws (fun e => p e * c e * / c e) _ (fun e => q e * c e * / c e)); try reflexivity; try (intros e; field; apply Rgt_not_eq, Pc).
  apply (down_mul vs ws _ _ (fun e => / c e)); [intros e; now apply Rmult_lt_0_compat|intros e; now apply Rinv_0_lt_compat| |exact D].
  intros e e' H. f_equal. apply Hc. intros v Hv. destruct (H v) as [(_ & A)|A]; [contradiction|exact A].
Qed.
(** A function of [ks], which shares only [ws] with [vs]. *)
Lemma down_join vs ws ks p q c : (forall e, 0 < p e) -> gf ks c -> (forall v, In v vs -> In v ks -> In v ws) -> down vs ws p q ->
  down (vs ++ ks) (ws ++ ks) (fun e => p e * c e) (fun e => q e * c e).
Proof.
  intros Pp Gc HK D. assert (D' : down vs ws (fun e => p e * c e) (fun e => q e * c e)).
  { apply down_mul; auto; [intros e; exact (gf_pos ks c e Gc)|]. intros e e' H. apply (gf_dep ks c e e' Gc). intros v Hv.
    destruct (H v) as [(A & B)|A]; [exfalso; apply B; now apply HK|exact A]. }
  destruct D' as (I & D'). split; [intros v Hv; apply in_or_app; apply in_app_or in Hv; destruct Hv; [left; now apply I|now right]|].
  intros rem N H. apply D'; [exact N|]. intros v. rewrite H, !in_app_iff. split; [intros ([A|A] & B); tauto|].
  intros (A & B). split; [now left|]. intros [C|C]; [contradiction|]. apply B. now apply HK.
Qed.
(** Marginals that are computed. *)
Lemma down_marg o J S r : oracle_ok o -> ggood false J -> ga_vac J = false -> S <> [] -> NoDup S -> incl S (ga_vars J) -> g_marginalize o J S true = Ok r ->
  down (ga_vars J) S (gval J) (gval r).
Proof.
  intros Ho G Va NE NS I E. split; [exact I|]. intros rem N H.
  exact (proj2 (proj2 (pl_marg _ _ _ _ _ (gauss_plaws false o Ho) J S r G Va NE NS I E)) rem N H).
Qed.
