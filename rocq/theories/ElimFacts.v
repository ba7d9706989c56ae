(** Laws of local computation: marginals in steps, products and marginals, evidence; elimination
    of variables one by one. *)
From Coq Require Import String List Reals Lra Permutation.
Import ListNotations.
From Verif Require Export GraphLaws GraphTheorems.
From Verif Require Import BaseFacts SumFacts JunctionTree.
Local Open Scope string_scope.
Local Open Scope list_scope.

(** A client program: all factors that mention [v] are multiplied and [v] is summed out. *)
Definition eliminate {F V} (ops : fops F V) (fs : list F) (v : string) : res (list F) :=
  match filter (fun f => mem v (f_vars ops f)) fs with
  | [] => Ok fs
  | f :: rest =>
      let* p := foldM (f_mul ops) rest f in
      let* m := f_marg ops p (filter (fun w => negb (eqb w v)) (f_vars ops p)) in
      Ok (m :: filter (fun f => negb (mem v (f_vars ops f))) fs)
  end.
Definition eliminate_all {F V} (ops : fops F V) (fs : list F) (vs : list string) : res (list F) := foldM (eliminate ops) vs fs.

Section Laws.
Context {F : Type} (ops : fops F nat) (card : string -> nat) (good : F -> Prop) (pt : F -> env -> R).
Hypothesis L : lawful ops card good pt.

Lemma pt_full_ext f : good f -> ext (pt f).
Proof. intros G e e' H. apply (lw_ext _ _ _ _ L); auto. Qed.
Lemma rest_of (l vs : list string) : NoDup l -> exists rm, NoDup rm /\ forall v, In v rm <-> In v l /\ ~ In v vs.
Proof.
  intros N. exists (filter (fun v => negb (mem v vs)) l). split; [now apply NoDup_filter|]. intros v.
  rewrite filter_In, negb_true_iff, mem_nIn. tauto.
Qed.

(** Marginals in steps. *)
Lemma marg_steps f xs ys : good f -> NoDup xs -> NoDup ys -> incl xs (f_vars ops f) -> incl ys xs ->
  exists a b r, f_marg ops f xs = Ok a /\ f_marg ops a ys = Ok b /\ f_marg ops f ys = Ok r /\
    (forall v, In v (f_vars ops b) <-> In v (f_vars ops r)) /\ forall e, pt b e = pt r e.
Proof.
  intros G Nx Ny Ix Iy.
  destruct (lw_marg _ _ _ _ L f xs G Nx Ix) as (a & Ea & Ga & Va & Pa).
  assert (Iy' : incl ys (f_vars ops a)) by (intros v Hv; apply Va, Iy, Hv).
  destruct (lw_marg _ _ _ _ L a ys Ga Ny Iy') as (b & Eb & Gb & Vb & Pb).
  assert (Iyf : incl ys (f_vars ops f)) by (intros v Hv; apply Ix, Iy, Hv).
  destruct (lw_marg _ _ _ _ L f ys G Ny Iyf) as (r & Er & Gr & Vr & Pr).
  exists a, b, r. repeat split; auto.
  - intros H. apply Vr, Vb, H.
  - intros H. apply Vb, Vr, H.
  - intros e.
    destruct (rest_of (f_vars ops f) xs (lw_nodup _ _ _ _ L f G)) as (r1 & N1 & I1).
    destruct (rest_of xs ys Nx) as (r2 & N2 & I2).
    rewrite (Pb r2 e N2); [|intros v; rewrite I2, Va; tauto].
    rewrite (sum_over_ext_g card r2 (pt a) (sum_over card r1 (pt f))); [|intros e'; apply Pa; auto].
    rewrite <- sum_over_app. symmetry. apply Pr.
    + apply NoDup_app_intro; auto. intros v H2 H1. apply I2 in H2. apply I1 in H1. tauto.
    + intros v. rewrite in_app_iff, I1, I2. split.
      * intros [[H1 H2]|[H1 H2]]; split; auto. 
      * intros [H1 H2]. destruct (in_dec string_dec v xs); tauto.
Qed.

(** A factor without the summed variables can be multiplied in before or after. *)
Lemma marg_product a b vs : good a -> good b -> NoDup vs -> incl (f_vars ops b) vs -> incl vs (f_vars ops a ++ f_vars ops b) ->
  exists p q m r, f_mul ops a b = Ok p /\ f_marg ops p vs = Ok q /\
    f_marg ops a (filter (fun v => mem v (f_vars ops a)) vs) = Ok m /\ f_mul ops m b = Ok r /\
    (forall v, In v (f_vars ops q) <-> In v (f_vars ops r)) /\ forall e, pt q e = pt r e.
Proof.
  intros Ga Gb Nv Ib Iv.
  destruct (lw_mul _ _ _ _ L a b Ga Gb) as (p & Ep & Gp & Vp & Pp).
  assert (Ip : incl vs (f_vars ops p)) by (intros v Hv; apply Vp; apply Iv in Hv; now apply in_app_iff in Hv).
  destruct (lw_marg _ _ _ _ L p vs Gp Nv Ip) as (q & Eq & Gq & Vq & Pq).
  set (ws := filter (fun v => mem v (f_vars ops a)) vs).
  assert (Ws : forall v, In v ws <-> In v vs /\ In v (f_vars ops a)) by (intros v; unfold ws; rewrite filter_In, mem_In; tauto).
  destruct (lw_marg _ _ _ _ L a ws Ga (NoDup_filter _ _ Nv)) as (m & Em & Gm & Vm & Pm); [intros v Hv; apply Ws in Hv; tauto|].
  destruct (lw_mul _ _ _ _ L m b Gm Gb) as (r & Er & Gr & Vr & Pr).
  exists p, q, m, r. split; [exact Ep|]. split; [exact Eq|]. split; [exact Em|]. split; [exact Er|]. split.
  - intros v. rewrite Vq, Vr, Vm, Ws. split.
    + intros H. pose proof (Iv v H) as K. apply in_app_iff in K. tauto.
    + intros [[H _]|H]; [exact H|now apply Ib].
  - intros e. destruct (rest_of (f_vars ops p) vs (lw_nodup _ _ _ _ L p Gp)) as (rm & Nr & Ir).
    rewrite (Pq rm e Nr Ir), Pr. rewrite (Pm rm e Nr).
    + rewrite (sum_over_ext_g card rm (pt p) (fun e => pt b e * pt a e)%R) by (intros e'; rewrite Pp; ring).
      rewrite (sum_over_const_factor card rm (f_vars ops b) (pt b) (pt a)); [ring|intros e1 e2 H; apply (lw_ext _ _ _ _ L); auto|].
      intros v Hv Hb. apply Ir in Hv. apply (proj2 Hv), Ib, Hb.
    + intros v. rewrite Ir, Vp, Ws. split.
      * intros [[H|H] Hn]; [tauto|]. exfalso. apply Hn, Ib, H.
      * intros [H Hn]. split; [now left|]. intros Hv. apply Hn. auto.
Qed.

(** Evidence before or after a product and before or after a marginal. *)
Lemma reduce_product a b vs (e0 : env) p q : good a -> good b -> NoDup vs -> incl vs (f_vars ops a ++ f_vars ops b) ->
  f_mul ops a b = Ok p -> f_reduce ops p vs (map e0 vs) = Ok q ->
  forall a' b' r, f_reduce ops a (filter (fun v => mem v (f_vars ops a)) vs) (map e0 (filter (fun v => mem v (f_vars ops a)) vs)) = Ok a' ->
    f_reduce ops b (filter (fun v => mem v (f_vars ops b)) vs) (map e0 (filter (fun v => mem v (f_vars ops b)) vs)) = Ok b' ->
    f_mul ops a' b' = Ok r ->
    (forall v, In v (f_vars ops q) <-> In v (f_vars ops r)) /\ forall e, pt q e = pt r e.
Proof.
  intros Ga Gb Nv Iv Ep Eq a' b' r Ea Eb Er.
  destruct (lw_mul _ _ _ _ L a b Ga Gb) as (p' & Ep' & Gp & Vp & Pp). rewrite Ep in Ep'. injection Ep' as <-.
  assert (Ip : incl vs (f_vars ops p)) by (intros v Hv; apply Vp; apply Iv in Hv; now apply in_app_iff in Hv).
  destruct (lw_reduce _ _ _ _ L p vs _ q Gp Nv Ip (map_length _ _) Eq) as (Gq & Vq & Pq).
  assert (W : forall (l : list string) v, In v (filter (fun v => mem v l) vs) <-> In v vs /\ In v l) by (intros l v; rewrite filter_In, mem_In; tauto).
  destruct (lw_reduce _ _ _ _ L a _ _ a' Ga (NoDup_filter _ _ Nv) (fun v H => proj2 (proj1 (W _ v) H)) (map_length _ _) Ea) as (Ga' & Va & Pa).
  destruct (lw_reduce _ _ _ _ L b _ _ b' Gb (NoDup_filter _ _ Nv) (fun v H => proj2 (proj1 (W _ v) H)) (map_length _ _) Eb) as (Gb' & Vb & Pb).
  destruct (lw_mul _ _ _ _ L a' b' Ga' Gb') as (r' & Er' & Gr & Vr & Pr). rewrite Er in Er'. injection Er' as <-.
  split.
  - intros v. rewrite Vq, Vp, Vr, Va, Vb, !W. destruct (in_dec string_dec v vs); tauto.
  - intros e. set (e1 := fun v => if mem v vs then e0 v else e v).
    assert (H1 : map e1 vs = map e0 vs) by (apply map_ext_in; intros v Hv; unfold e1; now rewrite (proj2 (mem_In v vs) Hv)).
    assert (H2 : forall l, map e1 (filter (fun v => mem v l) vs) = map e0 (filter (fun v => mem v l) vs)).
    { intros l. apply map_ext_in. intros v Hv. apply W in Hv. unfold e1. now rewrite (proj2 (mem_In v vs) (proj1 Hv)). }
    assert (H3 : forall f, good f -> (forall v, In v (f_vars ops f) -> ~ In v vs) -> pt f e = pt f e1).
    { intros f Gf Hf. apply (lw_ext _ _ _ _ L); auto. intros v Hv. unfold e1. now rewrite (proj2 (mem_nIn v vs) (Hf v Hv)). }
    rewrite (H3 q Gq); [|intros v Hv; now apply Vq in Hv].
    rewrite (H3 r Gr); [|intros v Hv; apply Vr in Hv; rewrite Va, Vb, !W in Hv; tauto].
    rewrite (Pq e1 H1), Pp, Pr, (Pa e1 (H2 _)), (Pb e1 (H2 _)). reflexivity.
Qed.
Lemma reduce_marg f ks vs (e0 : env) m q : good f -> NoDup ks -> NoDup vs -> incl ks (f_vars ops f) -> incl vs ks ->
  f_marg ops f ks = Ok m -> f_reduce ops m vs (map e0 vs) = Ok q ->
  forall g r, f_reduce ops f vs (map e0 vs) = Ok g -> f_marg ops g (filter (fun v => negb (mem v vs)) ks) = Ok r ->
  (forall v, In v (f_vars ops q) <-> In v (f_vars ops r)) /\ forall e, pt q e = pt r e.
Proof.
  intros G Nk Nv Ik Iv Em Eq g r Eg Er.
  destruct (lw_marg _ _ _ _ L f ks G Nk Ik) as (m' & Em' & Gm & Vm & Pm). rewrite Em in Em'. injection Em' as <-.
  assert (Im : incl vs (f_vars ops m)) by (intros v Hv; apply Vm, Iv, Hv).
  destruct (lw_reduce _ _ _ _ L m vs _ q Gm Nv Im (map_length _ _) Eq) as (Gq & Vq & Pq).
  assert (If : incl vs (f_vars ops f)) by (intros v Hv; apply Ik, Iv, Hv).
  destruct (lw_reduce _ _ _ _ L f vs _ g G Nv If (map_length _ _) Eg) as (Gg & Vg & Pg).
  set (ks' := filter (fun v => negb (mem v vs)) ks).
  assert (W : forall v, In v ks' <-> In v ks /\ ~ In v vs) by (intros v; unfold ks'; rewrite filter_In, negb_true_iff, mem_nIn; tauto).
  destruct (lw_marg _ _ _ _ L g ks' Gg (NoDup_filter _ _ Nk)) as (r' & Er' & Gr & Vr & Pr); [intros v Hv; apply W in Hv; apply Vg; split; [apply Ik|]; tauto|].
  unfold ks' in Er'. rewrite Er in Er'. injection Er' as <-. split.
  - intros v. rewrite Vq, Vm, Vr, W. tauto.
  - intros e. set (e1 := fun v => if mem v vs then e0 v else e v).
    assert (H1 : map e1 vs = map e0 vs) by (apply map_ext_in; intros v Hv; unfold e1; now rewrite (proj2 (mem_In v vs) Hv)).
    assert (H3 : forall h, good h -> (forall v, In v (f_vars ops h) -> ~ In v vs) -> pt h e = pt h e1).
    { intros h Gh Hh. apply (lw_ext _ _ _ _ L); auto. intros v Hv. unfold e1. now rewrite (proj2 (mem_nIn v vs) (Hh v Hv)). }
    rewrite (H3 q Gq); [|intros v Hv; now apply Vq in Hv].
    rewrite (H3 r Gr); [|intros v Hv; apply Vr, W in Hv; tauto].
    rewrite (Pq e1 H1). destruct (rest_of (f_vars ops f) ks (lw_nodup _ _ _ _ L f G)) as (rm & Nr & Ir).
    rewrite (Pm rm e1 Nr Ir). rewrite (Pr rm e1 Nr).
    + rewrite !sum_over_assign. apply Rsum_ext. intros k _. symmetry. apply Pg. rewrite <- H1. apply map_ext_in. intros v Hv.
      apply upds_other. intros C. apply Ir in C. apply (proj2 C), Iv, Hv.
    + intros v. rewrite Ir, Vg, W. split.
      * intros [H K]. split; [split; [exact H|]|tauto]. intros C. apply K, Iv, C.
      * intros [[H K] N]. split; [exact H|]. intros C. apply N. auto.
Qed.

(** Elimination of one variable, and of any list of variables in any order. *)
Lemma Rprod_split (f : F -> R) (P : F -> bool) fs :
  Rprod (map f fs) = (Rprod (map f (filter P fs)) * Rprod (map f (filter (fun x => negb (P x)) fs)))%R.
Proof. unfold Rprod. induction fs as [|x fs IH]; cbn [map filter fold_right]; [ring|]. destruct (P x); cbn [negb map fold_right]; rewrite IH; ring. Qed.
Lemma fold_mul fs : forall f, good f -> (forall g, In g fs -> good g) -> exists p, foldM (f_mul ops) fs f = Ok p /\ good p /\
  (forall v, In v (f_vars ops p) <-> exists g, In g (f :: fs) /\ In v (f_vars ops g)) /\ forall e, pt p e = prod_at pt (f :: fs) e.
Proof.
  induction fs as [|g fs IH]; intros f Gf Gs.
  - exists f. split; [reflexivity|]. split; [exact Gf|]. split.
    + intros v. split; [intros H; exists f; split; [now left|exact H]|intros (g & [<-|[]] & H); exact H].
    + intros e. unfold prod_at. cbn. ring.
  - destruct (lw_mul _ _ _ _ L f g Gf (Gs g (or_introl eq_refl))) as (q & Eq & Gq & Vq & Pq).
    destruct (IH q Gq (fun h H => Gs h (or_intror H))) as (p & Ep & Gp & Vp & Pp).
    exists p. cbn [foldM]. rewrite Eq. cbn [bind]. split; [exact Ep|]. split; [exact Gp|]. split.
    + intros v. rewrite Vp. split.
      * intros (h & [<-|H] & Hv).
        -- apply Vq in Hv. destruct Hv as [Hv|Hv]; [exists f|exists g]; (split; [cbn; tauto|exact Hv]).
        -- exists h. split; [cbn; tauto|exact Hv].
      * intros (h & [<-|[<-|H]] & Hv); [exists q|exists q|exists h]; (split; [cbn; tauto|]); try (apply Vq; tauto). exact Hv.
    + intros e. rewrite Pp. unfold prod_at, Rprod. cbn [map fold_right]. rewrite Pq. ring.
Qed.
Definition scope_of (fs : list F) (v : string) : Prop := exists f, In f fs /\ In v (f_vars ops f).
Lemma eliminate_spec fs v : (forall f, In f fs -> good f) -> exists rs, eliminate ops fs v = Ok rs /\ (forall f, In f rs -> good f) /\
  (forall w, scope_of rs w <-> scope_of fs w /\ w <> v) /\
  (scope_of fs v -> forall e, prod_at pt rs e = sum_over card [v] (prod_at pt fs) e) /\ (~ scope_of fs v -> rs = fs).
Proof.
  intros G. unfold eliminate. set (P := fun f => mem v (f_vars ops f)).
  assert (HP : forall f, In f (filter P fs) <-> In f fs /\ In v (f_vars ops f)) by (intros f; unfold P; rewrite filter_In, mem_In; tauto).
  assert (HN : forall f, In f (filter (fun f => negb (P f)) fs) <-> In f fs /\ ~ In v (f_vars ops f)).
  { intros f. unfold P. rewrite filter_In, negb_true_iff, mem_nIn. tauto. }
  change (filter (fun f => mem v (f_vars ops f)) fs) with (filter P fs).
  change (filter (fun f => negb (mem v (f_vars ops f))) fs) with (filter (fun f => negb (P f)) fs).
  destruct (filter P fs) as [|f rest] eqn:E.
  - exists fs. assert (N : ~ scope_of fs v). { intros (g & Hg & Hv). apply (proj2 (HP g)). tauto. }
    split; [reflexivity|]. split; [exact G|]. split; [|split; [tauto|reflexivity]].
    intros w. split; [intros H; split; [exact H|]; intros ->; tauto|tauto].
  - destruct (fold_mul rest f) as (p & Ep & Gp & Vp & Pp).
    { apply G. apply (proj1 (HP f)). now left. }
    { intros g Hg. apply G. apply (proj1 (HP g)). now right. }
    rewrite Ep. cbn [bind].
    set (ks := filter (fun w => negb (eqb w v)) (f_vars ops p)).
    assert (W : forall w, In w ks <-> In w (f_vars ops p) /\ w <> v).
    { intros w. unfold ks. rewrite filter_In, negb_true_iff. unfold eqb. destruct (eq_dec w v); split; intros [H1 H2]; split; auto; congruence. }
    destruct (lw_marg _ _ _ _ L p ks Gp (NoDup_filter _ _ (lw_nodup _ _ _ _ L p Gp))) as (m & Em & Gm & Vm & Pm); [intros w Hw; now apply W in Hw|].
    rewrite Em. cbn [bind].
    assert (Hv : In v (f_vars ops p)).
    { apply Vp. exists f. split; [now left|]. apply (proj1 (HP f)). now left. }
    eexists. split; [reflexivity|]. split; [|split; [|split]].
    + intros g [<-|Hg]; [exact Gm|]. apply G. apply HN in Hg. tauto.
    + intros w. split.
      * intros (g & [<-|Hg] & Hw).
        -- apply Vm, W in Hw. destruct Hw as [Hw Hn]. split; [|exact Hn]. apply Vp in Hw. destruct Hw as (h & Hh & Hw). exists h. split; [|exact Hw]. now apply HP in Hh.
        -- apply HN in Hg. split; [exists g; tauto|]. intros ->. tauto.
      * intros [(g & Hg & Hw) Hn]. destruct (in_dec string_dec v (f_vars ops g)) as [K|K].
        -- exists m. split; [now left|]. apply Vm, W. split; [|exact Hn]. apply Vp. exists g. split; [|exact Hw]. apply HP. tauto.
        -- exists g. split; [right; apply HN; tauto|exact Hw].
    + intros _ e. unfold prod_at at 1. rewrite map_cons. change (Rprod (?x :: ?l)) with (x * Rprod l)%R.
      rewrite (Pm [v] e).
      * rewrite (sum_over_ext_g card [v] (prod_at pt fs) (fun e => Rprod (map (fun g => pt g e) (filter (fun g => negb (P g)) fs)) * pt p e)%R).
        -- rewrite (sum_over_const_factor card [v] (flat_map (f_vars ops) (filter (fun g => negb (P g)) fs))
             (fun e => Rprod (map (fun g => pt g e) (filter (fun g => negb (P g)) fs))) (pt p)); [ring| |].
           ++ intros e1 e2 H. f_equal. apply map_ext_in. intros g Hg. apply (lw_ext _ _ _ _ L); [apply G; apply HN in Hg; tauto|].
              intros w Hw. apply H. apply in_flat_map. eauto.
           ++ intros w [<-|[]] C. apply in_flat_map in C. destruct C as (g & Hg & C). apply HN in Hg. tauto.
        -- intros e'. unfold prod_at at 1. rewrite (Rprod_split _ P), E. rewrite Pp. unfold prod_at. ring.
      * repeat constructor. intros [].
      * intros w. rewrite W. cbn. split.
        -- intros [<-|[]]. tauto.
        -- intros [H1 H2]. left. destruct (string_dec v w); [assumption|]. exfalso. apply H2. split; [exact H1|congruence].
    + intros N. exfalso. apply N. exists f. apply (proj1 (HP f)). now left.
Qed.
(** Any order; [done] are the variables of [vs] in some scope. *)
Lemma eliminate_all_spec vs : forall fs, NoDup vs -> (forall f, In f fs -> good f) -> exists rs, eliminate_all ops fs vs = Ok rs /\ (forall f, In f rs -> good f) /\
  (forall w, scope_of rs w <-> scope_of fs w /\ ~ In w vs) /\
  forall done, NoDup done -> (forall v, In v done <-> In v vs /\ scope_of fs v) -> forall e, prod_at pt rs e = sum_over card done (prod_at pt fs) e.
Proof.
  assert (X : forall fs, (forall f, In f fs -> good f) -> ext (prod_at pt fs)).
  { intros fs G e e' H. unfold prod_at. f_equal. apply map_ext_in. intros f Hf. apply (lw_ext _ _ _ _ L); auto. }
  induction vs as [|v vs IH]; intros fs N G.
  - exists fs. split; [reflexivity|]. split; [exact G|]. split; [intros w; cbn; tauto|].
    intros done Nd Hd e. destruct done as [|x done]; [reflexivity|]. destruct (proj1 (Hd x) (or_introl eq_refl)) as [[] _].
  - inversion N as [|v' vs' Nv Nvs]. subst v' vs'.
    destruct (eliminate_spec fs v G) as (r1 & E1 & G1 & S1 & P1 & Q1).
    destruct (IH r1 Nvs G1) as (rs & Es & Gs & Ss & Ps).
    exists rs. unfold eliminate_all in *. cbn [foldM]. rewrite E1. cbn [bind]. split; [exact Es|]. split; [exact Gs|]. split.
    + intros w. rewrite Ss, S1. cbn [In]. split; [intros [[A B] C]; split; [exact A|]; intros [D|D]; [congruence|tauto]|].
      intros [A B]. split; [split; [exact A|]|]; intros C; apply B; [left; congruence|tauto].
    + intros done Nd Hd e.
      destruct (Classical_Prop.classic (scope_of fs v)) as [Sv|Sv].
      * set (done' := filter (fun w => negb (eqb w v)) done).
        assert (D' : forall w, In w done' <-> In w done /\ w <> v).
        { intros w. unfold done'. rewrite filter_In, negb_true_iff. unfold eqb. destruct (eq_dec w v); split; intros [H1 H2]; split; auto; congruence. }
        assert (Nd' : NoDup done') by now apply NoDup_filter.
        rewrite (Ps done' Nd').
        -- rewrite (sum_over_ext_g card done' (prod_at pt r1) (sum_over card [v] (prod_at pt fs))) by (intros e'; now apply P1).
           rewrite <- sum_over_app. apply sum_over_perm; [| |now apply X].
           ++ apply NoDup_Permutation; auto.
              ** apply NoDup_app_one; [exact Nd'|]. rewrite D'. tauto.
              ** intros w. rewrite in_app_iff, D'. cbn. split; [intros [[H _]|[<-|[]]]; [exact H|apply Hd; cbn; tauto]|].
                 intros H. destruct (string_dec v w); [right; left; assumption|left; split; [exact H|congruence]].
           ++ apply NoDup_app_one; [exact Nd'|]. rewrite D'. tauto.
        -- intros w. rewrite D', Hd, S1. cbn [In]. split.
           ++ intros [[[C|C] S] D]; [congruence|tauto].
           ++ intros [C [S D]]. tauto.
      * rewrite (Q1 Sv) in Ps. apply Ps; [exact Nd|]. intros w. rewrite Hd. cbn [In]. split; [intros [[<-|C] S]; [contradiction|tauto]|tauto].
Qed.
Lemma eliminate_order fs vs ws r1 r2 : NoDup vs -> NoDup ws -> (forall v, In v vs <-> In v ws) -> (forall f, In f fs -> good f) ->
  eliminate_all ops fs vs = Ok r1 -> eliminate_all ops fs ws = Ok r2 ->
  (forall w, scope_of r1 w <-> scope_of r2 w) /\ forall e, prod_at pt r1 e = prod_at pt r2 e.
Proof.
  intros N M H G E1 E2.
  destruct (eliminate_all_spec vs fs N G) as (x & Ex & _ & Sx & Px). rewrite E1 in Ex. injection Ex as <-.
  destruct (eliminate_all_spec ws fs M G) as (y & Ey & _ & Sy & Py). rewrite E2 in Ey. injection Ey as <-.
  split; [intros w; rewrite Sx, Sy, H; tauto|]. intros e.
  set (all := flat_map (f_vars ops) fs).
  assert (HA : forall v, In v all <-> scope_of fs v) by (intros v; unfold all; rewrite in_flat_map; reflexivity).
  set (done := filter (fun v => mem v all) vs).
  assert (HD : forall v, In v done <-> In v vs /\ scope_of fs v) by (intros v; unfold done; rewrite filter_In, mem_In, HA; tauto).
  rewrite (Px done (NoDup_filter _ _ N) HD). rewrite (Py done (NoDup_filter _ _ N)); [reflexivity|]. intros v. rewrite HD, H. tauto.
Qed.
End Laws.
