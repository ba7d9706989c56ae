(** Sending messages along a list of directed edges: a sweep towards a root of a tree and back
    makes every edge [done], for any property [done] of a path that sending establishes and that
    only sending into the path's start from elsewhere can destroy. *)
From Verif Require Export GraphTheorems2.

Definition ends {F V} (g : cgraph F V) (k : nat) (e : nat * nat) : Prop :=
  exists p, nth_error (g_paths g) k = Some p /\ (p_snd p, p_rcv p) = e.
Definition swap (e : nat * nat) : nat * nat := (snd e, fst e).
(** Once towards the root and once back. *)
Definition two_sweeps {F V} (g : cgraph F V) (ks : list nat) : Prop :=
  exists r ord, tree_order (linked g) r ord /\ Permutation (verts r ord) (seq 0 (length (g_cl g))) /\
    Forall2 (ends g) ks (ord ++ rev (map swap ord)).

Section Sched.
Context {F V : Type} (ops : fops F V) (Live : cgraph F V -> Prop) (done : cgraph F V -> nat -> Prop)
        (sepf : nat -> nat -> option (list string)).
Hypothesis Lstr : forall g, Live g -> struct_ok sepf g.
Hypothesis Ssym : forall i j, sepf i j = sepf j i.
Hypothesis Lpass : forall g k g', Live g -> pass_path ops g k = Ok g' -> Live g'.
Hypothesis Dself : forall g g' k p, Live g -> nth_error (g_paths g) k = Some p -> pass_path ops g k = Ok g' -> done g' k.
Hypothesis Dother : forall g g' k p k1 p1, Live g -> nth_error (g_paths g) k = Some p -> pass_path ops g k = Ok g' ->
  nth_error (g_paths g) k1 = Some p1 -> p_snd p1 <> p_rcv p -> done g k1 -> done g' k1.
Hypothesis Dreverse : forall g g' k p k1 p1, Live g -> nth_error (g_paths g) k = Some p -> pass_path ops g k = Ok g' ->
  nth_error (g_paths g) k1 = Some p1 -> p_snd p1 = p_rcv p -> p_rcv p1 = p_snd p -> done g k1 -> done g' k1.

Definition done_edge (g : cgraph F V) (e : nat * nat) : Prop := forall k, ends g k e -> done g k.

Lemma ends_kept g k g' : Live g -> pass_path ops g k = Ok g' -> forall k1 e, ends g' k1 e <-> ends g k1 e.
Proof.
  intros LV H k1 e.
  destruct (pass_path_passed ops g k g' (struct_out sepf g (Lstr _ LV)) H) as (p & cr & cr' & P). split.
  - intros (p' & H' & <-). destruct (pa_paths _ _ _ _ _ _ _ P k1 p' H') as (p0 & H0 & -> & -> & _). exists p0. auto.
  - intros (p0 & H0 & <-). destruct (nth_error (g_paths g') k1) as [p'|] eqn:H'.
    + destruct (pa_paths _ _ _ _ _ _ _ P k1 p' H') as (p1 & H1 & E1 & E2 & _). rewrite H0 in H1. inversion H1; subst p1.
      exists p'. rewrite E1, E2. auto.
    + apply nth_error_None in H'. rewrite (pa_plen _ _ _ _ _ _ _ P) in H'. apply nth_error_None in H'. congruence.
Qed.

(** Sending along a list of directed edges. *)
Inductive sends : cgraph F V -> list (nat * nat) -> cgraph F V -> Prop :=
  | sends_nil g : sends g [] g
  | sends_cons g k e g1 es g' : Live g -> ends g k e -> pass_path ops g k = Ok g1 -> sends g1 es g' -> sends g (e :: es) g'.
Lemma ends_all g k g1 ks es : Live g -> pass_path ops g k = Ok g1 -> Forall2 (ends g) ks es -> Forall2 (ends g1) ks es.
Proof. intros LV H HF. induction HF; constructor; [now apply (ends_kept g k g1 LV H)|assumption]. Qed.
Lemma foldM_sends ks : forall g g' es, Live g -> foldM (pass_path ops) ks g = Ok g' -> Forall2 (ends g) ks es -> sends g es g'.
Proof.
  induction ks as [|k ks IH]; intros g g' es LV H HF; inversion HF; subst; cbn [foldM] in H.
  - inversion H; subst. constructor.
  - apply bind_ok in H. destruct H as (g1 & H1 & H). econstructor; eauto. apply IH; [eapply Lpass; eauto|exact H|].
    apply (ends_all g k g1 ks _ LV H1). assumption.
Qed.
Lemma sends_app es1 : forall g es2 g', sends g (es1 ++ es2) g' -> exists g1, sends g es1 g1 /\ sends g1 es2 g'.
Proof.
  induction es1 as [|e es1 IH]; intros g es2 g' H; cbn in H; [exists g; split; [constructor|exact H]|].
  inversion H; subst. destruct (IH _ _ _ ltac:(eassumption)) as (g2 & A & B). exists g2. split; [|exact B]. econstructor; eauto.
Qed.

Lemma edge_pass g k g1 i j : Live g -> ends g k (i, j) -> pass_path ops g k = Ok g1 ->
  done_edge g1 (i, j) /\ (forall a b, (a <> j \/ (a, b) = (j, i)) -> done_edge g (a, b) -> done_edge g1 (a, b)).
Proof.
  intros LV (p & Hp & He) H. inversion He as [[E1 E2]]. split.
  - intros k1 H1. apply (ends_kept g k g1 LV H) in H1. destruct H1 as (p1 & Hp1 & He1). inversion He1 as [[A1 A2]].
    assert (k1 = k). { apply (st_pair _ _ (Lstr _ LV) k1 k p1 p Hp1 Hp); congruence. }
    subst k1. now apply (Dself g g1 k p).
  - intros a b Hab D k1 H1. pose proof (proj1 (ends_kept g k g1 LV H k1 (a, b)) H1) as H1'.
    specialize (D k1 H1'). destruct H1' as (p1 & Hp1 & He1). inversion He1 as [[A1 A2]].
    destruct (Nat.eq_dec a j) as [Ea|Na].
    + destruct Hab as [C|C]; [congruence|]. inversion C. apply (Dreverse g g1 k p k1 p1 LV Hp H Hp1); [congruence|congruence|exact D].
    + apply (Dother g g1 k p k1 p1 LV Hp H Hp1); [congruence|exact D].
Qed.

(** Towards the root. *)
Lemma collect_done E r ord : forall g g1 pre, tree_order E r ord -> NoDup (map fst pre ++ verts r ord) ->
  (forall e, In e pre -> done_edge g e) -> sends g ord g1 ->
  forall e, In e (pre ++ ord) -> done_edge g1 e.
Proof.
  induction ord as [|[l q] ord IH]; intros g g1 pre HT Hn Hd Hs e He.
  - inversion Hs; subst. rewrite app_nil_r in He. auto.
  - inversion Hs as [|g2 k e2 g3 es g4 LV Hk Hp Hs2]; subst. cbn [tree_order] in HT. destruct HT as (T1 & T2 & T3 & T4 & T5).
    destruct (edge_pass g k g3 l q LV Hk Hp) as [D1 D2].
    apply (IH g3 g1 (pre ++ [(l, q)])).
    + exact T1.
    + rewrite map_app, <- app_assoc. exact Hn.
    + intros [a b] Hab. apply in_app_or in Hab. destruct Hab as [Hab|[C|[]]]; [|inversion C; subst; exact D1].
      apply D2; [|auto]. left. intros ->. apply NoDup_app_elim in Hn. destruct Hn as (_ & _ & Hn).
      apply (Hn q); [apply (in_map fst _ (q, b) Hab)|]. right. exact T2.
    + exact Hs2.
    + rewrite <- app_assoc. exact He.
Qed.
(** And back. *)
Lemma distribute_done E r ord : forall g g1, tree_order E r ord -> (forall a b, In (a, b) ord -> a <> b) -> NoDup (verts r ord) ->
  (forall e, In e ord -> done_edge g e) -> sends g (rev (map swap ord)) g1 ->
  forall e, In e ord -> done_edge g1 e /\ done_edge g1 (swap e).
Proof.
  assert (G : forall ord g g1 up, tree_order E r ord -> (forall e, In e ord -> In e up) ->
    (forall a b b', In (a, b) up -> In (a, b') up -> b = b') -> ~ In r (map fst up) ->
    (forall e, In e up -> done_edge g e) -> sends g (rev (map swap ord)) g1 ->
    (forall e, In e up -> done_edge g1 e) /\ (forall e, In e ord -> done_edge g1 (swap e))).
  { clear ord. induction ord as [|[l q] ord IH]; intros g g1 up HT Hinc Hf Hr Hd Hs.
    - inversion Hs; subst. split; [exact Hd|intros e []].
    - cbn [map rev] in Hs. apply sends_app in Hs. destruct Hs as (g2 & S1 & S2).
      cbn [tree_order] in HT. destruct HT as (T1 & T2 & T3 & T4 & T5).
      destruct (IH g g2 up T1 (fun e He => Hinc e (or_intror He)) Hf Hr Hd S1) as [I1 I2].
      inversion S2 as [|g3 k e3 g4 es g5 LV Hk Hp S3]; subst. inversion S3; subst.
      unfold swap in Hk. cbn [fst snd] in Hk. destruct (edge_pass g2 k g1 q l LV Hk Hp) as [D1 D2]. split.
      + intros [a b] Hab. apply D2; [|auto]. destruct (Nat.eq_dec a l) as [->|N]; [right|now left].
        f_equal. apply (Hf l); [exact Hab|]. apply Hinc. now left.
      + intros [a b] [C|Hab]; [inversion C; subst; exact D1|]. apply D2; [|exact (I2 _ Hab)]. left.
        intros C. cbn in C. subst b. apply T3. clear - Hab T1. revert Hab T1. induction ord as [|[x y] ord IH]; [intros []|].
        intros [C|Hab] T; cbn [tree_order] in T; [inversion C; subst; right; apply T|right; apply IH; [exact Hab|apply T]]. }
  intros g g1 HT Hne Hn Hd Hs e He. destruct (G ord g g1 ord HT (fun _ H => H)) as [A B]; try assumption.
  - intros a b b' H1 H2. unfold verts in Hn. apply NoDup_app_elim in Hn. destruct Hn as (Hn & _). clear - Hn H1 H2.
    induction ord as [|[x y] ord IH]; [destruct H1|]. cbn in Hn. inversion Hn; subst.
    destruct H1 as [C1|H1], H2 as [C2|H2].
    + congruence.
    + inversion C1; subst. exfalso. apply H3. apply (in_map fst _ _ H2).
    + inversion C2; subst. exfalso. apply H3. apply (in_map fst _ _ H1).
    + auto.
  - unfold verts in Hn. apply NoDup_app_elim in Hn. destruct Hn as (_ & _ & Hn). intros C. apply (Hn r C). now left.
  - auto.
Qed.

Lemma sweeps_done g ks g' : Live g -> two_sweeps g ks -> foldM (pass_path ops) ks g = Ok g' ->
  forall k p, nth_error (g_paths g') k = Some p -> done g' k.
Proof.
  intros LV (r & ord & HT & HP & HF) H.
  assert (Hn : NoDup (verts r ord)) by (eapply Permutation_NoDup; [symmetry; exact HP|apply seq_NoDup]).
  pose proof (foldM_sends ks g g' _ LV H HF) as HS. apply sends_app in HS. destruct HS as (g1 & S1 & S2).
  assert (Er : forall i j, linked g i j -> i < length (g_cl g) /\ j < length (g_cl g) /\ i <> j).
  { intros i j (k & p & Hp & <- & <-). pose proof (Lstr _ LV) as ST.
    destruct (st_path _ _ ST k p Hp) as (s & Hs). destruct (st_edge _ _ ST _ _ _ Hs) as (Hi & Hj & Hd & _). auto. }
  assert (Es : forall i j, linked g i j -> linked g j i).
  { intros i j (k & p & Hp & <- & <-). pose proof (Lstr _ LV) as ST.
    destruct (st_path _ _ ST k p Hp) as (s & Hs). rewrite Ssym in Hs.
    destruct (st_edge _ _ ST _ _ _ Hs) as (_ & _ & _ & _ & _ & k2 & p2 & H2). exists k2, p2. exact H2. }
  pose proof (collect_done (linked g) r ord g g1 [] HT Hn (fun e (C : In e []) => match C with end) S1) as C1. cbn [app] in C1.
  assert (Hr : r < length (g_cl g)).
  { assert (I : In r (verts r ord)) by (apply in_or_app; right; now left). apply (Permutation_in _ HP), in_seq in I. lia. }
  assert (Hne : forall a b, In (a, b) ord -> a <> b).
  { intros a b Hab. apply Er. exact (proj1 (proj2 (proj2 (order_nodup (linked g) (length (g_cl g)) r Er Hr ord HT)) a b Hab)). }
  pose proof (distribute_done (linked g) r ord g1 g' HT Hne Hn C1 S2) as C2.
  assert (Hk : forall k e, ends g' k e <-> ends g k e).
  { clear - H LV Lpass Lstr. revert g LV H. induction ks as [|k0 ks IH]; intros g LV H k e; cbn [foldM] in H; [inversion H; subst; reflexivity|].
    apply bind_ok in H. destruct H as (g2 & H2 & H). rewrite (IH g2); [apply (ends_kept g k0 g2 LV H2)|eapply Lpass; eauto|exact H]. }
  intros k p Hp.
  assert (He : ends g' k (p_snd p, p_rcv p)) by (exists p; auto). pose proof (proj1 (Hk _ _) He) as (p0 & Hp0 & He0). inversion He0 as [[A1 A2]].
  assert (Hl : linked g (p_snd p) (p_rcv p)) by (exists k, p0; auto).
  destruct (Er _ _ Hl) as (R1 & R2 & _).
  destruct (order_edges (linked g) (length (g_cl g)) r Es Er Hr ord HT (p_snd p) (p_rcv p)) as [I|I].
  - apply (Permutation_in _ (Permutation_sym HP)), in_seq. lia.
  - apply (Permutation_in _ (Permutation_sym HP)), in_seq. lia.
  - exact Hl.
  - exact (proj1 (C2 _ I) k He).
  - exact (proj2 (C2 _ I) k He).
Qed.
(** Such a schedule exists for every tree and every root, and has 2(n-1) passes. *)
Lemma schedule_exists g r : Live g -> tree_shaped g -> r < length (g_cl g) ->
  exists ks, two_sweeps g ks /\ length ks = 2 * (length (g_cl g) - 1) /\ forall k, In k ks -> k < length (g_paths g).
Proof.
  intros LV [TC TA] Hr. pose proof (Lstr _ LV) as ST.
  assert (Er : forall i j, linked g i j -> i < length (g_cl g) /\ j < length (g_cl g) /\ i <> j).
  { intros i j (k & p & Hp & <- & <-).
    destruct (st_path _ _ ST k p Hp) as (s & Hs). destruct (st_edge _ _ ST _ _ _ Hs) as (Hi & Hj & Hd & _). auto. }
  assert (Es : forall i j, linked g i j -> linked g j i).
  { intros i j (k & p & Hp & <- & <-).
    destruct (st_path _ _ ST k p Hp) as (s & Hs). rewrite Ssym in Hs.
    destruct (st_edge _ _ ST _ _ _ Hs) as (_ & _ & _ & _ & _ & k2 & p2 & H2). exists k2, p2. exact H2. }
  destruct (tree_listing (linked g) (length (g_cl g)) r Es Er TC TA Hr) as (ord & HT & HP & _).
  pose proof (order_nodup (linked g) (length (g_cl g)) r Er Hr ord HT) as (_ & _ & Hl).
  assert (Hall : forall es, (forall e, In e es -> linked g (fst e) (snd e)) -> exists ks, Forall2 (ends g) ks es).
  { induction es as [|[i j] es IH]; intros He; [exists []; constructor|].
    destruct (He (i, j) (or_introl eq_refl)) as (k & p & Hp & A1 & A2). cbn in A1, A2.
    destruct IH as (ks & Hks); [intros; apply He; now right|]. exists (k :: ks). constructor; [|exact Hks]. exists p. split; [exact Hp|congruence]. }
  destruct (Hall (ord ++ rev (map swap ord))) as (ks & Hks).
  { intros [a b] Hab. apply in_app_or in Hab. destruct Hab as [Hab|Hab]; [apply (Hl a b Hab)|].
    apply in_rev in Hab. apply in_map_iff in Hab. destruct Hab as ([x y] & Exy & Hab). unfold swap in Exy. cbn in Exy. inversion Exy; subst.
    apply Es. apply (Hl _ _ Hab). }
  exists ks. split; [exists r, ord; auto|]. split.
  - rewrite (Forall2_length _ _ _ Hks), app_length, rev_length, map_length.
    pose proof (Permutation_length HP) as Hlen. unfold verts in Hlen. rewrite app_length, map_length, seq_length in Hlen. cbn in Hlen. lia.
  - intros k Hk. clear - Hk Hks. induction Hks as [|k0 e ks es H0 _ IH]; [destruct Hk|].
    destruct Hk as [<-|Hk]; [|auto]. destruct H0 as (p & Hp & _). apply nth_error_Some. congruence.
Qed.
End Sched.
