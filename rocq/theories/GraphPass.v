(** Message passes: structure, freshness, counters, schedule (C30, C33 - C35, C37, C39). *)
From Verif Require Export GraphMk.

Section Pass.
Context {F V : Type} (ops : fops F V).

Lemma recompute_fold cls : forall ks ps ps', NoDup ks -> foldM (recompute_at ops cls) ks ps = Ok ps' ->
  length ps' = length ps /\
  forall q p', nth_error ps' q = Some p' -> exists p, nth_error ps q = Some p /\
    (In q ks -> recompute ops cls p = Ok p') /\ (~ In q ks -> p' = p).
Proof.
  induction ks as [|k ks IH]; intros ps ps' Hn H; cbn [foldM] in H.
  - inversion H; subst. split; [reflexivity|]. intros q p' Hp. exists p'. cbn. tauto.
  - inversion Hn as [|? ? Hk Hn']; subst. apply bind_ok in H. destruct H as (ps1 & H1 & H).
    destruct (IH ps1 ps' Hn' H) as [Hl Hq]. unfold recompute_at in H1.
    apply bind_ok in H1. destruct H1 as (p0 & Hp0 & H1). apply bind_ok in H1. destruct H1 as (p1 & Hp1 & H1).
    apply py_nth_inv in Hp0. apply list_set_inv in H1. destruct H1 as (_ & Hl1 & Hn1).
    split; [lia|]. intros q p' Hp'. destruct (Hq q p' Hp') as (pm & Hpm & Hin & Hout).
    rewrite Hn1 in Hpm. destruct (Nat.eq_dec q k) as [->|N].
    + inversion Hpm; subst pm. exists p0. split; [exact Hp0|]. rewrite (Hout Hk).
      split; [intros _; exact Hp1|]. intros C. exfalso. apply C. left; reflexivity.
    + exists pm. split; [exact Hpm|]. cbn [In]. split.
      * intros [E|E]; [congruence|auto].
      * intros C. apply Hout. tauto.
Qed.

Lemma recompute_ends cls p p' : recompute ops cls p = Ok p' ->
  p_snd p' = p_snd p /\ p_rcv p' = p_rcv p /\ p_prev p' = p_prev p /\
  (exists cs cr, nth_error cls (p_snd p) = Some cs /\ nth_error cls (p_rcv p) = Some cr /\
     make_message ops cs (cl_id cr) = Ok (p_next p')) /\
  info_gain ops (p_prev p) (p_next p') = Ok (p_gain p').
Proof.
  intros H. unfold recompute in H. apply bind_ok in H. destruct H as (cs & Hs & H). apply bind_ok in H.
  destruct H as (cr & Hr & H). apply bind_ok in H. destruct H as (m & Hm & H). apply bind_ok in H.
  destruct H as (gn & Hg & H). inversion H; subst p'; cbn. apply py_nth_inv in Hs, Hr. repeat split; auto. eauto.
Qed.

Lemma receive_fields (c : cluster F V) m c' : receive_message ops c m = Ok c' ->
  cl_id c' = cl_id c /\ cl_seps c' = cl_seps c /\ cl_out c' = cl_out c /\ cl_spec c' = cl_spec c /\
  m_rcv m = cl_id c /\ cl_recv c' = dset (cl_recv c) (m_snd m) (m_fac m) /\
  exists f1, f_mul ops (cl_fac c) (m_fac m) = Ok f1 /\
    match dget (cl_recv c) (m_snd m) with Some prev => f_cancel ops f1 prev | None => Ok f1 end = Ok (cl_fac c').
Proof.
  intros H. unfold receive_message in H. apply bind_ok in H. destruct H as (u & Hu & H).
  unfold py_assert in Hu. destruct (eqb (m_rcv m) (cl_id c)) eqn:E; [|discriminate]. apply eqb_true in E.
  apply bind_ok in H. destruct H as (f1 & Hf1 & H). apply bind_ok in H. destruct H as (f2 & Hf2 & H).
  inversion H; subst c'; cbn. repeat split; auto. eauto.
Qed.

(** The effect of one message pass. *)
Record passed (g : cgraph F V) (k : nat) (g' : cgraph F V) (p : path F) (cr cr' : cluster F V) : Prop := {
  pa_path : nth_error (g_paths g) k = Some p;
  pa_cr : nth_error (g_cl g) (p_rcv p) = Some cr;
  pa_recv : receive_message ops cr (p_next p) = Ok cr';
  pa_len : length (g_cl g') = length (g_cl g);
  pa_cl : forall i, nth_error (g_cl g') i = if Nat.eq_dec i (p_rcv p) then Some cr' else nth_error (g_cl g) i;
  pa_plen : length (g_paths g') = length (g_paths g);
  pa_paths : forall q p', nth_error (g_paths g') q = Some p' ->
    exists p0, nth_error (g_paths g) q = Some p0 /\ p_snd p' = p_snd p0 /\ p_rcv p' = p_rcv p0 /\
      p_prev p' = (if Nat.eq_dec q k then Some (p_next p) else p_prev p0) /\
      (In q (cl_out cr) -> (exists cs cq, nth_error (g_cl g') (p_snd p0) = Some cs /\
          nth_error (g_cl g') (p_rcv p0) = Some cq /\ make_message ops cs (cl_id cq) = Ok (p_next p')) /\
          info_gain ops (p_prev p') (p_next p') = Ok (p_gain p')) /\
      (~ In q (cl_out cr) -> p_next p' = p_next p0 /\ p_gain p' = if Nat.eq_dec q k then Fin 0 else p_gain p0);
  pa_rest : g_order g' = g_order g /\ g_spec g' = g_spec g /\ g_passed g' = g_passed g /\ g_dists g' = g_dists g }.

Lemma pass_path_passed g k g' : (forall i ci, nth_error (g_cl g) i = Some ci -> NoDup (cl_out ci)) ->
  pass_path ops g k = Ok g' -> exists p cr cr', passed g k g' p cr cr'.
Proof.
  intros Hnd H. unfold pass_path in H. apply bind_ok in H. destruct H as (p & Hp & H).
  apply bind_ok in H. destruct H as (cr & Hcr & H). apply bind_ok in H. destruct H as (cr' & Hcr' & H).
  apply bind_ok in H. destruct H as (cls & Hcls & H). apply bind_ok in H. destruct H as (ps1 & Hps1 & H).
  apply bind_ok in H. destruct H as (ps2 & Hps2 & H). inversion H; subst g'; clear H.
  apply py_nth_inv in Hp, Hcr. apply list_set_inv in Hcls, Hps1.
  destruct Hcls as (_ & Hl1 & Hn1), Hps1 as (_ & Hl2 & Hn2).
  destruct (receive_fields _ _ _ Hcr') as (E1 & E2 & E3 & E4 & E5 & E6 & E7).
  rewrite E3 in Hps2. destruct (recompute_fold cls (cl_out cr) ps1 ps2 (Hnd _ _ Hcr) Hps2) as (Hl3 & Hq).
  exists p, cr, cr'. split; cbn; auto; [lia|].
  intros q p' Hp'. destruct (Hq q p' Hp') as (p1 & Hp1 & Hin & Hout). rewrite Hn2 in Hp1.
  destruct (Nat.eq_dec q k) as [->|N].
  - inversion Hp1; subst p1. exists p. split; [exact Hp|].
    destruct (in_dec Nat.eq_dec k (cl_out cr)) as [I|I].
    + destruct (recompute_ends _ _ _ (Hin I)) as (R1 & R2 & R3 & R4 & R5). cbn in *. repeat split; auto; try tauto.
      rewrite R3. exact R5.
    + rewrite (Hout I). cbn. tauto.
  - exists p1. split; [exact Hp1|]. destruct (in_dec Nat.eq_dec q (cl_out cr)) as [I|I].
    + destruct (recompute_ends _ _ _ (Hin I)) as (R1 & R2 & R3 & R4 & R5). repeat split; auto; try tauto.
      rewrite R3. exact R5.
    + rewrite (Hout I). repeat split; auto; tauto.
Qed.

(** ** Freshness is preserved by every pass (C30) *)
Definition gains_ok (g : cgraph F V) : Prop :=
  forall k p, nth_error (g_paths g) k = Some p ->
    info_gain ops (p_prev p) (p_next p) = Ok (p_gain p) \/
    (p_gain p = Fin 0 /\ p_prev p = Some (p_next p)).

Record static_ok (sepf : nat -> nat -> option (list string)) (g : cgraph F V) : Prop := {
  sa_struct : struct_ok sepf g;
  sa_fresh : fresh ops g;
  sa_gains : gains_ok g }.

Lemma struct_out sepf (g : cgraph F V) : struct_ok sepf g -> forall i ci, nth_error (g_cl g) i = Some ci -> NoDup (cl_out ci).
Proof. intros ST i ci H. now apply (st_out _ _ ST i ci H). Qed.

(** The part of a pass before the outgoing messages are recomputed. *)
Record sent (g : cgraph F V) (k : nat) (g' : cgraph F V) (p : path F) (cr cr' : cluster F V) : Prop := {
  se_path : nth_error (g_paths g) k = Some p;
  se_cr : nth_error (g_cl g) (p_rcv p) = Some cr;
  se_recv : receive_message ops cr (p_next p) = Ok cr';
  se_len : length (g_cl g') = length (g_cl g);
  se_cl : forall i, nth_error (g_cl g') i = if Nat.eq_dec i (p_rcv p) then Some cr' else nth_error (g_cl g) i;
  se_plen : length (g_paths g') = length (g_paths g);
  se_paths : forall q p', nth_error (g_paths g') q = Some p' ->
    exists p0, nth_error (g_paths g) q = Some p0 /\ p_snd p' = p_snd p0 /\ p_rcv p' = p_rcv p0 /\
      p_prev p' = (if Nat.eq_dec q k then Some (p_next p) else p_prev p0);
  se_order : g_order g' = g_order g }.
Lemma passed_sent g k g' p cr cr' : passed g k g' p cr cr' -> sent g k g' p cr cr'.
Proof.
  intros P. split; try apply P.
  intros q p' Hp'. destruct (pa_paths _ _ _ _ _ _ P q p' Hp') as (p0 & H1 & H2 & H3 & H4 & _). eauto 8.
Qed.

Lemma map_cl_sent {A} (f : cluster F V -> A) g k g' p cr cr' : sent g k g' p cr cr' -> f cr' = f cr ->
  map f (g_cl g') = map f (g_cl g).
Proof.
  intros P E. apply nth_error_ext. intros i. rewrite !nth_error_map, (se_cl _ _ _ _ _ _ P).
  destruct (Nat.eq_dec i (p_rcv p)) as [->|]; [|reflexivity]. rewrite (se_cr _ _ _ _ _ _ P). cbn. now rewrite E.
Qed.
Lemma sent_cl g k g' p cr cr' i c : sent g k g' p cr cr' -> nth_error (g_cl g') i = Some c ->
  exists c0, nth_error (g_cl g) i = Some c0 /\ cl_id c = cl_id c0 /\ cl_seps c = cl_seps c0 /\
    cl_out c = cl_out c0 /\ cl_spec c = cl_spec c0 /\ (i <> p_rcv p -> c = c0) /\ (i = p_rcv p -> c = cr' /\ c0 = cr).
Proof.
  intros P H. rewrite (se_cl _ _ _ _ _ _ P) in H. destruct (Nat.eq_dec i (p_rcv p)) as [->|N].
  - inversion H; subst c. exists cr. split; [apply (se_cr _ _ _ _ _ _ P)|].
    destruct (receive_fields _ _ _ (se_recv _ _ _ _ _ _ P)) as (E1 & E2 & E3 & E4 & _). repeat split; auto; tauto.
  - exists c. repeat split; auto; tauto.
Qed.
Lemma sent_paths_back g k g' p cr cr' q p0 : sent g k g' p cr cr' -> nth_error (g_paths g) q = Some p0 ->
  exists p', nth_error (g_paths g') q = Some p' /\ p_snd p' = p_snd p0 /\ p_rcv p' = p_rcv p0.
Proof.
  intros P H. assert (Hq : q < length (g_paths g')).
  { rewrite (se_plen _ _ _ _ _ _ P). apply nth_error_Some. congruence. }
  destruct (nth_error (g_paths g') q) as [p'|] eqn:E; [|apply nth_error_None in E; lia].
  destruct (se_paths _ _ _ _ _ _ P q p' E) as (p1 & H1 & H2 & H3 & _). exists p'. split; [reflexivity|].
  rewrite H in H1. inversion H1; subst p1. auto.
Qed.

Lemma struct_sent sepf g k g' p cr cr' : struct_ok sepf g -> sent g k g' p cr cr' -> struct_ok sepf g'.
Proof.
  intros ST P. destruct (receive_fields _ _ _ (se_recv _ _ _ _ _ _ P)) as (E1 & E2 & E3 & E4 & _).
  split.
  - rewrite (map_cl_sent cl_id _ _ _ _ _ _ P E1). apply (st_ids _ _ ST).
  - intros i j S HS. destruct (st_edge _ _ ST i j S HS) as (H1 & H2 & H3 & H4 & H5 & q & p0 & H6 & H7 & H8).
    rewrite (se_len _ _ _ _ _ _ P). repeat split; auto.
    destruct (sent_paths_back _ _ _ _ _ _ q p0 P H6) as (p' & Hp' & Q1 & Q2). exists q, p'. repeat split; congruence.
  - intros q p' Hp'. destruct (se_paths _ _ _ _ _ _ P q p' Hp') as (p0 & H1 & -> & -> & _). eapply st_path; eauto.
  - intros q q' p1 p2 H1 H2 Es Er.
    destruct (se_paths _ _ _ _ _ _ P q p1 H1) as (p1' & H1' & Q1 & Q2 & _).
    destruct (se_paths _ _ _ _ _ _ P q' p2 H2) as (p2' & H2' & Q3 & Q4 & _).
    eapply (st_pair _ _ ST); eauto; congruence.
  - intros i j ci cj Hi Hj. destruct (sent_cl _ _ _ _ _ _ i ci P Hi) as (ci0 & Hi0 & _ & -> & _).
    destruct (sent_cl _ _ _ _ _ _ j cj P Hj) as (cj0 & Hj0 & -> & _). eapply st_sep; eauto.
  - intros i ci Hi. destruct (sent_cl _ _ _ _ _ _ i ci P Hi) as (ci0 & Hi0 & _ & _ & -> & _).
    destruct (st_out _ _ ST i ci0 Hi0) as [Hn Ho]. split; [exact Hn|]. intros q. rewrite Ho. split.
    + intros (p0 & Hp0 & Es). destruct (sent_paths_back _ _ _ _ _ _ q p0 P Hp0) as (p' & Hp' & Q1 & _).
      exists p'. split; congruence.
    + intros (p' & Hp' & Es). destruct (se_paths _ _ _ _ _ _ P q p' Hp') as (p0 & Hp0 & Q1 & _). exists p0. split; congruence.
  - rewrite (se_order _ _ _ _ _ _ P), (se_plen _ _ _ _ _ _ P). apply (st_order _ _ ST).
Qed.

Lemma fresh_passed sepf g k g' p cr cr' : struct_ok sepf g -> fresh ops g -> passed g k g' p cr cr' -> fresh ops g'.
Proof.
  intros ST Fr P q p' ci cj Hp' Hi Hj.
  destruct (pa_paths _ _ _ _ _ _ P q p' Hp') as (p0 & Hp0 & Q1 & Q2 & _ & Qin & Qout).
  rewrite Q1 in Hi. rewrite Q2 in Hj.
  destruct (in_dec Nat.eq_dec q (cl_out cr)) as [I|I].
  - destruct (Qin I) as [(cs & cq & Hcs & Hcq & Hm) _]. congruence.
  - destruct (Qout I) as [-> _]. destruct (sent_cl _ _ _ _ _ _ _ ci (passed_sent _ _ _ _ _ _ P) Hi) as (ci0 & Hi0 & _ & _ & _ & _ & Hne & Heq).
    destruct (sent_cl _ _ _ _ _ _ _ cj (passed_sent _ _ _ _ _ _ P) Hj) as (cj0 & Hj0 & -> & _).
    destruct (Nat.eq_dec (p_snd p0) (p_rcv p)) as [E|E].
    + exfalso. apply I. destruct (Heq E) as [_ ->]. destruct (st_out _ _ ST _ cr Hi0) as [_ Ho]. apply Ho. exists p0. auto.
    + rewrite (Hne E). eapply Fr; eauto.
Qed.

Lemma static_passed sepf g k g' p cr cr' : static_ok sepf g -> passed g k g' p cr cr' -> static_ok sepf g'.
Proof.
  intros [ST Fr G] P. split.
  - eapply struct_sent; [exact ST|apply passed_sent; exact P].
  - eapply fresh_passed; eauto.
  - intros q p' Hp'. destruct (pa_paths _ _ _ _ _ _ P q p' Hp') as (p0 & Hp0 & Q1 & Q2 & Q3 & Qin & Qout).
    destruct (in_dec Nat.eq_dec q (cl_out cr)) as [I|I]; [left; now apply Qin|].
    destruct (Qout I) as [E1 E2]. destruct (Nat.eq_dec q k) as [->|N].
    + right. pose proof (pa_path _ _ _ _ _ _ P) as Hp. rewrite Hp in Hp0. inversion Hp0; subst p0.
      split; [exact E2|]. congruence.
    + rewrite Q3, E1, E2. apply (G q p0 Hp0).
Qed.

Lemma pass_static sepf g k g' : static_ok sepf g -> pass_path ops g k = Ok g' -> static_ok sepf g'.
Proof.
  intros SA H. destruct (pass_path_passed g k g' (struct_out _ _ (sa_struct _ _ SA)) H) as (p & cr & cr' & P).
  eapply static_passed; eauto.
Qed.
Lemma passes_static sepf ks : forall g g', static_ok sepf g -> foldM (pass_path ops) ks g = Ok g' -> static_ok sepf g'.
Proof.
  induction ks as [|k ks IH]; intros g g' SA H; cbn [foldM] in H; [inversion H; subst; exact SA|].
  apply bind_ok in H. destruct H as (g1 & H1 & H). eapply IH; [|exact H]. eapply pass_static; eauto.
Qed.
Lemma made_static o factors ev special reduced final g : made ops o factors ev special reduced final g ->
  static_ok (graph_sep o (map (f_vars ops) final) (all_evidence ev special)) g.
Proof.
  intros M. split.
  - apply (mk_struct _ _ _ _ _ _ _ _ M).
  - apply (mk_fresh _ _ _ _ _ _ _ _ M).
  - intros k p Hp. left. destruct (mk_path _ _ _ _ _ _ _ _ M k p Hp) as [-> H]. exact H.
Qed.

(** ** Processing is a sequence of passes (C33 - C35) *)
Lemma pass_path_congr g h k g' : g_cl g = g_cl h -> g_paths g = g_paths h -> pass_path ops g k = Ok g' ->
  exists h', pass_path ops h k = Ok h' /\ g_cl g' = g_cl h' /\ g_paths g' = g_paths h'.
Proof.
  intros E1 E2 H. unfold pass_path in *. rewrite <- E1, <- E2.
  apply bind_ok in H. destruct H as (p & -> & H). cbn [bind]. apply bind_ok in H. destruct H as (cr & -> & H). cbn [bind].
  apply bind_ok in H. destruct H as (cr' & -> & H). cbn [bind]. apply bind_ok in H. destruct H as (cls & -> & H). cbn [bind].
  apply bind_ok in H. destruct H as (ps1 & -> & H). cbn [bind]. apply bind_ok in H. destruct H as (ps2 & -> & H). cbn [bind].
  inversion H; subst g'. eexists. split; [reflexivity|]. split; reflexivity.
Qed.
Lemma pass_path_order g k g' : pass_path ops g k = Ok g' ->
  g_order g' = g_order g /\ g_passed g' = g_passed g /\ g_dists g' = g_dists g /\ g_spec g' = g_spec g.
Proof.
  intros H. unfold pass_path in H.
  repeat (apply bind_ok in H; let x := fresh in destruct H as (x & _ & H)).
  inversion H; subst; cbn. auto.
Qed.

Lemma vltb_trans_neg a b c : a <> NaN -> b <> NaN -> c <> NaN -> vltb a b = false -> vltb b c = false -> vltb a c = false.
Proof.
  destruct a as [|x| |], b as [|y| |], c as [|z| |]; cbn; intros; try congruence; auto.
  unfold Rlt_b in *. destruct (Rlt_dec x y), (Rlt_dec y z), (Rlt_dec x z); try congruence; lra.
Qed.
Lemma vltb_asym a b : vltb a b = true -> vltb b a = false.
Proof.
  destruct a as [|x| |], b as [|y| |]; cbn; intros; try congruence; auto.
  unfold Rlt_b in *. destruct (Rlt_dec x y), (Rlt_dec y x); try congruence; lra.
Qed.
End Pass.

(** ** Sorting in descending order, for a strict weak order on the keys that occur *)
Section Sorting.
Context {A K : Type} (lt : K -> K -> bool) (key : A -> K) (good : K -> Prop).
Hypothesis asym : forall a b, good a -> good b -> lt a b = true -> lt b a = false.
Hypothesis neg_trans : forall a b c, good a -> good b -> good c -> lt a b = false -> lt b c = false -> lt a c = false.

(** Every earlier element has a key at least as large as every later one. *)
Inductive descending : list A -> Prop :=
  | desc_nil : descending []
  | desc_cons x l : (forall y, In y l -> lt (key x) (key y) = false) -> descending l -> descending (x :: l).

Lemma insert_desc_In x l y : In y (insert_desc lt key x l) <-> y = x \/ In y l.
Proof.
  split.
  - intros H. apply (Permutation_in _ (Permutation_sym (insert_desc_perm lt key x l))) in H. destruct H; auto.
  - intros H. apply (Permutation_in _ (insert_desc_perm lt key x l)). destruct H; [left|right]; auto.
Qed.
Lemma insert_desc_sorted x l : good (key x) -> (forall y, In y l -> good (key y)) -> descending l -> descending (insert_desc lt key x l).
Proof.
  intros Hx. induction l as [|y l IH]; intros Hg Hs; cbn [insert_desc]; [constructor; [intros ? []|constructor]|].
  inversion Hs as [|? ? Hy Hl]; subst. destruct (lt (key x) (key y)) eqn:E.
  - constructor; [|apply IH; auto; intros; apply Hg; right; assumption].
    intros z Hz. apply insert_desc_In in Hz. destruct Hz as [->|Hz]; [|auto].
    apply asym; auto. apply Hg; left; reflexivity.
  - constructor; [|exact Hs]. intros z [<-|Hz]; [exact E|].
    apply (neg_trans _ (key y)); auto; apply Hg; [left; reflexivity|right; exact Hz].
Qed.
Lemma sort_desc_sorted l : (forall y, In y l -> good (key y)) -> descending (sort_desc lt key l).
Proof.
  unfold sort_desc. induction l as [|x l IH]; intros Hg; cbn [fold_right]; [constructor|].
  apply insert_desc_sorted.
  - apply Hg; left; reflexivity.
  - intros y Hy. apply Hg. right. apply (Permutation_in _ (Permutation_sym (sort_desc_perm lt key l))). exact Hy.
  - apply IH. intros; apply Hg; right; assumption.
Qed.

Lemma descending_app l x : descending l -> (forall y, In y l -> lt (key y) (key x) = false) -> descending (l ++ [x]).
Proof.
  induction 1 as [|y l Hy Hl IH]; intros H; cbn; [constructor; [intros ? []|constructor]|].
  constructor; [|apply IH; intros; apply H; right; assumption].
  intros z Hz. apply in_app_or in Hz. destruct Hz as [Hz|[<-|[]]]; [auto|]. apply H; left; reflexivity.
Qed.
Lemma descending_last l y x : descending (l ++ [y]) -> good (key x) -> (forall z, In z (l ++ [y]) -> good (key z)) ->
  lt (key y) (key x) = false -> forall z, In z (l ++ [y]) -> lt (key z) (key x) = false.
Proof.
  intros Hs Hx Hg H. induction l as [|w l IH]; cbn in *; intros z Hz.
  - destruct Hz as [<-|[]]. exact H.
  - inversion Hs as [|? ? Hw Hl]; subst. destruct Hz as [<-|Hz]; [|apply IH; auto].
    apply (neg_trans _ (key y)); auto.
    + apply Hg. right. apply in_or_app; right; left; reflexivity.
    + apply Hw. apply in_or_app; right; left; reflexivity.
Qed.

Lemma almost_sorted_ok x y rest : (forall z, In z (x :: y :: rest) -> good (key z)) -> descending (y :: rest) ->
  exists l', sort_almost_sorted lt key (x :: y :: rest) = Ok l' /\ Permutation (x :: y :: rest) l' /\ descending l'.
Proof.
  intros Hg Hs. unfold sort_almost_sorted. destruct (lt (key x) (key y)) eqn:E.
  - destruct (exists_last (l := y :: rest)) as (m & b & Em); [discriminate|]. rewrite Em.
    rewrite rev_app_distr, rev_app_distr. cbn [rev app].
    destruct (lt (key b) (key x)) eqn:E1; cbn [negb].
    + eexists. split; [reflexivity|]. split.
      * etransitivity; [|apply sort_desc_perm]. rewrite <- Em. apply Permutation_cons_append.
      * apply sort_desc_sorted. intros z Hz. apply Hg. rewrite <- Em in Hz. apply in_app_or in Hz.
        destruct Hz as [Hz|[<-|[]]]; [right; exact Hz|left; reflexivity].
    + eexists. split; [reflexivity|]. split; [rewrite <- Em; apply Permutation_cons_append|].
      rewrite Em in Hs. apply descending_app; [exact Hs|].
      apply descending_last; auto; [apply Hg; left; reflexivity|]. intros z Hz. apply Hg. right. now rewrite Em.
  - assert (Hd : descending (x :: y :: rest)).
    { constructor; [|exact Hs]. inversion Hs as [|? ? Hy Hl]; subst. intros z [<-|Hz]; [exact E|].
      apply (neg_trans _ (key y)); auto; apply Hg; cbn; auto. }
    destruct (exists_last (l := x :: y :: rest)) as (m & a & Em); [discriminate|]. rewrite Em.
    rewrite rev_app_distr. cbn [rev app]. destruct (exists_last (l := m)) as (m' & b & Em').
    { intros ->. discriminate. }
    rewrite Em'. rewrite rev_app_distr. cbn [rev app].
    assert (E1 : lt (key b) (key a) = false).
    { rewrite Em, Em' in Hd. clear - Hd. induction m' as [|w m' IH]; cbn in Hd; inversion Hd as [|? ? H1 H2]; subst.
      - apply H1. left; reflexivity.
      - apply IH; exact H2. }
    rewrite E1. cbn [negb]. eexists. split; [reflexivity|]. split; [reflexivity|]. rewrite <- Em', <- Em. exact Hd.
Qed.
End Sorting.

Section Process.
Context {F V : Type} (ops : fops F V).

(** Maximal gain: no path has a larger one. *)
Definition max_gain (g : cgraph F V) (k : nat) : Prop :=
  forall q, q < length (g_paths g) -> vltb (gain_of (g_paths g) k) (gain_of (g_paths g) q) = false.
Definition comparable (g : cgraph F V) : Prop := forall q, q < length (g_paths g) -> gain_of (g_paths g) q <> NaN.

Lemma sorted_head (g : cgraph F V) k rest :
  Permutation (g_order g) (seq 0 (length (g_paths g))) -> comparable g ->
  g_order (sort_paths g) = k :: rest -> max_gain g k.
Proof.
  intros HP Hc E q Hq. cbn [sort_paths g_order] in E.
  assert (Hall : forall y, In y (g_order g) -> gain_of (g_paths g) y <> NaN).
  { intros y Hy. apply Hc. apply (Permutation_in _ HP) in Hy. apply in_seq in Hy. lia. }
  pose proof (sort_desc_sorted vltb (gain_of (g_paths g)) (fun v => v <> NaN) (fun a b _ _ => vltb_asym a b)
    (fun a b c => vltb_trans_neg a b c) (g_order g) Hall) as Hs.
  rewrite E in Hs. inversion Hs as [|? ? Hk _]; subst.
  assert (Hin : In q (k :: rest)).
  { rewrite <- E. apply (Permutation_in _ (sort_desc_perm vltb _ _)).
    apply (Permutation_in _ (Permutation_sym HP)). apply in_seq. lia. }
  destruct Hin as [<-|Hin]; [|apply Hk; exact Hin].
  destruct (vltb (gain_of (g_paths g) k) (gain_of (g_paths g) k)) eqn:Ek; [|reflexivity].
  pose proof (vltb_asym _ _ Ek). congruence.
Qed.

(** The states visited by a sequence of passes. *)
Inductive trace : cgraph F V -> list nat -> cgraph F V -> Prop :=
  | trace_nil g : trace g [] g
  | trace_cons g k g1 ks g' : pass_path ops g k = Ok g1 -> trace g1 ks g' -> trace g (k :: ks) g'.
Lemma trace_foldM g ks g' : trace g ks g' <-> foldM (pass_path ops) ks g = Ok g'.
Proof.
  split.
  - induction 1 as [|g k g1 ks g' H _ IH]; cbn; [reflexivity|]. now rewrite H.
  - revert g. induction ks as [|k ks IH]; intros g H; cbn in H; [inversion H; constructor|].
    apply bind_ok in H. destruct H as (g1 & H1 & H). econstructor; eauto.
Qed.

Record step_ok (g : cgraph F V) (k : nat) (g' : cgraph F V) (gain : val) : Prop := {
  sk_pass : exists g1, pass_path ops g k = Ok g1 /\ g_cl g' = g_cl g1 /\ g_paths g' = g_paths g1;
  sk_head : exists rest, g_order g = k :: rest;
  sk_order : g_order g' = sort_desc vltb (gain_of (g_paths g')) (g_order g);
  sk_gain : exists k' rest, g_order g' = k' :: rest /\ gain = gain_of (g_paths g') k';
  sk_count : g_passed g' = S (g_passed g);
  sk_dists : g_dists g' = g_dists g ++ [gain];
  sk_spec : g_spec g' = g_spec g }.

Lemma process_step_ok g g' gain : process_step ops g = Ok (g', gain) -> exists k, step_ok g k g' gain.
Proof.
  intros H. unfold process_step in H. apply bind_ok in H. destruct H as (k & Hk & H).
  apply bind_ok in H. destruct H as (g1 & H1 & H). apply bind_ok in H. destruct H as (k' & Hk' & H).
  apply bind_ok in H. destruct H as (p' & Hp' & H). inversion H; subst g' gain; clear H.
  apply py_nth_inv in Hk, Hk', Hp'. exists k. destruct (pass_path_order ops g k g1 H1) as (O1 & O2 & O3 & O4).
  split; cbn [sort_paths g_cl g_paths g_order g_passed g_dists g_spec] in *.
  - exists g1. auto.
  - destruct (g_order g) as [|x rest]; [discriminate|]. inversion Hk. eauto.
  - now rewrite O1.
  - destruct (sort_desc vltb (gain_of (g_paths g1)) (g_order g1)) as [|x rest]; [discriminate|]. inversion Hk'; subst x.
    exists k', rest. split; [reflexivity|]. unfold gain_of. now rewrite Hp'.
  - now rewrite O2.
  - now rewrite O3.
  - exact O4.
Qed.

(** A run of the loop: the list of passes with the state before each of them. *)
Inductive run : cgraph F V -> list (cgraph F V * nat) -> cgraph F V -> Prop :=
  | run_nil g : run g [] g
  | run_cons g k g1 gain steps g' : step_ok g k g1 gain -> run g1 steps g' -> run g ((g, k) :: steps) g'.

Lemma process_loop_run tol n : forall g g', process_loop ops tol n g = Ok g' ->
  exists steps, run g steps g' /\ length steps <= n /\
    (length steps < n -> exists gain k rest, g_order g' = k :: rest /\ gain = gain_of (g_paths g') k /\
       vleb gain (Fin tol) = true) /\
    length (g_dists g') = length (g_dists g) + length steps /\ g_passed g' = g_passed g + length steps.
Proof.
  induction n as [|n IH]; intros g g' H; cbn [process_loop] in H.
  - inversion H; subst. exists []. cbn. repeat split; [constructor|lia|lia|lia|lia].
  - apply bind_ok in H. destruct H as ([g1 gain] & H1 & H). cbn [fst snd] in H.
    destruct (process_step_ok g g1 gain H1) as (k & K). destruct (vleb gain (Fin tol)) eqn:E.
    + inversion H; subst g1. exists [(g, k)]. split; [econstructor; [exact K|constructor]|].
      split; [cbn; lia|]. split.
      * intros _. destruct (sk_gain _ _ _ _ K) as (k' & rest & Ho & Eg). exists gain, k', rest. auto.
      * rewrite (sk_dists _ _ _ _ K), (sk_count _ _ _ _ K), app_length. cbn. lia.
    + destruct (IH g1 g' H) as (steps & R & Hl & Hc & Hd & Hp). exists ((g, k) :: steps).
      split; [econstructor; eauto|]. cbn [length]. split; [lia|]. split; [intros; apply Hc; lia|].
      rewrite Hd, Hp. rewrite (sk_dists _ _ _ _ K), (sk_count _ _ _ _ K), app_length. cbn. lia.
Qed.

Lemma run_trace g steps g' : run g steps g' -> forall h, g_cl g = g_cl h -> g_paths g = g_paths h ->
  exists h', trace h (map snd steps) h' /\ g_cl g' = g_cl h' /\ g_paths g' = g_paths h'.
Proof.
  induction 1 as [g|g k g1 gain steps g' K R IH]; intros h E1 E2; cbn [map snd].
  - exists h. split; [constructor|auto].
  - destruct (sk_pass _ _ _ _ K) as (g2 & Hp & F1 & F2).
    destruct (pass_path_congr ops g h k g2 E1 E2 Hp) as (h1 & Hh1 & G1 & G2).
    destruct (IH h1) as (h' & T & Q1 & Q2); [congruence|congruence|].
    exists h'. split; [econstructor; eauto|auto].
Qed.

Lemma static_sort sepf (g : cgraph F V) : static_ok ops sepf g -> static_ok ops sepf (sort_paths g).
Proof.
  intros [[H1 H2 H3 H4 H5 H6 H7] Fr G]. split; [split| |]; cbn; auto.
  etransitivity; [symmetry; apply sort_desc_perm|exact H7].
Qed.
Lemma static_congr sepf (g h : cgraph F V) : g_cl g = g_cl h -> g_paths g = g_paths h ->
  Permutation (g_order h) (g_order g) -> static_ok ops sepf g -> static_ok ops sepf h.
Proof.
  intros E1 E2 HP [[H1 H2 H3 H4 H5 H6 H7] Fr G].
  split; [split| |]; unfold fresh, gains_ok in *; rewrite <- ?E1, <- ?E2; auto. etransitivity; eauto.
Qed.

Lemma step_static sepf g k g' gain : static_ok ops sepf g -> step_ok g k g' gain -> static_ok ops sepf g'.
Proof.
  intros SA K. destruct (sk_pass _ _ _ _ K) as (g1 & Hp & E1 & E2).
  apply (static_congr sepf g1 g'); auto.
  - rewrite (sk_order _ _ _ _ K). rewrite (proj1 (pass_path_order ops g k g1 Hp)). symmetry. apply sort_desc_perm.
  - eapply pass_static; eauto.
Qed.
Lemma step_plen g k g' gain : step_ok g k g' gain -> (exists sepf, static_ok ops sepf g) -> length (g_paths g') = length (g_paths g).
Proof.
  intros K [sepf SA]. destruct (sk_pass _ _ _ _ K) as (g1 & Hp & E1 & E2). rewrite E2.
  destruct (pass_path_passed ops g k g1 (struct_out sepf g (sa_struct _ _ _ SA)) Hp) as (p & cr & cr' & P).
  apply (pa_plen _ _ _ _ _ _ _ P).
Qed.

(** The head of the queue has maximal gain at every step of the run. *)
Definition head_max (g : cgraph F V) : Prop := forall k rest, g_order g = k :: rest -> comparable g -> max_gain g k.

Lemma run_greedy sepf g steps g' : static_ok ops sepf g -> head_max g -> run g steps g' ->
  (forall s k, In (s, k) steps -> comparable s -> max_gain s k) /\ static_ok ops sepf g' /\ head_max g'.
Proof.
  intros SA HM R. revert SA HM. induction R as [g|g k g1 gain steps g' K R IH]; intros SA HM.
  - split; [intros s k []|auto].
  - pose proof (step_static sepf g k g1 gain SA K) as SA1.
    assert (HM1 : head_max g1).
    { intros k1 rest1 Ho Hc.
      assert (HPo : Permutation (g_order g) (seq 0 (length (g_paths g1)))).
      { rewrite (step_plen g k g1 gain K (ex_intro _ sepf SA)). apply (st_order _ _ (sa_struct _ _ _ SA)). }
      set (gg := {| g_cl := g_cl g1; g_paths := g_paths g1; g_order := g_order g; g_spec := g_spec g1;
                    g_passed := g_passed g1; g_dists := g_dists g1 |}).
      apply (sorted_head gg k1 rest1).
      - exact HPo.
      - exact Hc.
      - rewrite <- Ho, (sk_order _ _ _ _ K). reflexivity. }
    destruct (IH SA1 HM1) as (I1 & I2 & I3). split; [|auto].
    intros s k0 [E|Hin] Hc; [|eapply I1; eauto]. inversion E; subst s k0.
    destruct (sk_head _ _ _ _ K) as (rest & Ho). eapply HM; eauto.
Qed.

(** process_graph: either the single cluster case or a run from the sorted graph. *)
Lemma process_graph_run tol max_iter g g' : process_graph ops tol max_iter g = Ok g' ->
  (exists c, g_cl g = [c]) \/
  (exists steps, run (sort_paths (reset_dists g)) steps g' /\ length steps <= max_iter * length (g_order g) /\
    (length steps < max_iter * length (g_order g) ->
       exists gain k rest, g_order g' = k :: rest /\ gain = gain_of (g_paths g') k /\ vleb gain (Fin tol) = true) /\
    length (g_dists g') = length steps /\ g_passed g' = g_passed g + length steps).
Proof.
  unfold process_graph. cbn zeta. intros H. change (g_cl (reset_dists g)) with (g_cl g) in H.
  change (g_order (reset_dists g)) with (g_order g) in H.
  destruct (g_cl g) as [|c [|c2 cs]] eqn:E.
  - right. destruct (process_loop_run tol _ _ g' H) as (steps & R & Hl & Hc & Hd & Hp). exists steps. auto.
  - left. eauto.
  - right. destruct (process_loop_run tol _ _ g' H) as (steps & R & Hl & Hc & Hd & Hp). exists steps. auto.
Qed.
End Process.
