(** Whole runs: the record after any history of messages and calls of process_graph. *)
From Verif Require Export TraceFacts.
From Coq Require Import Lia Permutation.
Local Open Scope string_scope.
Local Open Scope nat_scope.
Local Open Scope list_scope.

Section Run.
Context {F V : Type} (ops : fops F V).
Notation tr := (traced F V).
Notation graph := (cgraph F V).

(** All that can happen to a new graph and its record. *)
Inductive t_history (g0 : graph) : tr -> Prop :=
  | th_init : t_history g0 (t_new g0)
  | th_pass t k t' : t_history g0 t -> t_pass ops t k = Ok t' -> t_history g0 t'
  | th_process t debug tol max_iter t' : t_history g0 t -> (length (g_cl (t_g t)) <> 1 \/ g_spec (t_g t) = []) ->
      t_process ops debug tol max_iter t = Ok t' -> t_history g0 t'.

Lemma tmap_ok {A B} (f : A -> B) r x : r = Ok x -> tmap f r = Ok (f x).
Proof. intros ->. reflexivity. Qed.
Lemma tmap_inv {A B} (f : A -> B) r y : tmap f r = Ok y -> exists x, r = Ok x /\ y = f x.
Proof. destruct r; cbn; [intros H; injection H as <-; eauto|discriminate]. Qed.
Lemma t_history_sized g0 t : t_history g0 t -> sized t.
Proof.
  induction 1 as [|t k t' H IH Hp|t debug tol n t' H IH Hs Hp]; [apply new_sized|exact (proj1 (proj2 (pass_same ops t k IH) t' Hp))|exact (proj2 (process_same_graph ops debug tol n t IH) t' Hp)].
Qed.
Lemma t_history_graph g0 t : t_history g0 t -> history ops g0 (t_g t).
Proof.
  induction 1 as [|t k t' H IH Hp|t debug tol n t' H IH Hs Hp]; [constructor| |]; pose proof (t_history_sized _ _ H) as S.
  - eapply hi_pass; [exact IH|]. rewrite <- (proj1 (pass_same ops t k S)). exact (tmap_ok t_g _ _ Hp).
  - eapply hi_process; [exact IH|exact Hs|]. rewrite <- (proj1 (process_same_graph ops debug tol n t S)). exact (tmap_ok t_g _ _ Hp).
Qed.
Lemma history_recorded g0 g : history ops g0 g -> exists t, t_history g0 t /\ t_g t = g.
Proof.
  induction 1 as [|g k g' H (t & IH & <-) Hp|g tol n g' H (t & IH & <-) Hs Hp]; [exists (t_new g0); split; [constructor|reflexivity]| |]; pose proof (t_history_sized _ _ IH) as S.
  - rewrite <- (proj1 (pass_same ops t k S)) in Hp. apply tmap_inv in Hp. destruct Hp as (t' & Hp & ->). exists t'. split; [econstructor 2; eauto|reflexivity].
  - rewrite <- (proj1 (process_same_graph ops false tol n t S)) in Hp. apply tmap_inv in Hp. destruct Hp as (t' & Hp & ->). exists t'. split; [econstructor 3; eauto|reflexivity].
Qed.

(** ** Only the clusters, the paths and the gains matter *)
Definition alike (t s : tr) : Prop := g_cl (t_g t) = g_cl (t_g s) /\ g_paths (t_g t) = g_paths (t_g s) /\ t_hist t = t_hist s.
Lemma pass_alike t s k t' : alike t s -> t_pass ops t k = Ok t' -> exists s', t_pass ops s k = Ok s' /\ alike t' s'.
Proof.
  intros (E1 & E2 & E3) H. unfold t_pass in *. cbn zeta in *. rewrite <- E1, <- E2, <- E3.
  destruct (py_nth (g_paths (t_g t)) k) as [p|]; [|discriminate]. cbn [bind] in *.
  destruct (py_nth (g_cl (t_g t)) (p_rcv p)) as [cr|]; [|discriminate]. cbn [bind] in *.
  destruct (receive_message ops cr (p_next p)) as [cr'|]; [|discriminate]. cbn [bind] in *.
  destruct (list_set (g_cl (t_g t)) (p_rcv p) cr') as [cls|]; [|discriminate]. cbn [bind] in *.
  destruct (list_set (g_paths (t_g t)) k _) as [ps1|]; [|discriminate]. cbn [bind] in *.
  destruct (py_nth (t_hist t) k) as [h|]; [|discriminate]. cbn [bind] in *.
  destruct (list_set (t_hist t) k (h ++ [Fin 0])) as [hs1|]; [|discriminate]. cbn [bind] in *.
  destruct (foldM (t_recompute_at ops cls) (cl_out cr') (ps1, hs1)) as [r|]; [|discriminate]. cbn [bind] in *.
  injection H as <-. eexists. split; [reflexivity|]. repeat split.
Qed.
Lemma passes_alike ks : forall t s t', alike t s -> foldM (t_pass ops) ks t = Ok t' -> exists s', foldM (t_pass ops) ks s = Ok s' /\ alike t' s'.
Proof.
  induction ks as [|k ks IH]; intros t s t' A H; cbn [foldM] in *; [injection H as <-; eauto|].
  apply bind_ok in H. destruct H as (t1 & H1 & H). destruct (pass_alike t s k t1 A H1) as (s1 & S1 & A1). rewrite S1. cbn [bind]. eauto.
Qed.
(** The messages of a sequence of passes. *)
Fixpoint sent_messages (g : graph) (ks : list nat) : res (list (msg F)) :=
  match ks with
  | [] => Ok []
  | k :: ks' => let* p := py_nth (g_paths g) k in
                let* g' := pass_path ops g k in
                let* l := sent_messages g' ks' in Ok (p_next p :: l)
  end.
Lemma sent_alike ks : forall g h l, g_cl g = g_cl h -> g_paths g = g_paths h -> sent_messages g ks = Ok l -> sent_messages h ks = Ok l.
Proof.
  induction ks as [|k ks IH]; intros g h l E1 E2 H; cbn [sent_messages] in *; [exact H|]. rewrite <- E2.
  destruct (py_nth (g_paths g) k) as [p|]; [|discriminate]. cbn [bind] in *. apply bind_ok in H. destruct H as (g' & Hp & H).
  destruct (pass_path_congr ops g h k g' E1 E2 Hp) as (h1 & Hh1 & G1 & G2). rewrite Hh1. cbn [bind]. apply bind_ok in H. destruct H as (l' & Hl & H).
  now rewrite (IH g' h1 l' G1 G2 Hl).
Qed.
Lemma iter_pass debug t r : t_iter ops debug t = Ok r -> exists k p t1, py_nth (g_order (t_g t)) 0 = Ok k /\ py_nth (g_paths (t_g t)) k = Ok p /\ t_pass ops t k = Ok t1 /\ alike (fst r) t1 /\
  t_msgs (fst r) = t_msgs t ++ (if debug then [p_next p] else []) /\ g_passed (t_g (fst r)) = S (g_passed (t_g t)).
Proof.
  intros H. unfold t_iter in H. apply bind_ok in H. destruct H as (k & Hk & H). apply bind_ok in H. destruct H as (p & Hp & H).
  apply bind_ok in H. destruct H as (t2 & H2 & H). apply bind_ok in H. destruct H as (k' & _ & H). apply bind_ok in H. destruct H as (p' & _ & H). injection H as <-. cbn [fst].
  set (t0 := {| t_g := t_g t; t_hist := t_hist t; t_msgs := _ |}) in H2.
  assert (Gp : g_passed (t_g t2) = g_passed (t_g t) /\ t_msgs t2 = t_msgs t0).
  { unfold t_pass in H2. cbn zeta in H2. do 8 (apply bind_ok in H2; destruct H2 as (? & _ & H2)). injection H2 as <-. auto. }
  destruct (pass_alike t0 t k t2 (conj eq_refl (conj eq_refl eq_refl)) H2) as (t1 & H1 & A). exists k, p, t1.
  split; [exact Hk|]. split; [exact Hp|]. split; [exact H1|]. split; [destruct A as (A1 & A2 & A3); split; [exact A1|split; [exact A2|exact A3]]|].
  cbn. destruct Gp as [-> ->]. split; [|reflexivity]. unfold t0. cbn. destruct debug; [reflexivity|now rewrite app_nil_r].
Qed.
Lemma loop_passes debug tol n : forall t t', sized t -> t_loop ops debug tol n t = Ok t' -> exists ks t1 ms, length ks <= n /\ foldM (t_pass ops) ks t = Ok t1 /\ alike t' t1 /\
  sent_messages (t_g t) ks = Ok ms /\ t_msgs t' = t_msgs t ++ (if debug then ms else []) /\ g_passed (t_g t') = g_passed (t_g t) + length ks.
Proof.
  induction n as [|n IH]; intros t t' S H; cbn [t_loop] in H.
  - injection H as <-. exists [], t, []. cbn. split; [lia|]. split; [reflexivity|]. split; [repeat split|]. split; [reflexivity|]. split; [destruct debug; now rewrite app_nil_r|lia].
  - apply bind_ok in H. destruct H as (r & Hr & H). destruct (iter_pass debug t r Hr) as (k & p & t1 & Hk & Hp & H1 & A & M & Gp).
    pose proof (proj2 (step_same ops debug t S) r Hr) as Sr. pose proof (tmap_ok t_g _ _ H1) as P1. rewrite (proj1 (pass_same ops t k S)) in P1.
    assert (B : forall t2, fst r = t2 -> exists ks t3 ms, length ks <= 1 /\ foldM (t_pass ops) ks t = Ok t3 /\ alike t2 t3 /\
      sent_messages (t_g t) ks = Ok ms /\ t_msgs t2 = t_msgs t ++ (if debug then ms else []) /\ g_passed (t_g t2) = g_passed (t_g t) + length ks).
    { intros t2 <-. exists [k], t1, [p_next p]. cbn [foldM sent_messages]. rewrite H1, Hp. cbn [bind]. rewrite P1. cbn [bind length]. split; [lia|]. split; [reflexivity|]. split; [exact A|]. split; [reflexivity|]. split; [exact M|lia]. }
    destruct (vleb (snd r) (Fin tol)).
    + injection H as H. destruct (B t' H) as (ks & t3 & ms & L & R). exists ks, t3, ms. split; [lia|exact R].
    + destruct (IH (fst r) t' Sr H) as (ks & t2 & ms & L & Hf & A2 & Sm & Mm & Gm).
      destruct (passes_alike ks (fst r) t1 t2 A Hf) as (t3 & Hf3 & A3). exists (k :: ks), t3, (p_next p :: ms).
      cbn [foldM sent_messages]. rewrite H1, Hp. cbn [bind]. rewrite P1. cbn [bind length]. split; [lia|]. split; [exact Hf3|].
      split; [destruct A2 as (X1 & X2 & X3), A3 as (Y1 & Y2 & Y3); repeat split; congruence|].
      destruct A as (A1 & A1' & _). rewrite (sent_alike ks _ _ ms A1 A1' Sm). cbn [bind]. split; [reflexivity|]. split; [|lia].
      rewrite Mm, M, <- app_assoc. destruct debug; reflexivity.
Qed.
Lemma process_passes debug tol n t t' : sized t -> (length (g_cl (t_g t)) <> 1 \/ g_spec (t_g t) = []) -> t_process ops debug tol n t = Ok t' ->
  exists ks t1 ms, length ks <= n * length (g_order (t_g t)) /\ foldM (t_pass ops) ks t = Ok t1 /\ alike t' t1 /\
  sent_messages (t_g t) ks = Ok ms /\ t_msgs t' = t_msgs t ++ (if debug then ms else []) /\ g_passed (t_g t') = g_passed (t_g t) + length ks.
Proof.
  intros S Hs H. unfold t_process in H. cbn zeta in H. change (g_cl (reset_dists (t_g t))) with (g_cl (t_g t)) in H. change (g_order (reset_dists (t_g t))) with (g_order (t_g t)) in H.
  set (t0 := {| t_g := sort_paths (reset_dists (t_g t)); t_hist := t_hist t; t_msgs := t_msgs t |}) in H.
  assert (L : t_loop ops debug tol (n * length (g_order (t_g t))) t0 = Ok t' -> exists ks t1 ms, length ks <= n * length (g_order (t_g t)) /\ foldM (t_pass ops) ks t = Ok t1 /\ alike t' t1 /\
  sent_messages (t_g t) ks = Ok ms /\ t_msgs t' = t_msgs t ++ (if debug then ms else []) /\ g_passed (t_g t') = g_passed (t_g t) + length ks).
  { intros Hl. destruct (loop_passes debug tol _ t0 t' S Hl) as (ks & t1 & ms & L1 & L2 & L3 & L4 & L5 & L6).
    destruct (passes_alike ks t0 t t1 (conj eq_refl (conj eq_refl eq_refl)) L2) as (t2 & T2 & A2). exists ks, t2, ms. split; [exact L1|]. split; [exact T2|].
    split; [destruct L3 as (X1 & X2 & X3), A2 as (Y1 & Y2 & Y3); repeat split; congruence|]. split; [exact (sent_alike ks (t_g t0) (t_g t) ms eq_refl eq_refl L4)|]. split; [exact L5|exact L6]. }
  destruct (g_cl (t_g t)) as [|c [|c' l]] eqn:Ec; [now apply L| |now apply L].
  destruct Hs as [Hs|Hs]; [cbn in Hs; congruence|]. unfold process_graph in H. cbn zeta in H. change (g_cl (reset_dists (t_g t))) with (g_cl (t_g t)) in H. change (g_spec (reset_dists (t_g t))) with (g_spec (t_g t)) in H.
  rewrite Ec, Hs in H. cbn [bind] in H. injection H as <-. exists [], t, []. cbn. split; [lia|]. split; [reflexivity|]. split; [repeat split; cbn; congruence|].
  split; [reflexivity|]. split; [destruct debug; now rewrite app_nil_r|lia].
Qed.
(** The curves are those of a sequence of passes. *)
Lemma foldM_app {A B} (f : A -> B -> res A) l1 : forall l2 a, foldM f (l1 ++ l2) a = let* b := foldM f l1 a in foldM f l2 b.
Proof. induction l1 as [|x l1 IH]; intros l2 a; cbn; [reflexivity|]. destruct (f a x); cbn; [apply IH|reflexivity]. Qed.
Lemma t_history_passes g0 t : t_history g0 t -> exists ks t1, foldM (t_pass ops) ks (t_new g0) = Ok t1 /\ alike t t1.
Proof.
  induction 1 as [|t k t' H (ks & t1 & Hf & A) Hp|t debug tol n t' H (ks & t1 & Hf & A) Hs Hp].
  - exists [], (t_new g0). split; [reflexivity|repeat split].
  - destruct (pass_alike t t1 k t' A Hp) as (s & Hs & As). exists (ks ++ [k]), s. rewrite foldM_app, Hf. cbn. rewrite Hs. auto.
  - destruct (process_passes debug tol n t t' (t_history_sized _ _ H) Hs Hp) as (ks2 & t2 & ms & _ & H2 & A2 & _).
    destruct (passes_alike ks2 t t1 t2 A H2) as (t3 & H3 & A3). exists (ks ++ ks2), t3. rewrite foldM_app, Hf. cbn. split; [exact H3|].
    destruct A2 as (X1 & X2 & X3), A3 as (Y1 & Y2 & Y3). repeat split; congruence.
Qed.

(** ** Lengths and ends of the curves *)
Definition path_ends (g : graph) : list (nat * nat) := map (fun p => (p_snd p, p_rcv p)) (g_paths g).
Definition leads (g : graph) (i k : nat) : bool := match nth_error (g_paths g) k with Some p => Nat.eqb (p_rcv p) i | None => false end.
Lemma pass_ends sepf g k g' : static_ok ops sepf g -> pass_path ops g k = Ok g' -> path_ends g' = path_ends g /\ map cl_id (g_cl g') = map cl_id (g_cl g).
Proof.
  intros SA H. destruct (pass_path_passed ops g k g' (struct_out sepf g (sa_struct _ _ _ SA)) H) as (p & cr & cr' & P). split.
  - apply nth_error_ext. intros q. unfold path_ends. rewrite !nth_error_map. destruct (nth_error (g_paths g') q) as [p'|] eqn:E.
    + destruct (pa_paths _ _ _ _ _ _ _ P q p' E) as (p0 & E0 & E1 & E2 & _). rewrite E0. cbn. now rewrite E1, E2.
    + apply nth_error_None in E. rewrite (pa_plen _ _ _ _ _ _ _ P) in E. apply nth_error_None in E. now rewrite E.
  - apply nth_error_ext. intros i. rewrite !nth_error_map, (pa_cl _ _ _ _ _ _ _ P i). destruct (Nat.eq_dec i (p_rcv p)) as [->|]; [|reflexivity].
    rewrite (pa_cr _ _ _ _ _ _ _ P). cbn. now rewrite (proj1 (receive_fields _ _ _ _ (pa_recv _ _ _ _ _ _ _ P))).
Qed.
Lemma leads_ends g g' i k : path_ends g' = path_ends g -> leads g' i k = leads g i k.
Proof.
  intros E. unfold leads. assert (X : nth_error (path_ends g') k = nth_error (path_ends g) k) by now rewrite E. unfold path_ends in X. rewrite !nth_error_map in X.
  destruct (nth_error (g_paths g') k), (nth_error (g_paths g) k); cbn in X; try discriminate; [|reflexivity]. now injection X as _ ->.
Qed.
Lemma passes_count sepf ks : forall t t', static_ok ops sepf (t_g t) -> sized t -> foldM (t_pass ops) ks t = Ok t' ->
  static_ok ops sepf (t_g t') /\ sized t' /\ path_ends (t_g t') = path_ends (t_g t) /\ map cl_id (g_cl (t_g t')) = map cl_id (g_cl (t_g t)) /\
  forall q p h', nth_error (g_paths (t_g t)) q = Some p -> nth_error (t_hist t') q = Some h' -> exists h tail, nth_error (t_hist t) q = Some h /\ h' = h ++ tail /\
    length tail = count_occ Nat.eq_dec ks q + length (filter (leads (t_g t) (p_snd p)) ks).
Proof.
  induction ks as [|k ks IH]; intros t t' SA S H; cbn [foldM] in H.
  - injection H as <-. do 4 (split; [auto|]). intros q p h _ Hq. exists h, []. cbn. rewrite app_nil_r. auto.
  - apply bind_ok in H. destruct H as (t1 & H1 & H). pose proof (tmap_ok t_g _ _ H1) as P1. rewrite (proj1 (pass_same ops t k S)) in P1.
    destruct (pass_ends sepf _ k _ SA P1) as (E1 & I1). pose proof (proj1 (proj2 (pass_same ops t k S) t1 H1)) as S1.
    pose proof (pass_static ops sepf _ k _ SA P1) as SA1. destruct (IH t1 t' SA1 S1 H) as (A1 & A2 & A3 & A4 & A5).
    split; [exact A1|]. split; [exact A2|]. split; [congruence|]. split; [congruence|]. intros q p h' Hq Hh.
    assert (Q1 : exists p1, nth_error (g_paths (t_g t1)) q = Some p1 /\ p_snd p1 = p_snd p /\ p_rcv p1 = p_rcv p).
    { assert (X : nth_error (path_ends (t_g t1)) q = nth_error (path_ends (t_g t)) q) by now rewrite E1. unfold path_ends in X. rewrite !nth_error_map, Hq in X.
      destruct (nth_error (g_paths (t_g t1)) q) as [p1|]; [|discriminate]. cbn in X. injection X as X1 X2. eauto. }
    destruct Q1 as (p1 & Hp1 & Sp & _). destruct (A5 q p1 h' Hp1 Hh) as (h1 & tl & Q2 & -> & Q3).
    destruct (pass_gains ops t k t1 S (struct_out sepf _ (sa_struct _ _ _ SA)) H1) as (pk & cr & Hk & Hcr & G).
    destruct (G q h1 Q2) as (h0 & p' & Q4 & Q5 & ->). exists h0. eexists. split; [exact Q4|]. split; [rewrite <- !app_assoc; reflexivity|].
    rewrite !app_length, Q3, Sp. cbn [filter count_occ].
    rewrite (filter_ext (leads (t_g t1) (p_snd p)) (leads (t_g t) (p_snd p))) by (intros x; now apply leads_ends).
    assert (Lk : leads (t_g t) (p_snd p) k = if in_dec Nat.eq_dec q (cl_out cr) then true else false).
    { unfold leads. rewrite Hk. destruct (st_out _ _ (sa_struct _ _ _ SA) _ cr Hcr) as (_ & O). destruct (in_dec Nat.eq_dec q (cl_out cr)) as [I|I].
      - apply O in I. destruct I as (p2 & X & Y). rewrite Hq in X. injection X as <-. rewrite Y. apply Nat.eqb_refl.
      - apply Nat.eqb_neq. intros C. apply I, O. eauto. }
    rewrite Lk. destruct (Nat.eq_dec q k) as [->|N].
    + destruct (Nat.eq_dec k k); [|congruence]. destruct (in_dec Nat.eq_dec k (cl_out cr)); cbn; lia.
    + destruct (Nat.eq_dec k q); [congruence|]. destruct (in_dec Nat.eq_dec q (cl_out cr)); cbn; lia.
Qed.
Definition last_gain (t : tr) : Prop := forall q p h, nth_error (g_paths (t_g t)) q = Some p -> nth_error (t_hist t) q = Some h -> exists h0, h = h0 ++ [p_gain p].
Lemma pass_last sepf t k t' : static_ok ops sepf (t_g t) -> sized t -> last_gain t -> t_pass ops t k = Ok t' -> last_gain t'.
Proof.
  intros SA S L H q p' h Hq Hh. pose proof (tmap_ok t_g _ _ H) as P1. rewrite (proj1 (pass_same ops t k S)) in P1.
  destruct (pass_path_passed ops (t_g t) k (t_g t') (struct_out sepf _ (sa_struct _ _ _ SA)) P1) as (pk & cr & cr' & P).
  destruct (pass_gains ops t k t' S (struct_out sepf _ (sa_struct _ _ _ SA)) H) as (pk2 & cr2 & Hk & Hcr & G).
  assert (pk2 = pk) by (pose proof (pa_path _ _ _ _ _ _ _ P); congruence). subst pk2. assert (cr2 = cr) by (pose proof (pa_cr _ _ _ _ _ _ _ P); congruence). subst cr2.
  destruct (G q h Hh) as (h0 & p2 & Q1 & Q2 & ->). assert (p2 = p') by congruence. subst p2.
  destruct (pa_paths _ _ _ _ _ _ _ P q p' Hq) as (p0 & Hp0 & _ & _ & _ & _ & Hn).
  destruct (in_dec Nat.eq_dec q (cl_out cr)) as [I|I]; [exists (h0 ++ (if Nat.eq_dec q k then [Fin 0] else [])); now rewrite app_assoc|].
  rewrite app_nil_r. destruct (Hn I) as (_ & ->). destruct (Nat.eq_dec q k); [eauto|]. rewrite app_nil_r. eapply L; eauto.
Qed.
Lemma passes_last sepf ks : forall t t', static_ok ops sepf (t_g t) -> sized t -> last_gain t -> foldM (t_pass ops) ks t = Ok t' -> last_gain t'.
Proof.
  induction ks as [|k ks IH]; intros t t' SA S L H; cbn [foldM] in H; [now injection H as <-|].
  apply bind_ok in H. destruct H as (t1 & H1 & H). pose proof (tmap_ok t_g _ _ H1) as P1. rewrite (proj1 (pass_same ops t k S)) in P1.
  apply (IH t1 t'); [exact (pass_static ops sepf _ k _ SA P1)|exact (proj1 (proj2 (pass_same ops t k S) t1 H1))|exact (pass_last sepf t k t1 SA S L H1)|exact H].
Qed.
End Run.
