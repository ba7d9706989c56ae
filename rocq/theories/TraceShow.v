(** What is shown of the record, for graphs built by the constructor. *)
From Verif Require Export TraceRun.
From Coq Require Import Lia Permutation.
Local Open Scope string_scope.
Local Open Scope nat_scope.
Local Open Scope list_scope.

Lemma label_inj i j vs ws x y : String.append (cluster_id i vs) x = String.append (cluster_id j ws) y -> i = j.
Proof.
  unfold cluster_id. rewrite !append_assoc. cbn. intros H. inversion H as [H']. rewrite ?append_assoc in H'. cbn in H'.
  apply hash_split in H'; [|apply no_hash_uint..]. now apply dec_string_inj.
Qed.
Lemma append_cancel a x y : String.append a x = String.append a y -> x = y.
Proof. induction a as [|c a IH]; cbn; intros H; [exact H|]. injection H as H. now apply IH. Qed.

Section Show.
Context {F V : Type} (ops : fops F V) (o : oracle) (Ho : oracle_ok o).
Context (factors : list F) (ev : option (dict string V)) (special : dict string V) (g0 : cgraph F V).
Hypothesis Hmk : mk_graph ops o factors ev special = Ok g0.
Notation tr := (traced F V).

Lemma t_static t : t_history ops g0 t -> exists sepf, static_ok ops sepf (t_g t) /\ static_ok ops sepf g0 /\ length (g_paths (t_g t)) = length (g_paths g0).
Proof.
  intros H. destruct (mk_graph_made ops o factors ev special g0 Ho Hmk) as (reduced & final & M).
  destruct (history_static ops _ _ _ _ _ _ _ _ M (t_history_graph ops g0 t H)) as (S & _ & L & _).
  destruct (history_static ops _ _ _ _ _ _ _ _ M (hi_init ops g0)) as (S0 & _). eauto.
Qed.
Lemma t_fixed t : t_history ops g0 t -> path_ends (t_g t) = path_ends g0 /\ map cl_id (g_cl (t_g t)) = map cl_id (g_cl g0) /\ last_gain t /\
  forall q p h, nth_error (g_paths g0) q = Some p -> nth_error (t_hist t) q = Some h -> exists tail, h = p_gain p :: tail.
Proof.
  intros H. destruct (t_static t H) as (sepf & _ & S0 & _). destruct (t_history_passes ops g0 t H) as (ks & t1 & Hf & A1 & A2 & A3).
  destruct (passes_count ops sepf ks (t_new g0) t1 S0 (new_sized g0) Hf) as (_ & _ & E & I & C). unfold path_ends in *. rewrite A1, A2.
  split; [exact E|]. split; [exact I|]. split.
  - assert (L : last_gain (t_new g0)).
    { intros q p h Hq Hh. cbn in Hq, Hh. rewrite nth_error_map, Hq in Hh. injection Hh as <-. now exists []. }
    pose proof (passes_last ops sepf ks (t_new g0) t1 S0 (new_sized g0) L Hf) as L1. intros q p h. rewrite A2, A3. apply L1.
  - intros q p h Hq Hh. rewrite A3 in Hh. destruct (C q p h Hq Hh) as (h0 & tl & X & -> & _). cbn in X. rewrite nth_error_map, Hq in X. injection X as <-. now exists tl.
Qed.
(** The number of points. *)
Lemma curve_length ks t q p h : foldM (t_pass ops) ks (t_new g0) = Ok t -> nth_error (g_paths g0) q = Some p -> nth_error (t_hist t) q = Some h ->
  length h = 1 + count_occ Nat.eq_dec ks q + length (filter (leads g0 (p_snd p)) ks).
Proof.
  intros Hf Hq Hh. destruct (t_static (t_new g0) (th_init ops g0)) as (sepf & S0 & _).
  destruct (passes_count ops sepf ks (t_new g0) t S0 (new_sized g0) Hf) as (_ & _ & _ & _ & C). destruct (C q p h Hq Hh) as (h0 & tl & X & -> & L).
  cbn in X. rewrite nth_error_map, Hq in X. injection X as <-. cbn [app length]. rewrite L. reflexivity.
Qed.
Lemma passes_recorded ks t : foldM (t_pass ops) ks (t_new g0) = Ok t -> t_history ops g0 t.
Proof.
  assert (G : forall ks s t, t_history ops g0 s -> foldM (t_pass ops) ks s = Ok t -> t_history ops g0 t).
  { clear. induction ks as [|k ks IH]; intros s t Hs H; cbn [foldM] in H; [now injection H as <-|].
    apply bind_ok in H. destruct H as (s1 & H1 & H). eapply IH; [|exact H]. eapply th_pass; eauto. }
  apply G. constructor.
Qed.

Lemma id_shape t i c : t_history ops g0 t -> nth_error (g_cl (t_g t)) i = Some c -> exists vs, cl_id c = cluster_id i vs.
Proof.
  intros H Hc. destruct (t_fixed t H) as (_ & I & _). destruct (mk_graph_made ops o factors ev special g0 Ho Hmk) as (reduced & final & M).
  assert (E : map cl_id (g_cl g0) = map cl_id (map (new_cluster ops special) (enum final))).
  { pose proof (f_equal (map (fun x => snd (fst x))) (mk_core _ _ _ _ _ _ _ _ M)) as E. rewrite !map_map in E. cbn in E. rewrite map_map. exact E. }
  assert (X : nth_error (map cl_id (g_cl (t_g t))) i = Some (cl_id c)) by (rewrite nth_error_map, Hc; reflexivity).
  rewrite I, E, !nth_error_map, nth_error_enum in X. destruct (nth_error final i) as [f|]; [|discriminate]. cbn [option_map] in X.
  rewrite new_cluster_id in X. injection X as X. eauto.
Qed.
Lemma mapM_some {A B} (f : A -> res B) l : (forall x, In x l -> exists y, f x = Ok y) -> exists r, mapM f l = Ok r.
Proof.
  induction l as [|x l IH]; intros H; [now exists []|]. destruct (H x (or_introl eq_refl)) as (y & E). destruct IH as (r & Er); [intros z Hz; apply H; now right|].
  exists (y :: r). cbn. now rewrite E, Er.
Qed.
Lemma F2_imp {A B} (P Q : A -> B -> Prop) l r : (forall x y, P x y -> Q x y) -> Forall2 P l r -> Forall2 Q l r.
Proof. intros H. induction 1; constructor; auto. Qed.
Lemma F2_nth {A B} (P : A -> B -> Prop) l r i y : Forall2 P l r -> nth_error r i = Some y -> exists x, nth_error l i = Some x /\ P x y.
Proof. intros H. revert i. induction H as [|a b l r Hab _ IH]; intros [|i] E; cbn in *; try discriminate; [injection E as <-; eauto|eauto]. Qed.

Lemma curves_shown t : t_history ops g0 t -> exists curves legend, plot_info_gain t false = Ok (curves, None) /\ plot_info_gain t true = Ok (curves, Some legend) /\
  length curves = length (g_paths g0) /\ length legend = length (g_paths g0) /\ NoDup legend /\
  forall i c l, nth_error curves i = Some c -> nth_error legend i = Some l ->
    exists k p p0 cs cr, nth_error (g_order (t_g t)) i = Some k /\ nth_error (g_paths (t_g t)) k = Some p /\ nth_error (g_paths g0) k = Some p0 /\
      nth_error (g_cl (t_g t)) (p_snd p) = Some cs /\ nth_error (g_cl (t_g t)) (p_rcv p) = Some cr /\
      l = String.append (cl_id cs) (String.append "->" (cl_id cr)) /\
      (exists tail, c = p_gain p0 :: tail) /\ (exists front, c = front ++ [p_gain p]).
Proof.
  intros H. destruct (t_static t H) as (sepf & SA & S0 & Lp). destruct (t_fixed t H) as (E & I & L & Hd). pose proof (t_history_sized ops g0 t H) as Sz. unfold sized in Sz.
  pose proof (sa_struct _ _ _ SA) as ST. pose proof (st_order _ _ ST) as Od.
  assert (Ok1 : forall k, In k (g_order (t_g t)) -> exists p cs cr, nth_error (g_paths (t_g t)) k = Some p /\ nth_error (g_cl (t_g t)) (p_snd p) = Some cs /\ nth_error (g_cl (t_g t)) (p_rcv p) = Some cr).
  { intros k Hk. apply (Permutation_in _ Od) in Hk. apply in_seq in Hk. destruct (nth_error (g_paths (t_g t)) k) as [p|] eqn:Ep; [|apply nth_error_None in Ep; lia].
    destruct (st_path _ _ ST k p Ep) as (s & Hs). destruct (st_edge _ _ ST _ _ _ Hs) as (H1 & H2 & _).
    destruct (nth_error (g_cl (t_g t)) (p_snd p)) as [cs|] eqn:E1; [|apply nth_error_None in E1; lia].
    destruct (nth_error (g_cl (t_g t)) (p_rcv p)) as [cr|] eqn:E2; [|apply nth_error_None in E2; lia]. eauto 8. }
  destruct (mapM_some (fun k => py_nth (t_hist t) k) (g_order (t_g t))) as (curves & Hc).
  { intros k Hk. destruct (Ok1 k Hk) as (p & _ & _ & Hp & _). apply py_nth_lt. rewrite Sz. apply nth_error_Some. congruence. }
  destruct (mapM_some (path_label (t_g t)) (g_order (t_g t))) as (legend & Hl).
  { intros k Hk. destruct (Ok1 k Hk) as (p & cs & cr & Hp & H1 & H2). unfold path_label. rewrite (py_nth_some _ _ _ Hp). cbn [bind]. rewrite (py_nth_some _ _ _ H1). cbn [bind]. rewrite (py_nth_some _ _ _ H2). cbn. eauto. }
  assert (Ln : length (g_order (t_g t)) = length (g_paths g0)) by (rewrite (Permutation_length Od), seq_length; exact Lp).
  exists curves, legend. unfold plot_info_gain. rewrite Hc. cbn [bind]. rewrite Hl. cbn [bind]. split; [reflexivity|]. split; [reflexivity|].
  split; [rewrite (mapM_length _ _ _ Hc); exact Ln|]. split; [rewrite (mapM_length _ _ _ Hl); exact Ln|].
  apply mapM_Ok_inv in Hc, Hl.
  assert (Lab : forall i l, nth_error legend i = Some l -> exists k p cs cr, nth_error (g_order (t_g t)) i = Some k /\ nth_error (g_paths (t_g t)) k = Some p /\
    nth_error (g_cl (t_g t)) (p_snd p) = Some cs /\ nth_error (g_cl (t_g t)) (p_rcv p) = Some cr /\ l = String.append (cl_id cs) (String.append "->" (cl_id cr))).
  { intros i l Hi. destruct (F2_nth _ _ _ i l Hl Hi) as (k & Hk & X). unfold path_label in X. apply bind_ok in X. destruct X as (p & Hp & X). apply bind_ok in X. destruct X as (cs & H1 & X).
    apply bind_ok in X. destruct X as (cr & H2 & X). injection X as <-. apply py_nth_inv in Hp, H1, H2. exists k, p, cs, cr. auto. }
  split.
  - apply NoDup_nth_error. intros i j Hi Eij. destruct (nth_error legend i) as [l|] eqn:Ei; [|apply nth_error_None in Ei; lia]. symmetry in Eij.
    destruct (Lab i l Ei) as (k & p & cs & cr & A1 & A2 & A3 & A4 & ->). destruct (Lab j _ Eij) as (k' & p' & cs' & cr' & B1 & B2 & B3 & B4 & B5).
    destruct (id_shape t _ cs H A3) as (vs & Ev), (id_shape t _ cs' H B3) as (ws & Ew). pose proof B5 as X. rewrite Ev, Ew in X. apply label_inj in X.
    rewrite <- X in B3. rewrite A3 in B3. injection B3 as <-. apply append_cancel in B5. cbn in B5. injection B5 as B5.
    destruct (id_shape t _ cr H A4) as (vs' & Ev'), (id_shape t _ cr' H B4) as (ws' & Ew'). rewrite Ev', Ew' in B5. apply cluster_id_inj in B5.
    assert (k = k') by exact (st_pair _ _ ST k k' p p' A2 B2 X B5). subst k'.
    assert (Nd : NoDup (g_order (t_g t))) by (apply (Permutation_NoDup (Permutation_sym Od)), seq_NoDup).
    apply (proj1 (NoDup_nth_error _) Nd); [apply nth_error_Some; congruence|congruence].
  - intros i c l Hi Hi'. destruct (F2_nth _ _ _ i c Hc Hi) as (k & Hk & X). apply py_nth_inv in X. destruct (Lab i l Hi') as (k' & p & cs & cr & A1 & A2 & A3 & A4 & A5).
    assert (k' = k) by congruence. subst k'. assert (Hp0 : exists p0, nth_error (g_paths g0) k = Some p0).
    { destruct (nth_error (g_paths g0) k) as [p0|] eqn:E0; [eauto|]. apply nth_error_None in E0. rewrite <- Lp in E0. apply nth_error_None in E0. congruence. }
    destruct Hp0 as (p0 & Hp0). exists k, p, p0, cs, cr. do 6 (split; [assumption|]). split; [exact (Hd k p0 c Hp0 X)|exact (L k p c A2 X)].
Qed.

(** ** The last messages *)
Lemma last_passed_iff g : history ops g0 g ->
  ((exists fs, last_passed g = Ok fs) <-> forall k p, nth_error (g_paths g) k = Some p -> p_prev p <> None) /\
  ((exists k p, nth_error (g_paths g) k = Some p /\ p_prev p = None) -> last_passed g = Err AttributeError) /\
  forall fs, last_passed g = Ok fs -> Forall2 (fun k f => exists p m, nth_error (g_paths g) k = Some p /\ p_prev p = Some m /\ m_fac m = f) (g_order g) fs.
Proof.
  intros H. destruct (mk_graph_made ops o factors ev special g0 Ho Hmk) as (reduced & final & M).
  destruct (history_static ops _ _ _ _ _ _ _ _ M H) as (SA & _). pose proof (st_order _ _ (sa_struct _ _ _ SA)) as Od. unfold last_passed.
  assert (In1 : forall k, In k (g_order g) <-> k < length (g_paths g)).
  { intros k. split; intros Hk; [apply (Permutation_in _ Od), in_seq in Hk; lia|]. apply (Permutation_in _ (Permutation_sym Od)), in_seq. lia. }
  assert (Inv : forall fs, mapM (fun k => let* p := py_nth (g_paths g) k in match p_prev p with Some m => Ok (m_fac m) | None => Err AttributeError end) (g_order g) = Ok fs ->
    Forall2 (fun k f => exists p m, nth_error (g_paths g) k = Some p /\ p_prev p = Some m /\ m_fac m = f) (g_order g) fs).
  { intros fs Hf. apply mapM_Ok_inv in Hf. revert Hf. apply F2_imp. intros k f X. apply bind_ok in X. destruct X as (p & Hp & X). apply py_nth_inv in Hp.
    destruct (p_prev p) as [m|] eqn:Em; [|discriminate]. injection X as <-. eauto. }
  split; [split|split; [|exact Inv]].
  - intros (fs & Hf) k p Hp C. apply Inv in Hf. assert (Hk : In k (g_order g)) by (apply In1, nth_error_Some; congruence).
    clear - Hf Hk Hp C. induction Hf as [|x f l fs (p' & m & A & B & _) _ IH]; [destruct Hk|]. destruct Hk as [->|Hk]; [congruence|auto].
  - intros Hall. apply mapM_some. intros k Hk. apply In1 in Hk. destruct (nth_error (g_paths g) k) as [p|] eqn:Ep; [|apply nth_error_None in Ep; lia].
    rewrite (py_nth_some _ _ _ Ep). cbn. destruct (p_prev p) eqn:Em; [eauto|]. now destruct (Hall k p Ep).
  - intros (k & p & Hp & Hn). assert (Hk : In k (g_order g)) by (apply In1, nth_error_Some; congruence).
    assert (Al : forall x, In x (g_order g) -> x < length (g_paths g)) by (intros x; apply In1). clear - Hp Hn Hk Al.
    induction (g_order g) as [|x l IH]; [destruct Hk|]. cbn [mapM]. destruct (nth_error (g_paths g) x) as [px|] eqn:Ex; [|apply nth_error_None in Ex; specialize (Al x (or_introl eq_refl)); lia].
    rewrite (py_nth_some _ _ _ Ex). cbn [bind]. destruct (p_prev px) as [m|] eqn:Em; [|reflexivity]. cbn [bind].
    destruct Hk as [->|Hk]; [congruence|]. rewrite IH; [reflexivity|exact Hk|intros y Hy; apply Al; now right].
Qed.
(** After a sequence of passes: the message of the last pass along the path. *)
Lemma passes_history ks : forall g g', history ops g0 g -> foldM (pass_path ops) ks g = Ok g' -> history ops g0 g'.
Proof.
  induction ks as [|k ks IH]; intros g g' Hh H; cbn [foldM] in H; [now injection H as <-|].
  apply bind_ok in H. destruct H as (g1 & H1 & H). eapply IH; [|exact H]. eapply hi_pass; eauto.
Qed.
Lemma last_along ks g k p : foldM (pass_path ops) ks g0 = Ok g -> nth_error (g_paths g) k = Some p ->
  (~ In k ks /\ p_prev p = None) \/
  exists ks1 ks2 g1 p1, ks = ks1 ++ k :: ks2 /\ ~ In k ks2 /\ foldM (pass_path ops) ks1 g0 = Ok g1 /\ nth_error (g_paths g1) k = Some p1 /\ p_prev p = Some (p_next p1).
Proof.
  revert g p. induction ks as [|x ks IH] using rev_ind; intros g p H Hp.
  - cbn in H. injection H as <-. left. split; [intros []|]. destruct (mk_graph_made ops o factors ev special g0 Ho Hmk) as (reduced & final & M). exact (proj1 (mk_path _ _ _ _ _ _ _ _ M k p Hp)).
  - rewrite foldM_app in H. apply bind_ok in H. destruct H as (g1 & H1 & H). cbn [foldM] in H. apply bind_ok in H. destruct H as (g2 & H2 & H). injection H as <-.
    destruct (mk_graph_made ops o factors ev special g0 Ho Hmk) as (reduced & final & M).
    assert (Hh : history ops g0 g1) by (eapply passes_history; [apply hi_init|exact H1]).
    destruct (history_static ops _ _ _ _ _ _ _ _ M Hh) as (SA & _).
    destruct (pass_path_passed ops g1 x g2 (struct_out _ _ (sa_struct _ _ _ SA)) H2) as (px & cr & cr' & P).
    destruct (pa_paths _ _ _ _ _ _ _ P k p Hp) as (p0 & Hp0 & _ & _ & Epr & _). destruct (Nat.eq_dec k x) as [->|N].
    + right. exists ks, [], g1, px. split; [reflexivity|]. split; [intros []|]. split; [exact H1|]. split; [exact (pa_path _ _ _ _ _ _ _ P)|exact Epr].
    + destruct (IH g1 p0 H1 Hp0) as [(A & B)|(ks1 & ks2 & g3 & p1 & A1 & A2 & A3 & A4 & A5)].
      * left. split; [|congruence]. intros C. apply in_app_or in C. destruct C as [C|[C|[]]]; [auto|congruence].
      * right. exists ks1, (ks2 ++ [x]), g3, p1. split; [rewrite A1, <- app_assoc; reflexivity|].
        split; [intros C; apply in_app_or in C; destruct C as [C|[C|[]]]; [auto|congruence]|]. split; [exact A3|]. split; [exact A4|]. congruence.
Qed.
(** The messages kept in debug mode. *)
Lemma debug_messages debug tol n t t' : t_history ops g0 t -> (length (g_cl (t_g t)) <> 1 \/ g_spec (t_g t) = []) -> t_process ops debug tol n t = Ok t' ->
  exists ks g1 ms, foldM (pass_path ops) ks (t_g t) = Ok g1 /\ g_cl (t_g t') = g_cl g1 /\ g_paths (t_g t') = g_paths g1 /\
    sent_messages ops (t_g t) ks = Ok ms /\ t_msgs t' = t_msgs t ++ (if debug then ms else []) /\ g_passed (t_g t') = g_passed (t_g t) + length ks /\ length ms = length ks.
Proof.
  intros H Hs Hp. destruct (process_passes ops debug tol n t t' (t_history_sized ops g0 t H) Hs Hp) as (ks & t1 & ms & _ & Hf & (A1 & A2 & _) & Sm & Mm & Gm).
  assert (G : forall ks s s1, sized s -> foldM (t_pass ops) ks s = Ok s1 -> foldM (pass_path ops) ks (t_g s) = Ok (t_g s1)).
  { clear. induction ks as [|k ks IH]; intros s s1 S Hf; cbn [foldM] in *; [injection Hf as <-; reflexivity|]. apply bind_ok in Hf. destruct Hf as (s2 & H2 & Hf).
    destruct (pass_same ops s k S) as (A & B). rewrite <- A, H2. cbn [tmap bind]. apply IH; [exact (proj1 (B s2 H2))|exact Hf]. }
  exists ks, (t_g t1), ms. split; [exact (G ks t t1 (t_history_sized ops g0 t H) Hf)|]. do 5 (split; [assumption|]).
  clear - Sm. revert Sm. generalize (t_g t). revert ms. induction ks as [|k ks IH]; intros ms g Sm; cbn [sent_messages] in Sm; [injection Sm as <-; reflexivity|].
  apply bind_ok in Sm. destruct Sm as (p & _ & Sm). apply bind_ok in Sm. destruct Sm as (g' & _ & Sm). apply bind_ok in Sm. destruct Sm as (l & Hl & Sm). injection Sm as <-. cbn. f_equal. eauto.
Qed.
Lemma same_run debug tol n t : t_history ops g0 t ->
  match t_process ops debug tol n t with
  | Ok t' => process_graph ops tol n (t_g t) = Ok (t_g t')
  | Err e => process_graph ops tol n (t_g t) = Err e
  end.
Proof.
  intros H. destruct (process_same_graph ops debug tol n t (t_history_sized ops g0 t H)) as (A & _). rewrite <- A.
  destruct (t_process ops debug tol n t); reflexivity.
Qed.
Lemma sent_which ks : forall g ms, sent_messages ops g ks = Ok ms -> forall i m, nth_error ms i = Some m <->
  exists k h p, nth_error ks i = Some k /\ foldM (pass_path ops) (firstn i ks) g = Ok h /\ nth_error (g_paths h) k = Some p /\ m = p_next p.
Proof.
  induction ks as [|k ks IH]; intros g ms Sm i m; cbn [sent_messages] in Sm.
  - injection Sm as <-. split; [destruct i; discriminate|]. intros (? & ? & ? & X & _). destruct i; discriminate X.
  - apply bind_ok in Sm. destruct Sm as (p & Hp & Sm). apply bind_ok in Sm. destruct Sm as (g' & Hg & Sm). apply bind_ok in Sm. destruct Sm as (l & Hl & Sm). injection Sm as <-.
    unfold py_nth in Hp. destruct (nth_error (g_paths g) k) as [p0|] eqn:E; [|discriminate Hp]. injection Hp as ->.
    destruct i as [|i]; cbn [nth_error firstn foldM].
    + split; [intros X; injection X as <-; exists k, g, p; auto|]. intros (k1 & h & p1 & X & Y & Z & ->). injection X as <-. injection Y as <-. congruence.
    + rewrite (IH g' l Hl i m). rewrite Hg. reflexivity.
Qed.
Lemma debug_record debug tol n t t' : t_history ops g0 t -> (length (g_cl (t_g t)) <> 1 \/ g_spec (t_g t) = []) -> t_process ops debug tol n t = Ok t' ->
  exists ks g1 ms, foldM (pass_path ops) ks (t_g t) = Ok g1 /\ g_cl (t_g t') = g_cl g1 /\ g_paths (t_g t') = g_paths g1 /\
    length ms = length ks /\
    (forall i m, nth_error ms i = Some m <-> exists k h p, nth_error ks i = Some k /\ foldM (pass_path ops) (firstn i ks) (t_g t) = Ok h /\ nth_error (g_paths h) k = Some p /\ m = p_next p) /\
    t_msgs t' = t_msgs t ++ (if debug then ms else []) /\ g_passed (t_g t') = g_passed (t_g t) + length ks.
Proof.
  intros H Hs Hp. destruct (debug_messages debug tol n t t' H Hs Hp) as (ks & g1 & ms & A1 & A2 & A3 & A4 & A5 & A6 & A7).
  exists ks, g1, ms. repeat (split; [assumption|]). split; [exact (sent_which ks (t_g t) ms A4)|]. auto.
Qed.
End Show.
