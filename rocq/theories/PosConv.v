(** Message passing with positive potentials: on a tree the greedy schedule sends a bounded number of messages. *)
From Verif Require Export PosTotal TreeWeight.
#[global] Set Bullet Behavior "Strict Subproofs".
Local Open Scope nat_scope.

(** Messages have a form, [canon], in which two equal ones have divergence zero. *)
Record qlaws {F} (ops : fops F R) (good canon : F -> Prop) (pt : F -> renv -> R) : Prop := {
  ql_marg : forall f vs xs r s m, good f -> f_reduce ops f vs xs = Ok r -> f_marg ops r s = Ok m -> canon m;
  ql_cancel : forall a b r, f_cancel ops a b = Ok r -> canon r;
  ql_zero : forall a b, good a -> good b -> canon a -> (forall v, In v (f_vars ops a) <-> In v (f_vars ops b)) ->
    (forall e, pt a e = pt b e) -> f_kl ops a b = Ok (Fin 0) }.

Definition pedges {F} (g : cgraph F R) : list (nat * nat) := map (fun p => (p_snd p, p_rcv p)) (g_paths g).
Definition at_edge {F} (g : cgraph F R) (k : nat) (e : nat * nat) : Prop := exists p, nth_error (g_paths g) k = Some p /\ (p_snd p, p_rcv p) = e.
Lemma pedges_nth {F} (g : cgraph F R) k e : nth_error (pedges g) k = Some e <-> at_edge g k e.
Proof.
  unfold pedges, at_edge. rewrite nth_error_map. split.
  - destruct (nth_error (g_paths g) k) as [p|]; [|discriminate]. cbn. intros [= <-]. eauto.
  - intros (p & -> & <-). reflexivity.
Qed.

Section PConv.
Context {F : Type} (ops : fops F R) (good sound ready canon : F -> Prop) (pt : F -> renv -> R).
Hypothesis L : plaws ops good sound ready pt.
Hypothesis T : tlaws ops good sound ready.
Hypothesis Q : qlaws ops good canon pt.
Section PState.
Context (o : oracle) (final : list F) (ev : option (dict string R)) (special : dict string R).
Hypothesis Ho : oracle_ok o.
Hypothesis Gfin : forall f, In f final -> good f.
Let Hsound := tsound ops good sound ready pt L T o final ev special Gfin.
Notation Live := (plive ops good sound ready pt o final ev special).

(** The messages that have been sent are in that form. *)
Definition sent_canon (g : cgraph F R) : Prop := forall k p m, nth_error (g_paths g) k = Some p -> p_prev p = Some m -> canon (m_fac m).
Lemma next_canon g k p : Live g -> nth_error (g_paths g) k = Some p -> canon (m_fac (p_next p)).
Proof.
  intros [IV SA] Hp. destruct (pends ops good sound ready pt o final ev special g k p IV Hp) as (S & ci & cj & fi & fj & q & kq & _ & _ & _ & Hi & Hj & _).
  pose proof (sa_fresh _ _ _ SA k p ci cj Hp Hi Hj) as H. destruct (pi_cl _ _ _ _ _ _ _ _ _ _ IV _ ci Hi) as (f & _ & _ & (Gc & _) & _).
  unfold make_message in H. apply bind_ok in H. destruct H as (s & _ & H). apply bind_ok in H. destruct H as (f1 & H1 & H). apply bind_ok in H. destruct H as (f2 & H2 & H).
  apply bind_ok in H. destruct H as (f3 & H3 & H). injection H as <-. cbn [m_fac]. destruct (dget (cl_recv ci) (cl_id cj)) as [m|].
  - exact (ql_cancel _ _ _ _ Q _ _ _ H3).
  - injection H3 as <-. exact (ql_marg _ _ _ _ Q _ _ _ _ _ _ Gc H1 H2).
Qed.
Lemma sent_canon_pass g k g' : Live g -> sent_canon g -> pass_path ops g k = Ok g' -> sent_canon g'.
Proof.
  intros LV H E k1 p1 m Hp1 Hm. destruct (pass_path_passed ops g k g' (struct_out _ _ (sa_struct _ _ _ (pv_static _ _ _ _ _ _ _ _ _ _ LV))) E) as (p & cr & cr' & P).
  destruct (pa_paths _ _ _ _ _ _ _ P k1 p1 Hp1) as (p0 & H0 & _ & _ & E3 & _). rewrite E3 in Hm. destruct (Nat.eq_dec k1 k) as [->|N].
  - injection Hm as <-. exact (next_canon g k p LV (pa_path _ _ _ _ _ _ _ P)).
  - exact (H k1 p0 m H0 Hm).
Qed.
Lemma sent_canon_step g k g' gain : Live g -> sent_canon g -> step_ok ops g k g' gain -> sent_canon g'.
Proof.
  intros LV H K. destruct (sk_pass _ _ _ _ _ K) as (g1 & Hp & _ & E2). pose proof (sent_canon_pass g k g1 LV H Hp) as H1. intros k1 p1 m. rewrite E2. apply H1.
Qed.
Lemma sent_canon_run g steps g' : Live g -> sent_canon g -> run ops g steps g' -> sent_canon g'.
Proof.
  intros LV H R. induction R as [g|g k g1 gain steps g' K R IH]; [exact H|].
  apply IH; [exact (plive_step ops good sound ready pt L o final ev special Ho Gfin Hsound g k g1 gain LV K)|exact (sent_canon_step g k g1 gain LV H K)].
Qed.

Lemma pedges_pass g k g' : Live g -> pass_path ops g k = Ok g' -> pedges g' = pedges g.
Proof.
  intros LV E. destruct (pass_path_passed ops g k g' (struct_out _ _ (sa_struct _ _ _ (pv_static _ _ _ _ _ _ _ _ _ _ LV))) E) as (p & cr & cr' & P).
  apply nth_error_ext. intros n. unfold pedges. rewrite !nth_error_map. destruct (nth_error (g_paths g') n) as [p'|] eqn:E1.
  - destruct (pa_paths _ _ _ _ _ _ _ P n p' E1) as (p0 & E0 & E2 & E3 & _). rewrite E0. cbn [option_map]. now rewrite E2, E3.
  - apply nth_error_None in E1. rewrite (pa_plen _ _ _ _ _ _ _ P) in E1. now rewrite (proj2 (nth_error_None _ n) E1).
Qed.

Lemma pedges_run g steps g' : Live g -> run ops g steps g' -> pedges g' = pedges g.
Proof.
  intros LV R. induction R as [g|g k g1 gain steps g' K R IH]; [reflexivity|].
  rewrite (IH (plive_step ops good sound ready pt L o final ev special Ho Gfin Hsound g k g1 gain LV K)).
  destruct (sk_pass _ _ _ _ _ K) as (g2 & Hp2 & C2 & P2). rewrite <- (pedges_pass g k g2 LV Hp2). unfold pedges. now rewrite P2.
Qed.

(** Sending the waiting message would change nothing. *)
Definition pquiet (g : cgraph F R) (k : nat) : Prop := forall p, nth_error (g_paths g) k = Some p ->
  exists m0, p_prev p = Some m0 /\ forall e, pt (m_fac m0) e = pt (m_fac (p_next p)) e.

Section Pass.
Context (g g' : cgraph F R) (k : nat) (p : path F).
Hypothesis LV : Live g.
Hypothesis Hp : nth_error (g_paths g) k = Some p.
Hypothesis Hpass : pass_path ops g k = Ok g'.
Lemma pquiet_self : pquiet g' k.
Proof.
  intros p' Hp'. destruct (ppass_other ops good sound ready pt o final ev special g g' k p LV Hp Hpass k p p' Hp Hp') as (_ & _ & E3 & E4).
  - exact (pends_differ ops good sound ready pt o final ev special g LV k p Hp).
  - exists (p_next p). destruct (Nat.eq_dec k k) as [_|]; [|congruence]. split; [exact E4|]. intros e. now rewrite E3.
Qed.
Lemma pquiet_other k1 p1 : nth_error (g_paths g) k1 = Some p1 -> p_snd p1 <> p_rcv p -> pquiet g k1 -> pquiet g' k1.
Proof.
  intros H1 Hs D. destruct (Nat.eq_dec k1 k) as [->|N]; [exact pquiet_self|].
  intros p1' H1'. destruct (ppass_other ops good sound ready pt o final ev special g g' k p LV Hp Hpass k1 p1 p1' H1 H1' Hs) as (_ & _ & E3 & E4).
  destruct (Nat.eq_dec k1 k); [contradiction|]. destruct (D p1 H1) as (m0 & Q1 & Q2). exists m0. rewrite E4, E3. auto.
Qed.
Lemma pquiet_reverse k1 p1 : nth_error (g_paths g) k1 = Some p1 -> p_snd p1 = p_rcv p -> p_rcv p1 = p_snd p -> pquiet g k1 -> pquiet g' k1.
Proof.
  intros H1 S1 R1 D p1' H1'. destruct (D p1 H1) as (m0 & Q1 & Q2). exists m0.
  pose proof (fun e => preverse_same ops good sound ready pt L o final ev special Ho Gfin Hsound g g' k p LV Hp Hpass k1 p1 p1' e H1 S1 R1 H1') as H.
  split; [rewrite (proj1 (H (fun _ => 0%R))); exact Q1|]. intros e. rewrite (proj2 (H e)). apply Q2.
Qed.
End Pass.

(** The measure: the marked edges, weighted by the number of messages they can still cause. *)
Definition pmarked (g : cgraph F R) (b : nat * nat -> bool) : Prop := forall e, In e (pedges g) -> b e = false -> forall k, at_edge g k e -> pquiet g k.
Lemma pmeasure_pass w g k g' i j b : Live g -> at_edge g k (i, j) -> pass_path ops g k = Ok g' ->
  (forall e, In e (pedges g) -> w e = S (list_sum (map w (succs (pedges g) e)))) -> pmarked g b -> b (i, j) = true ->
  exists b', pmarked g' b' /\ total_marked (pedges g') w b' < total_marked (pedges g) w b.
Proof.
  intros LV Hk Hpass Hw Hm Hb. pose proof (pedges_pass g k g' LV Hpass) as Ee. rewrite Ee.
  destruct Hk as (p & Hp & Hij). inversion Hij as [[Ei Ej]]. pose proof (sa_struct _ _ _ (pv_static _ _ _ _ _ _ _ _ _ _ LV)) as ST.
  exists (pass_marks (pedges g) (i, j) b). split.
  - intros [a c] He Hf k1 Hk1. rewrite Ee in He. assert (Hk0 : at_edge g k1 (a, c)) by (apply pedges_nth; rewrite <- Ee; now apply pedges_nth).
    unfold pass_marks in Hf. destruct (pair_dec (a, c) (i, j)) as [C|N].
    + inversion C; subst a c. destruct Hk0 as (p1 & Hp1 & Hij1). inversion Hij1 as [[A1 A2]].
      assert (k1 = k) by (apply (st_pair _ _ ST k1 k p1 p Hp1 Hp); congruence). subst k1. exact (pquiet_self g g' k p LV Hp Hpass).
    + destruct (in_dec pair_dec (a, c) (succs (pedges g) (i, j))) as [I|I]; [discriminate|].
      specialize (Hm (a, c) He Hf k1 Hk0). destruct Hk0 as (p1 & Hp1 & Hij1). inversion Hij1 as [[A1 A2]].
      destruct (Nat.eq_dec a j) as [Ea|Na].
      * destruct (Nat.eq_dec c i) as [Ec|Nc].
        -- apply (pquiet_reverse g g' k p LV Hp Hpass k1 p1 Hp1); [congruence|congruence|exact Hm].
        -- exfalso. apply I. apply In_succs. auto.
      * apply (pquiet_other g g' k p LV Hp Hpass k1 p1 Hp1); [congruence|exact Hm].
  - assert (Hin : In (i, j) (pedges g)). { apply (nth_error_In _ k). apply pedges_nth. exists p. auto. }
    exact (marks_drop (pedges g) w (i, j) b Hin Hb (Hw _ Hin)).
Qed.

Lemma pquiet_gain g k : Live g -> sent_canon g -> k < length (g_paths g) -> pquiet g k -> gain_of (g_paths g) k = Fin 0.
Proof.
  intros LV SC Hk D. unfold gain_of. destruct (nth_error (g_paths g) k) as [p|] eqn:Hp; [|apply nth_error_None in Hp; lia].
  destruct (D p Hp) as (m0 & Em & Hq). pose proof LV as [IV SA].
  destruct (sa_gains _ _ _ SA k p Hp) as [Hg|[Hg _]]; [|exact Hg].
  destruct (pnext ops good sound ready pt L o final ev special Ho Gfin Hsound g k p IV (sa_fresh _ _ _ SA) Hp)
    as (s & c0 & c1 & f0 & q0 & k0 & HS & _ & _ & _ & _ & _ & _ & [_ _ (Gm & Vm) _]).
  destruct (pi_prev _ _ _ _ _ _ _ _ _ _ IV k p m0 Hp Em) as (s' & HS' & G0 & V0). rewrite HS in HS'. injection HS' as <-.
  unfold info_gain in Hg. rewrite Em in Hg. rewrite (ql_zero _ _ _ _ Q (m_fac m0) (m_fac (p_next p)) G0 Gm (SC k p m0 Hp Em)) in Hg.
  - now injection Hg as <-.
  - intros v. now rewrite V0, Vm.
  - exact Hq.
Qed.

Lemma ploop_count tol w n : (0 <= tol)%R -> forall g g' b, Live g -> sent_canon g -> pmarked g b ->
  (forall e, In e (pedges g) -> w e = S (list_sum (map w (succs (pedges g) e)))) ->
  (forall k rest, g_order g = k :: rest -> vleb (gain_of (g_paths g) k) (Fin tol) = false) ->
  process_loop ops tol n g = Ok g' -> length (g_dists g') <= length (g_dists g) + total_marked (pedges g) w b.
Proof.
  intros Ht. induction n as [|n IH]; intros g g' b LV SC Hm Hw Hh H; cbn [process_loop] in H; [inversion H; lia|].
  apply bind_ok in H. destruct H as ([g1 gain] & H1 & H). cbn [fst snd] in H.
  destruct (process_step_ok ops g g1 gain H1) as (k & K).
  destruct (sk_pass _ _ _ _ _ K) as (g2 & Hp2 & C2 & P2). destruct (sk_head _ _ _ _ _ K) as (rest & Hord).
  pose proof (plive_step ops good sound ready pt L o final ev special Ho Gfin Hsound g k g1 gain LV K) as LV1.
  pose proof (sent_canon_step g k g1 gain LV SC K) as SC1.
  assert (Hk : k < length (g_paths g)).
  { pose proof (st_order _ _ (sa_struct _ _ _ (pv_static _ _ _ _ _ _ _ _ _ _ LV))) as HP.
    assert (I : In k (g_order g)) by (rewrite Hord; now left). apply (Permutation_in _ HP), in_seq in I. lia. }
  destruct (nth_error (g_paths g) k) as [p|] eqn:Hp; [|apply nth_error_None in Hp; lia].
  assert (He : at_edge g k (p_snd p, p_rcv p)) by (exists p; auto).
  assert (Hb : b (p_snd p, p_rcv p) = true).
  { destruct (b (p_snd p, p_rcv p)) eqn:Eb; [reflexivity|exfalso].
    assert (D : pquiet g k). { apply (Hm (p_snd p, p_rcv p)); [|exact Eb|exact He]. apply (nth_error_In _ k). now apply pedges_nth. }
    specialize (Hh k rest Hord). rewrite (pquiet_gain g k LV SC Hk D) in Hh. unfold vleb in Hh. cbn in Hh. unfold Rlt_b, Req_b in Hh.
    destruct (Rlt_dec 0 tol); [discriminate|]. destruct (Req_EM_T 0 tol); [discriminate|]. lra. }
  destruct (pmeasure_pass w g k g2 (p_snd p) (p_rcv p) b LV He Hp2 Hw Hm Hb) as (b' & Hm' & Hlt).
  assert (E12 : pedges g1 = pedges g2) by (unfold pedges; now rewrite P2).
  assert (Ee : pedges g1 = pedges g) by (rewrite <- (pedges_pass g k g2 LV Hp2); exact E12).
  assert (Hm1 : pmarked g1 b').
  { intros e Hin Hf k1 Hk1 p1 Hp1. rewrite E12 in Hin. rewrite P2 in Hp1. unfold at_edge in Hk1. rewrite P2 in Hk1.
    exact (Hm' e Hin Hf k1 Hk1 p1 Hp1). }
  rewrite <- E12 in Hlt.
  assert (Hd1 : length (g_dists g1) = S (length (g_dists g))) by (rewrite (sk_dists _ _ _ _ _ K), app_length; cbn; lia).
  destruct (vleb gain (Fin tol)) eqn:Ev; [inversion H; subst g1; lia|].
  assert (Hc : length (g_dists g') <= length (g_dists g1) + total_marked (pedges g1) w b').
  { apply (IH g1 g' b' LV1 SC1 Hm1).
    - intros e Hin. rewrite Ee in *. auto.
    - intros k1 rest1 Ho1. destruct (sk_gain _ _ _ _ _ K) as (k' & rest' & Ho' & Eg). rewrite Ho1 in Ho'. inversion Ho'; subst k' rest'. now rewrite <- Eg.
    - exact H. }
  lia.
Qed.

Lemma pprocess_count tol w max_iter g g' : (0 <= tol)%R -> Live g -> sent_canon g ->
  (forall e, In e (pedges g) -> w e = S (list_sum (map w (succs (pedges g) e)))) ->
  process_graph ops tol max_iter g = Ok g' -> length (g_dists g') <= S (list_sum (map w (pedges g))).
Proof.
  intros Ht LV SC Hw H. unfold process_graph in H. cbn zeta in H. change (g_cl (reset_dists g)) with (g_cl g) in H.
  assert (G : process_loop ops tol (max_iter * length (g_order (reset_dists g))) (sort_paths (reset_dists g)) = Ok g' -> length (g_dists g') <= S (list_sum (map w (pedges g)))).
  { intros H0. pose proof (plive_sort ops good sound ready pt o final ev special g LV) as LS.
    assert (SS : sent_canon (sort_paths (reset_dists g))) by exact SC.
    destruct (max_iter * length (g_order (reset_dists g))) as [|n]; cbn [process_loop] in H0; [inversion H0; cbn; lia|].
    apply bind_ok in H0. destruct H0 as ([g1 gain] & H1 & H0). cbn [fst snd] in H0.
    destruct (process_step_ok ops _ g1 gain H1) as (k & K).
    destruct (sk_pass _ _ _ _ _ K) as (g2 & Hp2 & C2 & P2).
    pose proof (plive_step ops good sound ready pt L o final ev special Ho Gfin Hsound _ k g1 gain LS K) as LV1.
    pose proof (sent_canon_step _ k g1 gain LS SS K) as SC1.
    assert (Hd1 : length (g_dists g1) = 1) by (rewrite (sk_dists _ _ _ _ _ K), app_length; reflexivity).
    destruct (vleb gain (Fin tol)) eqn:Ev; [inversion H0; subst g1; lia|].
    assert (Ee : pedges g1 = pedges g). { transitivity (pedges (sort_paths (reset_dists g))); [|reflexivity].
      rewrite <- (pedges_pass _ k g2 LS Hp2). unfold pedges. now rewrite P2. }
    assert (Hc : length (g_dists g') <= length (g_dists g1) + total_marked (pedges g1) w (fun _ => true)).
    { apply (ploop_count tol w n Ht g1 g' (fun _ => true) LV1 SC1).
      - intros e _ C; discriminate.
      - intros e Hin. rewrite Ee in *. auto.
      - intros k1 rest1 Ho1. destruct (sk_gain _ _ _ _ _ K) as (k' & rest' & Ho' & Eg). rewrite Ho1 in Ho'. inversion Ho'; subst k' rest'. now rewrite <- Eg.
      - exact H0. }
    rewrite Hd1, Ee in Hc. pose proof (marks_le (pedges g) w (fun _ => true)). lia. }
  destruct (g_cl g) as [|c [|c2 cs]]; [exact (G H)| |exact (G H)].
  destruct (g_spec (reset_dists g)); [inversion H; cbn; lia|].
  apply bind_ok in H. destruct H as (f & _ & H). inversion H. cbn. lia.
Qed.
End PState.

Section PTop.
Context (o : oracle) (factors : list F) (ev : option (dict string R)) (special : dict string R) (g0 : cgraph F R).
Hypothesis Ho : oracle_ok o.
Hypothesis Gfac : forall f, In f factors -> good f.
Hypothesis Hmk : mk_graph ops o factors ev special = Ok g0.
Notation Live := (plive ops good sound ready pt o).

Lemma plive_all : exists reduced final, made ops o factors ev special reduced final g0 /\ (forall f, In f final -> good f) /\
  forall g, history ops g0 g -> Live final ev special g /\ sent_canon g /\ pedges g = pedges g0.
Proof.
  destruct (tclusters ops good sound ready pt L T o factors ev special g0 Ho Gfac Hmk) as (Hs & _).
  destruct (pmade ops good sound ready pt L o factors ev special g0 Ho Gfac Hmk Hs) as (reduced & final & M & Gfin & Hsound & HL).
  exists reduced, final. split; [exact M|]. split; [exact Gfin|]. intros g Hh. split; [exact (proj1 (HL g Hh))|].
  induction Hh as [|g k g' Hh IH H|g tol n g' Hh IH Hc H].
  - split; [|reflexivity]. intros k p m Hp Hm. rewrite (proj1 (mk_path _ _ _ _ _ _ _ _ M k p Hp)) in Hm. discriminate.
  - destruct IH as (SC & Ee). destruct (HL g Hh) as (LV & _). split; [exact (sent_canon_pass o final ev special g k g' LV SC H)|].
    now rewrite (pedges_pass o final ev special g k g' LV H).
  - destruct IH as (SC & Ee). destruct (HL g Hh) as (LV & _). destruct (process_cases ops tol n g g' H Hc) as [->|(steps & R & _)]; [split; [exact SC|exact Ee]|].
    pose proof (plive_sort ops good sound ready pt o final ev special g LV) as LS.
    split; [exact (sent_canon_run o final ev special Ho Gfin _ steps g' LS SC R)|]. rewrite <- Ee. change (pedges g) with (pedges (sort_paths (reset_dists g))).
    exact (pedges_run o final ev special Ho Gfin _ steps g' LS R).
Qed.
Lemma ptree_weights : tree_shaped g0 -> exists w, forall e, In e (pedges g0) -> w e = S (list_sum (map w (succs (pedges g0) e))).
Proof.
  intros [TC TA]. destruct plive_all as (reduced & final & M & Gfin & HL). destruct (HL g0 (hi_init _ _)) as (LV & _).
  pose proof (sa_struct _ _ _ (pv_static _ _ _ _ _ _ _ _ _ _ LV)) as ST.
  assert (El : forall i j, In (i, j) (pedges g0) <-> linked g0 i j).
  { intros i j. split.
    - intros H. apply In_nth_error in H. destruct H as (k & H). apply pedges_nth in H. destruct H as (p & Hp & E). inversion E. exists k, p. auto.
    - intros (k & p & Hp & <- & <-). apply (nth_error_In _ k). apply pedges_nth. exists p. auto. }
  assert (Er : forall i j, linked g0 i j -> i < length (g_cl g0) /\ j < length (g_cl g0) /\ i <> j).
  { intros i j (k & p & Hp & <- & <-).
    destruct (st_path _ _ ST k p Hp) as (s & Hs). destruct (st_edge _ _ ST _ _ _ Hs) as (Hi & Hj & Hd & _). auto. }
  assert (Es : forall i j, linked g0 i j -> linked g0 j i).
  { intros i j (k & p & Hp & <- & <-).
    destruct (st_path _ _ ST k p Hp) as (s & Hs). rewrite graph_sep_sym in Hs.
    destruct (st_edge _ _ ST _ _ _ Hs) as (_ & _ & _ & _ & _ & k2 & p2 & H2). exists k2, p2. exact H2. }
  destruct (g_cl g0) as [|c cs] eqn:Ec.
  - exists (fun _ => 0). intros [i j] He. apply El, Er in He. rewrite ?Ec in He. cbn in He. lia.
  - rewrite <- Ec in *.
    assert (E' : forall i j, In (i, j) (pedges g0) -> i < length (g_cl g0) /\ j < length (g_cl g0) /\ i <> j) by (intros; apply Er; now apply El).
    destruct (tree_listing (fun i j => In (i, j) (pedges g0)) (length (g_cl g0)) 0) as (ord & HT & HP & Hall).
    + intros i j H. apply El, Es, El, H.
    + exact E'.
    + intros i j Hi Hj. specialize (TC i j Hi Hj). clear Hi Hj.
      induction TC as [x y H|x|x y z _ IH1 _ IH2]; [apply rt_step; now apply El|apply rt_refl|eapply rt_trans; eauto].
    + intros l (C1 & C2 & C3 & C4). apply (TA l). split; [exact C1|]. split; [exact C2|]. split.
      * intros a x y H1 H2. apply El. eauto.
      * intros x y H1 H2. apply El. eauto.
    + rewrite Ec. cbn. lia.
    + apply (weights_exist (pedges g0) 0 ord HT); [|exact Hall].
      eapply Permutation_NoDup; [symmetry; exact HP|apply seq_NoDup].
Qed.

(** A call of process_graph sends at most [N] messages, whatever its iteration limit. *)
Lemma pmessages_bounded : tree_shaped g0 ->
  exists N, forall g tol max_iter g', history ops g0 g -> (0 <= tol)%R -> process_graph ops tol max_iter g = Ok g' -> length (g_dists g') <= N.
Proof.
  intros TR. destruct (ptree_weights TR) as (w & Hw). destruct plive_all as (reduced & final & M & Gfin & HL).
  exists (S (list_sum (map w (pedges g0)))). intros g tol n g' Hh Ht H. destruct (HL g Hh) as (LV & SC & Ee). rewrite <- Ee.
  apply (pprocess_count o final ev special Ho Gfin tol w n g g' Ht LV SC); [|exact H]. intros e He. rewrite Ee in *. auto.
Qed.
(** So with enough iterations it stops because no message would still change anything by more than the tolerance. *)
Lemma pgreedy_converges : tree_shaped g0 -> length (g_cl g0) <> 1 ->
  exists N, forall g tol max_iter g', history ops g0 g -> (0 <= tol)%R -> N < max_iter * length (g_paths g0) ->
    process_graph ops tol max_iter g = Ok g' ->
    length (g_dists g') <= N /\ forall k, k < length (g_paths g') -> vleb (gain_of (g_paths g') k) (Fin tol) = true.
Proof.
  intros TR Hn1. destruct (pmessages_bounded TR) as (N & HN). exists N. intros g tol n g' Hh Ht Hlt H.
  pose proof (HN g tol n g' Hh Ht H) as Hc. split; [exact Hc|]. destruct plive_all as (reduced & final & M & Gfin & HL).
  destruct (HL g Hh) as (LV & _). destruct (HL g0 (hi_init _ _)) as (LV0 & _).
  destruct (plinked_same ops good sound ready pt o final ev special g g0 (pv_inv _ _ _ _ _ _ _ _ _ _ LV) (pv_inv _ _ _ _ _ _ _ _ _ _ LV0)) as (Hl & _).
  assert (Hn : length (g_cl g) <> 1) by (rewrite Hl; exact Hn1).
  destruct (greedy_run ops o factors ev special g0 g tol n g' Ho Hmk Hh H Hn) as (steps & R & Hd & _ & Hst).
  destruct (history_static ops _ _ _ _ _ _ _ _ M Hh) as (SA & _ & Hpl & _).
  apply Hst.
  - pose proof (Permutation_length (st_order _ _ (sa_struct _ _ _ SA))) as HP. rewrite seq_length in HP. rewrite HP, Hpl. lia.
  - assert (Hh' : history ops g0 g') by (eapply hi_process; [exact Hh|left; exact Hn|exact H]). destruct (HL g' Hh') as (LV' & _).
    exact (plive_comparable ops good sound ready pt L T o final ev special Ho Gfin g' LV').
Qed.
End PTop.
End PConv.
