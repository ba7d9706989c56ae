(** On a tree the greedy schedule sends a bounded number of messages (C59). *)
From Verif Require Export TreeWeight GraphSweep.

Lemma list_sum_le {A} (f h : A -> nat) l : (forall x, In x l -> f x <= h x) -> list_sum (map f l) <= list_sum (map h l).
Proof.
  induction l as [|x l IH]; intros H; [reflexivity|]. cbn [map list_sum fold_right].
  pose proof (H x (or_introl eq_refl)). specialize (IH (fun y Hy => H y (or_intror Hy))). unfold list_sum in IH. lia.
Qed.
Lemma list_sum_le_nth l : forall m, length l = length m ->
  (forall k x y, nth_error l k = Some x -> nth_error m k = Some y -> x <= y) -> list_sum l <= list_sum m /\
  (list_sum l = list_sum m -> l = m).
Proof.
  induction l as [|x l IH]; intros [|y m] Hl H; try discriminate; [split; reflexivity|].
  destruct (IH m) as [I1 I2]; [cbn in Hl; lia|intros k a b Ha Hb; exact (H (S k) a b Ha Hb)|].
  pose proof (H 0 x y eq_refl eq_refl). unfold list_sum in *. cbn [fold_right]. split; [lia|]. intros Hs.
  f_equal; [lia|]. apply I2. lia.
Qed.
Lemma filter_shrink {A} (P Q : A -> bool) l : (forall x, P x = true -> Q x = true) ->
  length (filter P l) <= length (filter Q l) /\
  (length (filter P l) = length (filter Q l) -> forall x, In x l -> Q x = true -> P x = true).
Proof.
  intros H. induction l as [|x l [I1 I2]]; [split; [reflexivity|intros _ x []]|]. cbn [filter].
  specialize (H x). destruct (P x) eqn:E1, (Q x) eqn:E2; cbn [length]; try (specialize (H eq_refl); discriminate).
  - split; [lia|]. intros Hl y [<-|Hy] Hq; [exact E1|]. apply I2; auto.
  - split; [lia|]. intros Hl. lia.
  - split; [lia|]. intros Hl y [<-|Hy] Hq; [congruence|]. apply I2; auto.
Qed.

Section Conv.
Context {F : Type} (ops : fops F nat) (card : string -> nat) (good : F -> Prop) (pt : F -> env -> R).
Hypothesis L : lawful ops card good pt.
Context (o : oracle) (final : list F) (ev : option (dict string nat)) (special : dict string nat).
Hypothesis Ho : oracle_ok o.
Hypothesis Gfin : forall f, In f final -> good f.
Notation Live := (live ops good pt o final ev special).
Notation Inv := (inv ops good pt o final ev special).
Let sepf := graph_sep o (map (f_vars ops) final) (all_evidence ev special).
Let sep_of (p : path F) : list string := match sepf (p_snd p) (p_rcv p) with Some s => s | None => [] end.

(** Sending the waiting message would change nothing. *)
Definition quiet (g : cgraph F nat) (k : nat) : Prop := forall p, nth_error (g_paths g) k = Some p ->
  exists m0, p_prev p = Some m0 /\ forall e, pt (m_fac (p_next p)) e = pt (m_fac m0) e.

(** How many sepset assignments the last message leaves possible. *)
Definition left_of (s : list string) (m : option (msg F)) : nat :=
  match m with
  | None => S (length (assignments (map card s)))
  | Some m => length (filter (fun ks => if Req_EM_T (pt (m_fac m) (upds (fun _ => 0) s ks)) 0 then false else true)
                             (assignments (map card s)))
  end.
Definition total_left (g : cgraph F nat) : nat := list_sum (map (fun p => left_of (sep_of p) (p_prev p)) (g_paths g)).
Definition edges (g : cgraph F nat) : list (nat * nat) := map (fun p => (p_snd p, p_rcv p)) (g_paths g).

Lemma edges_nth g k e : nth_error (edges g) k = Some e <-> ends g k e.
Proof.
  unfold edges, ends. split.
  - intros H. destruct (nth_error (g_paths g) k) as [p|] eqn:E.
    + rewrite (map_nth_error _ _ _ E) in H. inversion H. eauto.
    + apply nth_error_None in E. assert (C : nth_error (map (fun p : path F => (p_snd p, p_rcv p)) (g_paths g)) k = None).
      { apply nth_error_None. now rewrite map_length. } congruence.
  - intros (p & H & <-). now rewrite (map_nth_error _ _ _ H).
Qed.
Lemma edges_kept g k g' : Live g -> pass_path ops g k = Ok g' -> edges g' = edges g.
Proof.
  intros LV H. apply nth_error_ext. intros n.
  destruct (nth_error (edges g) n) as [e|] eqn:E.
  - apply edges_nth. apply (live_ends ops good pt o final ev special g k g' LV H). now apply edges_nth.
  - destruct (nth_error (edges g') n) as [e|] eqn:E'; [|reflexivity].
    apply edges_nth in E'. apply (live_ends ops good pt o final ev special g k g' LV H) in E'. apply edges_nth in E'. congruence.
Qed.

Lemma sep_facts g k p : Live g -> nth_error (g_paths g) k = Some p ->
  sepf (p_snd p) (p_rcv p) = Some (sep_of p) /\ fac_ok ops good (sep_of p) (m_fac (p_next p)) /\
  (forall m0, p_prev p = Some m0 -> fac_ok ops good (sep_of p) (m_fac m0)) /\
  (forall e, pm pt p e = 0%R -> pt (m_fac (p_next p)) e = 0%R).
Proof.
  intros LV Hp. pose proof (lv_inv _ _ _ _ _ _ _ _ LV) as IV. pose proof (lv_static _ _ _ _ _ _ _ _ LV) as SA.
  destruct (next_ok ops card good pt L o final ev special Ho Gfin g k p IV (sa_fresh _ _ _ SA) Hp)
    as (s & ci & cj & q1 & k1' & HS & Hi & Hj & Hq1 & G1 & G2 & MO).
  assert (Es : sep_of p = s) by (unfold sep_of, sepf; now rewrite HS). rewrite Es.
  split; [exact HS|]. split; [exact (mo_fac _ _ _ _ _ _ _ _ _ _ MO)|]. split.
  - intros m0 Em. exact (prev_fac ops good pt o final ev special g k p m0 s IV Hp Em HS).
  - intros e Z. destruct (iv_cl _ _ _ _ _ _ _ _ IV _ ci Hi) as (fi & Hfi & _).
    apply (mo_zero _ _ _ _ _ _ _ _ _ _ MO). apply (belief_zero ops card good pt L o final ev special g (p_snd p) ci s fi IV Hi Hfi).
    revert Z. unfold pm. destruct (p_prev p) as [m0|] eqn:Em; [|lra]. intros Z.
    exact (iv_supp _ _ _ _ _ _ _ _ IV k p m0 ci s Hp Em Hi HS e Z).
Qed.

Section Pass.
Context (g g' : cgraph F nat) (k : nat) (p : path F).
Hypothesis LV : Live g.
Hypothesis Hp : nth_error (g_paths g) k = Some p.
Hypothesis Hpass : pass_path ops g k = Ok g'.

Lemma left_drop : left_of (sep_of p) (Some (p_next p)) <= left_of (sep_of p) (p_prev p) /\
  (left_of (sep_of p) (Some (p_next p)) = left_of (sep_of p) (p_prev p) -> exists m0, p_prev p = Some m0 /\
     forall e, pt (m_fac (p_next p)) e = 0%R -> pt (m_fac m0) e = 0%R).
Proof.
  destruct (sep_facts g k p LV Hp) as (HS & (Gn & Vn) & Fp & Z). unfold left_of. destruct (p_prev p) as [m0|] eqn:Em.
  - destruct (Fp m0 eq_refl) as (G0 & V0).
    set (P := fun m ks => if Req_EM_T (pt (m_fac m) (upds (fun _ => 0) (sep_of p) ks)) 0 then false else true).
    destruct (filter_shrink (P (p_next p)) (P m0) (assignments (map card (sep_of p)))) as [A B].
    { intros ks. unfold P. destruct (Req_EM_T (pt (m_fac m0) (upds (fun _ => 0) (sep_of p) ks)) 0) as [C|C]; [|auto].
      specialize (Z (upds (fun _ => 0) (sep_of p) ks)). unfold pm in Z. rewrite Em in Z. rewrite (Z C).
      destruct (Req_EM_T 0 0); [auto|congruence]. }
    split; [exact A|]. intros Hl. exists m0. split; [reflexivity|]. intros e Hz.
    destruct (Req_EM_T (pt (m_fac m0) e) 0) as [C|C]; [exact C|exfalso].
    assert (Hs : NoDup (sep_of p)). { apply (graph_sep_NoDup o _ _ _ _ _ Ho HS). }
    assert (Hu : forall v, In v (sep_of p) -> upds (fun _ => 0) (sep_of p) (map e (sep_of p)) v = e v).
    { intros v Hv. apply (map_env_inj (sep_of p)); [|exact Hv]. apply map_upds; [exact Hs|apply map_length]. }
    assert (Hin : In (map e (sep_of p)) (assignments (map card (sep_of p)))).
    { apply In_assign_range. apply Forall2_map_self. intros v Hv. apply (lw_range _ _ _ _ L _ _ G0 C). now apply V0. }
    specialize (B Hl _ Hin). unfold P in B.
    rewrite (lw_ext _ _ _ _ L (m_fac m0) _ e G0), (lw_ext _ _ _ _ L (m_fac (p_next p)) _ e Gn) in B;
      [|intros v Hv; apply Hu; now apply Vn|intros v Hv; apply Hu; now apply V0].
    destruct (Req_EM_T (pt (m_fac m0) e) 0); [contradiction|]. destruct (Req_EM_T (pt (m_fac (p_next p)) e) 0); [|contradiction].
    specialize (B eq_refl). discriminate.
  - assert (Hle : forall P, length (filter P (assignments (map card (sep_of p)))) <= length (assignments (map card (sep_of p)))).
    { intros P. induction (assignments (map card (sep_of p))) as [|x l IH]; cbn; [lia|]. destruct (P x); cbn; lia. }
    specialize (Hle (fun ks => if Req_EM_T (pt (m_fac (p_next p)) (upds (fun _ => 0) (sep_of p) ks)) 0 then false else true)).
    split; [lia|]. intros C. lia.
Qed.
Lemma total_drop : total_left g' <= total_left g /\
  (total_left g' = total_left g -> exists m0, p_prev p = Some m0 /\ forall e, pt (m_fac (p_next p)) e = 0%R -> pt (m_fac m0) e = 0%R).
Proof.
  destruct (passed_view ops good pt o final ev special g g' k p LV Hp Hpass) as (cr & cr' & P & _).
  pose proof left_drop as [D1 D2].
  destruct (list_sum_le_nth (map (fun p => left_of (sep_of p) (p_prev p)) (g_paths g'))
     (map (fun p => left_of (sep_of p) (p_prev p)) (g_paths g))) as [A B].
  - rewrite !map_length. apply (pa_plen _ _ _ _ _ _ _ P).
  - intros n x y Hx Hy. rewrite nth_error_map in Hx, Hy.
    destruct (nth_error (g_paths g') n) as [p'|] eqn:E'; [|discriminate]. destruct (nth_error (g_paths g) n) as [p0|] eqn:E0; [|discriminate].
    cbn in Hx, Hy. inversion Hx; inversion Hy; subst x y.
    destruct (pa_paths _ _ _ _ _ _ _ P n p' E') as (p1 & H1 & S1 & R1 & Pv & _). rewrite E0 in H1. inversion H1; subst p1.
    assert (Es : sep_of p' = sep_of p0) by (unfold sep_of; now rewrite S1, R1). rewrite Es, Pv.
    destruct (Nat.eq_dec n k) as [->|N]; [|lia]. rewrite Hp in E0. inversion E0; subst p0. exact D1.
  - split; [exact A|]. intros Hs. specialize (B Hs). apply D2.
    destruct (nth_error (g_paths g') k) as [p'|] eqn:E'.
    2:{ apply nth_error_None in E'. rewrite (pa_plen _ _ _ _ _ _ _ P) in E'. apply nth_error_None in E'. congruence. }
    pose proof (f_equal (fun l => nth_error l k) B) as C. cbn beta in C. rewrite !nth_error_map, E', Hp in C. cbn in C. injection C as C1.
    destruct (pa_paths _ _ _ _ _ _ _ P k p' E') as (p1 & H1 & S1 & R1 & Pv & _). rewrite Hp in H1. inversion H1; subst p1.
    assert (Es : sep_of p' = sep_of p) by (unfold sep_of; now rewrite S1, R1).
    rewrite Es, Pv in C1. destruct (Nat.eq_dec k k); [exact C1|congruence].
Qed.

Lemma quiet_self : quiet g' k.
Proof.
  intros p' Hp'. destruct (pass_other ops good pt o final ev special g g' k p LV Hp Hpass k p p' Hp Hp') as (_ & _ & E3 & E4).
  - exact (ends_differ ops good pt o final ev special g LV k p Hp).
  - exists (p_next p). destruct (Nat.eq_dec k k) as [_|]; [|congruence]. split; [exact E4|]. intros e. now rewrite E3.
Qed.
Lemma quiet_other k1 p1 : nth_error (g_paths g) k1 = Some p1 -> p_snd p1 <> p_rcv p -> quiet g k1 -> quiet g' k1.
Proof.
  intros H1 Hs Q. destruct (Nat.eq_dec k1 k) as [->|N]; [exact quiet_self|].
  intros p1' H1'. destruct (pass_other ops good pt o final ev special g g' k p LV Hp Hpass k1 p1 p1' H1 H1' Hs) as (_ & _ & E3 & E4).
  destruct (Nat.eq_dec k1 k); [contradiction|]. destruct (Q p1 H1) as (m0 & Q1 & Q2). exists m0. rewrite E4, E3. auto.
Qed.
Lemma quiet_reverse k1 p1 : nth_error (g_paths g) k1 = Some p1 -> p_snd p1 = p_rcv p -> p_rcv p1 = p_snd p ->
  total_left g' = total_left g -> quiet g k1 -> quiet g' k1.
Proof.
  intros H1 S1 R1 Ht Q p1' H1'. destruct (proj2 total_drop Ht) as (m0 & Em & Hz).
  destruct (reverse_facts ops card good pt L o final ev special Ho Gfin g g' k p LV Hp Hpass k1 p1 p1' H1 S1 R1 H1') as (E3 & _ & Hb).
  destruct (Q p1 H1) as (m1 & Q1 & Q2). exists m1. split; [congruence|]. intros e. rewrite <- Q2.
  destruct (Hb e) as (B & B' & B0 & Z0 & B1 & Z1 & Bw & Bz). unfold pm in B0, Bw, Bz. rewrite Em in B0, Bw, Bz.
  destruct (Req_EM_T (pt (m_fac (p_next p)) e) 0) as [Z|Z].
  - rewrite (proj2 Z1), (proj2 Z0); [reflexivity| |].
    + rewrite <- B0, (Hz e Z). ring.
    + rewrite <- B1, Z. ring.
  - assert (Z' : pt (m_fac m0) e <> 0%R) by (intros C; apply Z, Bz, C).
    apply (Rmult_eq_reg_r (pt (m_fac (p_next p)) e * pt (m_fac m0) e)%R); [|now apply Rmult_integral_contrapositive].
    rewrite <- B0, <- B1 in Bw. rewrite <- !Rmult_assoc. rewrite Bw. ring.
Qed.
End Pass.

(** The measure. *)
Definition quiet_edge (g : cgraph F nat) (e : nat * nat) : Prop := forall k, ends g k e -> quiet g k.
Definition marked (g : cgraph F nat) (b : nat * nat -> bool) : Prop :=
  forall e, In e (edges g) -> b e = false -> quiet_edge g e.
Definition measure (w : nat * nat -> nat) (g : cgraph F nat) (b : nat * nat -> bool) : nat :=
  total_left g * S (list_sum (map w (edges g))) + total_marked (edges g) w b.

Lemma measure_pass w g k g' i j b : Live g -> ends g k (i, j) -> pass_path ops g k = Ok g' ->
  (forall e, In e (edges g) -> w e = S (list_sum (map w (succs (edges g) e)))) -> marked g b -> b (i, j) = true ->
  exists b', marked g' b' /\ measure w g' b' < measure w g b.
Proof.
  intros LV Hk Hpass Hw Hm Hb. pose proof (edges_kept g k g' LV Hpass) as Ee. unfold measure. rewrite Ee.
  destruct Hk as (p & Hp & Hij). inversion Hij as [[Ei Ej]].
  pose proof (sa_struct _ _ _ (lv_static _ _ _ _ _ _ _ _ LV)) as ST.
  destruct (total_drop g g' k p LV Hp Hpass) as [D1 _].
  destruct (Nat.eq_dec (total_left g') (total_left g)) as [Heq|Hne].
  - exists (pass_marks (edges g) (i, j) b). split.
    + intros [a c] He Hf k1 Hk1. pose proof (proj1 (live_ends ops good pt o final ev special g k g' LV Hpass k1 (a, c)) Hk1) as Hk0.
      rewrite Ee in He. unfold pass_marks in Hf. destruct (pair_dec (a, c) (i, j)) as [C|N].
      * inversion C; subst a c. destruct Hk0 as (p1 & Hp1 & Hij1). inversion Hij1 as [[A1 A2]].
        assert (k1 = k) by (apply (st_pair _ _ ST k1 k p1 p Hp1 Hp); congruence). subst k1. exact (quiet_self g g' k p LV Hp Hpass).
      * destruct (in_dec pair_dec (a, c) (succs (edges g) (i, j))) as [I|I]; [discriminate|].
        specialize (Hm (a, c) He Hf k1 Hk0). destruct Hk0 as (p1 & Hp1 & Hij1). inversion Hij1 as [[A1 A2]].
        destruct (Nat.eq_dec a j) as [Ea|Na].
        -- destruct (Nat.eq_dec c i) as [Ec|Nc].
           ++ apply (quiet_reverse g g' k p LV Hp Hpass k1 p1 Hp1); [congruence|congruence|exact Heq|exact Hm].
           ++ exfalso. apply I. apply In_succs. auto.
        -- apply (quiet_other g g' k p LV Hp Hpass k1 p1 Hp1); [congruence|exact Hm].
    + rewrite Heq. assert (Hin : In (i, j) (edges g)). { apply (nth_error_In _ k). apply edges_nth. exists p. auto. }
      pose proof (marks_drop (edges g) w (i, j) b Hin Hb (Hw _ Hin)). lia.
  - exists (fun _ => true). split; [intros e _ C; discriminate|].
    pose proof (marks_le (edges g) w (fun _ => true)) as M1. set (W := list_sum (map w (edges g))) in *. nia.
Qed.

Section Positive.
Variable e0 : env.
Hypothesis He0 : agrees special e0.
Hypothesis Hpos : forall f, In f final -> pt f e0 <> 0%R.

Lemma quiet_gain g k : Live g -> k < length (g_paths g) -> quiet g k -> gain_of (g_paths g) k = Fin 0.
Proof.
  intros LV Hk Q. unfold gain_of. destruct (nth_error (g_paths g) k) as [p|] eqn:Hp; [|apply nth_error_None in Hp; lia].
  destruct (Q p Hp) as (m0 & Em & Hq). pose proof (lv_inv _ _ _ _ _ _ _ _ LV) as IV. pose proof (lv_static _ _ _ _ _ _ _ _ LV) as SA.
  destruct (sa_gains _ _ _ SA k p Hp) as [Hg|[Hg _]]; [|exact Hg].
  destruct (sep_facts g k p LV Hp) as (HS & (Gn & Vn) & Fp & _). destruct (Fp m0 Em) as (G0 & V0).
  unfold info_gain in Hg. rewrite Em in Hg.
  pose proof (iv_pos _ _ _ _ _ _ _ _ IV k p m0 Hp Em e0 He0 Hpos) as P0.
  destruct (lw_kl _ _ _ _ L (m_fac m0) (m_fac (p_next p)) G0 Gn) as (d & D1 & _ & _ & D4).
  - intros v. now rewrite V0, Vn.
  - intros C. destruct (st_edge _ _ (sa_struct _ _ _ SA) _ _ _ HS) as (_ & _ & _ & Hs0 & _).
    destruct (sep_of p) as [|v s]; [congruence|]. specialize (V0 v). rewrite C in V0. destruct (proj2 V0). left; reflexivity.
  - eauto.
  - exists e0. now rewrite Hq.
  - rewrite D1 in Hg. inversion Hg as [Hgd]. rewrite <- Hgd. now apply D4.
Qed.

Lemma loop_count tol w n : (0 <= tol)%R -> forall g g' b, Live g -> marked g b ->
  (forall e, In e (edges g) -> w e = S (list_sum (map w (succs (edges g) e)))) ->
  (forall k rest, g_order g = k :: rest -> vleb (gain_of (g_paths g) k) (Fin tol) = false) ->
  process_loop ops tol n g = Ok g' -> length (g_dists g') <= length (g_dists g) + measure w g b.
Proof.
  intros Ht. induction n as [|n IH]; intros g g' b LV Hm Hw Hh H; cbn [process_loop] in H; [inversion H; lia|].
  apply bind_ok in H. destruct H as ([g1 gain] & H1 & H). cbn [fst snd] in H.
  destruct (process_step_ok ops g g1 gain H1) as (k & K).
  destruct (sk_pass _ _ _ _ _ K) as (g2 & Hp2 & C2 & P2). destruct (sk_head _ _ _ _ _ K) as (rest & Hord).
  pose proof (live_step ops card good pt L o final ev special Ho Gfin g k g1 gain LV K) as LV1.
  assert (Hk : k < length (g_paths g)).
  { pose proof (st_order _ _ (sa_struct _ _ _ (lv_static _ _ _ _ _ _ _ _ LV))) as HP.
    assert (I : In k (g_order g)) by (rewrite Hord; now left). apply (Permutation_in _ HP), in_seq in I. lia. }
  destruct (nth_error (g_paths g) k) as [p|] eqn:Hp; [|apply nth_error_None in Hp; lia].
  assert (He : ends g k (p_snd p, p_rcv p)) by (exists p; auto).
  assert (Hb : b (p_snd p, p_rcv p) = true).
  { destruct (b (p_snd p, p_rcv p)) eqn:Eb; [reflexivity|exfalso].
    assert (Q : quiet g k). { apply (Hm (p_snd p, p_rcv p)); [|exact Eb|exact He]. apply (nth_error_In _ k). now apply edges_nth. }
    specialize (Hh k rest Hord). rewrite (quiet_gain g k LV Hk Q) in Hh. unfold vleb in Hh. cbn in Hh. unfold Rlt_b, Req_b in Hh.
    destruct (Rlt_dec 0 tol); [discriminate|]. destruct (Req_EM_T 0 tol); [discriminate|]. lra. }
  destruct (measure_pass w g k g2 (p_snd p) (p_rcv p) b LV He Hp2 Hw Hm Hb) as (b' & Hm' & Hlt).
  assert (Ee : edges g1 = edges g). { rewrite <- (edges_kept g k g2 LV Hp2). unfold edges. now rewrite P2. }
  assert (Hm1 : marked g1 b').
  { intros e Hin Hf k1 Hk1 p1 Hp1. unfold edges in Hin. rewrite P2 in Hin, Hp1. unfold ends in Hk1. rewrite P2 in Hk1.
    exact (Hm' e Hin Hf k1 Hk1 p1 Hp1). }
  assert (Eme : measure w g1 b' = measure w g2 b') by (unfold measure, total_left, edges; now rewrite P2).
  assert (Hd1 : length (g_dists g1) = S (length (g_dists g))) by (rewrite (sk_dists _ _ _ _ _ K), app_length; cbn; lia).
  destruct (vleb gain (Fin tol)) eqn:Ev; [inversion H; subst g1; lia|].
  assert (Hc : length (g_dists g') <= length (g_dists g1) + measure w g1 b').
  { apply (IH g1 g' b' LV1 Hm1).
    - intros e Hin. rewrite Ee in *. auto.
    - intros k1 rest1 Ho1. destruct (sk_gain _ _ _ _ _ K) as (k' & rest' & Ho' & Eg). rewrite Ho1 in Ho'. inversion Ho'; subst k' rest'. now rewrite <- Eg.
    - exact H. }
  lia.
Qed.

Definition most_left (g : cgraph F nat) : nat :=
  list_sum (map (fun e => S (length (assignments (map card (match sepf (fst e) (snd e) with Some s => s | None => [] end))))) (edges g)).
Lemma left_bound g : total_left g <= most_left g.
Proof.
  unfold total_left, most_left, edges. rewrite map_map. apply list_sum_le. intros p _. cbn [fst snd]. fold (sep_of p).
  unfold left_of. destruct (p_prev p) as [m|]; [|lia].
  set (P := fun ks => if Req_EM_T _ _ then false else true).
  induction (assignments (map card (sep_of p))) as [|x l IH]; cbn; [lia|]. destruct (P x); cbn; lia.
Qed.
Definition message_bound (w : nat * nat -> nat) (g : cgraph F nat) : nat :=
  1 + most_left g * S (list_sum (map w (edges g))) + list_sum (map w (edges g)).

Lemma process_count tol w max_iter g g' : (0 <= tol)%R -> Live g ->
  (forall e, In e (edges g) -> w e = S (list_sum (map w (succs (edges g) e)))) ->
  process_graph ops tol max_iter g = Ok g' -> length (g_dists g') <= message_bound w g.
Proof.
  intros Ht LV Hw H. unfold process_graph in H. cbn zeta in H. change (g_cl (reset_dists g)) with (g_cl g) in H.
  assert (G : process_loop ops tol (max_iter * length (g_order (reset_dists g))) (sort_paths (reset_dists g)) = Ok g' -> length (g_dists g') <= message_bound w g).
  { intros H0. pose proof (live_sort ops good pt o final ev special g LV) as LS.
    destruct (max_iter * length (g_order (reset_dists g))) as [|n]; cbn [process_loop] in H0; [inversion H0; cbn; lia|].
    apply bind_ok in H0. destruct H0 as ([g1 gain] & H1 & H0). cbn [fst snd] in H0.
    destruct (process_step_ok ops _ g1 gain H1) as (k & K).
    destruct (sk_pass _ _ _ _ _ K) as (g2 & Hp2 & C2 & P2).
    pose proof (live_step ops card good pt L o final ev special Ho Gfin _ k g1 gain LS K) as LV1.
    assert (Hd1 : length (g_dists g1) = 1) by (rewrite (sk_dists _ _ _ _ _ K), app_length; reflexivity).
    destruct (vleb gain (Fin tol)) eqn:Ev; [inversion H0; subst g1; unfold message_bound; lia|].
    assert (Ee : edges g1 = edges g). { transitivity (edges (sort_paths (reset_dists g))); [|reflexivity].
      rewrite <- (edges_kept _ k g2 LS Hp2). unfold edges. now rewrite P2. }
    assert (Hc : length (g_dists g') <= length (g_dists g1) + measure w g1 (fun _ => true)).
    { apply (loop_count tol w n Ht g1 g' (fun _ => true) LV1).
      - intros e _ C; discriminate.
      - intros e Hin. rewrite Ee in *. auto.
      - intros k1 rest1 Ho1. destruct (sk_gain _ _ _ _ _ K) as (k' & rest' & Ho' & Eg). rewrite Ho1 in Ho'. inversion Ho'; subst k' rest'. now rewrite <- Eg.
      - exact H0. }
    rewrite Hd1 in Hc. unfold measure in Hc. rewrite Ee in Hc.
    pose proof (marks_le (edges g) w (fun _ => true)) as M1. pose proof (left_bound g1) as M2. unfold most_left in M2. rewrite Ee in M2.
    unfold message_bound, most_left. set (W := list_sum (map w (edges g))) in *.
    set (A := list_sum _) in *. nia. }
  destruct (g_cl g) as [|c [|c2 cs]]; [exact (G H)| |exact (G H)].
  destruct (g_spec (reset_dists g)); [inversion H; cbn; lia|].
  apply bind_ok in H. destruct H as (f & _ & H). inversion H. cbn. lia.
Qed.
End Positive.
End Conv.

Section ConvTheorem.
Context {F : Type} (ops : fops F nat) (card : string -> nat) (good : F -> Prop) (pt : F -> env -> R).
Hypothesis L : lawful ops card good pt.
Context (o : oracle) (factors : list F) (ev : option (dict string nat)) (special : dict string nat) (g0 : cgraph F nat).
Hypothesis Ho : oracle_ok o.
Hypothesis Gfac : forall f, In f factors -> good f.
Hypothesis Hmk : mk_graph ops o factors ev special = Ok g0.

Lemma run_edges final (Gfin : forall f, In f final -> good f) g steps g' : live ops good pt o final ev special g ->
  run ops g steps g' -> edges g' = edges g.
Proof.
  intros LV R. induction R as [g|g k g1 gain steps g' K R IH]; [reflexivity|].
  rewrite (IH (live_step ops card good pt L o final ev special Ho Gfin g k g1 gain LV K)).
  destruct (sk_pass _ _ _ _ _ K) as (g2 & Hp2 & C2 & P2). rewrite <- (edges_kept ops good pt o final ev special g k g2 LV Hp2).
  unfold edges. now rewrite P2.
Qed.
Lemma history_edges g : history ops g0 g -> edges g = edges g0.
Proof.
  intros Hh. destruct (mk_graph_made ops o factors ev special g0 Ho Hmk) as (reduced & final & M).
  induction Hh as [|g k g' Hh IH H|g tol n g' Hh IH Hs H]; [reflexivity| |].
  - destruct (history_live ops card good pt L o factors ev special g0 Ho Gfac reduced final g M Hh) as [Gfin LV].
    rewrite (edges_kept ops good pt o final ev special g k g' LV H). exact IH.
  - destruct (history_live ops card good pt L o factors ev special g0 Ho Gfac reduced final g M Hh) as [Gfin LV].
    destruct (process_cases ops tol n g g' H Hs) as [->|(steps & R & _)]; [exact IH|].
    rewrite (run_edges final Gfin _ steps g' (live_sort ops good pt o final ev special g LV) R). exact IH.
Qed.

Lemma tree_weights : tree_shaped g0 ->
  exists w, forall e, In e (edges g0) -> w e = S (list_sum (map w (succs (edges g0) e))).
Proof.
  intros [TC TA]. destruct (mk_graph_made ops o factors ev special g0 Ho Hmk) as (reduced & final & M).
  destruct (history_live ops card good pt L o factors ev special g0 Ho Gfac reduced final g0 M (hi_init _ _)) as [Gfin LV].
  pose proof (sa_struct _ _ _ (lv_static _ _ _ _ _ _ _ _ LV)) as ST.
  assert (El : forall i j, In (i, j) (edges g0) <-> linked g0 i j).
  { intros i j. split.
    - intros H. apply In_nth_error in H. destruct H as (k & H). apply edges_nth in H. destruct H as (p & Hp & E). inversion E. exists k, p. auto.
    - intros (k & p & Hp & <- & <-). apply (nth_error_In _ k). apply edges_nth. exists p. auto. }
  assert (Er : forall i j, linked g0 i j -> i < length (g_cl g0) /\ j < length (g_cl g0) /\ i <> j).
  { intros i j (k & p & Hp & <- & <-).
    destruct (st_path _ _ ST k p Hp) as (s & Hs). destruct (st_edge _ _ ST _ _ _ Hs) as (Hi & Hj & Hd & _). auto. }
  assert (Es : forall i j, linked g0 i j -> linked g0 j i).
  { intros i j (k & p & Hp & <- & <-).
    destruct (st_path _ _ ST k p Hp) as (s & Hs). rewrite graph_sep_sym in Hs.
    destruct (st_edge _ _ ST _ _ _ Hs) as (_ & _ & _ & _ & _ & k2 & p2 & H2). exists k2, p2. exact H2. }
  destruct (g_cl g0) as [|c cs] eqn:Ec.
  - exists (fun _ => 0). intros [i j] He. apply El, Er in He. rewrite ?Ec in He. cbn in He. lia.
  - rewrite <- Ec in *.
    assert (E' : forall i j, In (i, j) (edges g0) -> i < length (g_cl g0) /\ j < length (g_cl g0) /\ i <> j) by (intros; apply Er; now apply El).
    destruct (tree_listing (fun i j => In (i, j) (edges g0)) (length (g_cl g0)) 0) as (ord & HT & HP & Hall).
    + intros i j H. apply El, Es, El, H.
    + exact E'.
    + intros i j Hi Hj. specialize (TC i j Hi Hj). clear Hi Hj.
      induction TC as [x y H|x|x y z _ IH1 _ IH2]; [apply rt_step; now apply El|apply rt_refl|eapply rt_trans; eauto].
    + intros l (C1 & C2 & C3 & C4). apply (TA l). split; [exact C1|]. split; [exact C2|]. split.
      * intros a x y H1 H2. apply El. eauto.
      * intros x y H1 H2. apply El. eauto.
    + rewrite Ec. cbn. lia.
    + apply (weights_exist (edges g0) 0 ord HT); [|exact Hall].
      eapply Permutation_NoDup; [symmetry; exact HP|apply seq_NoDup].
Qed.

(** A call of process_graph sends at most [N] messages, whatever its iteration limit. *)
Lemma messages_bounded e0 : has_positive pt factors ev special e0 -> tree_shaped g0 ->
  exists N, forall g tol max_iter g', history ops g0 g -> (0 <= tol)%R -> process_graph ops tol max_iter g = Ok g' ->
    length (g_dists g') <= N.
Proof.
  intros (P1 & P2 & P3) TR. destruct (tree_weights TR) as (w & Hw).
  destruct (mk_graph_made ops o factors ev special g0 Ho Hmk) as (reduced & final & M).
  pose proof (final_pos ops card good pt L o factors ev special reduced final g0 e0 M Gfac P1 P3) as Pf.
  exists (message_bound ops card o final ev special w g0). intros g tol n g' Hh Ht H.
  destruct (history_live ops card good pt L o factors ev special g0 Ho Gfac reduced final g M Hh) as [Gfin LV].
  pose proof (history_edges g Hh) as Ee.
  assert (Hc : length (g_dists g') <= message_bound ops card o final ev special w g).
  { apply (process_count ops card good pt L o final ev special Ho Gfin e0 P2 Pf tol w n g g' Ht LV); [|exact H].
    intros e He. rewrite Ee in *. auto. }
  unfold message_bound, most_left in *. rewrite Ee in Hc. exact Hc.
Qed.

(** So with enough iterations it stops because no message would still change anything by more
    than the tolerance. *)
Lemma greedy_converges e0 : has_positive pt factors ev special e0 -> tree_shaped g0 -> length (g_cl g0) <> 1 ->
  exists N, forall g tol max_iter g', history ops g0 g -> (0 <= tol)%R -> N < max_iter * length (g_paths g0) ->
    process_graph ops tol max_iter g = Ok g' ->
    length (g_dists g') <= N /\ forall k, k < length (g_paths g') -> vleb (gain_of (g_paths g') k) (Fin tol) = true.
Proof.
  intros Hpos TR Hn1. destruct (messages_bounded e0 Hpos TR) as (N & HN). exists N. intros g tol n g' Hh Ht Hlt H.
  pose proof (HN g tol n g' Hh Ht H) as Hc. split; [exact Hc|].
  destruct (history_linked ops card good pt L o factors ev special g0 Ho Gfac Hmk g Hh) as [Hl _].
  destruct (greedy_run ops o factors ev special g0 g tol n g' Ho Hmk Hh H) as (steps & R & Hd & _ & Hst); [rewrite Hl; exact Hn1|].
  apply Hst.
  - destruct (mk_graph_made ops o factors ev special g0 Ho Hmk) as (reduced & final & M).
    destruct (history_static ops _ _ _ _ _ _ _ _ M Hh) as (SA & _ & Hpl & _).
    pose proof (Permutation_length (st_order _ _ (sa_struct _ _ _ SA))) as HL. rewrite seq_length in HL. rewrite HL, Hpl. lia.
  - exact (proj1 (run_comparable ops card good pt L o factors ev special g0 Ho Gfac Hmk e0 g steps g' Hpos Hh R)).
Qed.
Lemma greedy_exact e0 : has_positive pt factors ev special e0 -> tree_shaped g0 -> length (g_cl g0) <> 1 ->
  exists N, forall g max_iter g' vrs res, history ops g0 g -> N < max_iter * length (g_paths g0) ->
    process_graph ops 0 max_iter g = Ok g' ->
    NoDup vrs -> (forall v, In v vrs -> ~ In v (dkeys special)) -> get_marginal ops g' vrs = Ok res ->
    (forall v, In v (f_vars ops res) <-> In v vrs) /\
    exists k, (0 < k)%R /\
      forall rem e, agrees_opt ev e -> agrees special e -> NoDup rem ->
        (forall v, In v rem <-> (exists f, In f factors /\ In v (f_vars ops f)) /\
            ~ In v (observed ev) /\ ~ In v (dkeys special) /\ ~ In v vrs) ->
        (k * pt res e = sum_over card rem (prod_at pt factors) e)%R.
Proof.
  intros Hpos TR Hn1. destruct (greedy_converges e0 Hpos TR Hn1) as (N & HN). exists N. intros g n g' vrs res Hh Hlt H Hv Hd Hm.
  destruct (HN g 0%R n g' Hh (Rle_refl 0) Hlt H) as [_ Hg].
  destruct (history_linked ops card good pt L o factors ev special g0 Ho Gfac Hmk g Hh) as [Hl _].
  assert (Hh' : history ops g0 g') by (eapply hi_process; [exact Hh|left; rewrite Hl; exact Hn1|exact H]).
  destruct (converged_settled ops card good pt L o factors ev special g0 Ho Gfac Hmk e0 g' 0%R Hpos Hh' (Rle_refl 0) Hg) as (c & ST).
  destruct (settled_marginal ops card good pt L o factors ev special g0 Ho Gfac Hmk g' c vrs res Hh' TR ST Hv Hd Hm) as (V & k & K1 & _ & K3).
  split; [exact V|]. exists k. auto.
Qed.
End ConvTheorem.
