(** The message passing invariant: it holds initially, every pass keeps it, and passes do not
    fail while the model has a positive assignment (C31, C32, C56). *)
From Verif Require Export GraphInv.

Section Inv2.
Context {F : Type} (ops : fops F nat) (card : string -> nat) (good : F -> Prop) (pt : F -> env -> R).
Hypothesis L : lawful ops card good pt.
Context (o : oracle) (final : list F) (ev : option (dict string nat)) (special : dict string nat).
Hypothesis Ho : oracle_ok o.
Hypothesis Gfin : forall f, In f final -> good f.
Let sepf := graph_sep o (map (f_vars ops) final) (all_evidence ev special).
Notation Inv := (inv ops good pt o final ev special).

Lemma inv_init factors reduced g : made ops o factors ev special reduced final g -> Inv g.
Proof.
  intros M. split.
  - apply (mk_struct _ _ _ _ _ _ _ _ M).
  - rewrite <- (made_facs _ _ _ _ _ _ _ _ M). now rewrite map_length.
  - intros i c Hc. destruct (made_cluster _ _ _ _ _ _ _ _ i c M Hc) as (f & H1 & H2 & _ & H4).
    exists f. split; [exact H1|]. split; [exact H4|]. split.
    + rewrite H2. split; [apply Gfin; eapply nth_error_In; eauto|tauto].
    + intros e. rewrite H2. rewrite Rprod_ones; [ring|]. intros p Hp. apply In_nth_error in Hp. destruct Hp as (k & Hk).
      unfold into, pm. rewrite (proj1 (mk_path _ _ _ _ _ _ _ _ M k p Hk)). destruct (Nat.eq_dec _ _); reflexivity.
  - intros k p m Hp Hm. rewrite (proj1 (mk_path _ _ _ _ _ _ _ _ M k p Hp)) in Hm. discriminate.
  - intros k p ci cj Hp Hi Hj. rewrite (mk_recv _ _ _ _ _ _ _ _ M _ cj Hj).
    rewrite (proj1 (mk_path _ _ _ _ _ _ _ _ M k p Hp)). reflexivity.
  - intros k p m ci S Hp Hm. rewrite (proj1 (mk_path _ _ _ _ _ _ _ _ M k p Hp)) in Hm. discriminate.
  - intros k p m Hp Hm. rewrite (proj1 (mk_path _ _ _ _ _ _ _ _ M k p Hp)) in Hm. discriminate.
Qed.

(** The ends of a path, its sepset and the path in the other direction. *)
Lemma path_ends g k p : Inv g -> nth_error (g_paths g) k = Some p ->
  exists S ci cj fi fj q kq, sepf (p_snd p) (p_rcv p) = Some S /\ p_snd p <> p_rcv p /\ S <> [] /\
    nth_error (g_cl g) (p_snd p) = Some ci /\ nth_error (g_cl g) (p_rcv p) = Some cj /\
    nth_error final (p_snd p) = Some fi /\ nth_error final (p_rcv p) = Some fj /\
    nth_error (g_paths g) kq = Some q /\ p_snd q = p_rcv p /\ p_rcv q = p_snd p.
Proof.
  intros IV Hp. pose proof (iv_struct _ _ _ _ _ _ _ _ IV) as ST. destruct (st_path _ _ ST k p Hp) as (S & HS).
  destruct (st_edge _ _ ST _ _ S HS) as (H1 & H2 & H3 & H4 & H5 & _).
  destruct (st_edge _ _ ST _ _ S H5) as (_ & _ & _ & _ & _ & kq & q & Q1 & Q2 & Q3).
  destruct (nth_error (g_cl g) (p_snd p)) as [ci|] eqn:Ei; [|apply nth_error_None in Ei; lia].
  destruct (nth_error (g_cl g) (p_rcv p)) as [cj|] eqn:Ej; [|apply nth_error_None in Ej; lia].
  destruct (iv_cl _ _ _ _ _ _ _ _ IV _ ci Ei) as (fi & Hfi & _). destruct (iv_cl _ _ _ _ _ _ _ _ IV _ cj Ej) as (fj & Hfj & _).
  exists S, ci, cj, fi, fj, q, kq. repeat split; auto.
Qed.

(** The pending message of a path. *)
Lemma next_ok g k p : Inv g -> fresh ops g -> nth_error (g_paths g) k = Some p ->
  exists S ci cj q kq, sepf (p_snd p) (p_rcv p) = Some S /\
    nth_error (g_cl g) (p_snd p) = Some ci /\ nth_error (g_cl g) (p_rcv p) = Some cj /\
    nth_error (g_paths g) kq = Some q /\ p_snd q = p_rcv p /\ p_rcv q = p_snd p /\
    message_ok ops card good pt special ci cj S q (p_next p).
Proof.
  intros IV Fr Hp. destruct (path_ends g k p IV Hp) as (S & ci & cj & fi & fj & q & kq & HS & Hne & HSn & Hi & Hj & Hfi & Hfj & Hq & Q1 & Q2).
  exists S, ci, cj, q, kq. repeat (split; [assumption|]).
  apply (message_form ops card good pt L o final ev special Ho Gfin g _ _ ci cj S fi q kq IV Hi Hj HS Hfi Hq Q1 Q2).
  eapply Fr; eauto.
Qed.

Lemma prev_fac g k p m S : Inv g -> nth_error (g_paths g) k = Some p -> p_prev p = Some m ->
  sepf (p_snd p) (p_rcv p) = Some S -> fac_ok ops good S (m_fac m).
Proof.
  intros IV Hp Hm HS. destruct (iv_prev _ _ _ _ _ _ _ _ IV k p m Hp Hm) as (S' & HS' & H).
  fold sepf in HS'. rewrite HS in HS'. inversion HS'; subst. exact H.
Qed.

(** The receiving cluster after a pass. *)
Lemma receive_ok g k p : Inv g -> fresh ops g -> nth_error (g_paths g) k = Some p ->
  exists cj cj', nth_error (g_cl g) (p_rcv p) = Some cj /\ receive_message ops cj (p_next p) = Ok cj' /\
    good (cl_fac cj') /\ (forall v, In v (f_vars ops (cl_fac cj')) <-> In v (f_vars ops (cl_fac cj))) /\
    (forall e, pt (cl_fac cj') e =
       match p_prev p with
       | Some m0 => if Req_EM_T (pt (m_fac m0) e) 0 then 0 else pt (cl_fac cj) e * pt (m_fac (p_next p)) e / pt (m_fac m0) e
       | None => pt (cl_fac cj) e * pt (m_fac (p_next p)) e
       end)%R.
Proof.
  intros IV Fr Hp. destruct (next_ok g k p IV Fr Hp) as (S & ci & cj & q & kq & HS & Hi & Hj & Hq & Q1 & Q2 & [M1 M2 (Mg & Mv) M4 M5]).
  destruct (iv_cl _ _ _ _ _ _ _ _ IV _ cj Hj) as (fj & Hfj & Hsp & (Gj & Vj) & Pj).
  assert (SI : forall v, In v S -> In v (f_vars ops (cl_fac cj))).
  { intros v Hv. destruct (sepf_In ops o final ev special Ho _ _ S v HS Hv) as (_ & H & _). apply Vj. now apply H. }
  destruct (lw_mul _ _ _ _ L (cl_fac cj) (m_fac (p_next p)) Gj Mg) as (f1 & F1 & F2 & F3 & F4).
  assert (V1 : forall v, In v (f_vars ops f1) <-> In v (f_vars ops (cl_fac cj))).
  { intros v. rewrite F3, Mv. specialize (SI v). tauto. }
  exists cj. unfold receive_message. rewrite (proj2 (eqb_true _ _) M2). cbn [py_assert bind]. rewrite F1. cbn [bind].
  rewrite M1, (iv_recv _ _ _ _ _ _ _ _ IV k p ci cj Hp Hi Hj).
  destruct (p_prev p) as [m0|] eqn:E; cbn [option_map].
  - destruct (prev_fac g k p m0 S IV Hp E HS) as (G0 & V0).
    destruct (lw_cancel _ _ _ _ L f1 (m_fac m0) F2 G0) as (f2 & C1 & C2 & C3 & C4).
    { intros v Hv. apply V1, SI, V0. exact Hv. }
    { intros e He. rewrite F4, Pj. rewrite (Rprod_zero _ (into pt (p_rcv p) p e)); [ring| |].
      - apply in_map_iff. exists p. split; [reflexivity|]. eapply nth_error_In; eauto.
      - unfold into, pm. rewrite E. destruct (Nat.eq_dec (p_rcv p) (p_rcv p)); [exact He|congruence]. }
    rewrite C1. cbn [bind]. eexists. split; [exact Hj|]. split; [reflexivity|]. cbn. split; [exact C2|].
    split; [intros v; now rewrite C3|]. intros e. rewrite C4. destruct (Req_EM_T _ _); [reflexivity|]. now rewrite F4.
  - cbn [bind]. eexists. split; [exact Hj|]. split; [reflexivity|]. cbn. auto.
Qed.

Lemma inv_sent g k g' p cr cr' : Inv g -> fresh ops g -> sent ops g k g' p cr cr' -> Inv g'.
Proof.
  intros IV Fr P. pose proof (se_path _ _ _ _ _ _ _ P) as Hp.
  destruct (next_ok g k p IV Fr Hp) as (S & ci & cj & q & kq & HS & Hi & Hj & Hq & Q1 & Q2 & MO).
  destruct (receive_ok g k p IV Fr Hp) as (cj2 & cj' & Hj2 & Hrc & Gj' & Vj' & Pj').
  rewrite Hj in Hj2. inversion Hj2; subst cj2; clear Hj2.
  pose proof (se_cr _ _ _ _ _ _ _ P) as Hcr. rewrite Hj in Hcr. inversion Hcr; subst cr; clear Hcr.
  pose proof (se_recv _ _ _ _ _ _ _ P) as Hrc2. rewrite Hrc in Hrc2. inversion Hrc2; subst cr'; clear Hrc2.
  pose proof (iv_struct _ _ _ _ _ _ _ _ IV) as ST.
  assert (ST' : struct_ok sepf g') by (eapply struct_sent; eauto).
  destruct (path_ends g k p IV Hp) as (S2 & _ & _ & fi & fj & _ & _ & HS2 & Hij & HSn & _ & _ & Hfi & Hfj & _).
  rewrite HS in HS2. inversion HS2; subst S2; clear HS2.
  destruct (iv_cl _ _ _ _ _ _ _ _ IV _ cj Hj) as (fj2 & Hfj2 & Hspj & (Gj & Vj) & Pj).
  rewrite Hfj in Hfj2. inversion Hfj2; subst fj2; clear Hfj2.
  (* the support shrinks *)
  assert (Hshrink : forall e, pt (cl_fac cj) e = 0%R -> pt (cl_fac cj') e = 0%R).
  { intros e He. rewrite Pj', He. destruct (p_prev p) as [m0|]; [|ring]. destruct (Req_EM_T _ _); [reflexivity|]. unfold Rdiv; ring. }
  (* where the old message vanishes the new one does *)
  assert (Hmono : forall m0 e, p_prev p = Some m0 -> pt (m_fac m0) e = 0%R -> pt (m_fac (p_next p)) e = 0%R).
  { intros m0 e E He. apply (mo_zero _ _ _ _ _ _ _ _ _ _ MO).
    apply (belief_zero ops card good pt L o final ev special g (p_snd p) ci S fi IV Hi Hfi).
    intros e' He'. exact (iv_supp _ _ _ _ _ _ _ _ IV k p m0 ci S Hp E Hi HS e He e' He'). }
  destruct (receive_fields ops _ _ _ Hrc) as (RF1 & RF2 & RF3 & RF4 & RF5 & RF6 & _).
  (* products over the paths into a cluster *)
  assert (Hpaths : forall i e, exists A, Rprod (map (fun p => into pt i p e) (g_paths g)) = (A * into pt i p e)%R /\
     Rprod (map (fun p => into pt i p e) (g_paths g')) = (A * (if Nat.eq_dec (p_rcv p) i then pt (m_fac (p_next p)) e else 1))%R).
  { intros i e. assert (Hk : nth_error (map (fun p => into pt i p e) (g_paths g)) k = Some (into pt i p e)).
    { now rewrite nth_error_map, Hp. }
    destruct (Rprod_split _ k _ Hk) as (A & A1 & A2). exists A. split; [exact A1|]. apply A2.
    - rewrite !map_length. apply (se_plen _ _ _ _ _ _ _ P).
    - destruct (sent_paths_back _ _ _ _ _ _ _ k p P Hp) as (p' & Hp' & _).
      destruct (se_paths _ _ _ _ _ _ _ P k p' Hp') as (p0 & Hp0 & E1 & E2 & E3). rewrite Hp in Hp0. inversion Hp0; subst p0.
      rewrite nth_error_map, Hp'. cbn. f_equal. unfold into, pm. rewrite E2, E3. destruct (Nat.eq_dec k k); [reflexivity|congruence].
    - intros j Hjk. rewrite !nth_error_map. destruct (nth_error (g_paths g') j) as [p'|] eqn:Ep'.
      + destruct (se_paths _ _ _ _ _ _ _ P j p' Ep') as (p0 & Hp0 & E1 & E2 & E3). rewrite Hp0. cbn. f_equal.
        unfold into, pm. rewrite E2, E3. destruct (Nat.eq_dec j k); [congruence|reflexivity].
      + destruct (nth_error (g_paths g) j) as [p0|] eqn:Ep0; [|reflexivity]. exfalso.
        destruct (sent_paths_back _ _ _ _ _ _ _ j p0 P Ep0) as (p' & Hp' & _). congruence. }
  split.
  - exact ST'.
  - rewrite (se_len _ _ _ _ _ _ _ P). apply (iv_len _ _ _ _ _ _ _ _ IV).
  - intros i c Hc. rewrite (se_cl _ _ _ _ _ _ _ P) in Hc. destruct (Nat.eq_dec i (p_rcv p)) as [->|N].
    + inversion Hc; subst c. exists fj. split; [exact Hfj|]. split; [now rewrite RF4|]. split.
      * split; [exact Gj'|]. intros v. rewrite Vj'. apply Vj.
      * intros e. destruct (Hpaths (p_rcv p) e) as (A & A1 & A2). rewrite A2, Pj', Pj, A1.
        unfold into, pm. destruct (Nat.eq_dec (p_rcv p) (p_rcv p)) as [_|C]; [|congruence].
        destruct (p_prev p) as [m0|] eqn:E; [|ring]. destruct (Req_EM_T (pt (m_fac m0) e) 0) as [Z|Z].
        -- rewrite (Hmono m0 e eq_refl Z). ring.
        -- field. exact Z.
    + destruct (iv_cl _ _ _ _ _ _ _ _ IV i c Hc) as (f & H1 & H2 & H3 & H4). exists f. repeat (split; [assumption|]).
      intros e. destruct (Hpaths i e) as (A & A1 & A2). rewrite H4, A1, A2. unfold into.
      destruct (Nat.eq_dec (p_rcv p) i); [congruence|reflexivity].
  - intros j p' m Hp' Hm. destruct (se_paths _ _ _ _ _ _ _ P j p' Hp') as (p0 & Hp0 & E1 & E2 & E3).
    rewrite E1, E2. destruct (Nat.eq_dec j k) as [->|N].
    + rewrite Hp in Hp0. inversion Hp0; subst p0. rewrite E3 in Hm. inversion Hm; subst m.
      exists S. split; [exact HS|]. apply (mo_fac _ _ _ _ _ _ _ _ _ _ MO).
    + rewrite E3 in Hm. apply (iv_prev _ _ _ _ _ _ _ _ IV j p0 m Hp0 Hm).
  - intros j p' ca cb Hp' Ha Hb. destruct (se_paths _ _ _ _ _ _ _ P j p' Hp') as (p0 & Hp0 & E1 & E2 & E3).
    rewrite E1 in Ha. rewrite E2 in Hb.
    destruct (sent_cl _ _ _ _ _ _ _ _ ca P Ha) as (ca0 & Ha0 & Ia & _).
    destruct (sent_cl _ _ _ _ _ _ _ _ cb P Hb) as (cb0 & Hb0 & Ib & _ & _ & _ & Hne & Heq).
    rewrite E3, Ia. destruct (Nat.eq_dec (p_rcv p0) (p_rcv p)) as [Er|Er].
    + destruct (Heq Er) as [-> ->]. rewrite RF6, (mo_snd _ _ _ _ _ _ _ _ _ _ MO).
      destruct (Nat.eq_dec j k) as [->|N].
      * rewrite Hp in Hp0. inversion Hp0; subst p0. rewrite Hi in Ha0. inversion Ha0; subst ca0.
        now rewrite dget_dset_eq.
      * rewrite dget_dset_ne.
        -- apply (iv_recv _ _ _ _ _ _ _ _ IV j p0 ca0 cj Hp0 Ha0). now rewrite Er.
        -- intros C. apply N. apply (st_pair _ _ ST j k p0 p Hp0 Hp); [|exact Er].
           apply (ids_inj (g_cl g) _ _ ca0 ci (st_ids _ _ ST) Ha0 Hi). auto.
    + rewrite (Hne Er). destruct (Nat.eq_dec j k) as [->|N].
      * rewrite Hp in Hp0. inversion Hp0; subst p0. congruence.
      * apply (iv_recv _ _ _ _ _ _ _ _ IV j p0 ca0 cb0 Hp0 Ha0 Hb0).
  - intros j p' m c' S' Hp' Hm Hc' HS' e He e' He'.
    destruct (se_paths _ _ _ _ _ _ _ P j p' Hp') as (p0 & Hp0 & E1 & E2 & E3).
    rewrite E1 in Hc'. rewrite E1, E2 in HS'.
    destruct (sent_cl _ _ _ _ _ _ _ _ c' P Hc') as (c0 & Hc0 & _ & _ & _ & _ & Hne & Heq).
    assert (Hold : pt (cl_fac c0) (over special e') = 0%R).
    { destruct (Nat.eq_dec j k) as [->|N].
      - rewrite Hp in Hp0. inversion Hp0; subst p0. rewrite E3 in Hm. inversion Hm; subst m.
        rewrite Hi in Hc0. inversion Hc0; subst c0. fold sepf in HS'. rewrite HS in HS'. inversion HS'; subst S'.
        apply (mo_zero _ _ _ _ _ _ _ _ _ _ MO) in He.
        exact (proj1 (belief_zero ops card good pt L o final ev special g (p_snd p) ci S fi IV Hi Hfi e) He e' He').
      - rewrite E3 in Hm. exact (iv_supp _ _ _ _ _ _ _ _ IV j p0 m c0 S' Hp0 Hm Hc0 HS' e He e' He'). }
    destruct (Nat.eq_dec (p_snd p0) (p_rcv p)) as [Er|Er].
    + destruct (Heq Er) as [-> ->]. now apply Hshrink.
    + now rewrite (Hne Er).
  - intros j p' m Hp' Hm e Ha Hpos. destruct (se_paths _ _ _ _ _ _ _ P j p' Hp') as (p0 & Hp0 & E1 & E2 & E3).
    destruct (Nat.eq_dec j k) as [->|N].
    + rewrite E3 in Hm. inversion Hm; subst m. intros C. apply (mo_zero _ _ _ _ _ _ _ _ _ _ MO) in C.
      pose proof (proj1 (belief_zero ops card good pt L o final ev special g (p_snd p) ci S fi IV Hi Hfi e) C e (fun _ _ => eq_refl)) as Z.
      destruct (iv_cl _ _ _ _ _ _ _ _ IV _ ci Hi) as (fi2 & Hfi2 & _ & (Gi & _) & Pi). rewrite Hfi in Hfi2. inversion Hfi2; subst fi2.
      rewrite (lw_ext _ _ _ _ L _ _ e Gi (fun v _ => over_id special e Ha v)) in Z. rewrite Pi in Z.
      apply Rmult_integral in Z. destruct Z as [Z|Z].
      * apply (Hpos fi); [eapply nth_error_In; eauto|exact Z].
      * revert Z. apply Rprod_nonzero. intros x Hx. apply in_map_iff in Hx. destruct Hx as (r & <- & Hr).
        unfold into, pm. destruct (Nat.eq_dec _ _); [|lra]. destruct (p_prev r) as [mr|] eqn:Er; [|lra].
        apply In_nth_error in Hr. destruct Hr as (kr & Hkr). exact (iv_pos _ _ _ _ _ _ _ _ IV kr r mr Hkr Er e Ha Hpos).
    + rewrite E3 in Hm. exact (iv_pos _ _ _ _ _ _ _ _ IV j p0 m Hp0 Hm e Ha Hpos).
Qed.

(** Any sequence of passes keeps the invariant. *)
Record live (g : cgraph F nat) : Prop := { lv_inv : Inv g; lv_static : static_ok ops sepf g }.
Lemma live_init factors reduced g : made ops o factors ev special reduced final g -> live g.
Proof. intros M. split; [eapply inv_init; eauto|eapply made_static; eauto]. Qed.
Lemma live_pass g k g' : live g -> pass_path ops g k = Ok g' -> live g'.
Proof.
  intros [IV SA] H. destruct (pass_path_passed ops g k g' (struct_out _ _ (sa_struct _ _ _ SA)) H) as (p & cr & cr' & P).
  split; [|eapply static_passed; eauto]. eapply inv_sent; [exact IV|apply (sa_fresh _ _ _ SA)|]. apply passed_sent. exact P.
Qed.
Lemma live_passes ks : forall g g', live g -> foldM (pass_path ops) ks g = Ok g' -> live g'.
Proof.
  induction ks as [|k ks IH]; intros g g' LV H; cbn [foldM] in H; [inversion H; subst; exact LV|].
  apply bind_ok in H. destruct H as (g1 & H1 & H). eapply IH; [|exact H]. eapply live_pass; eauto.
Qed.

(** ** The joint (C31) *)
Lemma into_swap g e : Inv g ->
  Rprod (map (fun i => Rprod (map (fun p => into pt i p e) (g_paths g))) (seq 0 (length final))) =
  Rprod (map (fun p => pm pt p e) (g_paths g)).
Proof.
  intros IV. rewrite Rprod_swap. apply Rprod_ext. intros p Hp. apply In_nth_error in Hp. destruct Hp as (k & Hk).
  destruct (path_ends g k p IV Hk) as (S & ci & cj & fi & fj & q & kq & _ & _ & _ & _ & _ & _ & Hfj & _).
  unfold into. apply (Rprod_indicator (length final) (p_rcv p) (pm pt p e)). apply nth_error_Some. congruence.
Qed.
Lemma joint_product g e : Inv g ->
  prod_at pt (map cl_fac (g_cl g)) e = (prod_at pt final e * Rprod (map (fun p => pm pt p e) (g_paths g)))%R.
Proof.
  intros IV. rewrite <- (into_swap g e IV). rewrite <- !(prod_at_seq pt). rewrite map_length, (iv_len _ _ _ _ _ _ _ _ IV).
  rewrite <- Rprod_mult. apply Rprod_ext. intros i Hi. apply in_seq in Hi. unfold pt_at. rewrite nth_error_map.
  destruct (nth_error (g_cl g) i) as [c|] eqn:E.
  - destruct (iv_cl _ _ _ _ _ _ _ _ IV i c E) as (f & H1 & _ & _ & H4). cbn [option_map]. now rewrite H1.
  - apply nth_error_None in E. rewrite (iv_len _ _ _ _ _ _ _ _ IV) in E. lia.
Qed.
Lemma messages_zero g e : Inv g -> agrees special e ->
  Rprod (map (fun p => pm pt p e) (g_paths g)) = 0%R -> prod_at pt final e = 0%R.
Proof.
  intros IV Ha Hz. destruct (Req_EM_T (prod_at pt final e) 0) as [Z|Z]; [exact Z|]. exfalso. revert Hz.
  apply Rprod_nonzero. intros x Hx. apply in_map_iff in Hx. destruct Hx as (p & <- & Hp).
  unfold pm. destruct (p_prev p) as [m|] eqn:E; [|lra]. apply In_nth_error in Hp. destruct Hp as (k & Hk).
  apply (iv_pos _ _ _ _ _ _ _ _ IV k p m Hk E e Ha). intros f Hf C. apply Z. unfold prod_at.
  apply (Rprod_zero _ (pt f e)); [|exact C]. apply in_map_iff. eauto.
Qed.
Lemma joint_quotient g e : Inv g -> agrees special e ->
  (let M := Rprod (map (fun p => pm pt p e) (g_paths g)) in
   if Req_EM_T M 0 then 0 else prod_at pt (map cl_fac (g_cl g)) e / M)%R = prod_at pt final e.
Proof.
  intros IV Ha. cbn zeta. destruct (Req_EM_T _ _) as [Z|Z].
  - symmetry. eapply messages_zero; eauto.
  - rewrite joint_product by exact IV. field. exact Z.
Qed.

(** ** Passes do not fail (C56) *)
Section Positive.
Variable e0 : env.
Hypothesis He0 : agrees special e0.
Hypothesis Hpos : forall f, In f final -> pt f e0 <> 0%R.

Lemma cluster_pos g i c : Inv g -> nth_error (g_cl g) i = Some c -> pt (cl_fac c) e0 <> 0%R.
Proof.
  intros IV Hc. destruct (iv_cl _ _ _ _ _ _ _ _ IV i c Hc) as (f & H1 & _ & _ & ->).
  apply Rmult_integral_contrapositive_currified; [apply Hpos; eapply nth_error_In; eauto|].
  apply Rprod_nonzero. intros x Hx. apply in_map_iff in Hx. destruct Hx as (r & <- & Hr).
  unfold into, pm. destruct (Nat.eq_dec _ _); [|lra]. destruct (p_prev r) as [mr|] eqn:Er; [|lra].
  apply In_nth_error in Hr. destruct Hr as (kr & Hkr). exact (iv_pos _ _ _ _ _ _ _ _ IV kr r mr Hkr Er e0 He0 Hpos).
Qed.

Lemma cluster_reduce i f c : nth_error final i = Some f -> cl_spec c = cl_spec (new_cluster ops special (i, f)) ->
  fac_ok ops good (f_vars ops f) (cl_fac c) -> pt (cl_fac c) e0 <> 0%R ->
  exists f1, f_reduce ops (cl_fac c) (dkeys (cl_spec c)) (dvals (cl_spec c)) = Ok f1.
Proof.
  intros Hf Hsp (Gc & Hv) Hp. rewrite Hsp.
  destruct (spec_of_cluster ops card good pt L special i f) as (N1 & N2 & N3 & N4).
  { apply Gfin. eapply nth_error_In; eauto. }
  rewrite <- (N4 e0 He0). apply (lw_reduce_ok _ _ _ _ L); auto. intros v Hvv. apply Hv. now apply N2.
Qed.

Lemma make_ok g k p : Inv g -> nth_error (g_paths g) k = Some p ->
  exists ci cj m d, nth_error (g_cl g) (p_snd p) = Some ci /\ nth_error (g_cl g) (p_rcv p) = Some cj /\
    make_message ops ci (cl_id cj) = Ok m /\ pt (m_fac m) e0 <> 0%R /\
    info_gain ops (p_prev p) m = Ok d /\ d <> NaN.
Proof.
  intros IV Hp. destruct (path_ends g k p IV Hp) as (S & ci & cj & fi & fj & q & kq & HS & Hne & HSn & Hi & Hj & Hfi & Hfj & Hq & Q1 & Q2).
  destruct (iv_cl _ _ _ _ _ _ _ _ IV _ ci Hi) as (fi2 & Hfi2 & Hsp & Hfo & _). rewrite Hfi in Hfi2. inversion Hfi2; subst fi2.
  destruct (cluster_reduce _ fi ci Hfi Hsp Hfo (cluster_pos g _ ci IV Hi)) as (f1 & Hf1).
  destruct (after_reduce ops card good pt L o final ev special Ho Gfin g _ _ ci cj S fi q kq IV Hi Hj HS Hfi Hq Q1 Q2 f1 Hf1)
    as (m & Hm & MO).
  assert (Hm0 : pt (m_fac m) e0 <> 0%R).
  { intros C. apply (mo_zero _ _ _ _ _ _ _ _ _ _ MO) in C.
    pose proof (proj1 (belief_zero ops card good pt L o final ev special g _ ci S fi IV Hi Hfi e0) C e0 (fun _ _ => eq_refl)) as Z.
    rewrite (lw_ext _ _ _ _ L _ _ e0 (proj1 Hfo) (fun v _ => over_id special e0 He0 v)) in Z.
    revert Z. eapply cluster_pos; eauto. }
  destruct (mo_fac _ _ _ _ _ _ _ _ _ _ MO) as (Gm & Vm).
  assert (Hvn : f_vars ops (m_fac m) <> []).
  { destruct S as [|v S']; [congruence|]. intros C. pose proof (proj2 (Vm v) (or_introl eq_refl)) as H. rewrite C in H. destruct H. }
  exists ci, cj, m. unfold info_gain. destruct (p_prev p) as [m0|] eqn:E.
  - destruct (prev_fac g k p m0 S IV Hp E HS) as (G0 & V0).
    destruct (lw_kl _ _ _ _ L (m_fac m0) (m_fac m) G0 Gm) as (d & D1 & D2 & _).
    + intros v. now rewrite V0, Vm.
    + intros C. destruct S as [|v S']; [congruence|]. pose proof (proj2 (V0 v) (or_introl eq_refl)) as H. rewrite C in H. destruct H.
    + exists e0. exact (iv_pos _ _ _ _ _ _ _ _ IV k p m0 Hp E e0 He0 Hpos).
    + eauto.
    + exists d. repeat (split; [assumption|]). destruct D2 as [->|(r & -> & _)]; discriminate.
  - destruct (lw_dist _ _ _ _ L (m_fac m) Gm Hvn) as (d & D1 & D2 & _); [eauto|].
    exists (Fin d). repeat (split; [assumption|]). discriminate.
Qed.

Lemma recompute_some g k p p' : Inv g -> nth_error (g_paths g) k = Some p ->
  p_snd p' = p_snd p -> p_rcv p' = p_rcv p -> p_prev p' = p_prev p -> exists p2, recompute ops (g_cl g) p' = Ok p2.
Proof.
  intros IV Hp E1 E2 E3. destruct (make_ok g k p IV Hp) as (ci & cj & m & d & Hi & Hj & Hm & _ & Hd & _).
  unfold recompute. rewrite E1, E2, E3, (py_nth_some _ _ _ Hi), (py_nth_some _ _ _ Hj). cbn [bind]. rewrite Hm. cbn [bind].
  rewrite Hd. cbn [bind]. eauto.
Qed.
Lemma recompute_fold_ok g : Inv g -> forall ks ps, (forall k, In k ks -> k < length (g_paths g)) ->
  length ps = length (g_paths g) ->
  (forall q p, nth_error (g_paths g) q = Some p -> exists p', nth_error ps q = Some p' /\
      p_snd p' = p_snd p /\ p_rcv p' = p_rcv p /\ p_prev p' = p_prev p) ->
  exists ps', foldM (recompute_at ops (g_cl g)) ks ps = Ok ps'.
Proof.
  intros IV. induction ks as [|k ks IH]; intros ps Hk Hl Hps; cbn [foldM]; [eauto|].
  assert (Hkl : k < length (g_paths g)) by (apply Hk; left; reflexivity).
  destruct (nth_error (g_paths g) k) as [p|] eqn:Ep; [|apply nth_error_None in Ep; lia].
  destruct (Hps k p Ep) as (p' & Hp' & E1 & E2 & E3).
  destruct (recompute_some g k p p' IV Ep E1 E2 E3) as (p2 & Hp2).
  unfold recompute_at at 1. rewrite (py_nth_some _ _ _ Hp'). cbn [bind]. rewrite Hp2. cbn [bind].
  destruct (list_set_spec ps k p2) as (ps1 & L1 & L2 & L3); [lia|]. rewrite L1. cbn [bind].
  apply IH; [intros j Hj; apply Hk; right; exact Hj|lia|].
  intros q pq Hq. rewrite L3. destruct (Nat.eq_dec q k) as [->|N].
  - rewrite Ep in Hq. inversion Hq; subst pq. exists p2. split; [reflexivity|].
    destruct (recompute_ends ops _ _ _ Hp2) as (R1 & R2 & R3 & _). repeat split; congruence.
  - apply Hps; exact Hq.
Qed.

Lemma pass_ok g k : live g -> k < length (g_paths g) -> exists g', pass_path ops g k = Ok g'.
Proof.
  intros [IV SA] Hk. pose proof (sa_fresh _ _ _ SA) as Fr.
  destruct (nth_error (g_paths g) k) as [p|] eqn:Ep; [|apply nth_error_None in Ep; lia].
  destruct (receive_ok g k p IV Fr Ep) as (cj & cj' & Hj & Hrc & _).
  unfold pass_path. rewrite (py_nth_some _ _ _ Ep). cbn [bind]. rewrite (py_nth_some _ _ _ Hj). cbn [bind].
  rewrite Hrc. cbn [bind].
  destruct (list_set_spec (g_cl g) (p_rcv p) cj') as (cls & C1 & C2 & C3); [apply nth_error_Some; congruence|].
  rewrite C1. cbn [bind].
  set (p1 := {| p_snd := p_snd p; p_rcv := p_rcv p; p_prev := Some (p_next p); p_next := p_next p; p_gain := Fin 0 |}).
  destruct (list_set_spec (g_paths g) k p1 Hk) as (ps1 & P1 & P2 & P3). rewrite P1. cbn [bind].
  set (g1 := {| g_cl := cls; g_paths := ps1; g_order := g_order g; g_spec := g_spec g; g_passed := g_passed g; g_dists := g_dists g |}).
  assert (SE : sent ops g k g1 p cj cj').
  { split; auto. intros q p' Hp'. cbn [g1 g_paths] in Hp'. rewrite P3 in Hp'. destruct (Nat.eq_dec q k) as [->|N].
    - inversion Hp'; subst p'. exists p. repeat split; auto.
    - exists p'. auto. }
  pose proof (inv_sent g k g1 p cj cj' IV Fr SE) as IV1.
  destruct (recompute_fold_ok g1 IV1 (cl_out cj') ps1) as (ps2 & Hps2).
  - intros q Hq. destruct (receive_fields ops _ _ _ Hrc) as (_ & _ & E3 & _). rewrite E3 in Hq.
    apply (st_out _ _ (iv_struct _ _ _ _ _ _ _ _ IV) _ cj Hj) in Hq. destruct Hq as (pq & Hpq & _).
    cbn [g1 g_paths]. rewrite P2. apply nth_error_Some. congruence.
  - reflexivity.
  - intros q pq Hq. exists pq. auto.
  - cbn [g1 g_cl] in Hps2. rewrite Hps2. cbn [bind]. eauto.
Qed.
Lemma passes_ok ks : forall g, live g -> (forall k, In k ks -> k < length (g_paths g)) ->
  exists g', foldM (pass_path ops) ks g = Ok g'.
Proof.
  induction ks as [|k ks IH]; intros g LV Hk; cbn [foldM]; [eauto|].
  destruct (pass_ok g k LV (Hk k (or_introl eq_refl))) as (g1 & H1). rewrite H1. cbn [bind]. apply IH.
  - eapply live_pass; eauto.
  - intros q Hq. destruct (pass_path_passed ops g k g1 (struct_out _ _ (sa_struct _ _ _ (lv_static _ LV))) H1) as (p & cr & cr' & P).
    rewrite (pa_plen _ _ _ _ _ _ _ P). apply Hk. right; exact Hq.
Qed.

(** Gains of live graphs are never NaN. *)
Lemma live_comparable g : live g -> comparable g.
Proof.
  intros [IV SA] q Hq. unfold gain_of. destruct (nth_error (g_paths g) q) as [p|] eqn:E; [|apply nth_error_None in E; lia].
  destruct (sa_gains _ _ _ SA q p E) as [H|[-> _]]; [|discriminate].
  destruct (make_ok g q p IV E) as (ci & cj & m & d & Hi & Hj & Hm & _ & Hd & Hdn).
  pose proof (sa_fresh _ _ _ SA q p ci cj E Hi Hj) as Hf. rewrite Hf in Hm. inversion Hm; subst m. congruence.
Qed.
End Positive.
End Inv2.
