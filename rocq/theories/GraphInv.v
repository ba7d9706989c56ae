(** The message passing invariant (C31) for any lawful factor class. *)
From Verif Require Export GraphTree.

(** ** Products of reals *)
Lemma Rprod_cons x l : Rprod (x :: l) = (x * Rprod l)%R.
Proof. reflexivity. Qed.
Lemma Rprod_ones {A} (f : A -> R) l : (forall x, In x l -> f x = 1%R) -> Rprod (map f l) = 1%R.
Proof.
  induction l as [|x l IH]; intros H; cbn [map]; [reflexivity|]. rewrite Rprod_cons, IH by (intros; apply H; right; assumption).
  rewrite (H x (or_introl eq_refl)). ring.
Qed.
Lemma Rprod_nonzero l : (forall x, In x l -> x <> 0%R) -> Rprod l <> 0%R.
Proof.
  induction l as [|x l IH]; intros H; [cbn; lra|]. rewrite Rprod_cons. apply Rmult_integral_contrapositive_currified.
  - apply H. left; reflexivity.
  - apply IH. intros; apply H; right; assumption.
Qed.
Lemma Rprod_zero l x : In x l -> x = 0%R -> Rprod l = 0%R.
Proof.
  intros H ->. induction l as [|y l IH]; [destruct H|]. rewrite Rprod_cons. destruct H as [->|H]; [ring|]. rewrite IH by exact H. ring.
Qed.
Lemma Rprod_mult {A} (f g : A -> R) l : Rprod (map (fun x => f x * g x)%R l) = (Rprod (map f l) * Rprod (map g l))%R.
Proof.
  induction l as [|x l IH]; cbn [map]; [cbn; ring|]. rewrite !Rprod_cons, IH. ring.
Qed.
Lemma Rprod_ext {A} (f g : A -> R) l : (forall x, In x l -> f x = g x) -> Rprod (map f l) = Rprod (map g l).
Proof. intros H. f_equal. apply map_ext_in. exact H. Qed.
Lemma Rprod_swap {A B} (f : A -> B -> R) l m :
  Rprod (map (fun x => Rprod (map (f x) m)) l) = Rprod (map (fun y => Rprod (map (fun x => f x y) l)) m).
Proof.
  induction l as [|x l IH]; cbn [map].
  - symmetry. apply Rprod_ones. reflexivity.
  - rewrite Rprod_cons, IH, <- Rprod_mult. apply Rprod_ext. intros y _. now rewrite Rprod_cons.
Qed.
Lemma Rprod_nonneg l : (forall x, In x l -> 0 <= x)%R -> (0 <= Rprod l)%R.
Proof.
  induction l as [|x l IH]; intros H; [cbn; lra|]. rewrite Rprod_cons. apply Rmult_le_pos.
  - apply H. left; reflexivity.
  - apply IH. intros; apply H; right; assumption.
Qed.
(** One factor singled out. *)
Lemma Rprod_split l k x : nth_error l k = Some x -> exists A, Rprod l = (A * x)%R /\
  forall l' x', length l' = length l -> nth_error l' k = Some x' ->
    (forall j, j <> k -> nth_error l' j = nth_error l j) -> Rprod l' = (A * x')%R.
Proof.
  revert k; induction l as [|y l IH]; intros [|k] H; try discriminate.
  - inversion H; subst y. exists (Rprod l). split; [rewrite Rprod_cons; ring|].
    intros [|y' l'] x' Hl Hx Ho; [discriminate|]. inversion Hx; subst y'.
    assert (l' = l). { apply nth_error_ext. intros j. apply (Ho (S j)). lia. }
    subst l'. rewrite Rprod_cons. ring.
  - destruct (IH k H) as (A & H1 & H2). exists (y * A)%R. split; [rewrite Rprod_cons, H1; ring|].
    intros [|y' l'] x' Hl Hx Ho; [discriminate|].
    assert (y' = y). { specialize (Ho 0 ltac:(lia)). cbn in Ho. congruence. }
    subst y'. rewrite Rprod_cons. rewrite (H2 l' x'); [ring|cbn in Hl; lia|exact Hx|].
    intros j Hj. apply (Ho (S j)). lia.
Qed.
Lemma Rprod_indicator n i (x : R) : i < n -> Rprod (map (fun j => if Nat.eq_dec i j then x else 1%R) (seq 0 n)) = x.
Proof.
  intros Hi. assert (H : nth_error (map (fun j => if Nat.eq_dec i j then x else 1%R) (seq 0 n)) i = Some x).
  { rewrite nth_error_map. rewrite (nth_error_nth' _ 0) by now rewrite seq_length. rewrite seq_nth by exact Hi. cbn.
    destruct (Nat.eq_dec i i); congruence. }
  destruct (Rprod_split _ i x H) as (A & H1 & H2). rewrite H1.
  assert (E : Rprod (map (fun _ : nat => 1%R) (seq 0 n)) = (A * 1)%R).
  { apply H2.
    - now rewrite !map_length.
    - rewrite nth_error_map. rewrite (nth_error_nth' _ 0) by now rewrite seq_length. reflexivity.
    - intros j Hj. rewrite !nth_error_map. destruct (nth_error (seq 0 n) j) as [y|] eqn:E; cbn; [|reflexivity].
      destruct (Nat.eq_dec i y) as [->|]; [|reflexivity]. exfalso. apply Hj.
      assert (j < n). { rewrite <- (seq_length n 0). apply nth_error_Some. congruence. }
      rewrite (nth_error_nth' _ 0) in E by now rewrite seq_length. rewrite seq_nth in E by assumption. cbn in E. congruence. }
  rewrite Rprod_ones in E by reflexivity. replace A with 1%R by lra. ring.
Qed.

Lemma Forall2_map_self {A B} (P : B -> A -> Prop) (f : A -> B) l : (forall x, In x l -> P (f x) x) -> Forall2 P (map f l) l.
Proof.
  induction l as [|x l IH]; intros H; cbn; constructor; [apply H; left; reflexivity|]. apply IH. intros; apply H; right; assumption.
Qed.

(** ** Overriding an assignment by evidence *)
Definition over {V} (d : dict string V) (e : string -> V) : string -> V := fun v => match dget d v with Some x => x | None => e v end.
Lemma over_agrees {V} (d : dict string V) e : agrees d (over d e).
Proof. intros v x H. unfold over. now rewrite H. Qed.
Lemma over_id {V} (d : dict string V) e : agrees d e -> forall v, over d e v = e v.
Proof. intros H v. unfold over. destruct (dget d v) eqn:E; [|reflexivity]. symmetry. now apply H. Qed.
Lemma over_other {V} (d : dict string V) e v : ~ In v (dkeys d) -> over d e v = e v.
Proof. intros H. unfold over. apply dget_None in H. now rewrite H. Qed.
Lemma over_in {V} (d : dict string V) e e' v : In v (dkeys d) -> over d e v = over d e' v.
Proof.
  intros H. unfold over. apply dmem_In in H. unfold dmem in H. destruct (dget d v); [reflexivity|discriminate].
Qed.

(** The potential of the message last sent along a path (1 if none). *)
Section Inv.
Context {F : Type} (ops : fops F nat) (card : string -> nat) (good : F -> Prop) (pt : F -> env -> R).
Hypothesis L : lawful ops card good pt.
Context (o : oracle) (final : list F) (ev : option (dict string nat)) (special : dict string nat).
Hypothesis Ho : oracle_ok o.
Hypothesis Gfin : forall f, In f final -> good f.
Let scopes := map (f_vars ops) final.
Let obs := all_evidence ev special.
Let sepf := graph_sep o scopes obs.

Definition pm (p : path F) (e : env) : R := match p_prev p with Some m => pt (m_fac m) e | None => 1%R end.
Definition into (i : nat) (p : path F) (e : env) : R := if Nat.eq_dec (p_rcv p) i then pm p e else 1%R.
Definition fac_ok (S : list string) (f : F) : Prop := good f /\ forall v, In v (f_vars ops f) <-> In v S.

Record inv (g : cgraph F nat) : Prop := {
  iv_struct : struct_ok sepf g;
  iv_len : length (g_cl g) = length final;
  iv_cl : forall i c, nth_error (g_cl g) i = Some c -> exists f, nth_error final i = Some f /\
    cl_spec c = cl_spec (new_cluster ops special (i, f)) /\ fac_ok (f_vars ops f) (cl_fac c) /\
    forall e, pt (cl_fac c) e = (pt f e * Rprod (map (fun p => into i p e) (g_paths g)))%R;
  iv_prev : forall k p m, nth_error (g_paths g) k = Some p -> p_prev p = Some m ->
    exists S, sepf (p_snd p) (p_rcv p) = Some S /\ fac_ok S (m_fac m);
  iv_recv : forall k p ci cj, nth_error (g_paths g) k = Some p -> nth_error (g_cl g) (p_snd p) = Some ci ->
    nth_error (g_cl g) (p_rcv p) = Some cj -> dget (cl_recv cj) (cl_id ci) = option_map m_fac (p_prev p);
  iv_supp : forall k p m ci S, nth_error (g_paths g) k = Some p -> p_prev p = Some m ->
    nth_error (g_cl g) (p_snd p) = Some ci -> sepf (p_snd p) (p_rcv p) = Some S ->
    forall e, pt (m_fac m) e = 0%R -> forall e', (forall v, In v S -> e' v = e v) -> pt (cl_fac ci) (over special e') = 0%R;
  iv_pos : forall k p m, nth_error (g_paths g) k = Some p -> p_prev p = Some m ->
    forall e, agrees special e -> (forall f, In f final -> pt f e <> 0%R) -> pt (m_fac m) e <> 0%R }.

Lemma sepf_In i j S v : sepf i j = Some S -> In v S ->
  (forall f, nth_error final i = Some f -> In v (f_vars ops f)) /\
  (forall f, nth_error final j = Some f -> In v (f_vars ops f)) /\ ~ In v (dkeys special).
Proof.
  intros HS Hv. apply (graph_sep_In o scopes obs i j S v Ho HS) in Hv.
  destruct Hv as (H1 & H2 & H3 & H4 & H5 & H6 & _).
  assert (G : forall i f, nth_error final i = Some f -> sc scopes i = f_vars ops f).
  { intros a f Hf. unfold sc, scopes. apply nth_error_nth. rewrite nth_error_map, Hf. reflexivity. }
  split; [|split].
  - intros f Hf. now rewrite <- (G _ _ Hf).
  - intros f Hf. now rewrite <- (G _ _ Hf).
  - intros C. apply H1. unfold obs, all_evidence. apply in_or_app. left; exact C.
Qed.
Lemma sepf_NoDup i j S : sepf i j = Some S -> NoDup S.
Proof. intros H. eapply graph_sep_NoDup; eauto. Qed.
Lemma sepf_sym i j : sepf i j = sepf j i.
Proof. apply graph_sep_sym. Qed.

Lemma spec_of_cluster i f : good f -> let c := new_cluster ops special (i, f) in
  NoDup (dkeys (cl_spec c)) /\ (forall v, In v (dkeys (cl_spec c)) <-> In v (f_vars ops f) /\ In v (dkeys special)) /\
  length (dvals (cl_spec c)) = length (dkeys (cl_spec c)) /\
  (forall e, agrees special e -> map e (dkeys (cl_spec c)) = dvals (cl_spec c)).
Proof.
  intros G. unfold new_cluster. cbn [fst snd]. destruct (subset_evidence special (f_vars ops f)) as [vrs values] eqn:E.
  pose proof (lw_nodup _ _ _ _ L f G) as Hn.
  destruct (subset_evidence_spec special _ vrs values Hn E) as (E1 & E2 & E3).
  cbn [cl_spec]. rewrite dict_of_NoDup by (rewrite dkeys_combine by auto; exact E1).
  assert (D : dvals (combine vrs values) = values).
  { clear - E3. unfold dvals. revert values E3. induction vrs as [|x l IH]; intros [|y m] H; try discriminate; cbn; [reflexivity|].
    f_equal. apply IH. cbn in H. lia. }
  rewrite dkeys_combine, D by auto. repeat split; auto; try apply E2; auto.
  intros e A. exact (subset_evidence_agrees special _ vrs values e Hn E A).
Qed.

(** ** The message computed by a cluster. *)
Section Message.
Context (g : cgraph F nat) (i j : nat) (ci cj : cluster F nat) (S : list string) (fi : F) (q : path F) (kq : nat).
Hypothesis IV : inv g.
Hypothesis Hi : nth_error (g_cl g) i = Some ci.
Hypothesis Hj : nth_error (g_cl g) j = Some cj.
Hypothesis HS : sepf i j = Some S.
Hypothesis Hfi : nth_error final i = Some fi.
Hypothesis Hq : nth_error (g_paths g) kq = Some q.
Hypothesis Hqs : p_snd q = j.
Hypothesis Hqr : p_rcv q = i.

Definition summed : list string := filter (fun v => negb (mem v S) && negb (mem v (dkeys special))) (f_vars ops (cl_fac ci)).
Definition belief (e : env) : R := sum_over card summed (fun e => pt (cl_fac ci) (over special e)) e.

Lemma ci_facts : cl_spec ci = cl_spec (new_cluster ops special (i, fi)) /\ fac_ok (f_vars ops fi) (cl_fac ci) /\
  forall e, pt (cl_fac ci) e = (pt fi e * Rprod (map (fun p => into i p e) (g_paths g)))%R.
Proof. destruct (iv_cl _ IV i ci Hi) as (f & H1 & H2 & H3 & H4). rewrite Hfi in H1. inversion H1; subst f. auto. Qed.

Lemma summed_NoDup : NoDup summed.
Proof. apply NoDup_filter. apply (lw_nodup _ _ _ _ L). apply ci_facts. Qed.
Lemma In_summed v : In v summed <-> In v (f_vars ops (cl_fac ci)) /\ ~ In v S /\ ~ In v (dkeys special).
Proof. unfold summed. rewrite filter_In, andb_true_iff, !negb_true_iff, !mem_nIn. tauto. Qed.

Lemma pm_ext e e' : (forall v, In v S -> e v = e' v) -> pm q e = pm q e'.
Proof.
  intros H. unfold pm. destruct (p_prev q) as [m|] eqn:E; [|reflexivity].
  destruct (iv_prev _ IV kq q m Hq E) as (S' & HS' & G & Hv). rewrite Hqs, Hqr, sepf_sym, HS in HS'. inversion HS'; subst S'.
  apply (lw_ext _ _ _ _ L); [exact G|]. intros v Hv'. apply H. now apply Hv.
Qed.
Lemma into_q e : into i q e = pm q e.
Proof. unfold into. destruct (Nat.eq_dec (p_rcv q) i); [reflexivity|contradiction]. Qed.
Lemma pm_zero e : pm q e = 0%R -> forall e', (forall v, In v S -> e' v = e v) -> pt (cl_fac ci) (over special e') = 0%R.
Proof.
  intros H e' He. destruct ci_facts as (_ & _ & ->). rewrite (Rprod_zero _ (into i q (over special e'))); [ring| |].
  - apply in_map_iff. exists q. split; [reflexivity|]. eapply nth_error_In; eauto.
  - rewrite into_q, <- H. apply pm_ext. intros v Hv. rewrite over_other; [now apply He|].
    apply (sepf_In i j S v HS Hv).
Qed.

Lemma belief_zero e : belief e = 0%R <-> forall e', (forall v, In v S -> e' v = e v) -> pt (cl_fac ci) (over special e') = 0%R.
Proof.
  destruct ci_facts as (_ & (Gc & _) & _). unfold belief. rewrite sum_over_assign. split.
  - intros H e' He. destruct (Req_EM_T (pt (cl_fac ci) (over special e')) 0) as [Z|Z]; [exact Z|].
    pose proof (Rsum_zero_all (fun k => pt (cl_fac ci) (over special (upds e summed k))) _
      (fun k _ => lw_nonneg _ _ _ _ L _ _ Gc) H (map e' summed)) as K.
    cbn beta in K. rewrite <- K.
    + apply (lw_ext _ _ _ _ L); [exact Gc|]. intros v Hv.
      destruct (in_dec string_dec v (dkeys special)) as [I|I]; [now apply over_in|]. rewrite !over_other by exact I.
      destruct (in_dec string_dec v S) as [I2|I2].
      * rewrite upds_other by (rewrite In_summed; tauto). now apply He.
      * symmetry. apply (map_env_inj summed); [|now apply In_summed]. apply map_upds; [apply summed_NoDup|apply map_length].
    + apply In_assign_range. apply Forall2_map_self. intros v Hv.
      pose proof (lw_range _ _ _ _ L _ _ Gc Z v). apply In_summed in Hv.
      rewrite over_other in H0 by tauto. tauto.
  - intros H. apply Rsum_zero. intros k _. apply H. intros v Hv. apply upds_other. rewrite In_summed. tauto.
Qed.
Lemma belief_nonneg e : (0 <= belief e)%R.
Proof. destruct ci_facts as (_ & (Gc & _) & _). apply sum_over_nonneg. intros. now apply (lw_nonneg _ _ _ _ L). Qed.

Record message_ok (m : msg F) : Prop := {
  mo_snd : m_snd m = cl_id ci;
  mo_rcv : m_rcv m = cl_id cj;
  mo_fac : fac_ok S (m_fac m);
  mo_mul : forall e, (pt (m_fac m) e * pm q e)%R = belief e;
  mo_zero : forall e, pt (m_fac m) e = 0%R <-> belief e = 0%R }.

Lemma S_incl_fac v : In v S -> In v (f_vars ops (cl_fac ci)) /\ ~ In v (dkeys special).
Proof.
  intros Hv. destruct (sepf_In i j S v HS Hv) as (H1 & _ & H3). split; [|exact H3].
  destruct ci_facts as (_ & (_ & ->) & _). now apply H1.
Qed.
Lemma fi_good : good fi.
Proof. apply Gfin. eapply nth_error_In; eauto. Qed.

(** The reduced factor. *)
Lemma reduced_form f1 : f_reduce ops (cl_fac ci) (dkeys (cl_spec ci)) (dvals (cl_spec ci)) = Ok f1 ->
  good f1 /\ (forall v, In v (f_vars ops f1) <-> In v (f_vars ops (cl_fac ci)) /\ ~ In v (dkeys special)) /\
  (forall e, pt f1 e = pt (cl_fac ci) (over special e)).
Proof.
  intros H. destruct ci_facts as (Hsp & (Gc & Hv) & _). rewrite Hsp in H.
  destruct (spec_of_cluster i fi fi_good) as (N1 & N2 & N3 & N4).
  assert (Hin : incl (dkeys (cl_spec (new_cluster ops special (i, fi)))) (f_vars ops (cl_fac ci))).
  { intros v Hvv. apply Hv. now apply N2. }
  destruct (lw_reduce _ _ _ _ L _ _ _ f1 Gc N1 Hin N3 H) as (R1 & R2 & R3).
  assert (R2' : forall v, In v (f_vars ops f1) <-> In v (f_vars ops (cl_fac ci)) /\ ~ In v (dkeys special)).
  { intros v. rewrite R2, N2, Hv. destruct (in_dec string_dec v (dkeys special)); tauto. }
  split; [exact R1|]. split; [exact R2'|]. intros e. rewrite <- R3.
  - apply (lw_ext _ _ _ _ L); [exact R1|]. intros v Hvv. apply R2' in Hvv. now rewrite over_other by tauto.
  - apply N4. apply over_agrees.
Qed.

Lemma after_reduce f1 : f_reduce ops (cl_fac ci) (dkeys (cl_spec ci)) (dvals (cl_spec ci)) = Ok f1 ->
  exists m, make_message ops ci (cl_id cj) = Ok m /\ message_ok m.
Proof.
  intros H1. destruct (reduced_form f1 H1) as (R1 & R2 & R3). unfold make_message, dget_r.
  pose proof (iv_struct _ IV) as ST. rewrite (st_sep _ _ ST i j ci cj Hi Hj), HS. cbn [bind]. rewrite H1. cbn [bind].
  destruct (lw_marg _ _ _ _ L f1 S R1 (sepf_NoDup i j S HS)) as (f2 & M1 & M2 & M3 & M4).
  { intros v Hv. apply R2. now apply S_incl_fac. }
  rewrite M1. cbn [bind].
  assert (B : forall e, pt f2 e = belief e).
  { intros e. rewrite (M4 summed e summed_NoDup).
    - unfold belief. apply sum_over_ext_g. exact R3.
    - intros v. rewrite In_summed, R2. tauto. }
  pose proof (iv_recv _ IV kq q cj ci Hq) as Hr. rewrite Hqs, Hqr in Hr. rewrite (Hr Hj Hi).
  destruct (p_prev q) as [mq|] eqn:E; cbn [option_map].
  - destruct (iv_prev _ IV kq q mq Hq E) as (S' & HS' & Gq & Hvq). rewrite Hqs, Hqr, sepf_sym, HS in HS'. inversion HS'; subst S'.
    assert (Hpm : forall e, pm q e = pt (m_fac mq) e) by (intros e; unfold pm; now rewrite E).
    assert (Z : forall e, pt (m_fac mq) e = 0%R -> pt f2 e = 0%R).
    { intros e He. rewrite B. apply belief_zero. apply pm_zero. now rewrite Hpm. }
    destruct (lw_cancel _ _ _ _ L f2 (m_fac mq) M2 Gq) as (f3 & C1 & C2 & C3 & C4); auto.
    { intros v Hv. apply M3. now apply Hvq. }
    rewrite C1. cbn [bind]. eexists. split; [reflexivity|]. split; cbn; auto.
    + split; [exact C2|]. intros v. now rewrite C3, M3.
    + intros e. rewrite Hpm, C4, <- B. destruct (Req_EM_T (pt (m_fac mq) e) 0) as [Z0|Z0].
      * rewrite (Z e Z0). ring.
      * field. exact Z0.
    + intros e. rewrite C4, <- B. destruct (Req_EM_T (pt (m_fac mq) e) 0) as [Z0|Z0].
      * rewrite (Z e Z0). tauto.
      * split; intros H0.
        -- assert (E2 : pt f2 e = (pt f2 e / pt (m_fac mq) e * pt (m_fac mq) e)%R) by (field; exact Z0).
           rewrite E2, H0. ring.
        -- rewrite H0. unfold Rdiv. ring.
  - cbn [bind]. eexists. split; [reflexivity|]. split; cbn; auto.
    + split; [exact M2|]. intros v. now rewrite M3.
    + intros e. unfold pm. rewrite E, B. ring.
    + intros e. rewrite B. tauto.
Qed.

Lemma message_form m : make_message ops ci (cl_id cj) = Ok m -> message_ok m.
Proof.
  intros H. assert (E : exists f1, f_reduce ops (cl_fac ci) (dkeys (cl_spec ci)) (dvals (cl_spec ci)) = Ok f1).
  { unfold make_message in H. apply bind_ok in H. destruct H as (S' & _ & H). apply bind_ok in H. destruct H as (f1 & H & _). eauto. }
  destruct E as (f1 & H1). destruct (after_reduce f1 H1) as (m' & Hm & Hok). congruence.
Qed.
End Message.
End Inv.
