(** Calibrated tree-shaped cluster graphs give exact marginals (C36, C57). *)
From Verif Require Export JunctionTree GraphRun.

Lemma Rprod_ind {A} (dec : forall x y : A, {x = y} + {x <> y}) (o : list A) (t : A) (x : R) : NoDup o ->
  Rprod (map (fun y => if dec y t then x else 1%R) o) = (if in_dec dec t o then x else 1)%R.
Proof.
  induction o as [|y o IH]; intros Hn; [reflexivity|]. inversion Hn as [|? ? N1 N2]; subst. cbn [map]. rewrite Rprod_cons, IH by exact N2.
  destruct (dec y t) as [->|N].
  - destruct (in_dec dec t o) as [C|_]; [contradiction|]. destruct (in_dec dec t (t :: o)) as [_|C]; [ring|exfalso; apply C; left; reflexivity].
  - destruct (in_dec dec t o) as [I|I]; destruct (in_dec dec t (y :: o)) as [J|J]; try ring.
    + exfalso. apply J. right; exact I.
    + destruct J as [J|J]; contradiction.
Qed.
Definition pair_dec (a b : nat * nat) : {a = b} + {a <> b}.
Proof. decide equality; apply Nat.eq_dec. Defined.

(** Message paths as edges. *)
Definition linked {F V} (g : cgraph F V) (i j : nat) : Prop := exists k p, nth_error (g_paths g) k = Some p /\ p_snd p = i /\ p_rcv p = j.
Definition connected {F V} (g : cgraph F V) : Prop :=
  forall i j, i < length (g_cl g) -> j < length (g_cl g) -> clos_refl_trans nat (linked g) i j.
Definition tree_shaped {F V} (g : cgraph F V) : Prop := connected g /\ forall l, ~ cycle (linked g) l.


Section Calib.
Context {F : Type} (ops : fops F nat) (card : string -> nat) (good : F -> Prop) (pt : F -> env -> R).
Hypothesis L : lawful ops card good pt.
Context (o : oracle) (factors reduced final : list F) (ev : option (dict string nat)) (special : dict string nat) (g0 : cgraph F nat).
Hypothesis Ho : oracle_ok o.
Hypothesis Gfac : forall f, In f factors -> good f.
Hypothesis M : made ops o factors ev special reduced final g0.
Let scopes := map (f_vars ops) final.
Let sepf := graph_sep o scopes (all_evidence ev special).
Notation Inv := (inv ops good pt o final ev special).
Notation Live := (live ops good pt o final ev special).

Let Gfin : forall f, In f final -> good f := proj1 (made_pt ops card good pt L o factors ev special reduced final g0 M Gfac).

(** Calibrated up to constants: sending the waiting message instead of the last one would only
    rescale the product of the messages of the two directions. *)
Definition settled (g : cgraph F nat) (c : nat -> nat -> R) : Prop :=
  forall k p, nth_error (g_paths g) k = Some p -> (0 < c (p_snd p) (p_rcv p))%R /\
    forall kq q e, nth_error (g_paths g) kq = Some q -> p_snd q = p_rcv p -> p_rcv q = p_snd p ->
      in_card card (f_vars ops (m_fac (p_next p))) e ->
      (pt (m_fac (p_next p)) e * pm pt q e = c (p_snd p) (p_rcv p) * pm pt p e * pm pt q e)%R.

Section State.
Context (g : cgraph F nat) (c : nat -> nat -> R).
Hypothesis LV : Live g.
Hypothesis TR : tree_shaped g.
Hypothesis ST : settled g c.
Let IV : Inv g := lv_inv _ _ _ _ _ _ _ _ LV.
Let Str : struct_ok sepf g := iv_struct _ _ _ _ _ _ _ _ IV.

Let n := length final.
Let E (i j : nat) : Prop := linked g i j.
Definition cU (i : nat) : list string :=
  match nth_error final i with Some f => filter (fun v => negb (mem v (dkeys special))) (f_vars ops f) | None => [] end.
Definition cpsi (i : nat) (e : env) : R :=
  match nth_error (g_cl g) i with Some ci => pt (cl_fac ci) (over special e) | None => 0%R end.
Definition csep (i j : nat) : list string := match sepf i j with Some s => s | None => [] end.
Definition cmu (i j : nat) (e : env) : R :=
  Rprod (map (fun p => if pair_dec (p_snd p, p_rcv p) (i, j) then pm pt p e else 1%R) (g_paths g)).
Definition csg (i j : nat) (e : env) : R := (cmu i j e * cmu j i e)%R.

Lemma E_sep i j : E i j <-> exists S, sepf i j = Some S.
Proof.
  split.
  - intros (k & p & H1 & <- & <-). exact (st_path _ _ Str k p H1).
  - intros (S & HS). destruct (st_edge _ _ Str i j S HS) as (_ & _ & _ & _ & _ & k & p & H1 & H2 & H3). exists k, p. auto.
Qed.
Lemma E_sym i j : E i j -> E j i.
Proof. intros H. apply E_sep in H. destruct H as (S & HS). apply E_sep. exists S. unfold sepf in *. now rewrite graph_sep_sym. Qed.
Lemma len_final : length (g_cl g) = n.
Proof. apply (iv_len _ _ _ _ _ _ _ _ IV). Qed.
Lemma E_range i j : E i j -> i < n /\ j < n /\ i <> j.
Proof.
  intros H. apply E_sep in H. destruct H as (S & HS). destruct (st_edge _ _ Str i j S HS) as (H1 & H2 & H3 & _).
  rewrite len_final in *. auto.
Qed.
Lemma In_cU i f v : nth_error final i = Some f -> (In v (cU i) <-> In v (f_vars ops f) /\ ~ In v (dkeys special)).
Proof. intros Hf. unfold cU. rewrite Hf, filter_In, negb_true_iff, mem_nIn. tauto. Qed.
Lemma cU_final i v : In v (cU i) -> exists f, nth_error final i = Some f.
Proof. unfold cU. destruct (nth_error final i) as [f|]; [eauto|intros []]. Qed.
Lemma cU_NoDup i : NoDup (cU i).
Proof.
  unfold cU. destruct (nth_error final i) as [f|] eqn:E0; [|constructor]. apply NoDup_filter.
  apply (lw_nodup _ _ _ _ L). apply Gfin. eapply nth_error_In; eauto.
Qed.
Lemma cluster_at i ci : nth_error (g_cl g) i = Some ci -> exists f, nth_error final i = Some f /\ good (cl_fac ci) /\
  (forall v, In v (f_vars ops (cl_fac ci)) <-> In v (f_vars ops f)) /\ cl_spec ci = cl_spec (new_cluster ops special (i, f)).
Proof.
  intros H. destruct (iv_cl _ _ _ _ _ _ _ _ IV i ci H) as (f & H1 & H2 & (H3 & H4) & _). exists f. auto.
Qed.
Lemma cpsi_ext i e e' : (forall v, In v (cU i) -> e v = e' v) -> cpsi i e = cpsi i e'.
Proof.
  intros H. unfold cpsi. destruct (nth_error (g_cl g) i) as [ci|] eqn:Ei; [|reflexivity].
  destruct (cluster_at i ci Ei) as (f & Hf & Gc & Hv & _). apply (lw_ext _ _ _ _ L); [exact Gc|].
  intros v Hvv. destruct (in_dec string_dec v (dkeys special)) as [I|I]; [now apply over_in|].
  rewrite !over_other by exact I. apply H. apply (In_cU i f v Hf). split; [now apply Hv|exact I].
Qed.
Lemma cpsi_nonneg i e : (0 <= cpsi i e)%R.
Proof.
  unfold cpsi. destruct (nth_error (g_cl g) i) as [ci|] eqn:Ei; [|lra].
  destruct (cluster_at i ci Ei) as (f & Hf & Gc & _). apply (lw_nonneg _ _ _ _ L); exact Gc.
Qed.
Lemma cpsi_range i e : cpsi i e <> 0%R -> in_card card (cU i) e.
Proof.
  unfold cpsi. destruct (nth_error (g_cl g) i) as [ci|] eqn:Ei; [|congruence]. intros H v Hv.
  destruct (cluster_at i ci Ei) as (f & Hf & Gc & Hfv & _). apply (In_cU i f v Hf) in Hv. destruct Hv as [Hv Hs].
  rewrite <- (over_other special e v Hs). apply (lw_range _ _ _ _ L _ _ Gc H). now apply Hfv.
Qed.
Lemma csep_incl i j v : E i j -> In v (csep i j) -> In v (cU i) /\ In v (cU j).
Proof.
  intros H Hv. apply E_sep in H. destruct H as (S & HS). unfold csep in Hv. rewrite HS in Hv.
  destruct (sepf_In ops o final ev special Ho i j S v HS Hv) as (H1 & H2 & H3).
  destruct (st_edge _ _ Str i j S HS) as (L1 & L2 & _). rewrite len_final in *. unfold n in *.
  destruct (nth_error final i) as [fi|] eqn:Ei; [|apply nth_error_None in Ei; lia].
  destruct (nth_error final j) as [fj|] eqn:Ej; [|apply nth_error_None in Ej; lia].
  split; [apply (In_cU i fi v Ei)|apply (In_cU j fj v Ej)]; auto.
Qed.
Lemma csep_sym i j v : E i j -> In v (csep i j) <-> In v (csep j i).
Proof. intros _. unfold csep, sepf. now rewrite graph_sep_sym. Qed.
Lemma pm_same k p e e' : nth_error (g_paths g) k = Some p -> (forall v, In v (csep (p_snd p) (p_rcv p)) -> e v = e' v) ->
  pm pt p e = pm pt p e'.
Proof.
  intros Hp H. unfold pm. destruct (p_prev p) as [m|] eqn:Em; [|reflexivity].
  destruct (iv_prev _ _ _ _ _ _ _ _ IV k p m Hp Em) as (S & HS & Gm & Hv). apply (lw_ext _ _ _ _ L); [exact Gm|].
  intros v Hvv. apply H. unfold csep, sepf, scopes. rewrite HS. now apply Hv.
Qed.
Lemma cmu_ext i j e e' : (forall v, In v (csep i j) -> e v = e' v) -> cmu i j e = cmu i j e'.
Proof.
  intros H. unfold cmu. apply Rprod_ext. intros p Hp. destruct (pair_dec (p_snd p, p_rcv p) (i, j)) as [Eq|]; [|reflexivity].
  apply In_nth_error in Hp. destruct Hp as (k & Hk). inversion Eq; subst. eapply pm_same; eauto.
Qed.
Lemma csg_ext i j e e' : E i j -> (forall v, In v (csep i j) -> e v = e' v) -> csg i j e = csg i j e'.
Proof.
  intros HE H. unfold csg. rewrite (cmu_ext i j e e' H), (cmu_ext j i e e'); [reflexivity|].
  intros v Hv. apply H. now apply (csep_sym i j v HE).
Qed.
Lemma csg_sym i j e : csg i j e = csg j i e.
Proof. unfold csg. ring. Qed.
Lemma cmu_path k p e : nth_error (g_paths g) k = Some p -> cmu (p_snd p) (p_rcv p) e = pm pt p e.
Proof.
  intros Hp. unfold cmu.
  set (h := fun q : path F => if pair_dec (p_snd q, p_rcv q) (p_snd p, p_rcv p) then pm pt q e else 1%R).
  assert (Hk : nth_error (map h (g_paths g)) k = Some (pm pt p e)).
  { rewrite nth_error_map, Hp. cbn [option_map]. unfold h. destruct (pair_dec _ _) as [_|C]; [reflexivity|congruence]. }
  destruct (Rprod_split _ k _ Hk) as (A & A1 & A2). rewrite A1.
  assert (H1 : Rprod (map (fun _ : path F => 1%R) (g_paths g)) = (A * 1)%R).
  { apply A2; [now rewrite !map_length|now rewrite nth_error_map, Hp|].
    intros j Hj. rewrite !nth_error_map. destruct (nth_error (g_paths g) j) as [q|] eqn:Eq; [|reflexivity]. cbn [option_map]. unfold h.
    destruct (pair_dec _ _) as [D|_]; [|reflexivity]. exfalso. apply Hj. inversion D. exact (st_pair _ _ Str j k q p Eq Hp H0 H1). }
  rewrite Rprod_ones in H1 by reflexivity. replace A with 1%R by lra. ring.
Qed.

Lemma calibrated i j e : E i j -> in_card card (csep i j) e ->
  sum_over card (filter (fun v => negb (mem v (csep i j))) (cU i)) (cpsi i) e = (c i j * csg i j e)%R.
Proof.
  intros (k & p & Hp & <- & <-) Hin. pose proof (sa_fresh _ _ _ (lv_static _ _ _ _ _ _ _ _ LV)) as Fr.
  destruct (next_ok ops card good pt L o final ev special Ho Gfin g k p IV Fr Hp)
    as (S & ci & cj & q & kq & HS & Hi & Hj & Hq & Q1 & Q2 & MO).
  destruct (ST k p Hp) as [_ Hc].
  assert (HSc : csep (p_snd p) (p_rcv p) = S) by (unfold csep, sepf, scopes; now rewrite HS).
  rewrite HSc in *. destruct (mo_fac _ _ _ _ _ _ _ _ _ _ MO) as (Gm & Vm).
  assert (Hin' : in_card card (f_vars ops (m_fac (p_next p))) e) by (intros v Hv; apply Hin; now apply Vm).
  unfold csg. rewrite (cmu_path k p e Hp).
  assert (Hmq : cmu (p_rcv p) (p_snd p) e = pm pt q e) by (rewrite <- Q1, <- Q2; apply (cmu_path kq q e Hq)).
  rewrite Hmq, <- Rmult_assoc, <- (Hc kq q e Hq Q1 Q2 Hin'), (mo_mul _ _ _ _ _ _ _ _ _ _ MO e).
  destruct (cluster_at _ ci Hi) as (f & Hf & Gc & Hv & _).
  unfold belief. rewrite (sum_over_ext_g card _ (cpsi (p_snd p)) (fun e => pt (cl_fac ci) (over special e))).
  2:{ intros e1. unfold cpsi. now rewrite Hi. }
  apply sum_over_perm.
  - apply NoDup_Permutation; [apply NoDup_filter, cU_NoDup| |].
    + unfold summed. apply NoDup_filter, (lw_nodup _ _ _ _ L), Gc.
    + intros v. rewrite filter_In, (In_cU _ f v Hf). unfold summed. rewrite filter_In, andb_true_iff, !negb_true_iff, !mem_nIn, Hv. tauto.
  - apply NoDup_filter, cU_NoDup.
  - intros e1 e2 He. apply (lw_ext _ _ _ _ L); [exact Gc|]. intros v _. unfold over. destruct (dget special v); auto.
Qed.

Lemma sc_final i f : nth_error final i = Some f -> sc scopes i = f_vars ops f.
Proof. intros Hf. unfold sc, scopes. apply nth_error_nth. rewrite nth_error_map, Hf. reflexivity. Qed.
Lemma cU_unobserved i v : In v (cU i) -> ~ In v (all_evidence ev special).
Proof.
  intros Hv. destruct (cU_final i v Hv) as (f & Hf). apply (In_cU i f v Hf) in Hv. destruct Hv as [Hv Hs].
  unfold all_evidence. intros C. apply in_app_or in C. destruct C as [C|C]; [contradiction|].
  pose proof (proj2 (proj2 (made_pt ops card good pt L o factors ev special reduced final g0 M Gfac))) as H.
  destruct (proj1 (H v)) as [_ Hn]; [exists f; split; [eapply nth_error_In; eauto|exact Hv]|]. apply Hn. exact C.
Qed.
Lemma rip_all T : (forall x, x < n -> In x T) -> rip E cU csep T.
Proof.
  intros HT v x y Hx Hy Hvx Hvy.
  destruct (cU_final x v Hvx) as (fx & Hfx). destruct (cU_final y v Hvy) as (fy & Hfy).
  assert (Hsx : in_scope ops g0 v x).
  { apply (made_sc ops o factors ev special reduced final g0 M). fold scopes. rewrite (sc_final x fx Hfx). now apply (In_cU x fx v Hfx). }
  assert (Hsy : in_scope ops g0 v y).
  { apply (made_sc ops o factors ev special reduced final g0 M). fold scopes. rewrite (sc_final y fy Hfy). now apply (In_cU y fy v Hfy). }
  pose proof (var_connected ops o factors ev special reduced final g0 Ho M v x y (cU_unobserved x v Hvx) Hsx Hsy) as H.
  clear Hx Hy Hvx Hvy Hfx Hfy Hsx Hsy. induction H as [a b (S & HE & Hv)|a|a b d _ IH1 _ IH2]; [|apply rt_refl|eapply rt_trans; eauto].
  apply rt_step. apply (made_edge ops o factors ev special reduced final g0 M) in HE. fold scopes sepf in HE.
  assert (HEE : E a b) by (apply E_sep; eauto).
  destruct (E_range a b HEE) as (H1 & H2 & _). split; [now apply HT|]. split; [now apply HT|]. split; [exact HEE|].
  unfold csep. rewrite HE. exact Hv.
Qed.

(** The product of the edge potentials of the tree is the product of the last messages. *)
Lemma edges_product r ord e : r < n -> tree_order E r ord -> (forall x y, E x y -> In (x, y) ord \/ In (y, x) ord) ->
  Rprod (map (fun lp => csg (fst lp) (snd lp) e) ord) = Rprod (map (fun p => pm pt p e) (g_paths g)).
Proof.
  intros Hr HT Hall. destruct (order_nodup E n r E_range Hr ord HT) as (N1 & N2 & _).
  unfold csg. rewrite Rprod_mult. unfold cmu.
  rewrite (Rprod_swap (fun (lp : nat * nat) p => if pair_dec (p_snd p, p_rcv p) (fst lp, snd lp) then pm pt p e else 1%R) ord (g_paths g)).
  rewrite (Rprod_swap (fun (lp : nat * nat) p => if pair_dec (p_snd p, p_rcv p) (snd lp, fst lp) then pm pt p e else 1%R) ord (g_paths g)).
  rewrite <- Rprod_mult. apply Rprod_ext. intros p Hp.
  apply In_nth_error in Hp. destruct Hp as (k & Hk).
  assert (HE : E (p_snd p) (p_rcv p)) by (exists k, p; auto).
  rewrite (Rprod_ext _ (fun lp => if pair_dec lp (p_snd p, p_rcv p) then pm pt p e else 1%R)).
  2:{ intros [a b] _. cbn [fst snd]. destruct (pair_dec (p_snd p, p_rcv p) (a, b)), (pair_dec (a, b) (p_snd p, p_rcv p)); congruence. }
  rewrite (Rprod_ext (fun x => if pair_dec (p_snd p, p_rcv p) (snd x, fst x) then pm pt p e else 1%R)
                     (fun lp => if pair_dec lp (p_rcv p, p_snd p) then pm pt p e else 1%R)).
  2:{ intros [a b] _. cbn [fst snd]. destruct (pair_dec (p_snd p, p_rcv p) (b, a)), (pair_dec (a, b) (p_rcv p, p_snd p)); congruence. }
  rewrite !Rprod_ind by exact N1.
  destruct (in_dec pair_dec (p_snd p, p_rcv p) ord) as [I|I], (in_dec pair_dec (p_rcv p, p_snd p) ord) as [J|J]; try ring.
  - exfalso. exact (N2 _ _ I J).
  - exfalso. destruct (Hall _ _ HE); contradiction.
Qed.

Lemma tree_total r ord e : r < n -> tree_order E r ord -> Permutation (verts r ord) (seq 0 n) ->
  (forall x y, E x y -> In (x, y) ord \/ In (y, x) ord) -> Q r cpsi csg ord e = prod_at pt final (over special e).
Proof.
  intros Hr HT HP Hall. rewrite Q_product, (edges_product r ord e Hr HT Hall).
  rewrite (Rprod_perm _ _ (Permutation_map _ HP)).
  pose proof (joint_quotient ops good pt o final ev special g (over special e) IV (over_agrees special e)) as H. cbn zeta in H.
  rewrite <- H. rewrite <- (prod_at_seq pt), map_length, len_final.
  assert (Hm : Rprod (map (fun p => pm pt p (over special e)) (g_paths g)) = Rprod (map (fun p => pm pt p e) (g_paths g))).
  { apply Rprod_ext. intros p Hp. apply In_nth_error in Hp. destruct Hp as (k & Hk). apply (pm_same k p _ _ Hk).
    intros v Hv. apply over_other. assert (HE : E (p_snd p) (p_rcv p)) by (exists k, p; auto).
    destruct (csep_incl _ _ v HE Hv) as [Hu _]. destruct (cU_final _ v Hu) as (f & Hf). now apply (In_cU _ f v Hf). }
  rewrite Hm. unfold inv0. generalize (Rprod (map (fun p => pm pt p e) (g_paths g))). intros x.
  destruct (Req_EM_T x 0); [apply Rmult_0_r|]. unfold Rdiv. f_equal. apply Rprod_ext. intros i Hi. apply in_seq in Hi.
  unfold cpsi, pt_at. rewrite nth_error_map. destruct (nth_error (g_cl g) i) eqn:Ei; [reflexivity|].
  apply nth_error_None in Ei. rewrite len_final in Ei. lia.
Qed.

(** The marginal of one cluster. *)
Lemma cluster_marginal r rem : r < n -> NoDup rem ->
  (forall v, In v rem <-> (exists x, In v (cU x)) /\ ~ In v (cU r)) ->
  exists k, (0 < k)%R /\ ((forall i j, E i j -> c i j = 1%R) -> k = 1%R) /\ forall e,
    sum_over card rem (fun e => prod_at pt final (over special e)) e = (k * cpsi r e)%R.
Proof.
  intros Hr Hn Hrem. destruct TR as [TC TA].
  assert (Econn : forall i j, i < n -> j < n -> clos_refl_trans nat E i j).
  { intros i j Hi Hj. apply TC; rewrite len_final; assumption. }
  destruct (tree_listing E n r E_sym E_range Econn TA Hr) as (ord & T1 & T2 & T3).
  exists (K c ord). split; [|split].
  - apply (K_pos E r c ord T1). intros i j (k & p & Hp & <- & <-). apply (ST k p Hp).
  - apply (K_one E r c ord T1).
  - intros e1. rewrite <- (tree_sum card E r cU cpsi csep csg c cU_NoDup cpsi_ext cpsi_nonneg cpsi_range csep_incl csep_sym csg_ext csg_sym E_sym calibrated ord T1) with (rem := rem).
    + apply sum_over_ext_g. intros e2. symmetry. now apply (tree_total r ord e2 Hr).
    + apply rip_all. intros x Hx. apply (Permutation_in _ (Permutation_sym T2)). apply in_seq. lia.
    + exact Hn.
    + intros v. rewrite Hrem. split; intros [(x & Hx) Hnr]; (split; [|exact Hnr]).
      * exists x. split; [|exact Hx]. destruct (cU_final x v Hx) as (f & Hf). apply (Permutation_in _ (Permutation_sym T2)). apply in_seq.
        split; [lia|]. apply nth_error_Some. congruence.
      * exists x. tauto.
Qed.

(** get_marginal *)
Lemma marginal_exact vrs res : g_spec g = special -> NoDup vrs -> (forall v, In v vrs -> ~ In v (dkeys special)) ->
  get_marginal ops g vrs = Ok res ->
  good res /\ (forall v, In v (f_vars ops res) <-> In v vrs) /\
  exists k, (0 < k)%R /\ ((forall i j, E i j -> c i j = 1%R) -> k = 1%R) /\
    forall rem e, NoDup rem ->
      (forall v, In v rem <-> (exists f, In f final /\ In v (f_vars ops f)) /\ ~ In v (dkeys special) /\ ~ In v vrs) ->
      (k * pt res e = sum_over card rem (fun e => prod_at pt final (over special e)) e)%R.
Proof.
  intros Hsp Hnv Hdis H. unfold get_marginal in H.
  destruct (find (fun c => subsetb vrs (f_vars ops (cl_fac c))) (g_cl g)) as [ci|] eqn:Ef; [|discriminate].
  apply find_some in Ef. destruct Ef as [Hci Hsub]. apply subsetb_incl in Hsub.
  apply In_nth_error in Hci. destruct Hci as (i & Hi). destruct (cluster_at i ci Hi) as (f & Hf & Gc & Hfv & _).
  rewrite Hsp in H. destruct (subset_evidence special (f_vars ops (cl_fac ci))) as [evs vals] eqn:Es.
  pose proof (lw_nodup _ _ _ _ L _ Gc) as Hcn.
  destruct (subset_evidence_spec special _ evs vals Hcn Es) as (E1 & E2 & E3).
  apply bind_ok in H. destruct H as (f1 & H1 & H).
  assert (HF1 : good f1 /\ (forall v, In v (f_vars ops f1) <-> In v (cU i)) /\ forall e, pt f1 e = cpsi i e).
  { assert (R : good f1 /\ (forall v, In v (f_vars ops f1) <-> In v (f_vars ops (cl_fac ci)) /\ ~ In v evs) /\
       (forall e, map e evs = vals -> pt f1 e = pt (cl_fac ci) e)).
    { destruct (Nat.ltb 0 (length evs)) eqn:El.
      - apply (lw_reduce _ _ _ _ L _ evs vals f1 Gc E1); [intros v Hv; now apply E2|exact E3|exact H1].
      - inversion H1; subst f1. split; [exact Gc|]. split; [|reflexivity].
        assert (evs = []) by (destruct evs; [reflexivity|discriminate]). subst evs. cbn. tauto. }
    destruct R as (R1 & R2 & R3). split; [exact R1|].
    assert (R4 : forall v, In v (f_vars ops f1) <-> In v (cU i)).
    { intros v. rewrite R2, E2, (In_cU i f v Hf), <- Hfv. destruct (in_dec string_dec v (dkeys special)); tauto. }
    split; [exact R4|]. intros e. unfold cpsi. rewrite Hi.
    rewrite <- (R3 (over special e)) by (apply (subset_evidence_agrees special _ evs vals _ Hcn Es), over_agrees).
    apply (lw_ext _ _ _ _ L); [exact R1|]. intros v Hv. apply R4 in Hv. rewrite over_other; [reflexivity|]. now apply (In_cU i f v Hf). }
  destruct HF1 as (G1 & V1 & P1).
  assert (Hin1 : incl vrs (f_vars ops f1)).
  { intros v Hv. apply V1. apply (In_cU i f v Hf). split; [now apply Hfv, Hsub|now apply Hdis]. }
  destruct (lw_marg _ _ _ _ L f1 vrs G1 Hnv Hin1) as (r' & M1 & M2 & M3 & M4). rewrite M1 in H. inversion H; subst r'.
  split; [exact M2|]. split; [exact M3|].
  assert (Hin : i < n). { unfold n. apply nth_error_Some. congruence. }
  set (all := dedup (flat_map cU (seq 0 n))).
  assert (Hall : forall v, In v all <-> exists x, In v (cU x)).
  { intros v. unfold all. rewrite In_dedup, in_flat_map. split; [intros (x & _ & Hx); eauto|].
    intros (x & Hx). exists x. split; [|exact Hx]. destruct (cU_final x v Hx) as (fx & Hfx). apply in_seq. split; [lia|]. apply nth_error_Some. congruence. }
  assert (Halln : NoDup all) by apply NoDup_dedup.
  set (remi := filter (fun v => negb (mem v (cU i))) all).
  assert (Hremi : forall v, In v remi <-> (exists x, In v (cU x)) /\ ~ In v (cU i)).
  { intros v. unfold remi. rewrite filter_In, negb_true_iff, mem_nIn, Hall. tauto. }
  destruct (cluster_marginal i remi Hin (NoDup_filter _ _ Halln) Hremi) as (k & Kp & K1 & Ks).
  exists k. split; [exact Kp|]. split; [exact K1|]. intros rem e Hrn Hrem.
  set (own := filter (fun v => negb (mem v vrs)) (cU i)).
  assert (Hown : forall v, In v own <-> In v (cU i) /\ ~ In v vrs).
  { intros v. unfold own. rewrite filter_In, negb_true_iff, mem_nIn. tauto. }
  rewrite (M4 own e); [|apply NoDup_filter, cU_NoDup|intros v; rewrite Hown, V1; tauto].
  rewrite (sum_over_ext_g card own _ (cpsi i) P1), <- sum_over_scal.
  rewrite <- (sum_over_ext_g card own _ _ Ks), <- sum_over_app. apply sum_over_perm.
  - symmetry. apply NoDup_Permutation; [exact Hrn| |].
    + apply NoDup_app_intro; [apply NoDup_filter, cU_NoDup|now apply NoDup_filter|]. intros v A B. apply Hown in A. apply Hremi in B. tauto.
    + intros v. rewrite in_app_iff, Hown, Hremi, Hrem. split.
      * intros ((h & Hh & Hv) & Hs & Hnv'). apply In_nth_error in Hh. destruct Hh as (x & Hx).
        assert (In v (cU x)) by (apply (In_cU x h v Hx); auto).
        destruct (in_dec string_dec v (cU i)); [left; tauto|right; split; [eauto|assumption]].
      * intros [[A B]|[(x & A) B]].
        -- apply (In_cU i f v Hf) in A. split; [exists f; split; [eapply nth_error_In; eauto|tauto]|tauto].
        -- destruct (cU_final x v A) as (h & Hh). apply (In_cU x h v Hh) in A. split; [exists h; split; [eapply nth_error_In; eauto|tauto]|].
           split; [tauto|]. intros C. apply B. apply V1, Hin1, C.
  - apply NoDup_app_intro; [apply NoDup_filter, cU_NoDup|now apply NoDup_filter|]. intros v A B. apply Hown in A. apply Hremi in B. tauto.
  - intros e1 e2 He. unfold prod_at. apply Rprod_ext. intros h Hh. apply (lw_ext _ _ _ _ L); [now apply Gfin|].
    intros v _. unfold over. destruct (dget special v); auto.
Qed.

(** In terms of the input factors. *)
Lemma marginal_of_model vrs res : g_spec g = special -> NoDup vrs -> (forall v, In v vrs -> ~ In v (dkeys special)) ->
  get_marginal ops g vrs = Ok res ->
  (forall v, In v (f_vars ops res) <-> In v vrs) /\
  exists k, (0 < k)%R /\ ((forall i j, E i j -> c i j = 1%R) -> k = 1%R) /\
    forall rem e, agrees_opt ev e -> agrees special e -> NoDup rem ->
      (forall v, In v rem <-> (exists f, In f factors /\ In v (f_vars ops f)) /\
          ~ In v (observed ev) /\ ~ In v (dkeys special) /\ ~ In v vrs) ->
      (k * pt res e = sum_over card rem (prod_at pt factors) e)%R.
Proof.
  intros Hsp Hnv Hdis H. destruct (marginal_exact vrs res Hsp Hnv Hdis H) as (_ & V & k & Kp & K1 & Ks).
  pose proof (proj2 (made_pt ops card good pt L o factors ev special reduced final g0 M Gfac)) as [HP HV].
  split; [exact V|]. exists k. split; [exact Kp|]. split; [exact K1|]. intros rem e Ha Hs Hn Hrem.
  rewrite (Ks rem e Hn).
  - rewrite !sum_over_assign. f_equal. apply map_ext_in. intros ks _.
    assert (Hs' : agrees special (upds e rem ks)).
    { intros v x Hx. rewrite upds_other; [now apply Hs|]. intros C. apply Hrem in C. destruct C as (_ & _ & C & _). apply C.
      apply dmem_In. unfold dmem. now rewrite Hx. }
    assert (Ha' : agrees_opt ev (upds e rem ks)).
    { destruct ev as [d|]; [|exact I]. intros v x Hx. rewrite upds_other; [now apply Ha|]. intros C. apply Hrem in C. destruct C as (_ & C & _). apply C.
      cbn [observed]. apply dmem_In. unfold dmem. now rewrite Hx. }
    rewrite <- (HP _ Ha'). unfold prod_at. apply Rprod_ext. intros h Hh. apply (lw_ext _ _ _ _ L); [now apply Gfin|].
    intros v _. now apply over_id.
  - intros v. rewrite Hrem, HV. tauto.
Qed.
End State.
End Calib.
