(** Message passing with positive potentials: histories, the posterior joint, and two sweeps. *)
From Verif Require Export PosTree GraphSched.
#[global] Set Bullet Behavior "Strict Subproofs".
Local Open Scope nat_scope.

Section PosRun.
Context {F : Type} (ops : fops F R) (good sound ready : F -> Prop) (pt : F -> renv -> R).
Hypothesis L : plaws ops good sound ready pt.
Let PL := pl_prod _ _ _ _ _ L.
Context (o : oracle) (final : list F) (ev : option (dict string R)) (special : dict string R).
Hypothesis Ho : oracle_ok o.
Hypothesis Gfin : forall f, In f final -> good f.
Let sepf := graph_sep o (map (f_vars ops) final) (all_evidence ev special).
Hypothesis Hsound : forall i f r, nth_error final i = Some f ->
  f_reduce ops f (dkeys (spec_at ops special i f)) (dvals (spec_at ops special i f)) = Ok r -> sound r.
Notation Inv := (pinv ops good sound ready pt o final ev special).
Notation Live := (plive ops good sound ready pt o final ev special).

Lemma pinv_congr g h : g_cl g = g_cl h -> g_paths g = g_paths h -> Permutation (g_order h) (g_order g) -> Inv g -> Inv h.
Proof.
  intros E1 E2 HP [[S1 S2 S3 S4 S5 S6 S7] H2 H3 H4 H5 H6].
  split; [split|..]; rewrite <- ?E1, <- ?E2; auto. etransitivity; eauto.
Qed.
Lemma plive_congr g h : g_cl g = g_cl h -> g_paths g = g_paths h -> Permutation (g_order h) (g_order g) -> Live g -> Live h.
Proof.
  intros E1 E2 HP [IV SA]. split; [eapply pinv_congr; eauto|eapply static_congr; eauto].
Qed.
Lemma plive_step g k g' gain : Live g -> step_ok ops g k g' gain -> Live g'.
Proof.
  intros LV K. destruct (sk_pass _ _ _ _ _ K) as (g1 & Hp & E1 & E2).
  apply (plive_congr g1 g'); auto.
  - rewrite (sk_order _ _ _ _ _ K). rewrite (proj1 (pass_path_order ops g k g1 Hp)). symmetry. apply sort_desc_perm.
  - exact (plive_pass ops good sound ready pt L o final ev special Ho Gfin Hsound g k g1 LV Hp).
Qed.
Lemma plive_run g steps g' : Live g -> run ops g steps g' -> Live g'.
Proof.
  intros LV R. induction R as [g|g k g1 gain steps g' K R IH]; [exact LV|]. apply IH. eapply plive_step; eauto.
Qed.
Lemma plive_sort g : Live g -> Live (sort_paths (reset_dists g)).
Proof. intros LV. apply (plive_congr g); auto. cbn. symmetry. apply sort_desc_perm. Qed.
Lemma phistory_live factors reduced g0 g : made ops o factors ev special reduced final g0 -> history ops g0 g -> Live g.
Proof.
  intros M H. induction H as [|g k g' H IH Hp|g tol n g' H IH Hc Hp].
  - exact (plive_init ops good sound ready pt o final ev special Gfin factors reduced g0 M).
  - exact (plive_pass ops good sound ready pt L o final ev special Ho Gfin Hsound g k g' IH Hp).
  - destruct (process_cases ops tol n g g' Hp Hc) as [->|(steps & R & Hl)].
    + apply (plive_congr g); auto.
    + apply (plive_run (sort_paths (reset_dists g)) steps g'); [|exact R]. now apply plive_sort.
Qed.
Lemma plinked_same g1 g2 : Inv g1 -> Inv g2 -> length (g_cl g1) = length (g_cl g2) /\ forall i j, linked g1 i j -> linked g2 i j.
Proof.
  intros I1 I2. split; [now rewrite (pi_len _ _ _ _ _ _ _ _ _ _ I1), (pi_len _ _ _ _ _ _ _ _ _ _ I2)|].
  intros i j (k & p & Hp & <- & <-). destruct (st_path _ _ (pi_struct _ _ _ _ _ _ _ _ _ _ I1) k p Hp) as (s & Hs).
  destruct (st_edge _ _ (pi_struct _ _ _ _ _ _ _ _ _ _ I2) _ _ _ Hs) as (_ & _ & _ & _ & _ & k' & p' & H). exists k', p'. exact H.
Qed.
Lemma ptree_kept g g0 : Inv g -> Inv g0 -> tree_shaped g0 -> tree_shaped g.
Proof.
  intros I1 I0 [TC TA]. destruct (plinked_same g g0 I1 I0) as [Hl Hk]. destruct (plinked_same g0 g I0 I1) as [_ Hk']. split.
  - intros i j Hi Hj. rewrite Hl in Hi, Hj. specialize (TC i j Hi Hj). clear Hi Hj.
    induction TC as [x y H|x|x y z _ IH1 _ IH2]; [apply rt_step; now apply Hk'|apply rt_refl|eapply rt_trans; eauto].
  - intros l (C1 & C2 & C3 & C4). apply (TA l). split; [exact C1|]. split; [exact C2|]. split.
    + intros a x y H1 H2. apply Hk. eauto.
    + intros x y H1 H2. apply Hk. eauto.
Qed.

(** ** get_posterior_joint *)
Lemma pclusters_good g f : Inv g -> In f (map cl_fac (g_cl g)) -> good f.
Proof.
  intros IV Hf. apply in_map_iff in Hf. destruct Hf as (c & <- & Hc). apply In_nth_error in Hc. destruct Hc as (i & Hc).
  destruct (pi_cl _ _ _ _ _ _ _ _ _ _ IV i c Hc) as (f & _ & _ & (Gc & _) & _). exact Gc.
Qed.
Lemma pclusters_vars g v : Inv g ->
  (exists f, In f (map cl_fac (g_cl g)) /\ In v (f_vars ops f)) <-> exists f, In f final /\ In v (f_vars ops f).
Proof.
  intros IV. split.
  - intros (f & Hf & Hv). apply in_map_iff in Hf. destruct Hf as (c & <- & Hc). apply In_nth_error in Hc. destruct Hc as (i & Hc).
    destruct (pi_cl _ _ _ _ _ _ _ _ _ _ IV i c Hc) as (f & H1 & _ & (_ & H2) & _). exists f. split; [eapply nth_error_In; eauto|now apply H2].
  - intros (f & Hf & Hv). apply In_nth_error in Hf. destruct Hf as (i & Hf).
    assert (Hi : i < length (g_cl g)). { rewrite (pi_len _ _ _ _ _ _ _ _ _ _ IV). apply nth_error_Some. congruence. }
    destruct (nth_error (g_cl g) i) as [c|] eqn:Hc; [|apply nth_error_None in Hc; lia].
    destruct (pi_cl _ _ _ _ _ _ _ _ _ _ IV i c Hc) as (f' & H1 & _ & (_ & H2) & _). rewrite Hf in H1. inversion H1; subst f'.
    exists (cl_fac c). split; [apply in_map; eapply nth_error_In; eauto|now apply H2].
Qed.
Lemma pjoint_ok g : Inv g -> g_cl g <> [] -> all_sent g -> (g_paths g = [] -> g_passed g = 0) ->
  exists r, get_joint ops g = Ok r /\ good r /\
    (forall v, In v (f_vars ops r) <-> exists f, In f final /\ In v (f_vars ops f)) /\
    (forall e, pt r e = prod_at pt final e).
Proof.
  intros IV Hne Has Hpass. pose proof (pi_struct _ _ _ _ _ _ _ _ _ _ IV) as ST.
  pose proof (fun f => pclusters_good g f IV) as Gcl.
  pose proof (fun v => pclusters_vars g v IV) as Hsc.
  unfold get_joint. destruct (g_cl g) as [|c cs] eqn:Ecl; [congruence|]. rewrite foldM_map_fac.
  destruct (mul_fold ops good sound ready pt L (map cl_fac cs)) with (a := cl_fac c) as (r & R1 & R2 & R3 & R4 & _).
  { intros f Hf. apply Gcl. right; exact Hf. }
  { apply Gcl. left; reflexivity. }
  rewrite R1. cbn [bind].
  assert (Rv : forall v, In v (f_vars ops r) <-> exists f, In f final /\ In v (f_vars ops f)).
  { intros v. rewrite <- Hsc, R3. cbn [map]. split.
    - intros [H|(f & Hf & Hv)]; [exists (cl_fac c); split; [left; reflexivity|exact H]|exists f; split; [right; exact Hf|exact Hv]].
    - intros (f & [<-|Hf] & Hv); [tauto|right; eauto]. }
  assert (Rp : forall e, pt r e = prod_at pt (map cl_fac (g_cl g)) e).
  { intros e. rewrite R4, Ecl. unfold prod_at. cbn [map Rprod fold_right]. reflexivity. }
  assert (Hms : exists ms, last_messages g = Ok ms /\ Forall2 (fun k m => exists p mm, nth_error (g_paths g) k = Some p /\ p_prev p = Some mm /\ m = m_fac mm) (g_order g) ms).
  { unfold last_messages. pose proof (st_order _ _ ST) as HP.
    assert (G : forall l, (forall k, In k l -> k < length (g_paths g)) -> exists ms,
      mapM (fun k => let* p := py_nth (g_paths g) k in match p_prev p with Some m => Ok (m_fac m) | None => Err AttributeError end) l = Ok ms /\
      Forall2 (fun k m => exists p mm, nth_error (g_paths g) k = Some p /\ p_prev p = Some mm /\ m = m_fac mm) l ms).
    { induction l as [|k l IH]; intros Hl; cbn [mapM]; [exists []; auto|].
      destruct (py_nth_ok (g_paths g) k) as (p & Hp & Hpn); [apply Hl; left; reflexivity|]. rewrite Hp. cbn [bind].
      destruct (p_prev p) as [mm|] eqn:E; [|exfalso; exact (Has k p Hpn E)]. cbn [bind].
      destruct IH as (ms & M1 & M2); [intros; apply Hl; right; assumption|]. rewrite M1. cbn [bind].
      eexists. split; [reflexivity|]. constructor; eauto. }
    apply G. intros k Hk. apply (Permutation_in _ HP) in Hk. apply in_seq in Hk. lia. }
  destruct Hms as (ms & Hms & HF). rewrite Hms. cbn [bind].
  assert (Mg : forall m, In m ms -> good m /\ incl (f_vars ops m) (f_vars ops r)).
  { intros m Hm. destruct (In_Forall2_r _ _ _ m HF Hm) as (k & _ & p & mm & Hp & Hpm & ->).
    destruct (pi_prev _ _ _ _ _ _ _ _ _ _ IV k p mm Hp Hpm) as (S & HS & G & Hv). split; [exact G|].
    intros v Hvv. apply Hv in Hvv. destruct (psep_In ops o final ev special Ho _ _ S v HS Hvv) as (K1 & _).
    destruct (pends ops good sound ready pt o final ev special g k p IV Hp) as (S' & ci & cj & fi & fj & q & kq & _ & _ & _ & _ & _ & Hfi & _).
    apply Rv. exists fi. split; [eapply nth_error_In; eauto|auto]. }
  assert (Mp : forall e, prod_at pt ms e = Rprod (map (fun p => pmsg pt p e) (g_paths g))).
  { intros e. unfold prod_at. transitivity (Rprod (map (fun k => match nth_error (g_paths g) k with Some p => pmsg pt p e | None => 1%R end) (g_order g))).
    - clear - HF. induction HF as [|k m l ms (p & mm & Hp & Hpm & ->) _ IH]; cbn [map Rprod fold_right]; [reflexivity|].
      unfold Rprod in IH. rewrite IH, Hp. unfold pmsg. now rewrite Hpm.
    - rewrite (Rprod_perm _ _ (Permutation_map _ (st_order _ _ ST))). f_equal. apply nth_error_ext. intros j. rewrite !nth_error_map.
      destruct (le_lt_dec (length (g_paths g)) j) as [Hj|Hj].
      + rewrite (proj2 (nth_error_None _ j) Hj). rewrite (proj2 (nth_error_None (seq 0 (length (g_paths g))) j)); [reflexivity|].
        now rewrite seq_length.
      + rewrite (nth_error_nth' (seq 0 (length (g_paths g))) 0) by now rewrite seq_length. rewrite seq_nth by exact Hj. cbn.
        destruct (nth_error (g_paths g) j) eqn:E; [reflexivity|]. apply nth_error_None in E. lia. }
  destruct ms as [|m ms'].
  - inversion HF as [E|]. assert (Hp0 : g_paths g = []).
    { pose proof (st_order _ _ ST) as HP. rewrite <- E in HP. apply Permutation_nil in HP. destruct (g_paths g); [reflexivity|discriminate]. }
    rewrite (Hpass Hp0). cbn [Nat.eqb py_assert bind]. exists r. split; [reflexivity|]. split; [exact R2|]. split; [exact Rv|].
    intros e. rewrite Rp, (pjoint ops good sound ready pt o final ev special g e IV), Hp0. cbn. ring.
  - destruct (mul_fold ops good sound ready pt L ms') with (a := m) as (mp & P1 & P2 & P3 & P4 & _).
    { intros x Hx. apply (Mg x). right; exact Hx. }
    { apply (Mg m). left; reflexivity. }
    rewrite P1. cbn [bind].
    assert (Pe : forall e, pt mp e = Rprod (map (fun p => pmsg pt p e) (g_paths g))).
    { intros e. rewrite P4, <- Mp. reflexivity. }
    assert (Hfin : exists fa fs, final = fa :: fs).
    { destruct final as [|fa fs] eqn:Ef; [|eauto]. pose proof (pi_len _ _ _ _ _ _ _ _ _ _ IV) as El. rewrite Ecl in El. discriminate. }
    destruct Hfin as (fa & fs & Ef).
    destruct (mul_fold ops good sound ready pt L fs) with (a := fa) as (w & _ & W2 & W3 & W4 & _).
    { intros f Hf. apply Gfin. rewrite Ef. right; exact Hf. }
    { apply Gfin. rewrite Ef. left; reflexivity. }
    assert (Wp : forall e, pt w e = prod_at pt final e) by (intros e; rewrite W4, Ef; reflexivity).
    destruct (pl_cancel _ _ _ _ _ L r mp w R2 P2 W2) as (q & Q1 & Q2 & Q3 & Q4).
    + intros v. rewrite Rv, W3, Ef. cbn. split.
      * intros [H|(f & Hf & Hv)]; [exists fa; auto|exists f; auto].
      * intros (f & [<-|Hf] & Hv); [now left|right; eauto].
    + intros v Hv. apply P3 in Hv. destruct Hv as [Hv|(x & Hx & Hv)]; [apply (Mg m); [left; reflexivity|exact Hv]|].
      apply (Mg x); [right; exact Hx|exact Hv].
    + intros e. rewrite Rp, (pjoint ops good sound ready pt o final ev special g e IV), Wp, Pe. reflexivity.
    + exists q. split; [exact Q1|]. split; [exact Q2|]. split; [intros v; rewrite Q3; apply Rv|].
      intros e. now rewrite Q4, Wp.
Qed.
Lemma pjoint_fails g : Inv g -> some_unsent g -> get_joint ops g = Err AttributeError.
Proof.
  intros IV (k & p & Hp & Hn). pose proof (pi_struct _ _ _ _ _ _ _ _ _ _ IV) as ST.
  destruct (pends ops good sound ready pt o final ev special g k p IV Hp) as (S' & ci & cj & fi & fj & q & kq & _ & _ & _ & Hi & _).
  pose proof (fun f => pclusters_good g f IV) as Gcl.
  unfold get_joint. destruct (g_cl g) as [|c cs] eqn:Ecl; [destruct (p_snd p); discriminate|].
  rewrite foldM_map_fac. rewrite <- Ecl in Hi.
  destruct (mul_fold ops good sound ready pt L (map cl_fac cs)) with (a := cl_fac c) as (r & R1 & _).
  { intros f Hf. apply Gcl. right; exact Hf. }
  { apply Gcl. left; reflexivity. }
  rewrite R1. cbn [bind]. assert (E : last_messages g = Err AttributeError); [|now rewrite E].
  unfold last_messages. pose proof (st_order _ _ ST) as HP.
  assert (Hk : In k (g_order g)).
  { apply (Permutation_in _ (Permutation_sym HP)). apply in_seq. split; [lia|]. apply nth_error_Some. congruence. }
  assert (Hl : forall j, In j (g_order g) -> j < length (g_paths g)).
  { intros j Hj. apply (Permutation_in _ HP) in Hj. apply in_seq in Hj. lia. }
  revert Hk Hl. clear - Hp Hn. induction (g_order g) as [|j l IH]; intros Hk Hl; [destruct Hk|]. cbn [mapM].
  destruct (py_nth_ok (g_paths g) j) as (pj & Hpj & Hpn); [apply Hl; left; reflexivity|]. rewrite Hpj. cbn [bind].
  destruct (p_prev pj) as [mm|] eqn:E; [|reflexivity]. cbn [bind].
  destruct Hk as [->|Hk]; [congruence|]. rewrite IH; auto. intros; apply Hl; right; assumption.
Qed.

(** ** Sending along a path settles it; only the arrival of another message unsettles it *)
Definition pdone (g : cgraph F R) (k : nat) : Prop :=
  forall p, nth_error (g_paths g) k = Some p -> forall e, pt (m_fac (p_next p)) e = pmsg pt p e.

Section Pass.
Context (g g' : cgraph F R) (k : nat) (p : path F).
Hypothesis LV : Live g.
Hypothesis Hp : nth_error (g_paths g) k = Some p.
Hypothesis Hpass : pass_path ops g k = Ok g'.
Let IV : Inv g := pv_inv _ _ _ _ _ _ _ _ _ _ LV.
Let SA : static_ok ops sepf g := pv_static _ _ _ _ _ _ _ _ _ _ LV.
Let ST : struct_ok sepf g := sa_struct _ _ _ SA.

Lemma ppassed_view : exists cr cr', passed ops g k g' p cr cr' /\ (forall q, In q (cl_out cr) <-> exists p', nth_error (g_paths g) q = Some p' /\ p_snd p' = p_rcv p).
Proof.
  destruct (pass_path_passed ops g k g' (struct_out sepf g ST) Hpass) as (p2 & cr & cr' & P).
  pose proof (pa_path _ _ _ _ _ _ _ P) as H. rewrite Hp in H. inversion H; subst p2. exists cr, cr'. split; [exact P|].
  apply (st_out _ _ ST _ cr (pa_cr _ _ _ _ _ _ _ P)).
Qed.
Lemma pends_differ k1 p1 : nth_error (g_paths g) k1 = Some p1 -> p_snd p1 <> p_rcv p1.
Proof. intros H. destruct (st_path _ _ ST k1 p1 H) as (s & Hs). apply (st_edge _ _ ST _ _ _ Hs). Qed.
Lemma ppass_other k1 p1 p1' : nth_error (g_paths g) k1 = Some p1 -> nth_error (g_paths g') k1 = Some p1' ->
  p_snd p1 <> p_rcv p -> p_snd p1' = p_snd p1 /\ p_rcv p1' = p_rcv p1 /\ p_next p1' = p_next p1 /\
    p_prev p1' = if Nat.eq_dec k1 k then Some (p_next p) else p_prev p1.
Proof.
  intros H H' Hs. destruct ppassed_view as (cr & cr' & P & Ho').
  destruct (pa_paths _ _ _ _ _ _ _ P k1 p1' H') as (p0 & H0 & E1 & E2 & E3 & _ & E5). rewrite H in H0. inversion H0; subst p0.
  repeat (split; [assumption|]). split; [|exact E3]. apply E5. rewrite Ho'. intros (p2 & Hp2 & C). rewrite H in Hp2. inversion Hp2; subst. contradiction.
Qed.
Lemma ppass_same k1 p1' : nth_error (g_paths g') k1 = Some p1' -> exists p1, nth_error (g_paths g) k1 = Some p1 /\
  p_snd p1' = p_snd p1 /\ p_rcv p1' = p_rcv p1 /\ p_prev p1' = if Nat.eq_dec k1 k then Some (p_next p) else p_prev p1.
Proof.
  intros H'. destruct ppassed_view as (cr & cr' & P & _).
  destruct (pa_paths _ _ _ _ _ _ _ P k1 p1' H') as (p0 & H0 & E1 & E2 & E3 & _). eauto 6.
Qed.
Lemma pdone_self : pdone g' k.
Proof.
  intros p' Hp' e. destruct (ppass_other k p p' Hp Hp' (pends_differ k p Hp)) as (_ & _ & E3 & E4).
  unfold pmsg. rewrite E4, E3. destruct (Nat.eq_dec k k); [reflexivity|congruence].
Qed.
Lemma pdone_other k1 p1 : nth_error (g_paths g) k1 = Some p1 -> p_snd p1 <> p_rcv p -> pdone g k1 -> pdone g' k1.
Proof.
  intros H1 Hs D. destruct (Nat.eq_dec k1 k) as [->|N]; [exact pdone_self|].
  intros p1' H1' e. destruct (ppass_other k1 p1 p1' H1 H1' Hs) as (E1 & E2 & E3 & E4).
  destruct (Nat.eq_dec k1 k); [contradiction|]. unfold pmsg. rewrite E4, E3. exact (D p1 H1 e).
Qed.
(** The message back does not change. *)
Lemma preverse_same k1 p1 p1' e : nth_error (g_paths g) k1 = Some p1 -> p_snd p1 = p_rcv p -> p_rcv p1 = p_snd p ->
  nth_error (g_paths g') k1 = Some p1' -> p_prev p1' = p_prev p1 /\ pt (m_fac (p_next p1')) e = pt (m_fac (p_next p1)) e.
Proof.
  intros H1 S1 R1 H1'.
  pose proof (plive_pass ops good sound ready pt L o final ev special Ho Gfin Hsound g k g' LV Hpass) as LV'.
  pose proof (pv_inv _ _ _ _ _ _ _ _ _ _ LV') as IV'. pose proof (pv_static _ _ _ _ _ _ _ _ _ _ LV') as SA'.
  destruct (ppass_same k1 p1' H1') as (p1x & H1x & E1 & E2 & E3). rewrite H1 in H1x. inversion H1x; subst p1x. clear H1x.
  pose proof (pends_differ k p Hp) as Hd.
  assert (N1 : k1 <> k). { intros ->. rewrite Hp in H1. inversion H1; subst p1. congruence. }
  destruct (Nat.eq_dec k1 k); [contradiction|].
  destruct (nth_error (g_paths g') k) as [q'|] eqn:Hq.
  2:{ exfalso. apply nth_error_None in Hq. destruct ppassed_view as (cr & cr' & P & _). rewrite (pa_plen _ _ _ _ _ _ _ P) in Hq.
      apply nth_error_None in Hq. congruence. }
  destruct (ppass_same k q' Hq) as (q & Hq0 & F1 & F2 & F3).
  rewrite Hp in Hq0. inversion Hq0; subst q. clear Hq0. destruct (Nat.eq_dec k k) as [_|]; [|congruence].
  split; [exact E3|].
  (* before *)
  destruct (pnext ops good sound ready pt L o final ev special Ho Gfin Hsound g k1 p1 IV (sa_fresh _ _ _ SA) H1)
    as (s & cj & ci & fj & q1 & kq & HS & Hj & Hi & Hfj & Hq1 & G1 & G2 & [_ _ _ (b & [B1 B2 B3] & Bi)]).
  assert (kq = k). { apply (st_pair _ _ ST kq k q1 p Hq1 Hp); congruence. } subst kq.
  rewrite Hp in Hq1. inversion Hq1; subst q1. clear Hq1 G1 G2.
  (* after *)
  destruct (pnext ops good sound ready pt L o final ev special Ho Gfin Hsound g' k1 p1' IV' (sa_fresh _ _ _ SA') H1')
    as (s1 & cj1 & ci1 & fj1 & q1 & kq & HS1 & Hj1 & Hi1 & Hfj1 & Hq1 & G1 & G2 & [_ _ _ (b' & [C1 C2 C3] & Ci)]).
  assert (kq = k). { apply (st_pair _ _ (sa_struct _ _ _ SA') kq k q1 q' Hq1 Hq); congruence. } subst kq.
  rewrite Hq in Hq1. inversion Hq1; subst q1. clear Hq1 G1 G2.
  rewrite E1, E2, HS in HS1. inversion HS1; subst s1. clear HS1.
  rewrite E1, Hfj in Hfj1. inversion Hfj1; subst fj1. clear Hfj1.
  destruct (preceive ops good sound ready pt L o final ev special Ho Gfin Hsound g k p IV (sa_fresh _ _ _ SA) Hp)
    as (cj2 & cj' & Hj2 & Hr & Gj' & Vj' & _ & Pj').
  rewrite S1 in Hj. rewrite Hj in Hj2. inversion Hj2; subst cj2. clear Hj2.
  destruct ppassed_view as (cr & cr' & P & _).
  pose proof (pa_cr _ _ _ _ _ _ _ P) as Hcr. rewrite Hj in Hcr. inversion Hcr; subst cr. clear Hcr.
  pose proof (pa_recv _ _ _ _ _ _ _ P) as Hr2. rewrite Hr in Hr2. inversion Hr2; subst cr'. clear Hr2.
  rewrite E1, S1, (pa_cl _ _ _ _ _ _ _ P) in Hj1. destruct (Nat.eq_dec (p_rcv p) (p_rcv p)) as [_|]; [|congruence].
  inversion Hj1; subst cj1. clear Hj1.
  assert (Sfree : forall v, In v s -> ~ In v (dkeys special)) by (intros v Hv; apply (psep_In ops o final ev special Ho _ _ s v HS Hv)).
  set (rem := filter (fun v => negb (mem v s)) (f_vars ops b)).
  assert (Nr : NoDup rem) by (apply NoDup_filter, (pr_nodup _ _ _ PL); exact B1).
  assert (Hrem : forall v, In v rem <-> In v (f_vars ops b) /\ ~ In v s).
  { intros v. unfold rem. rewrite filter_In, negb_true_iff, mem_nIn. tauto. }
  destruct (Bi rem Nr Hrem) as [_ I1]. destruct (Ci rem Nr) as [_ I2].
  { intros v. rewrite Hrem, B2, C2. tauto. }
  set (w := fun e : renv => (pt (m_fac (p_next p)) e / pmsg pt p e)%R).
  assert (HS' : sepf (p_snd p) (p_rcv p) = Some s) by (unfold sepf; rewrite graph_sep_sym, <- S1, <- R1; exact HS).
  destruct (pnext ops good sound ready pt L o final ev special Ho Gfin Hsound g k p IV (sa_fresh _ _ _ SA) Hp)
    as (s0 & c0 & c1 & f0 & q0 & k0 & HS0 & _ & _ & _ & _ & _ & _ & [_ _ (Gm & Vm) _]).
  fold sepf in HS0. rewrite HS' in HS0. inversion HS0; subst s0. clear HS0.
  assert (We : forall e1 e2, (forall v, In v s -> e1 v = e2 v) -> w e1 = w e2).
  { intros e1 e2 He. unfold w. rewrite (pmsg_ext ops good sound ready pt L o final ev special g k p s e1 e2 IV Hp HS' He).
    f_equal. apply (pl_ext _ _ _ _ _ L); [exact Gm|]. intros v Hv. apply He. now apply Vm. }
  assert (Hb : forall e, pt b' e = (w e * pt b e)%R).
  { intros e1. rewrite C3, B3, Pj'. rewrite (We e1 (over special e1)); [unfold w, Rdiv; ring|].
    intros v Hv. symmetry. apply over_other. now apply Sfree. }
  assert (I3 : iint rem (pt b') e (w e * (pt (m_fac (p_next p1)) e * pmsg pt p e))%R).
  { apply (iint_ext rem (fun e => w e * pt b e)%R); [intros; now rewrite Hb|].
    apply iint_scal; [|apply I1]. intros y Hy e1 t. apply We. intros v Hv. apply setv_other. intros ->. apply Hrem in Hy. tauto. }
  pose proof (iint_unique rem (pt b') e _ _ I3 (I2 e)) as U.
  pose proof (pmsg_pos ops good sound ready pt L o final ev special g k p e IV Hp) as P1.
  pose proof (pl_pos _ _ _ _ _ L _ e Gm) as P2.
  assert (Eq : pmsg pt q' e = pt (m_fac (p_next p)) e) by (unfold pmsg; now rewrite F3).
  rewrite Eq in U. unfold w in U.
  apply (Rmult_eq_reg_r (pt (m_fac (p_next p)) e)); [|lra]. rewrite <- U. field. lra.
Qed.
Lemma pdone_reverse k1 p1 : nth_error (g_paths g) k1 = Some p1 -> p_snd p1 = p_rcv p -> p_rcv p1 = p_snd p ->
  pdone g k1 -> pdone g' k1.
Proof.
  intros H1 S1 R1 D p1' H1' e. destruct (preverse_same k1 p1 p1' e H1 S1 R1 H1') as [E1 E2].
  unfold pmsg. rewrite E1, E2. exact (D p1 H1 e).
Qed.
End Pass.

Lemma psweeps_settle g ks g' : Live g -> two_sweeps g ks -> foldM (pass_path ops) ks g = Ok g' -> psettled pt g'.
Proof.
  intros LV TS H k p e Hp.
  assert (Hd : pdone g' k); [|exact (Hd p Hp e)].
  apply (sweeps_done ops Live pdone sepf) with (g := g) (ks := ks) (p := p); auto.
  - intros g1 LV1. exact (sa_struct _ _ _ (pv_static _ _ _ _ _ _ _ _ _ _ LV1)).
  - apply graph_sep_sym.
  - intros. eapply (plive_pass ops good sound ready pt L); eauto.
  - intros g1 g2 k1 p1 LV1 H1 H2. exact (pdone_self g1 g2 k1 p1 LV1 H1 H2).
  - intros g1 g2 k1 p1 k2 p2 LV1 H1 H2. exact (pdone_other g1 g2 k1 p1 LV1 H1 H2 k2 p2).
  - intros g1 g2 k1 p1 k2 p2 LV1 H1 H2. exact (pdone_reverse g1 g2 k1 p1 LV1 H1 H2 k2 p2).
Qed.
Lemma psweeps_exist g r : Live g -> tree_shaped g -> r < length (g_cl g) ->
  exists ks, two_sweeps g ks /\ length ks = 2 * (length (g_cl g) - 1) /\ forall k, In k ks -> k < length (g_paths g).
Proof.
  intros LV. apply (schedule_exists Live sepf) with (g := g); auto.
  - intros g1 LV1. exact (sa_struct _ _ _ (pv_static _ _ _ _ _ _ _ _ _ _ LV1)).
  - apply graph_sep_sym.
Qed.
End PosRun.
