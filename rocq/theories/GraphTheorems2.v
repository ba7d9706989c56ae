(** Look-up (C37), single clusters (C38) and converged runs (C57). *)
From Verif Require Export GraphTheorems GraphExamples.

Section Lookup.
Context {F V : Type} (ops : fops F V).
Lemma lookup_none (g : cgraph F V) vrs :
  (forall c, In c (g_cl g) -> ~ incl vrs (f_vars ops (cl_fac c))) -> get_marginal ops g vrs = Err ValueError.
Proof.
  intros H. unfold get_marginal.
  destruct (find (fun c => subsetb vrs (f_vars ops (cl_fac c))) (g_cl g)) as [c|] eqn:E; [|reflexivity].
  apply find_some in E. destruct E as [E1 E2]. apply subsetb_incl in E2. destruct (H c E1 E2).
Qed.
Lemma find_first {A} (P : A -> bool) l i x : nth_error l i = Some x -> P x = true ->
  (forall j y, j < i -> nth_error l j = Some y -> P y = false) -> find P l = Some x.
Proof.
  revert i. induction l as [|y l IH]; intros [|i] H Hx Hj; cbn in *; try discriminate.
  - inversion H; subst. now rewrite Hx.
  - rewrite (Hj 0 y); [|lia|reflexivity]. apply (IH i); auto. intros j z Hl Hz. apply (Hj (S j)); [lia|exact Hz].
Qed.
Lemma evidence_values (d : dict string V) vars : NoDup vars -> exists evs vals,
  subset_evidence d vars = (evs, vals) /\ NoDup evs /\ (forall v, In v evs <-> In v vars /\ In v (dkeys d)) /\
  map (dget d) evs = map Some vals.
Proof.
  intros Hn. rewrite subset_evidence_eq by exact Hn. eexists _, _. split; [reflexivity|].
  split; [now apply NoDup_filter|]. split; [intros v; rewrite filter_In, dmem_In; tauto|].
  clear Hn. induction vars as [|v vars IH]; cbn; [reflexivity|]. unfold dmem at 1.
  destruct (dget d v) as [x|] eqn:E; cbn; [|exact IH]. rewrite E. now rewrite IH.
Qed.
Lemma lookup_first (g : cgraph F V) vrs i c : nth_error (g_cl g) i = Some c ->
  incl vrs (f_vars ops (cl_fac c)) -> NoDup (f_vars ops (cl_fac c)) ->
  (forall j c', j < i -> nth_error (g_cl g) j = Some c' -> ~ incl vrs (f_vars ops (cl_fac c'))) ->
  exists evs vals, NoDup evs /\
    (forall v, In v evs <-> In v (f_vars ops (cl_fac c)) /\ In v (dkeys (g_spec g))) /\
    map (dget (g_spec g)) evs = map Some vals /\
    get_marginal ops g vrs =
      match evs with
      | [] => f_marg ops (cl_fac c) vrs
      | _ => let* f := f_reduce ops (cl_fac c) evs vals in f_marg ops f vrs
      end.
Proof.
  intros Hi Hinc Hn Hj. destruct (evidence_values (g_spec g) (f_vars ops (cl_fac c)) Hn) as (evs & vals & E & E1 & E2 & E3).
  exists evs, vals. split; [exact E1|]. split; [exact E2|]. split; [exact E3|]. unfold get_marginal.
  rewrite (find_first _ (g_cl g) i c Hi).
  - rewrite E. destruct evs; reflexivity.
  - now apply subsetb_incl.
  - intros j c' Hlt Hc'. apply not_true_iff_false. rewrite subsetb_incl. eauto.
Qed.

(** C38 without special evidence. *)
Lemma single_twice tol tol' n n' (g g1 : cgraph F V) c : g_cl g = [c] -> g_spec g = [] ->
  process_graph ops tol n g = Ok g1 ->
  process_graph ops tol' n' g1 = Ok g1 /\ g_cl g1 = g_cl g /\ g_paths g1 = g_paths g.
Proof.
  intros Ec Es H. unfold process_graph in *. cbn zeta in *. change (g_cl (reset_dists g)) with (g_cl g) in H.
  change (g_spec (reset_dists g)) with (g_spec g) in H. rewrite Ec, Es in H. inversion H; subst g1.
  cbn [reset_dists g_cl g_spec]. rewrite Ec, Es. auto.
Qed.
End Lookup.

(** Observing a variable that is not in the scope fails. *)
Lemma ddel_keys {B} (d : dict string B) v : forall d', ddel d v = Ok d' -> In v (dkeys d) /\ incl (dkeys d') (dkeys d).
Proof.
  unfold dkeys. induction d as [|[k x] d IH]; intros d' H; cbn [ddel] in H; [discriminate|].
  destruct (eq_dec v k) as [->|N].
  - inversion H; subst. split; [left; reflexivity|]. intros y Hy. right; exact Hy.
  - apply bind_ok in H. destruct H as (r & Hr & H). inversion H; subst. destruct (IH r Hr) as [I1 I2].
    split; [right; exact I1|]. intros y [<-|Hy]; [left; reflexivity|right; now apply I2].
Qed.
Lemma del_all_keys {B} vrs : forall (d d' : dict string B), foldM (fun d v => ddel d v) vrs d = Ok d' ->
  incl vrs (dkeys d).
Proof.
  induction vrs as [|v vrs IH]; intros d d' H x Hx; [destruct Hx|]. cbn [foldM] in H. apply bind_ok in H.
  destruct H as (d1 & H1 & H). apply ddel_keys in H1. destruct H1 as [H1 H2].
  destruct Hx as [<-|Hx]; [exact H1|]. apply H2. exact (IH _ _ H x Hx).
Qed.
Lemma dict_of_keys {B} (l : list (string * B)) : incl (dkeys (dict_of l)) (map fst l).
Proof.
  unfold dict_of. assert (G : forall d, incl (dkeys (fold_left (fun d kv => dset d (fst kv) (snd kv)) l d)) (dkeys d ++ map fst l)).
  { induction l as [|[k x] l IH]; intros d; cbn [fold_left map fst snd].
    - rewrite app_nil_r. apply incl_refl.
    - intros y Hy. apply IH in Hy. apply in_app_or in Hy. apply in_or_app. cbn. destruct Hy as [Hy|Hy]; [|auto].
      apply In_dkeys_dset in Hy. destruct Hy as [->|Hy]; auto. }
  intros y Hy. apply (G []) in Hy. exact Hy.
Qed.
Lemma reduce_absent f vrs values v : In v vrs -> ~ In v (svars f) -> exists e, s_reduce f vrs values = Err e.
Proof.
  intros Hv Hn. destruct (s_reduce f vrs values) as [r|e] eqn:E; [|eauto]. exfalso. unfold s_reduce in E.
  apply bind_ok in E. destruct E as (nt & _ & E). apply bind_ok in E. destruct E as (t & _ & E).
  apply bind_ok in E. destruct E as (vc & E & _). apply Hn. pose proof (del_all_keys _ _ _ E v Hv) as I.
  unfold var_cards, zip_cards in I. apply dict_of_keys in I. apply in_map_iff in I. destruct I as ([a b] & <- & I).
  cbn. eapply in_combine_l; eauto.
Qed.
Lemma reduced_scope f vrs values r : s_reduce f vrs values = Ok r -> svars r = filter (fun v => negb (mem v vrs)) (svars f).
Proof.
  intros E. unfold s_reduce in E.
  apply bind_ok in E. destruct E as (nt & _ & E). apply bind_ok in E. destruct E as (t & _ & E).
  apply bind_ok in E. destruct E as (vc & _ & E). unfold mk_sparse in E.
  destruct (negb (nodupb _)); [discriminate|]. destruct (negb _); [discriminate|]. now inversion E.
Qed.
Lemma single_special_fails o tol tol' n n' (g g1 : cgraph sparse nat) c : g_cl g = [c] -> g_spec g <> [] ->
  process_graph (sparse_ops o) tol n g = Ok g1 -> exists e, process_graph (sparse_ops o) tol' n' g1 = Err e.
Proof.
  intros Ec Es H. unfold process_graph in *. cbn zeta in *. change (g_cl (reset_dists g)) with (g_cl g) in H.
  change (g_spec (reset_dists g)) with (g_spec g) in H. rewrite Ec in H.
  destruct (g_spec g) as [|[v x] sp] eqn:Esp; [congruence|]. apply bind_ok in H. destruct H as (f & Hf & H).
  inversion H; subst g1. cbn [reset_dists g_cl g_spec cl_fac]. cbn [sparse_ops f_reduce] in *.
  pose proof (reduced_scope _ _ _ _ Hf) as Hs.
  destruct (reduce_absent f (dkeys ((v, x) :: sp)) (dvals ((v, x) :: sp)) v) as (e & He).
  - left; reflexivity.
  - rewrite Hs, filter_In, negb_true_iff, mem_nIn. intros [_ C]. apply C. left; reflexivity.
  - exists e. now rewrite He.
Qed.

(** C37 for sparse models: ValueError exactly when no cluster contains the variables. *)
Lemma lookup_error card o factors ev special g0 g vrs : oracle_ok o -> (forall f, In f factors -> sgood card f) ->
  mk_graph (sparse_ops o) o factors ev special = Ok g0 -> history (sparse_ops o) g0 g ->
  NoDup vrs -> (forall v, In v vrs -> ~ In v (dkeys special)) ->
  (get_marginal (sparse_ops o) g vrs = Err ValueError <-> forall c, In c (g_cl g) -> ~ incl vrs (svars (cl_fac c))).
Proof.
  intros Ho Gf Hmk Hh Hn Hd. split; [|apply (lookup_none (sparse_ops o))].
  intros H c Hc Hi. pose proof (sparse_lawful card o Ho) as L.
  destruct (mk_graph_made _ o factors ev special g0 Ho Hmk) as (reduced & final & M).
  destruct (history_live _ card (sgood card) spot L o factors ev special g0 Ho Gf reduced final g M Hh) as [Gfin LV].
  destruct (history_static _ _ _ _ _ _ _ _ _ M Hh) as (_ & Hsp & _).
  unfold get_marginal in H.
  destruct (find (fun c => subsetb vrs (f_vars (sparse_ops o) (cl_fac c))) (g_cl g)) as [ci|] eqn:Ef.
  2:{ pose proof (find_none _ _ Ef c Hc) as C. cbn in C. rewrite (proj2 (subsetb_incl _ _) Hi) in C. discriminate. }
  apply find_some in Ef. destruct Ef as [Hci Hsub]. apply subsetb_incl in Hsub.
  apply In_nth_error in Hci. destruct Hci as (i & Hci).
  destruct (iv_cl _ _ _ _ _ _ _ _ (lv_inv _ _ _ _ _ _ _ _ LV) i ci Hci) as (f & Hf & _ & (Gc & Hv) & _).
  cbn [sparse_ops f_vars f_reduce f_marg] in *.
  rewrite Hsp in H. destruct (subset_evidence special (svars (cl_fac ci))) as [evs vals] eqn:Es.
  pose proof (lw_nodup _ _ _ _ L _ Gc) as Hcn. cbn [sparse_ops f_vars] in Hcn.
  destruct (subset_evidence_spec special _ evs vals Hcn Es) as (E1 & E2 & E3).
  assert (Hie : incl evs (svars (cl_fac ci))) by (intros v Hvv; now apply E2).
  assert (R : (exists f1, (if Nat.ltb 0 (length evs) then s_reduce (cl_fac ci) evs vals else Ok (cl_fac ci)) = Ok f1 /\
            sgood card f1 /\ incl vrs (svars f1)) \/
            (if Nat.ltb 0 (length evs) then s_reduce (cl_fac ci) evs vals else Ok (cl_fac ci)) = Err KeyError).
  { destruct (Nat.ltb 0 (length evs)); [|left; eauto].
    destruct (Classical_Prop.classic (exists e0 v, In (map e0 (svars (cl_fac ci)), v) (stbl (cl_fac ci)) /\ map e0 evs = vals)) as [C|C].
    - left. destruct (reduce_env_spec _ evs vals (sg_wf _ _ Gc) (sg_zero _ _ Gc) E1 Hie C) as (f1 & R1 & _).
      exists f1. split; [exact R1|].
      destruct (lw_reduce _ _ _ _ L (cl_fac ci) evs vals f1 Gc E1 Hie E3 R1) as (R2 & R3 & _). split; [exact R2|].
      intros v Hvv. apply R3. split; [now apply Hsub|]. rewrite E2. intros [_ C']. exact (Hd v Hvv C').
    - right. exact (reduce_env_missing _ evs vals (sg_wf _ _ Gc) E1 Hie E3 C). }
  destruct R as [(f1 & R1 & Gf1 & Hi1)|R1]; rewrite R1 in H; cbn [bind] in H; [|discriminate].
  destruct (lw_marg _ _ _ _ L f1 vrs Gf1 Hn Hi1) as (r & R & _). cbn [sparse_ops f_marg] in R. congruence.
Qed.

(** ** Converged runs (C57) *)
Lemma finite_choice {A} (d : A) n (P : nat -> A -> Prop) : (forall k, k < n -> exists x, P k x) ->
  exists f, forall k, k < n -> P k (f k).
Proof.
  induction n as [|n IH]; intros H.
  - exists (fun _ => d). intros k Hk. lia.
  - destruct IH as (f & Hf); [intros k Hk; apply H; lia|]. destruct (H n) as (x & Hx); [lia|].
    exists (fun k => if Nat.eq_dec k n then x else f k). intros k Hk. destruct (Nat.eq_dec k n) as [->|N]; [exact Hx|].
    apply Hf. lia.
Qed.

Section Converged.
Context {F : Type} (ops : fops F nat) (card : string -> nat) (good : F -> Prop) (pt : F -> env -> R).
Hypothesis L : lawful ops card good pt.
Context (o : oracle) (factors : list F) (ev : option (dict string nat)) (special : dict string nat) (g0 : cgraph F nat).
Hypothesis Ho : oracle_ok o.
Hypothesis Gfac : forall f, In f factors -> good f.
Hypothesis Hmk : mk_graph ops o factors ev special = Ok g0.

Lemma nonneg_gain d tol : (d = PInf \/ exists r, d = Fin r /\ 0 <= r)%R -> (tol <= 0)%R -> vleb d (Fin tol) = true -> d = Fin 0.
Proof.
  intros [->|(r & -> & Hr)] Ht H; [discriminate|]. unfold vleb in H. cbn in H. unfold Rlt_b, Req_b in H.
  destruct (Rlt_dec r tol); [exfalso; lra|]. destruct (Req_EM_T r tol); [|discriminate]. f_equal. lra.
Qed.

Lemma converged_settled e0 g tol : has_positive pt factors ev special e0 -> history ops g0 g -> (tol <= 0)%R ->
  (forall k, k < length (g_paths g) -> vleb (gain_of (g_paths g) k) (Fin tol) = true) ->
  exists c, settled ops card pt g c.
Proof.
  intros (P1 & P2 & P3) Hh Ht Hg. destruct (mk_graph_made ops o factors ev special g0 Ho Hmk) as (reduced & final & M).
  destruct (history_live ops card good pt L o factors ev special g0 Ho Gfac reduced final g M Hh) as [Gfin LV].
  pose proof (lv_inv _ _ _ _ _ _ _ _ LV) as IV. pose proof (lv_static _ _ _ _ _ _ _ _ LV) as SA.
  pose proof (final_pos ops card good pt L o factors ev special reduced final g0 e0 M Gfac P1 P3) as Pf.
  destruct (finite_choice 1%R (length (g_paths g)) (fun k c => forall p, nth_error (g_paths g) k = Some p -> (0 < c)%R /\
     forall e, in_card card (f_vars ops (m_fac (p_next p))) e -> pt (m_fac (p_next p)) e = (c * pm pt p e)%R)) as (h & Hh').
  { intros k Hk. destruct (nth_error (g_paths g) k) as [p|] eqn:Ep; [|apply nth_error_None in Ep; lia].
    destruct (next_ok ops card good pt L o final ev special Ho Gfin g k p IV (sa_fresh _ _ _ SA) Ep)
      as (s & ci & cj & q & kq & HS & Hi & Hj & Hq & Q1 & Q2 & MO).
    destruct (make_ok ops card good pt L o final ev special Ho Gfin e0 P2 Pf g k p IV Ep) as (ci' & cj' & m & d & Hi' & Hj' & Hm & Hmp & _).
    rewrite Hi in Hi'; rewrite Hj in Hj'. inversion Hi'; inversion Hj'; subst ci' cj'.
    pose proof (sa_fresh _ _ _ SA k p ci cj Ep Hi Hj) as Hf. rewrite Hf in Hm. inversion Hm; subst m. clear Hm Hi' Hj'.
    destruct (mo_fac _ _ _ _ _ _ _ _ _ _ MO) as (Gm & Vm).
    assert (Hne : f_vars ops (m_fac (p_next p)) <> []).
    { intros C. destruct (st_edge _ _ (sa_struct _ _ _ SA) _ _ _ HS) as (_ & _ & _ & Hs0 & _).
      destruct s as [|v s]; [congruence|]. specialize (Vm v). rewrite C in Vm. destruct (proj2 Vm). left; reflexivity. }
    specialize (Hg k Hk). unfold gain_of in Hg. rewrite Ep in Hg.
    destruct (sa_gains _ _ _ SA k p Ep) as [Hgain|[_ Hpr]].
    2:{ exists 1%R. intros p' Hp'. inversion Hp'; subst p'. split; [lra|]. intros e _. unfold pm. rewrite Hpr. ring. }
    unfold info_gain in Hgain. destruct (p_prev p) as [m0|] eqn:Epr.
    - destruct (prev_fac ops good pt o final ev special g k p m0 s IV Ep Epr HS) as (Gm0 & V0).
      destruct (lw_kl _ _ _ _ L (m_fac m0) (m_fac (p_next p)) Gm0 Gm) as (dd & D1 & D2 & D3 & _).
      + intros v. now rewrite V0, Vm.
      + intros C. destruct (f_vars ops (m_fac (p_next p))) as [|v vs] eqn:Ev; [congruence|].
        assert (Hv : In v s) by (apply Vm; left; reflexivity). apply V0 in Hv. rewrite C in Hv. destruct Hv.
      + exists e0. exact (iv_pos _ _ _ _ _ _ _ _ IV k p m0 Ep Epr e0 P2 Pf).
      + eauto.
      + rewrite D1 in Hgain. inversion Hgain; subst dd. destruct (D3 (nonneg_gain _ tol D2 Ht Hg)) as (x & X1 & X2).
        exists x. intros p' Hp'. inversion Hp'; subst p'. split; [exact X1|]. intros e He. unfold pm. rewrite Epr. apply X2.
        intros v Hv. apply He. apply Vm, V0. exact Hv.
    - destruct (lw_dist _ _ _ _ L (m_fac (p_next p)) Gm Hne) as (dd & D1 & D2 & D3); [eauto|].
      rewrite D1 in Hgain. inversion Hgain as [Hgd]. rewrite <- Hgd in Hg.
      assert (Hz : Fin dd = Fin 0) by (apply (nonneg_gain _ tol); eauto). inversion Hz; subst dd.
      destruct (D3 eq_refl) as (x & X1 & X2). exists x. intros p' Hp'. inversion Hp'; subst p'. split; [exact X1|].
      intros e He. unfold pm. rewrite Epr, Rmult_1_r. now apply X2. }
  set (hits := fun i j k => match nth_error (g_paths g) k with
                            | Some p => Nat.eqb (p_snd p) i && Nat.eqb (p_rcv p) j | None => false end).
  exists (fun i j => match find (hits i j) (seq 0 (length (g_paths g))) with Some k => h k | None => 1%R end).
  intros k p Hp. assert (Hk : k < length (g_paths g)) by (apply nth_error_Some; congruence).
  assert (Ef : find (hits (p_snd p) (p_rcv p)) (seq 0 (length (g_paths g))) = Some k).
  { destruct (find (hits (p_snd p) (p_rcv p)) (seq 0 (length (g_paths g)))) as [k'|] eqn:E.
    - apply find_some in E. destruct E as [_ E]. unfold hits in E.
      destruct (nth_error (g_paths g) k') as [p'|] eqn:Ep'; [|discriminate]. apply andb_true_iff in E.
      destruct E as [E1 E2]. apply Nat.eqb_eq in E1, E2. f_equal.
      exact (st_pair _ _ (sa_struct _ _ _ SA) k' k p' p Ep' Hp E1 E2).
    - pose proof (find_none _ _ E k) as C. rewrite in_seq in C. specialize (C ltac:(lia)). unfold hits in C.
      rewrite Hp, !Nat.eqb_refl in C. discriminate. }
  rewrite Ef. destruct (Hh' k Hk p Hp) as [X1 X2]. split; [exact X1|]. intros kq q e _ _ _ He. now rewrite (X2 e He).
Qed.

(** process_graph stopped early with a tolerance of zero (or less). *)
Lemma converged_marginal e0 g tol max_iter g' vrs res : has_positive pt factors ev special e0 -> history ops g0 g ->
  length (g_cl g) <> 1 -> tree_shaped g0 -> (tol <= 0)%R ->
  process_graph ops tol max_iter g = Ok g' -> length (g_dists g') < max_iter * length (g_order g) ->
  NoDup vrs -> (forall v, In v vrs -> ~ In v (dkeys special)) -> get_marginal ops g' vrs = Ok res ->
  (forall v, In v (f_vars ops res) <-> In v vrs) /\
  exists k, (0 < k)%R /\
    forall rem e, agrees_opt ev e -> agrees special e -> NoDup rem ->
      (forall v, In v rem <-> (exists f, In f factors /\ In v (f_vars ops f)) /\
          ~ In v (observed ev) /\ ~ In v (dkeys special) /\ ~ In v vrs) ->
      (k * pt res e = sum_over card rem (prod_at pt factors) e)%R.
Proof.
  intros Hp Hh H1 TR Ht Hpr Hlt Hn Hd Hm.
  destruct (greedy_run ops o factors ev special g0 g tol max_iter g' Ho Hmk Hh Hpr H1) as (steps & R & Hlen & _ & Hstop).
  destruct (run_comparable ops card good pt L o factors ev special g0 Ho Gfac Hmk e0 g steps g' Hp Hh R) as [Hc _].
  assert (Hh' : history ops g0 g') by (eapply hi_process; eauto).
  destruct (converged_settled e0 g' tol Hp Hh' Ht) as (c & ST).
  { rewrite Hlen in Hlt. exact (Hstop Hlt Hc). }
  destruct (settled_marginal ops card good pt L o factors ev special g0 Ho Gfac Hmk g' c vrs res Hh' TR ST Hn Hd Hm) as (V & k & K1 & _ & K3).
  split; [exact V|]. exists k. auto.
Qed.
End Converged.
