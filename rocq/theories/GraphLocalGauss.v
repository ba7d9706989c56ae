(** Converged graphs of Gaussians, of any shape: every cluster that holds a variable has the same
    marginal over it. *)
From Verif Require Export GraphLocalMore.
From Verif Require Import DenseGraphEx GaussGraphEx GraphLocalEx2.
Local Open Scope string_scope.
Local Open Scope list_scope.
Local Open Scope nat_scope.

(** The inner integrals of an iterated integral may be replaced by their values. *)
Lemma iint_split xs ys F K : forall e I, (forall e', (forall v, ~ In v xs -> e' v = e v) -> iint ys F e' (K e')) ->
  iint (xs ++ ys) F e I -> iint xs K e I.
Proof.
  induction xs as [|x xs IH]; intros e I HK H; cbn [app iint] in *.
  - exact (iint_unique ys F e I (K e) H (HK e (fun _ _ => eq_refl))).
  - destruct H as (G & HG & Hi). exists G. split; [|exact Hi]. intros t. apply IH; [|apply HG].
    intros e' He'. apply HK. intros v Hv. rewrite He' by (intros C; apply Hv; now right). unfold setv. destruct (string_dec v x) as [->|_]; [|reflexivity]. exfalso. apply Hv. now left.
Qed.

Section Pos.
Context {F : Type} (ops : fops F R) (good sound ready : F -> Prop) (pt : F -> renv -> R).
Hypothesis L : plaws ops good sound ready pt.
Hypothesis T : tlaws ops good sound ready.
Let PL := pl_prod _ _ _ _ _ L.
Context (o : oracle) (factors : list F) (ev : option (dict string R)) (special : dict string R) (g0 : cgraph F R).
Hypothesis Ho : oracle_ok o.
Hypothesis Gfac : forall f, In f factors -> good f.
Hypothesis Hmk : mk_graph ops o factors ev special = Ok g0.
Let Hs := proj1 (tclusters ops good sound ready pt L T o factors ev special g0 Ho Gfac Hmk).

(** [m] is the marginal of the cluster factor over [keep], at all assignments that agree with the
    special evidence. *)
Definition marg_of (c : cluster F R) (keep : list string) (m : renv -> R) : Prop :=
  forall rem e, NoDup rem -> (forall v, In v rem <-> In v (f_vars ops (cl_fac c)) /\ ~ In v keep /\ ~ In v (dkeys special)) ->
    agrees special e -> iint rem (pt (cl_fac c)) e (m e).

Lemma restricted_marg c f1 keep r : good (cl_fac c) -> good f1 -> (forall v, In v (f_vars ops f1) <-> In v (f_vars ops (cl_fac c)) /\ ~ In v (dkeys special)) ->
  (forall e, agrees special e -> pt f1 e = pt (cl_fac c) e) -> keep <> [] -> NoDup keep -> incl keep (f_vars ops f1) -> f_marg ops f1 keep = Ok r ->
  (forall e, (0 < pt r e)%R) /\ marg_of c keep (pt r).
Proof.
  intros Gc G1 V1 P1 Hk Hn Hi Hr. destruct (pl_marg _ _ _ _ _ L f1 keep r G1 (tl_ready _ _ _ _ T f1 G1) Hk Hn Hi Hr) as (Gr & _ & M).
  split; [intros e; exact (pl_pos _ _ _ _ _ L r e Gr)|]. intros rem e Hrn Hrem He.
  destruct (M rem Hrn) as (_ & M2); [intros v; rewrite Hrem, V1; tauto|]. eapply LinGauss.iint_ext_on; [|apply M2].
  intros e' He'. apply P1. intros w x Hx. rewrite He'; [now apply He|]. rewrite Hrem. intros (_ & _ & C). apply C. eapply dget_Some_key; eauto.
Qed.
Lemma marg_there g i ci keep : history ops g0 g -> nth_error (g_cl g) i = Some ci -> keep <> [] -> NoDup keep -> incl keep (f_vars ops (cl_fac ci)) ->
  (forall v, In v keep -> ~ In v (dkeys special)) -> exists m, (forall e, (0 < m e)%R) /\ marg_of ci keep m.
Proof.
  intros Hh Hi Hk Hn Hin Hd. destruct (pmade ops good sound ready pt L o factors ev special g0 Ho Gfac Hmk Hs) as (reduced & final & M & Gfin & Hsound & HL).
  destruct (HL g Hh) as (LV & _). pose proof (pv_inv _ _ _ _ _ _ _ _ _ _ LV) as IV.
  destruct (pcluster_at ops good sound ready pt o final ev special g LV i ci Hi) as (fi & Hfi & Gc & Hv & Es).
  destruct keep as [|v0 keep0] eqn:Ek; [congruence|]. rewrite <- Ek in *.
  assert (H0 : In v0 keep) by (rewrite Ek; now left).
  destruct (reduced_some ops good sound ready pt L o final ev special Gfin i fi (cl_fac ci) v0 Hfi Gc Hv) as (f1 & Hf1); [apply Hv; now apply Hin|now apply Hd|].
  destruct (reduced_at ops good sound ready pt L o final ev special Gfin i fi (cl_fac ci) f1 Hfi Gc Hv Hf1) as (R1 & R2 & R3).
  assert (Hi1 : incl keep (f_vars ops f1)) by (intros v Hvk; apply R2; split; [apply Hv; now apply Hin|now apply Hd]).
  destruct (tl_marg _ _ _ _ T f1 keep R1 Hk Hn Hi1) as (r & Hr). exists (pt r).
  apply (restricted_marg ci f1 keep r); auto; [intros v; rewrite R2, Hv; tauto|].
  intros e He. rewrite R3. apply (pl_ext _ _ _ _ _ L); [exact Gc|]. intros v _. now apply over_id.
Qed.
Lemma marg_same c keep m m' e : good (cl_fac c) -> marg_of c keep m -> marg_of c keep m' -> agrees special e -> m e = m' e.
Proof.
  intros Gc A B He. set (rem := filter (fun v => negb (mem v keep) && negb (mem v (dkeys special)))%bool (f_vars ops (cl_fac c))).
  assert (Hn : NoDup rem) by (apply NoDup_filter; exact (pr_nodup _ _ _ PL _ Gc)).
  assert (Hr : forall v, In v rem <-> In v (f_vars ops (cl_fac c)) /\ ~ In v keep /\ ~ In v (dkeys special)).
  { intros v. unfold rem. rewrite filter_In, andb_true_iff, !negb_true_iff, !mem_nIn. tauto. }
  exact (iint_unique rem _ e _ _ (A rem e Hn Hr He) (B rem e Hn Hr He)).
Qed.

Lemma scopes_kept g i ci : history ops g0 g -> nth_error (g_cl g) i = Some ci -> good (cl_fac ci) /\ forall v, In v (f_vars ops (cl_fac ci)) <-> in_scope ops g0 v i.
Proof.
  intros Hh Hi. destruct (pmade ops good sound ready pt L o factors ev special g0 Ho Gfac Hmk Hs) as (reduced & final & M & Gfin & Hsound & HL).
  destruct (HL g Hh) as (LV & _). destruct (pcluster_at ops good sound ready pt o final ev special g LV i ci Hi) as (fi & Hfi & Gc & Hv & _).
  split; [exact Gc|]. intros v. rewrite Hv, (made_sc ops o factors ev special reduced final g0 M). rewrite (psc_final ops final i fi Hfi). reflexivity.
Qed.
Lemma edge_parts g i j S ci cj keep mi mj e : history ops g0 g -> psettled pt g -> edge_with g0 i j S -> nth_error (g_cl g) i = Some ci -> nth_error (g_cl g) j = Some cj ->
  incl keep S -> NoDup keep -> marg_of ci keep mi -> marg_of cj keep mj -> agrees special e -> mi e = mj e.
Proof.
  intros Hh ST HE Hi Hj Hk Hn Mi Mj He.
  destruct (pedge_agrees ops good sound ready pt L o factors ev special g0 Ho Gfac Hmk Hs g i j S ci cj Hh ST HE Hi Hj) as (h & _ & A & B).
  destruct (mk_graph_made ops o factors ev special g0 Ho Hmk) as (reduced & final & M).
  destruct (made_sepset ops o factors ev special reduced final g0 Ho M i j S HE) as (_ & _ & NS & _ & SS).
  set (xs := filter (fun v => negb (mem v keep)) S).
  assert (Hx : forall v, In v xs <-> In v S /\ ~ In v keep) by (intros v; unfold xs; rewrite filter_In, negb_true_iff, mem_nIn; reflexivity).
  assert (Nx : NoDup xs) by (now apply NoDup_filter).
  assert (Sp : forall v, In v S -> ~ In v (dkeys special)).
  { intros v Hv C. destruct (SS v Hv) as (_ & _ & N). apply N. unfold all_evidence. apply in_or_app. now left. }
  assert (One : forall x c m, nth_error (g_cl g) x = Some c -> (forall v, In v S -> in_scope ops g0 v x) ->
    (forall ri e, NoDup ri -> (forall v, In v ri <-> In v (f_vars ops (cl_fac c)) /\ ~ In v S /\ ~ In v (dkeys special)) -> agrees special e -> iint ri (pt (cl_fac c)) e (h e)) ->
    marg_of c keep m -> iint xs h e (m e)).
  { intros x c m Hc HS HA Hm. destruct (scopes_kept g x c Hh Hc) as (Gc & Vc).
    set (ys := filter (fun v => negb (mem v S) && negb (mem v (dkeys special)))%bool (f_vars ops (cl_fac c))).
    assert (Hy : forall v, In v ys <-> In v (f_vars ops (cl_fac c)) /\ ~ In v S /\ ~ In v (dkeys special)).
    { intros v. unfold ys. rewrite filter_In, andb_true_iff, !negb_true_iff, !mem_nIn. tauto. }
    assert (Ny : NoDup ys) by (apply NoDup_filter; exact (pr_nodup _ _ _ PL _ Gc)).
    apply (iint_split xs ys (pt (cl_fac c)) h).
    - intros e' He'. apply HA; [exact Ny|exact Hy|]. intros w y Hw. rewrite He'; [now apply He|]. rewrite Hx. intros (C & _). apply (Sp w C). eapply dget_Some_key; eauto.
    - apply Hm; [|intros v; rewrite in_app_iff, Hx, Hy|exact He].
      + apply NoDup_app_intro; [exact Nx|exact Ny|]. intros v V1 V2. apply Hx in V1. apply Hy in V2. tauto.
      + split; [|destruct (in_dec string_dec v S); tauto].
        intros [(V1 & V2)|(V1 & V2 & V3)]; [split; [apply Vc; now apply HS|split; [exact V2|now apply Sp]]|split; [exact V1|split; [intros C; apply V2; now apply Hk|exact V3]]]. }
  exact (iint_unique xs h e _ _ (One i ci mi Hi (fun v Hv => proj1 (SS v Hv)) A Mi) (One j cj mj Hj (fun v Hv => proj1 (proj2 (SS v Hv))) B Mj)).
Qed.
Lemma holders_same g v i j ci cj mi mj e : history ops g0 g -> psettled pt g -> nth_error (g_cl g) i = Some ci -> nth_error (g_cl g) j = Some cj ->
  In v (f_vars ops (cl_fac ci)) -> In v (f_vars ops (cl_fac cj)) -> ~ In v (dkeys special) -> marg_of ci [v] mi -> marg_of cj [v] mj -> agrees special e -> mi e = mj e.
Proof.
  intros Hh ST Hi Hj Vi Vj Nv Mi Mj He.
  destruct (mk_graph_made ops o factors ev special g0 Ho Hmk) as (reduced & final & M).
  destruct (scopes_kept g i ci Hh Hi) as (Gi & Si). destruct (scopes_kept g j cj Hh Hj) as (Gj & Sj).
  assert (Nobs : ~ In v (all_evidence ev special)).
  { destruct (pmade ops good sound ready pt L o factors ev special g0 Ho Gfac Hmk Hs) as (reduced' & final' & M' & Gfin & Hsound & HL).
    destruct (HL g Hh) as (LV & _). destruct (pcluster_at ops good sound ready pt o final' ev special g LV i ci Hi) as (fi & Hfi & _ & Hv & _).
    apply Hv in Vi. assert (Hu : In v (pU ops final' special i)) by (apply (In_pU ops final' special g i fi v Hfi); auto).
    exact (pU_unobserved ops good sound ready pt L o factors reduced' final' ev special g0 Gfac M' g i v Hu). }
  pose proof (var_connected ops o factors ev special reduced final g0 Ho M v i j Nobs (proj1 (Si v) Vi) (proj1 (Sj v) Vj)) as C.
  assert (P : forall a b, clos_refl_trans nat (edge_var g0 v) a b -> forall ca ma, nth_error (g_cl g) a = Some ca -> In v (f_vars ops (cl_fac ca)) -> marg_of ca [v] ma ->
    exists cb, nth_error (g_cl g) b = Some cb /\ In v (f_vars ops (cl_fac cb)) /\ forall mb, marg_of cb [v] mb -> ma e = mb e).
  { clear - Hs Hh ST Nv He M Ho Gfac Hmk L T PL. intros a b H. induction H as [a b (S & HE & HS)|a|a b d _ IH1 _ IH2]; intros ca ma Ha Va Ma.
    - destruct (made_sepset ops o factors ev special reduced final g0 Ho M a b S HE) as (_ & _ & _ & _ & SS).
      destruct (history_static ops _ _ _ _ _ _ _ _ M Hh) as (SA & _).
      destruct (st_edge _ _ (sa_struct _ _ _ SA) a b S) as (_ & L2 & _); [now apply (made_edge ops o factors ev special reduced final g0 M)|].
      destruct (nth_error (g_cl g) b) as [cb|] eqn:Hb; [|apply nth_error_None in Hb; lia]. exists cb. split; [reflexivity|].
      split; [apply (scopes_kept g b cb Hh Hb); now apply SS|]. intros mb Mb.
      apply (edge_parts g a b S ca cb [v] ma mb e Hh ST HE Ha Hb); auto; [intros w [<-|[]]; exact HS|]. constructor; [intros []|constructor].
    - exists ca. split; [exact Ha|]. split; [exact Va|]. intros mb Mb. apply (marg_same ca [v]); auto. exact (proj1 (scopes_kept g a ca Hh Ha)).
    - destruct (IH1 ca ma Ha Va Ma) as (cb & Hb & Vb & X). destruct (marg_there g b cb [v] Hh Hb) as (mb & _ & Mb); [discriminate|constructor; [intros []|constructor]|intros w [<-|[]]; exact Vb|intros w [<-|[]]; exact Nv|].
      destruct (IH2 cb mb Hb Vb Mb) as (cd & Hd & Vd & Y). exists cd. split; [exact Hd|]. split; [exact Vd|]. intros md Md. rewrite (X mb Mb). now apply Y. }
  destruct (P i j C ci mi Hi Vi Mi) as (cj' & Hj' & _ & X). assert (cj' = cj) by congruence. subst cj'. now apply X.
Qed.
(** The answer of get_marginal is the marginal of the cluster it looks up. *)
Lemma answer_marg g vrs res : history ops g0 g -> vrs <> [] -> NoDup vrs -> (forall v, In v vrs -> ~ In v (dkeys special)) -> get_marginal ops g vrs = Ok res ->
  exists i ci, nth_error (g_cl g) i = Some ci /\ incl vrs (f_vars ops (cl_fac ci)) /\ marg_of ci vrs (pt res).
Proof.
  intros Hh Hne Hn Hd H. destruct (pmade ops good sound ready pt L o factors ev special g0 Ho Gfac Hmk Hs) as (reduced & final & M & Gfin & Hsound & HL).
  destruct (HL g Hh) as (LV & Hsp & _). unfold get_marginal in H.
  destruct (find (fun c => subsetb vrs (f_vars ops (cl_fac c))) (g_cl g)) as [ci|] eqn:Ef; [|discriminate].
  apply find_some in Ef. destruct Ef as [Hci Hsub]. apply subsetb_incl in Hsub. apply In_nth_error in Hci. destruct Hci as (i & Hi).
  exists i, ci. split; [exact Hi|]. split; [exact Hsub|]. destruct (scopes_kept g i ci Hh Hi) as (Gc & _).
  rewrite Hsp in H. destruct (subset_evidence special (f_vars ops (cl_fac ci))) as [evs vals] eqn:Es. pose proof (pr_nodup _ _ _ PL _ Gc) as Hcn.
  destruct (subset_evidence_spec special _ evs vals Hcn Es) as (E1 & E2 & E3). apply bind_ok in H. destruct H as (f1 & H1 & H).
  assert (R : good f1 /\ (forall v, In v (f_vars ops f1) <-> In v (f_vars ops (cl_fac ci)) /\ ~ In v evs) /\ (forall e, map e evs = vals -> pt f1 e = pt (cl_fac ci) e)).
  { destruct (Nat.ltb 0 (length evs)) eqn:El.
    - apply (pr_reduce _ _ _ PL _ evs vals f1 Gc E1); [intros v Hv; now apply E2|exact E3|exact H1].
    - inversion H1; subst f1. split; [exact Gc|]. split; [|reflexivity]. assert (evs = []) by (destruct evs; [reflexivity|discriminate]). subst evs. cbn. tauto. }
  destruct R as (R1 & R2 & R3). assert (R4 : forall v, In v (f_vars ops f1) <-> In v (f_vars ops (cl_fac ci)) /\ ~ In v (dkeys special)).
  { intros v. rewrite R2, E2. destruct (in_dec string_dec v (dkeys special)); tauto. }
  apply (restricted_marg ci f1 vrs res); auto.
  - intros e He. apply R3. exact (subset_evidence_agrees special _ evs vals e Hcn Es He).
  - intros v Hv. apply R4. split; [now apply Hsub|now apply Hd].
Qed.

Lemma pholders g v ci cj : history ops g0 g -> psettled pt g -> In ci (g_cl g) -> In cj (g_cl g) -> In v (f_vars ops (cl_fac ci)) -> In v (f_vars ops (cl_fac cj)) ->
  ~ In v (dkeys special) -> exists m, (forall e, (0 < m e)%R) /\ marg_of ci [v] m /\ marg_of cj [v] m.
Proof.
  intros Hh ST Hi Hj Vi Vj Nv. apply In_nth_error in Hi, Hj. destruct Hi as (i & Hi), Hj as (j & Hj).
  assert (N1 : NoDup [v]) by (constructor; [intros []|constructor]). assert (D1 : forall w, In w [v] -> ~ In w (dkeys special)) by (intros w [<-|[]]; exact Nv).
  destruct (marg_there g i ci [v] Hh Hi ltac:(discriminate) N1 ltac:(intros w [<-|[]]; exact Vi) D1) as (mi & Pi & Mi).
  destruct (marg_there g j cj [v] Hh Hj ltac:(discriminate) N1 ltac:(intros w [<-|[]]; exact Vj) D1) as (mj & Pj & Mj).
  exists mi. split; [exact Pi|]. split; [exact Mi|]. intros rem e Hn Hr He.
  rewrite (holders_same g v i j ci cj mi mj e Hh ST Hi Hj Vi Vj Nv Mi Mj He). now apply Mj.
Qed.
Lemma panswer g v res ci : history ops g0 g -> psettled pt g -> In ci (g_cl g) -> In v (f_vars ops (cl_fac ci)) -> ~ In v (dkeys special) ->
  get_marginal ops g [v] = Ok res -> marg_of ci [v] (pt res).
Proof.
  intros Hh ST Hi Vi Nv Hr. assert (N1 : NoDup [v]) by (constructor; [intros []|constructor]). assert (D1 : forall w, In w [v] -> ~ In w (dkeys special)) by (intros w [<-|[]]; exact Nv).
  destruct (answer_marg g [v] res Hh ltac:(discriminate) N1 D1 Hr) as (j & cj & Hj & Ij & Mj). apply In_nth_error in Hi. destruct Hi as (i & Hi).
  destruct (marg_there g i ci [v] Hh Hi ltac:(discriminate) N1 ltac:(intros w [<-|[]]; exact Vi) D1) as (mi & Pi & Mi).
  intros rem e Hn Hrem He. rewrite <- (holders_same g v i j ci cj mi (pt res) e Hh ST Hi Hj Vi (Ij v (or_introl eq_refl)) Nv Mi Mj He). now apply Mi.
Qed.
Lemma pparts g i j S ci cj keep : history ops g0 g -> psettled pt g -> edge_with g0 i j S -> nth_error (g_cl g) i = Some ci -> nth_error (g_cl g) j = Some cj ->
  keep <> [] -> NoDup keep -> incl keep S -> exists m, (forall e, (0 < m e)%R) /\ marg_of ci keep m /\ marg_of cj keep m.
Proof.
  intros Hh ST HE Hi Hj Hk Hn Hin.
  destruct (mk_graph_made ops o factors ev special g0 Ho Hmk) as (reduced & final & M).
  destruct (made_sepset ops o factors ev special reduced final g0 Ho M i j S HE) as (_ & _ & _ & _ & SS).
  assert (Sp : forall v, In v keep -> ~ In v (dkeys special)).
  { intros v Hv C. destruct (SS v (Hin v Hv)) as (_ & _ & N). apply N. unfold all_evidence. apply in_or_app. now left. }
  destruct (marg_there g i ci keep Hh Hi Hk Hn) as (mi & Pi & Mi); [intros v Hv; apply (scopes_kept g i ci Hh Hi); now apply SS, Hin|exact Sp|].
  destruct (marg_there g j cj keep Hh Hj Hk Hn) as (mj & Pj & Mj); [intros v Hv; apply (scopes_kept g j cj Hh Hj); now apply SS, Hin|exact Sp|].
  exists mi. split; [exact Pi|]. split; [exact Mi|]. intros rem e Hnr Hr He. rewrite (edge_parts g i j S ci cj keep mi mj e Hh ST HE Hi Hj Hin Hn Mi Mj He). now apply Mj.
Qed.
End Pos.

(** ** Gaussians with positive definite precisions *)
Section Gauss.
Context (o : oracle) (factors : list gauss) (ev : option (dict string R)) (special : dict string R) (g0 : cgraph gauss R).
Hypothesis Ho : oracle_ok o.
Hypothesis Hf : forall f, In f factors -> def_gauss f.
Hypothesis Hmk : mk_graph (gauss_ops o) o factors ev special = Ok g0.
Let L := gproper_plaws o Ho.
Let T := gproper_tlaws o Ho.
Let Gf : forall f, In f factors -> gproper f := fun f H => def_proper f (Hf f H).
Definition gstill (g : cgraph gauss R) : Prop := forall k p e, nth_error (g_paths g) k = Some p ->
  gval (m_fac (p_next p)) e = match p_prev p with Some m => gval (m_fac m) e | None => 1%R end.

Lemma gauss_parts g i j S ci cj keep : history (gauss_ops o) g0 g -> gstill g -> edge_with g0 i j S ->
  nth_error (g_cl g) i = Some ci -> nth_error (g_cl g) j = Some cj -> keep <> [] -> NoDup keep -> incl keep S -> exists m : renv -> R, (forall e, (0 < m e)%R) /\
  (forall rem e, NoDup rem -> (forall v, In v rem <-> In v (ga_vars (cl_fac ci)) /\ ~ In v keep /\ ~ In v (dkeys special)) -> agrees special e -> iint rem (gval (cl_fac ci)) e (m e)) /\
  (forall rem e, NoDup rem -> (forall v, In v rem <-> In v (ga_vars (cl_fac cj)) /\ ~ In v keep /\ ~ In v (dkeys special)) -> agrees special e -> iint rem (gval (cl_fac cj)) e (m e)).
Proof. exact (pparts (gauss_ops o) gproper gsound gready gval L T o factors ev special g0 Ho Gf Hmk g i j S ci cj keep). Qed.
Lemma gauss_holders g v ci cj : history (gauss_ops o) g0 g -> gstill g -> In ci (g_cl g) -> In cj (g_cl g) ->
  In v (ga_vars (cl_fac ci)) -> In v (ga_vars (cl_fac cj)) -> ~ In v (dkeys special) -> exists m : renv -> R, (forall e, (0 < m e)%R) /\
  (forall rem e, NoDup rem -> (forall w, In w rem <-> In w (ga_vars (cl_fac ci)) /\ ~ In w [v] /\ ~ In w (dkeys special)) -> agrees special e -> iint rem (gval (cl_fac ci)) e (m e)) /\
  (forall rem e, NoDup rem -> (forall w, In w rem <-> In w (ga_vars (cl_fac cj)) /\ ~ In w [v] /\ ~ In w (dkeys special)) -> agrees special e -> iint rem (gval (cl_fac cj)) e (m e)).
Proof. exact (pholders (gauss_ops o) gproper gsound gready gval L T o factors ev special g0 Ho Gf Hmk g v ci cj). Qed.
Lemma gauss_answer g v res ci : history (gauss_ops o) g0 g -> gstill g -> In ci (g_cl g) -> In v (ga_vars (cl_fac ci)) -> ~ In v (dkeys special) ->
  get_marginal (gauss_ops o) g [v] = Ok res ->
  forall rem e, NoDup rem -> (forall w, In w rem <-> In w (ga_vars (cl_fac ci)) /\ ~ In w [v] /\ ~ In w (dkeys special)) -> agrees special e -> iint rem (gval (cl_fac ci)) e (gval res e).
Proof. exact (panswer (gauss_ops o) gproper gsound gready gval L T o factors ev special g0 Ho Gf Hmk g v res ci). Qed.
End Gauss.

Local Notation io := SparseExamples.id_oracle.
Local Notation io_ok := SparseExamples.id_oracle_ok.
(** The calibrated chain of GaussGraphEx.v: two clusters that share a variable. *)
Lemma gg_shared : exists g0 g v ci cj res, mk_graph (gauss_ops io) io gg_chain None gg_special = Ok g0 /\ history (gauss_ops io) g0 g /\ gstill g /\
  In ci (g_cl g) /\ In cj (g_cl g) /\ cl_id ci <> cl_id cj /\ In v (ga_vars (cl_fac ci)) /\ In v (ga_vars (cl_fac cj)) /\ ~ In v (dkeys gg_special) /\
  get_marginal (gauss_ops io) g [v] = Ok res.
Proof.
  destruct gg_edge as (g0 & g & i & j & S & ci & cj & Hmk & Hh & ST & HE & Hi & Hj).
  destruct (mk_graph_made _ io gg_chain None gg_special g0 io_ok Hmk) as (reduced & final & M).
  destruct (made_sepset (gauss_ops io) io gg_chain None gg_special reduced final g0 io_ok M i j S HE) as (Nij & NS & _ & _ & SS).
  destruct S as [|v S]; [congruence|]. destruct (SS v (or_introl eq_refl)) as (S1 & S2 & S3).
  pose proof (gproper_plaws io io_ok) as L. pose proof (gproper_tlaws io io_ok) as T.
  assert (Gf : forall f, In f gg_chain -> gproper f) by (intros f H; apply def_proper; now apply gg_chain_def).
  assert (V1 : In v (ga_vars (cl_fac ci))) by (apply (scopes_kept (gauss_ops io) gproper gsound gready gval L T io gg_chain None gg_special g0 io_ok Gf Hmk g i ci Hh Hi); exact S1).
  assert (V2 : In v (ga_vars (cl_fac cj))) by (apply (scopes_kept (gauss_ops io) gproper gsound gready gval L T io gg_chain None gg_special g0 io_ok Gf Hmk g j cj Hh Hj); exact S2).
  assert (Nv : ~ In v (dkeys gg_special)) by (intros C; apply S3; unfold all_evidence; apply in_or_app; now left).
  destruct (ganswer io gg_chain None gg_special io_ok gg_chain_def g0 Hmk g [v] Hh) as (res & Hr); [discriminate|constructor; [intros []|constructor]|intros w [<-|[]]; exact Nv|exists ci; split; [eapply nth_error_In; eauto|intros w [<-|[]]; exact V1]|].
  exists g0, g, v, ci, cj, res. do 3 (split; [assumption|]). split; [eapply nth_error_In; eauto|]. split; [eapply nth_error_In; eauto|]. split; [|auto].
  destruct (history_static _ _ _ _ _ _ _ _ _ M Hh) as (SA & _). intros C. apply Nij. eapply ids_inj; [|exact Hi|exact Hj|exact C]. apply (st_ids _ _ (sa_struct _ _ _ SA)).
Qed.
