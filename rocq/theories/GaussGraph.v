(** Cluster graphs over Gaussian factors: the properties of PosTheorems and PosTotal for factors
    given by their canonical parameters. *)
From Verif Require Export GaussTotal.
#[global] Set Bullet Behavior "Strict Subproofs".
Local Open Scope list_scope.
Local Open Scope R_scope.
Local Notation pos := GaussOps.pos.

(** A Gaussian factor with a symmetric positive semidefinite precision matrix and a finite
    constant: the canonical parameters are the ones get_K, get_h and get_g return. *)
Definition semi_gauss (f : gauss) : Prop :=
  wf_gauss f /\ exists f' K h g, get_can f = Ok (f', (K, h, Fin g)) /\ symm K /\ forall u, 0 <= qsum (nr K) K u.
(** The same with a positive definite precision, not marked as vacuous. *)
Definition def_gauss (f : gauss) : Prop :=
  wf_gauss f /\ ga_vac f = false /\ exists f' K h g, get_can f = Ok (f', (K, h, Fin g)) /\ posdef K.

Lemma can_gval f f' K h g : wf_gauss f -> get_can f = Ok (f', (K, h, Fin g)) -> forall e, gval f e = exp (can_form (ga_vars f) K h e + g).
Proof. intros W E e. unfold gval, lp. rewrite (lp_canon f f' K h (Fin g) e W E). reflexivity. Qed.
Lemma can_sym f f' K h g : get_can f = Ok (f', (K, h, g)) -> symm K -> sym_prec f.
Proof.
  intros E Y [[K0 h0] g0] Hp. rewrite (get_can_some f K0 h0 g0 Hp) in E. injection E as _ -> _ _. exact Y.
Qed.
Lemma in_dec_ex (vs : list string) (x : string -> R) : (exists v, In v vs /\ x v <> 0) \/ (forall v, In v vs -> x v = 0).
Proof.
  induction vs as [|v vs IH]; [right; intros v []|]. destruct (Req_EM_T (x v) 0) as [Z|N].
  - destruct IH as [(u & Hu & Nu)|A]; [left; exists u; split; [now right|exact Nu]|right; intros u [<-|Hu]; auto].
  - left. exists v. split; [now left|exact N].
Qed.
Lemma semi_good f : semi_gauss f -> ggood false f.
Proof.
  intros (W & f' & K & h & g & E & Y & Q). pose proof (can_gval f f' K h g W E) as G. pose proof W as (Hd & _).
  destruct (get_can_wf f W) as (f1 & K1 & h1 & g1 & E1 & _ & _ & Sh & _). rewrite E in E1. injection E1 as <- <- <- <-. destruct Sh as (HK & _).
  split; [exact W|]. split; [exact (can_sym f f' K h _ E Y)|]. split; [intros e; rewrite G; apply exp_pos|]. split; [|discriminate].
  intros x. rewrite (curv_qn (gval f) _ K h g x G), (qn_qsum (ga_vars f) K x Hd), <- HK. apply Q.
Qed.
Lemma def_proper f : def_gauss f -> gproper f.
Proof.
  intros (W & Va & f' & K & h & g & E & P). pose proof (can_gval f f' K h g W E) as G. pose proof W as (Hd & _).
  destruct (get_can_wf f W) as (f1 & K1 & h1 & g1 & E1 & _ & _ & Sh & _). rewrite E in E1. injection E1 as <- <- <- <-. destruct Sh as (HK & _).
  pose proof (proj1 (posdef_qn (ga_vars f) K Hd HK (proj1 P)) P) as Q.
  assert (Z : forall x, (exists v, In v (ga_vars f) /\ x v <> 0) -> 0 < curv (gval f) x) by (intros x Hx; rewrite (curv_qn (gval f) _ K h g x G); now apply Q).
  split; [|exact Va]. split; [exact W|]. split; [exact (can_sym f f' K h _ E (proj1 P))|]. split; [intros e; rewrite G; apply exp_pos|].
  split; [|intros _; now apply (summ_posdef f W)].
  intros x. rewrite (curv_qn (gval f) _ K h g x G). destruct (in_dec_ex (ga_vars f) x) as [Hx|Hx]; [left; now apply Q|].
  rewrite (qn_ext (ga_vars f) K x (fun _ => 0)) by (intros v Hv; exact (Hx v Hv)). rewrite qn_qsum by exact Hd. right. unfold qsum. symmetry.
  apply rsum_zero. intros i _. apply rsum_zero. intros j _. ring.
Qed.
Lemma def_semi f : def_gauss f -> semi_gauss f.
Proof.
  intros D. pose proof (def_proper f D) as ((_ & _ & _ & Q & _) & _). destruct D as (W & Va & f' & K & h & g & E & P). split; [exact W|]. exists f', K, h, g. split; [exact E|]. split; [apply P|].
  intros u. destruct (get_can_wf f W) as (f1 & K1 & h1 & g1 & E1 & _ & _ & Sh & _). rewrite E in E1. injection E1 as <- <- <- <-. pose proof W as (Hd & _). destruct Sh as (HK & _).
  rewrite HK, qsum_qn by exact Hd. rewrite <- (curv_qn (gval f) _ K h g _ (can_gval f f' K h g W E)). apply Q.
Qed.

Section Semi.
Context (o : oracle) (factors : list gauss) (ev : option (dict string R)) (special : dict string R) (g0 : cgraph gauss R).
Notation ops := (gauss_ops o).
Hypothesis Ho : oracle_ok o.
Hypothesis Hf : forall f, In f factors -> semi_gauss f.
Hypothesis Hmk : mk_graph ops o factors ev special = Ok g0.
Let L := gauss_plaws false o Ho.
Let Gf : forall f, In f factors -> ggood false f := fun f H => semi_good f (Hf f H).

Lemma gevidence : (forall e, agrees_opt ev e -> Rprod (map (fun c => gval (cl_fac c) e) (g_cl g0)) = Rprod (map (fun f => gval f e) factors)) /\
  (forall v, (exists c, In c (g_cl g0) /\ In v (ga_vars (cl_fac c))) <-> (exists f, In f factors /\ In v (ga_vars f)) /\ ~ In v (observed ev)).
Proof.
  destruct (pevidence_restricts ops (ggood false) gsound gready gval L o factors ev special g0 Ho Gf Hmk) as (A & B). split; [|exact B].
  intros e He. specialize (A e He). unfold prod_at in A. now rewrite map_map in A.
Qed.

(** The factor a cluster sends from (special evidence applied) is not marked as vacuous. *)
Hypothesis Hs : forall c r, In c (g_cl g0) -> g_reduce (cl_fac c) (dkeys (cl_spec c)) (dvals (cl_spec c)) = Ok r -> ga_vac r = false.
Lemma gclusters_good : forall c, In c (g_cl g0) -> ggood false (cl_fac c).
Proof.
  intros c Hc. destruct (mk_graph_made ops o factors ev special g0 Ho Hmk) as (reduced & final & M).
  pose proof (proj1 (made_pt_g ops (ggood false) gval (pl_prod _ _ _ _ _ L) o factors ev special reduced final g0 M Gf)) as Gfin.
  apply Gfin. rewrite <- (made_facs _ _ _ _ _ _ _ _ M). now apply in_map.
Qed.
Lemma gsent_sound : forall c r, In c (g_cl g0) -> f_reduce ops (cl_fac c) (dkeys (cl_spec c)) (dvals (cl_spec c)) = Ok r -> gsound r.
Proof.
  intros c r Hc E. pose proof (Hs c r Hc E) as V. pose proof (gclusters_good c Hc) as G.
  destruct (mk_graph_made ops o factors ev special g0 Ho Hmk) as (reduced & final & M). apply In_nth_error in Hc. destruct Hc as (i & Hc).
  pose proof (proj1 (made_pt_g ops (ggood false) gval (pl_prod _ _ _ _ _ L) o factors ev special reduced final g0 M Gf)) as Gfin.
  destruct (made_cluster ops _ _ _ _ _ _ _ i c M Hc) as (f & Hfi & Ef & _ & Es). rewrite Es in E.
  assert (Gr : ggood false r).
  { exact (proj1 (reduced_at ops (ggood false) gsound gready gval L o final ev special Gfin i f (cl_fac c) r Hfi G (fun v => eq_ind_r (fun x => In v (f_vars ops x) <-> In v (f_vars ops f)) (iff_refl _) Ef) E)). }
  apply (fresh_ready false r Gr (reduce_flag _ _ _ _ E)). exact V.
Qed.

Lemma gpotentials g : history ops g0 g ->
  (forall i c0 c, nth_error (g_cl g0) i = Some c0 -> nth_error (g_cl g) i = Some c ->
     (forall v, In v (ga_vars (cl_fac c)) <-> In v (ga_vars (cl_fac c0))) /\
     forall e, gval (cl_fac c) e =
       (gval (cl_fac c0) e * Rprod (map (fun p => match p_prev p with Some m => if Nat.eqb (p_rcv p) i then gval (m_fac m) e else 1 | None => 1 end) (g_paths g)))%R) /\
  (forall e, let sent := Rprod (map (fun p => match p_prev p with Some m => gval (m_fac m) e | None => 1%R end) (g_paths g)) in
     0 < sent /\ Rprod (map (fun c => gval (cl_fac c) e) (g_cl g)) / sent = Rprod (map (fun c => gval (cl_fac c) e) (g_cl g0))).
Proof.
  intros Hh. destruct (ppotentials_kept ops (ggood false) gsound gready gval L o factors ev special g0 Ho Gf Hmk gsent_sound g Hh) as (A & B).
  split; [exact A|]. intros e. specialize (B e). unfold prod_at in B. rewrite !map_map in B. exact B.
Qed.
Lemma gjoint g : history ops g0 g -> factors <> [] -> (forall k p, nth_error (g_paths g) k = Some p -> p_prev p <> None) ->
  exists r, get_joint ops g = Ok r /\ semi_gauss r /\
    (forall v, In v (ga_vars r) <-> (exists f, In f factors /\ In v (ga_vars f)) /\ ~ In v (observed ev)) /\
    (forall e, agrees_opt ev e -> gval r e = Rprod (map (fun f => gval f e) factors)).
Proof.
  intros Hh Hn Ha. destruct (pjoint_returned ops (ggood false) gsound gready gval L o factors ev special g0 Ho Gf Hmk gsent_sound g Hh Hn Ha) as (r & A & B & C & D).
  exists r. split; [exact A|]. split; [|split; [exact C|exact D]]. destruct B as (W & S & P & Q & _). split; [exact W|].
  destruct (ggood_canon r W S P) as (f' & K & h & g1 & E & Sh & Y & G). exists f', K, h, g1. split; [exact E|]. split; [exact Y|]. exact (psd_of r f' K h g1 W E Sh G Q).
Qed.
Lemma gjoint_missing g : history ops g0 g -> (exists k p, nth_error (g_paths g) k = Some p /\ p_prev p = None) -> get_joint ops g = Err AttributeError.
Proof. exact (pjoint_missing ops (ggood false) gsound gready gval L o factors ev special g0 Ho Gf Hmk gsent_sound g). Qed.

Hypothesis Hr : forall c, In c (g_cl g0) -> ga_vac (cl_fac c) = false.
Lemma gsettled g vrs res : history ops g0 g -> tree_shaped g0 ->
  (forall k p e, nth_error (g_paths g) k = Some p -> gval (m_fac (p_next p)) e = match p_prev p with Some m => gval (m_fac m) e | None => 1 end) ->
  vrs <> [] -> NoDup vrs -> (forall v, In v vrs -> ~ In v (dkeys special)) -> get_marginal ops g vrs = Ok res ->
  (forall v, In v (ga_vars res) <-> In v vrs) /\
  forall rem e, agrees_opt ev e -> agrees special e -> NoDup rem ->
    (forall v, In v rem <-> (exists f, In f factors /\ In v (ga_vars f)) /\ ~ In v (observed ev) /\ ~ In v (dkeys special) /\ ~ In v vrs) ->
    iint rem (fun e' => Rprod (map (fun f => gval f e') factors)) e (gval res e).
Proof. exact (psettled_marginal ops (ggood false) gsound gready gval L o factors ev special g0 Ho Gf Hmk gsent_sound Hr g vrs res). Qed.
Lemma gsweeps g ks g' vrs res : history ops g0 g -> tree_shaped g0 -> two_sweeps g ks -> foldM (pass_path ops) ks g = Ok g' ->
  vrs <> [] -> NoDup vrs -> (forall v, In v vrs -> ~ In v (dkeys special)) -> get_marginal ops g' vrs = Ok res ->
  (forall v, In v (ga_vars res) <-> In v vrs) /\
  forall rem e, agrees_opt ev e -> agrees special e -> NoDup rem ->
    (forall v, In v rem <-> (exists f, In f factors /\ In v (ga_vars f)) /\ ~ In v (observed ev) /\ ~ In v (dkeys special) /\ ~ In v vrs) ->
    iint rem (fun e' => Rprod (map (fun f => gval f e') factors)) e (gval res e).
Proof. exact (psweeps_marginal ops (ggood false) gsound gready gval L o factors ev special g0 Ho Gf Hmk gsent_sound Hr g ks g' vrs res). Qed.
End Semi.

Section Def.
Context (o : oracle) (factors : list gauss) (ev : option (dict string R)) (special : dict string R).
Notation ops := (gauss_ops o).
Hypothesis Ho : oracle_ok o.
Hypothesis Hf : forall f, In f factors -> def_gauss f.
Let L := gproper_plaws o Ho.
Let T := gproper_tlaws o Ho.
Let Gf : forall f, In f factors -> gproper f := fun f H => def_proper f (Hf f H).

Lemma gmk_some : (forall f, In f factors -> exists v, In v (ga_vars f) /\ ~ In v (observed ev)) -> exists g, mk_graph ops o factors ev special = Ok g.
Proof. exact (pmk_graph_some ops gproper gsound gready gval L T o factors ev special Ho Gf). Qed.
Section Made.
Context (g0 : cgraph gauss R).
Hypothesis Hmk : mk_graph ops o factors ev special = Ok g0.
Lemma gclusters_plain : (forall c r, In c (g_cl g0) -> g_reduce (cl_fac c) (dkeys (cl_spec c)) (dvals (cl_spec c)) = Ok r -> ga_vac r = false) /\
  (forall c, In c (g_cl g0) -> ga_vac (cl_fac c) = false).
Proof.
  destruct (tclusters ops gproper gsound gready gval L T o factors ev special g0 Ho Gf Hmk) as (A & B). split; [|exact B].
  intros c r Hc E. specialize (A c r Hc E). destruct (mk_graph_made ops o factors ev special g0 Ho Hmk) as (reduced & final & M). apply In_nth_error in Hc. destruct Hc as (i & Hc).
  pose proof (proj1 (made_pt_g ops gproper gval (pl_prod _ _ _ _ _ L) o factors ev special reduced final g0 M Gf)) as Gfin.
  destruct (made_cluster ops _ _ _ _ _ _ _ i c M Hc) as (f & Hfi & Ef & _ & Es). rewrite Es in E.
  assert (Gc : gproper (cl_fac c)) by (rewrite Ef; apply Gfin; eapply nth_error_In; eauto).
  apply (proj1 (reduced_at ops gproper gsound gready gval L o final ev special Gfin i f (cl_fac c) r Hfi Gc (fun v => eq_ind_r (fun x => In v (f_vars ops x) <-> In v (f_vars ops f)) (iff_refl _) Ef) E)).
Qed.
Lemma gnever_fails g : history ops g0 g ->
  (forall k, (k < length (g_paths g))%nat -> exists g', pass_path ops g k = Ok g') /\
  (forall tol max_iter, NoDup (dkeys special) ->
     (forall c, g_cl g = [c] -> incl (dkeys special) (ga_vars (cl_fac c)) /\ exists v, In v (ga_vars (cl_fac c)) /\ ~ In v (dkeys special)) ->
     exists g', process_graph ops tol max_iter g = Ok g') /\
  (forall q, (q < length (g_paths g))%nat -> gain_of (g_paths g) q <> NaN).
Proof.
  intros Hh. destruct (pnever_fails ops gproper gsound gready gval L T o factors ev special g0 Ho Gf Hmk g Hh) as (A & B & C). split; [|split; [exact B|exact C]].
  intros k Hk. destruct (A [k]) as (g' & E); [intros x [<-|[]]; exact Hk|]. cbn [foldM] in E. destruct (pass_path ops g k) as [x|]; [eauto|discriminate E].
Qed.
Lemma ganswer g vrs : history ops g0 g -> vrs <> [] -> NoDup vrs -> (forall v, In v vrs -> ~ In v (dkeys special)) ->
  (exists c, In c (g_cl g) /\ incl vrs (ga_vars (cl_fac c))) -> exists res, get_marginal ops g vrs = Ok res.
Proof. exact (pmarginal_some ops gproper gsound gready gval L T o factors ev special g0 Ho Gf Hmk g vrs). Qed.
Lemma gsweeps_answer g r : history ops g0 g -> tree_shaped g0 -> (r < length (g_cl g0))%nat ->
  exists ks g', two_sweeps g ks /\ length ks = (2 * (length (g_cl g0) - 1))%nat /\ foldM (pass_path ops) ks g = Ok g' /\
    forall vrs, vrs <> [] -> NoDup vrs -> (forall v, In v vrs -> ~ In v (dkeys special)) ->
      (exists c, In c (g_cl g0) /\ incl vrs (ga_vars (cl_fac c))) ->
      exists res, get_marginal ops g' vrs = Ok res /\ (forall v, In v (ga_vars res) <-> In v vrs) /\
        forall rem e, agrees_opt ev e -> agrees special e -> NoDup rem ->
          (forall v, In v rem <-> (exists f, In f factors /\ In v (ga_vars f)) /\ ~ In v (observed ev) /\ ~ In v (dkeys special) /\ ~ In v vrs) ->
          iint rem (fun e' => Rprod (map (fun f => gval f e') factors)) e (gval res e).
Proof. exact (psweeps_answer ops gproper gsound gready gval L T o factors ev special g0 Ho Gf Hmk g r). Qed.
End Made.
End Def.

(** The exactness properties for positive definite factors: no further conditions. *)
Section DefExact.
Context (o : oracle) (factors : list gauss) (ev : option (dict string R)) (special : dict string R) (g0 : cgraph gauss R).
Notation ops := (gauss_ops o).
Hypothesis Ho : oracle_ok o.
Hypothesis Hf : forall f, In f factors -> def_gauss f.
Hypothesis Hmk : mk_graph ops o factors ev special = Ok g0.
Let Hf' : forall f, In f factors -> semi_gauss f := fun f H => def_semi f (Hf f H).
Let Hs := proj1 (gclusters_plain o factors ev special Ho Hf g0 Hmk).
Let Hr := proj2 (gclusters_plain o factors ev special Ho Hf g0 Hmk).
Lemma dpotentials g : history ops g0 g ->
  (forall i c0 c, nth_error (g_cl g0) i = Some c0 -> nth_error (g_cl g) i = Some c ->
     (forall v, In v (ga_vars (cl_fac c)) <-> In v (ga_vars (cl_fac c0))) /\
     forall e, gval (cl_fac c) e =
       (gval (cl_fac c0) e * Rprod (map (fun p => match p_prev p with Some m => if Nat.eqb (p_rcv p) i then gval (m_fac m) e else 1 | None => 1 end) (g_paths g)))%R) /\
  (forall e, let sent := Rprod (map (fun p => match p_prev p with Some m => gval (m_fac m) e | None => 1%R end) (g_paths g)) in
     0 < sent /\ Rprod (map (fun c => gval (cl_fac c) e) (g_cl g)) / sent = Rprod (map (fun c => gval (cl_fac c) e) (g_cl g0))).
Proof. exact (gpotentials o factors ev special g0 Ho Hf' Hmk Hs g). Qed.
Lemma djoint g : history ops g0 g -> factors <> [] -> (forall k p, nth_error (g_paths g) k = Some p -> p_prev p <> None) ->
  exists r, get_joint ops g = Ok r /\ semi_gauss r /\
    (forall v, In v (ga_vars r) <-> (exists f, In f factors /\ In v (ga_vars f)) /\ ~ In v (observed ev)) /\
    (forall e, agrees_opt ev e -> gval r e = Rprod (map (fun f => gval f e) factors)).
Proof. exact (gjoint o factors ev special g0 Ho Hf' Hmk Hs g). Qed.
Lemma djoint_missing g : history ops g0 g -> (exists k p, nth_error (g_paths g) k = Some p /\ p_prev p = None) -> get_joint ops g = Err AttributeError.
Proof. exact (gjoint_missing o factors ev special g0 Ho Hf' Hmk Hs g). Qed.
Lemma dsettled g vrs res : history ops g0 g -> tree_shaped g0 ->
  (forall k p e, nth_error (g_paths g) k = Some p -> gval (m_fac (p_next p)) e = match p_prev p with Some m => gval (m_fac m) e | None => 1 end) ->
  vrs <> [] -> NoDup vrs -> (forall v, In v vrs -> ~ In v (dkeys special)) -> get_marginal ops g vrs = Ok res ->
  (forall v, In v (ga_vars res) <-> In v vrs) /\
  forall rem e, agrees_opt ev e -> agrees special e -> NoDup rem ->
    (forall v, In v rem <-> (exists f, In f factors /\ In v (ga_vars f)) /\ ~ In v (observed ev) /\ ~ In v (dkeys special) /\ ~ In v vrs) ->
    iint rem (fun e' => Rprod (map (fun f => gval f e') factors)) e (gval res e).
Proof. exact (gsettled o factors ev special g0 Ho Hf' Hmk Hs Hr g vrs res). Qed.
Lemma dsweeps g ks g' vrs res : history ops g0 g -> tree_shaped g0 -> two_sweeps g ks -> foldM (pass_path ops) ks g = Ok g' ->
  vrs <> [] -> NoDup vrs -> (forall v, In v vrs -> ~ In v (dkeys special)) -> get_marginal ops g' vrs = Ok res ->
  (forall v, In v (ga_vars res) <-> In v vrs) /\
  forall rem e, agrees_opt ev e -> agrees special e -> NoDup rem ->
    (forall v, In v rem <-> (exists f, In f factors /\ In v (ga_vars f)) /\ ~ In v (observed ev) /\ ~ In v (dkeys special) /\ ~ In v vrs) ->
    iint rem (fun e' => Rprod (map (fun f => gval f e') factors)) e (gval res e).
Proof. exact (gsweeps o factors ev special g0 Ho Hf' Hmk Hs Hr g ks g' vrs res). Qed.
End DefExact.
