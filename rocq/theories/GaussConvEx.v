(** Greedy message passing over definite Gaussian factors stops on trees. *)
From Verif Require Export GaussConv GaussGraphEx.
#[global] Set Bullet Behavior "Strict Subproofs".
Local Open Scope list_scope.
Local Open Scope nat_scope.
Local Notation io := SparseExamples.id_oracle.
Local Notation io_ok := SparseExamples.id_oracle_ok.

Section Def.
Context (o : oracle) (factors : list gauss) (ev : option (dict string R)) (special : dict string R) (g0 : cgraph gauss R).
Hypothesis Ho : oracle_ok o.
Hypothesis Hf : forall f, In f factors -> def_gauss f.
Hypothesis Hmk : mk_graph (gauss_ops o) o factors ev special = Ok g0.
Local Notation ops := (gauss_ops o).

Lemma gbounded : tree_shaped g0 ->
  exists N, forall g tol max_iter g', history ops g0 g -> (0 <= tol)%R -> process_graph ops tol max_iter g = Ok g' -> length (g_dists g') <= N.
Proof.
  exact (pmessages_bounded ops gproper gsound gready _ gval (gproper_plaws o Ho) (gproper_tlaws o Ho) (gproper_qlaws o Ho) o factors ev special g0 Ho
    (fun f H => def_proper f (Hf f H)) Hmk).
Qed.
Lemma gconverges : tree_shaped g0 -> NoDup (dkeys special) -> length (g_cl g0) <> 1 ->
  exists N, forall g tol max_iter, history ops g0 g -> (0 <= tol)%R -> N < max_iter * length (g_paths g0) ->
    exists g', process_graph ops tol max_iter g = Ok g' /\ length (g_dists g') <= N /\
      forall k, k < length (g_paths g') -> vleb (gain_of (g_paths g') k) (Fin tol) = true.
Proof.
  intros TR Hd Hn. pose proof (fun f H => def_proper f (Hf f H)) as Gf.
  destruct (pgreedy_converges ops gproper gsound gready _ gval (gproper_plaws o Ho) (gproper_tlaws o Ho) (gproper_qlaws o Ho) o factors ev special g0 Ho Gf Hmk TR Hn) as (N & HN).
  exists N. intros g tol n Hh Ht Hlt. destruct (gnever_fails o factors ev special Ho Hf g0 Hmk g Hh) as (_ & Hp & _).
  destruct (Hp tol n Hd) as (g' & E).
  - intros c Ec. exfalso. apply Hn.
    destruct (plive_all ops gproper gsound gready _ gval (gproper_plaws o Ho) (gproper_tlaws o Ho) (gproper_qlaws o Ho) o factors ev special g0 Ho Gf Hmk) as (reduced & final & M & Gfin & HL).
    destruct (HL g Hh) as (LV & _). destruct (HL g0 (hi_init _ _)) as (LV0 & _).
    destruct (plinked_same ops gproper gsound gready gval o final ev special g g0 (pv_inv _ _ _ _ _ _ _ _ _ _ LV) (pv_inv _ _ _ _ _ _ _ _ _ _ LV0)) as (Hl & _).
    rewrite <- Hl, Ec. reflexivity.
  - exists g'. split; [exact E|]. exact (HN g tol n g' Hh Ht Hlt E).
Qed.
(** If no waiting message would change anything, every query about one cluster is answered exactly. *)
Lemma gcalibrated_answer g vrs : history ops g0 g -> tree_shaped g0 ->
  (forall k p e, nth_error (g_paths g) k = Some p -> gval (m_fac (p_next p)) e = match p_prev p with Some m => gval (m_fac m) e | None => 1%R end) ->
  vrs <> [] -> NoDup vrs -> (forall v, In v vrs -> ~ In v (dkeys special)) -> (exists c, In c (g_cl g) /\ incl vrs (ga_vars (cl_fac c))) ->
  exists res, get_marginal ops g vrs = Ok res /\ (forall v, In v (ga_vars res) <-> In v vrs) /\
    forall rem e, agrees_opt ev e -> agrees special e -> NoDup rem ->
      (forall v, In v rem <-> (exists f, In f factors /\ In v (ga_vars f)) /\ ~ In v (observed ev) /\ ~ In v (dkeys special) /\ ~ In v vrs) ->
      iint rem (fun e' => Rprod (map (fun f => gval f e') factors)) e (gval res e).
Proof.
  intros Hh TR HS Hn Hd Hsp Hc. destruct (ganswer o factors ev special Ho Hf g0 Hmk g vrs Hh Hn Hd Hsp Hc) as (res & E). exists res. split; [exact E|].
  exact (dsettled o factors ev special g0 Ho Hf Hmk g vrs res Hh TR HS Hn Hd Hsp E).
Qed.
End Def.
Lemma gg_converges : exists g0, (forall f, In f gg_chain -> def_gauss f) /\ mk_graph (gauss_ops io) io gg_chain None gg_special = Ok g0 /\
  tree_shaped g0 /\ NoDup (dkeys gg_special) /\ length (g_cl g0) <> 1 /\ length (g_paths g0) = 4.
Proof.
  destruct gg_ready as (g & D & H & TR & Hl). exists g. split; [exact D|]. split; [exact H|]. split; [exact TR|]. split; [constructor; [intros []|constructor]|].
  split; [lia|]. destruct (gg_links gg_special g (or_intror eq_refl) H) as (_ & HE & _).
  destruct (mk_graph_made _ io gg_chain None gg_special g io_ok H) as (reduced & final & M). pose proof (mk_struct _ _ _ _ _ _ _ _ M) as ST.
  transitivity (length (pedges g)); [unfold pedges; now rewrite map_length|]. transitivity (length [(0, 1); (1, 0); (1, 2); (2, 1)]); [|reflexivity].
  apply Permutation_length, NoDup_Permutation.
  - apply NoDup_nth_error. intros a b Ha E. destruct (nth_error (pedges g) a) as [x|] eqn:Ea; [|apply nth_error_None in Ea; lia].
    symmetry in E. apply pedges_nth in Ea, E. destruct Ea as (p & Hp & <-). destruct E as (q & Hq & E). inversion E. exact (st_pair _ _ ST a b p q Hp Hq ltac:(congruence) ltac:(congruence)).
  - repeat (constructor; [cbn; intuition discriminate|]). constructor.
  - intros [i j]. rewrite <- HE. split.
    + intros I. apply In_nth_error in I. destruct I as (k & I). apply pedges_nth in I. destruct I as (p & Hp & E). inversion E. exists k, p. auto.
    + intros (k & p & Hp & <- & <-). apply (nth_error_In _ k). apply pedges_nth. exists p. auto.
Qed.
