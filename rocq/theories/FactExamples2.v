(** More concrete factorised factors: scopes, reduction, normalising, division. *)
From Verif Require Export FactExamples.
#[global] Set Bullet Behavior "Strict Subproofs".
Local Open Scope string_scope.
Local Open Scope R_scope.

Lemma one_wf v k : wf_gauss (one_v v k).
Proof. apply wf_can_obj; [constructor; [intros []|constructor]|now repeat split]. Qed.
Definition sc_a (o : oracle) : fg := {| fg_vars := so o ["x"]; fg_factors := [ch1] |}.
Lemma sc_made o : mk_fg o [ch1] = Ok (sc_a o).
Proof. unfold mk_fg. cbn [mapM]. destruct ch1_ok as (_ & _ & ->). reflexivity. Qed.
Lemma sc_vars o v : oracle_ok o -> In v (so o ["x"]) <-> v = "x".
Proof.
  intros (Ho & _). assert (D : NoDup ["x"]) by (constructor; [intros []|constructor]). pose proof (Ho ["x"] D) as HP. split.
  - intros H. apply (Permutation_in _ (Permutation_sym HP)) in H. destruct H as [H|[]]; congruence.
  - intros ->. apply (Permutation_in _ HP). now left.
Qed.
(** Multiplying by a factor over a new variable: the scope is stale, and marginalising onto the
    old variable keeps the new one. *)
Lemma stale_scope o : oracle_ok o -> exists a r b, mk_fg o [ch1] = Ok a /\ fg_multiply o a (one_v "b" 1) = Ok r /\
  ~ In "b" (fg_vars r) /\ in_scope (fg_factors r) "b" /\ fg_marginalize o r ["x"] true = Ok (Datatypes.inr b) /\ In "b" (fg_vars b).
Proof.
  intros Ho. destruct ch1_ok as (S1 & P1 & C1). destruct (one_v_solid "b" 1 Rlt_0_1) as (Sb & Pb). pose proof (copy_one "b" 1 Rlt_0_1) as Cb.
  exists (sc_a o). assert (EM : fg_multiply o (sc_a o) (one_v "b" 1) = Ok {| fg_vars := so o ["x"]; fg_factors := [ch1; one_v "b" 1] |}).
  { unfold fg_multiply, fg_copy. cbn [sc_a fg_factors mapM]. rewrite C1. cbn [bind]. rewrite sc_made. reflexivity. }
  assert (Vx : ~ In "b" (so o ["x"])) by (rewrite (sc_vars o "b" Ho); discriminate).
  set (out := set_diff (so o ["x"]) ["x"]).
  assert (Eo : out = []).
  { assert (H : forall v, ~ In v out) by (intros v H; apply In_set_diff in H; destruct H as (H1 & H2); apply (sc_vars o v Ho) in H1; subst v; apply H2; now left).
    destruct out as [|v l]; [reflexivity|]. destruct (H v). now left. }
  destruct (marg_step_ok o [] [] (Fin 0) ch1 Ho S1 P1) as [(w & _ & _ & Hv & _)|(m1 & E1 & Sm1 & Pm1 & Vm1 & _ & _)]. { destruct (Hv "x"). now left. }
  destruct (marg_step_ok o [] [m1] (Fin 0) (one_v "b" 1) Ho Sb Pb) as [(w & _ & _ & Hv & _)|(m2 & E2 & Sm2 & Pm2 & Vm2 & _ & _)]. { destruct (Hv "b"). now left. }
  pose proof (add_weight_lv m1 (Fin 0) (proj1 Sm1)) as (Wa & Va & _).
  destruct (mk_fg_ok o [add_log_weight m1 (Fin 0); m2] Ho) as (b & Eb & Fb & Scb). { intros f [<-|[<-|[]]]; [exact Wa|apply Sm2]. }
  exists {| fg_vars := so o ["x"]; fg_factors := [ch1; one_v "b" 1] |}, b. split; [apply sc_made|]. split; [exact EM|]. cbn [fg_vars fg_factors]. split; [exact Vx|]. split.
  { exists (one_v "b" 1). cbn. auto. }
  split.
  - unfold fg_marginalize. cbn [marginal_vars fg_vars fg_factors]. fold out.
    rewrite (intersecting_some [ch1; one_v "b" 1] ["x"] "x" ch1); [|now left|now left|now left]. cbn [raise_if bind].
    unfold fg_copy. cbn [fg_factors mapM]. rewrite C1, Cb. cbn [bind]. unfold mk_fg at 1. cbn [mapM]. rewrite C1, Cb. cbn [bind fg_factors].
    rewrite Eo. assert (merge_shared [ch1; one_v "b" 1] [] = Ok [ch1; one_v "b" 1]) as -> by reflexivity. cbn [bind foldM]. rewrite E1. cbn [bind app]. rewrite E2. cbn [bind app].
    rewrite Eb. reflexivity.
  - apply Scb. rewrite (same_scope _ _ "b" Fb). exists m2. split; [right; now left|]. apply Vm2. cbn. auto.
Qed.
(** When the factor adds no variable the scope is right. *)
Lemma multiply_scoped o a f : oracle_ok o -> all_wf (fg_factors a) -> wf_gauss f -> (forall v, In v (ga_vars f) -> in_scope (fg_factors a) v) ->
  exists r, fg_multiply o a f = Ok r /\ scoped r /\ forall v, In v (fg_vars r) <-> in_scope (fg_factors a) v.
Proof.
  intros Ho H W Hf. destruct (fg_multiply_spec o a f Ho H W) as (r & E & _ & _ & _ & Sr & Dr & Vr). exists r. split; [exact E|]. split; [|exact Vr].
  split; [exact Dr|]. intros v. rewrite Vr, Sr. pose proof (Hf v). tauto.
Qed.
(** * Reduction *)
Lemma solid_sym f : solid f -> sym_prec f.
Proof. intros (_ & _ & _ & P & _) [[K h] g] E. apply (P K h g E). Qed.
Lemma chain_reduce_inside o : fg_reduce o (chain_fg o) ["x"; "y"] [0; 0] = Err AssertionError.
Proof.
  apply (fg_reduce_inside o (chain_fg o) ["x"; "y"] [0; 0] ch1); [now apply nd2|reflexivity| |now left| | |discriminate].
  - intros g Hg. destruct (chain_ok g Hg) as (Sg & _). split; [apply Sg|now apply solid_sym].
  - intros v [<-|[]]. now left.
  - intros H. destruct (H "y"); [right; now left|discriminate|contradiction].
Qed.
Lemma chain_reduce_hyps : exists o, oracle_ok o /\ NoDup ["y"] /\ length [3] = length ["y"] /\
  (forall f, In f (fg_factors (chain_fg o)) -> wf_gauss f /\ sym_prec f /\ (incl (ga_vars f) ["y"] -> incl ["y"] (ga_vars f))) /\
  (exists f, In f (fg_factors (chain_fg o)) /\ ~ incl (ga_vars f) ["y"]).
Proof.
  destruct id_oracle_ok as (o & Ho). exists o. split; [exact Ho|]. split; [constructor; [intros []|constructor]|]. split; [reflexivity|]. split.
  - intros f Hf. destruct (chain_ok f Hf) as (Sf & _). split; [apply Sf|]. split; [now apply solid_sym|]. intros Hi.
    destruct Hf as [<-|[<-|[<-|[]]]]; cbn in Hi; exfalso.
    + destruct (Hi "x"); [now left|discriminate|contradiction].
    + destruct (Hi "x"); [now left|discriminate|contradiction].
    + destruct (Hi "a"); [right; now left|discriminate|contradiction].
  - exists ch1. split; [now left|]. intros Hi. destruct (Hi "x"); [now left|discriminate|contradiction].
Qed.
Lemma single_reduce_all o : fg_reduce o (sc_a o) ["x"] [0] = Err IndexError.
Proof.
  apply fg_reduce_all; [constructor; [intros []|constructor]|reflexivity|]. intros f [<-|[]]. split; [apply one_wf|reflexivity].
Qed.
(** * Division *)
Definition dvC : gauss := one_v "y" 1.
Definition dvF : gauss := one_v "x" (1 + 1 / 20000).
Definition dv_a (o : oracle) : fg := {| fg_vars := so o ["x"; "y"]; fg_factors := [ch1; dvC] |}.
Lemma dv_made o : mk_fg o [ch1; dvC] = Ok (dv_a o).
Proof. unfold mk_fg. cbn [mapM]. destruct ch1_ok as (_ & _ & ->). unfold dvC. rewrite copy_one by lra. reflexivity. Qed.
Lemma dv_copy o : fg_copy o (dv_a o) = Ok (dv_a o).
Proof. unfold fg_copy. cbn [dv_a fg_factors mapM]. destruct ch1_ok as (_ & _ & ->). unfold dvC. rewrite copy_one by lra. cbn [bind]. apply dv_made. Qed.
Lemma dv_matches : matches ch1 dvF.
Proof.
  split; [reflexivity|]. do 2 eexists. split; [reflexivity|]. split; [reflexivity|]. split.
  - cbn [snd]. apply close_refl.
  - split; cbn [ga_vars ch1 dvF one_v can_obj fst snd].
    + intros u v [<-|[]] [<-|[]]. cbn. unfold close, default_tol. rewrite (Rabs_left (1 - _)), Rabs_right by lra. lra.
    + intros u [<-|[]]. cbn. apply close_self; unfold default_tol; lra.
Qed.
Lemma dv_close_removed o : oracle_ok o -> exists r f', mk_fg o [ch1; dvC] = Ok (dv_a o) /\ fg_divide o (dv_a o) dvF = Ok (r, f') /\
  (exists e, lvs (fg_factors r) e <> vsub (lvs (fg_factors (dv_a o)) e) (lv dvF e)) /\ fg_factors r = [dvC] /\ In "x" (fg_vars r).
Proof.
  intros Ho. destruct (equals_matches ch1 dvF) as (b & f' & E & _ & I); [apply one_v_canonical; lra|apply one_v_canonical; lra|].
  pose proof (proj2 I dv_matches) as ->. exists {| fg_vars := so o ["x"; "y"]; fg_factors := [dvC] |}, f'. split; [apply dv_made|]. split.
  { unfold fg_divide. rewrite dv_copy. cbn [bind]. cbn [dv_a fg_factors length fg_find]. rewrite E. reflexivity. }
  cbn [fg_factors fg_vars]. split; [|split; [reflexivity|]].
  - exists (fun _ => 1). intros Q. apply (f_equal pot) in Q. cbn [dv_a fg_factors] in Q.
    assert (G : forall v k, 0 < k -> exists z, lv (one_v v k) (fun _ => 1) = Fin z /\ exp z = exp (- / 2 * (k * (1 * 1)))).
    { intros v k Hk. destruct (one_v_solid v k Hk) as (Sv & Pv). pose proof (lv_plain _ (fun _ => 1) Sv Pv) as L. pose proof (one_v_val v k (fun _ => 1)) as V. rewrite gval_lv in V.
      destruct (lv (one_v v k) (fun _ => 1)) as [|z| |]; cbn in L, V; try contradiction; [|now exists z]. pose proof (exp_pos (- / 2 * (k * (1 * 1)))). lra. }
    destruct (G "x" 1 ltac:(lra)) as (z1 & L1 & V1). destruct (G "y" 1 ltac:(lra)) as (z2 & L2 & V2). destruct (G "x" (1 + 1 / 20000) ltac:(lra)) as (z3 & L3 & V3).
    rewrite !lvs_cons in Q. unfold lvs in Q. cbn [fold_right] in Q. unfold dvC, dvF, ch1 in Q. rewrite L1, L2, L3 in Q. cbn [vadd vsub pot] in Q.
    apply exp_inv in V1, V2, V3, Q. lra.
  - destruct Ho as (Ho & _). apply (Permutation_in _ (Ho ["x"; "y"] ltac:(now apply nd2))). now left.
Qed.
Lemma dv_spanning o : fg_divide o (dv_a o) (two_v "x" "y" 1 0 1) = Err PyException.
Proof. unfold fg_divide. rewrite dv_copy. reflexivity. Qed.
Lemma dv_hyps : exists o, oracle_ok o /\ (forall fi, In fi (fg_factors (chain_fg o)) -> wf_gauss fi /\ ga_vac fi = false) /\ wf_gauss eqB /\ regular eqB /\ ga_vac eqB = false.
Proof.
  destruct id_oracle_ok as (o & Ho). exists o. split; [exact Ho|]. split; [intros f Hf; destruct (chain_ok f Hf) as ((W & V & _) & _); now split|].
  destruct (one_v_solid "x" 2 ltac:(lra)) as ((W & V & _ & P & _) & _). split; [exact W|]. split; [|exact V].
  intros K h g E. pose proof (P K h g E) as PK. split; [apply PK|now apply posdef_det].
Qed.
(** * The product and the joint *)
Theorem fg_multiply_joint o a f : oracle_ok o -> fg_factors a <> [] -> all_wf (fg_factors a) -> wf_gauss f ->
  exists r j jr, fg_multiply o a f = Ok r /\ fg_joint a = Ok j /\ fg_joint r = Ok jr /\
    (forall v, In v (ga_vars jr) <-> In v (ga_vars j) \/ In v (ga_vars f)) /\
    forall e l1 l2, lp j e = Ok l1 -> lp f e = Ok l2 -> lp jr e = Ok (vadd l1 l2).
Proof.
  intros Ho Hn H W. destruct (fg_multiply_spec o a f Ho H W) as (r & E & Nr & Wr & Lr & Sr & _). destruct (joint_spec a Hn H) as (j & Ej & _ & Vj & Lj).
  destruct (joint_spec r Nr Wr) as (jr & Ejr & _ & Vjr & Ljr). exists r, j, jr. split; [exact E|]. split; [exact Ej|]. split; [exact Ejr|]. split.
  - intros v. now rewrite Vjr, Vj, Sr.
  - intros e l1 l2 H1 H2. rewrite Lj in H1. injection H1 as <-. rewrite (lp_lv f e W) in H2. injection H2 as <-. now rewrite Ljr, Lr.
Qed.
Lemma multiply_hyps : exists o, oracle_ok o /\ fg_factors (chain_fg o) <> [] /\ all_wf (fg_factors (chain_fg o)) /\ wf_gauss ex_bc.
Proof.
  destruct id_oracle_ok as (o & Ho). exists o. split; [exact Ho|]. split; [discriminate|]. split; [|exact wf_bc].
  intros f Hf. destruct (chain_ok f Hf) as ((W & _) & _). exact W.
Qed.
Lemma no_new_hyps : exists o, oracle_ok o /\ all_wf (fg_factors (chain_fg o)) /\ wf_gauss ch3 /\ (forall v, In v (ga_vars ch3) -> in_scope (fg_factors (chain_fg o)) v).
Proof.
  destruct multiply_hyps as (o & Ho & _ & H & _). exists o. split; [exact Ho|]. split; [exact H|]. split; [apply ch3_ok|]. intros v Hv. exists ch3. cbn. auto.
Qed.
Lemma normalize_hyps : exists o a f' C m w, oracle_ok o /\ fg_factors a = [ex_ab] /\ solid ex_ab /\ get_cov ex_ab = Ok (f', (C, m, Fin w)).
Proof.
  destruct id_oracle_ok as (o & Ho). destruct ex_ab_weight as (f' & C & m & w & G). exists o, {| fg_vars := ["a"; "b"]; fg_factors := [ex_ab] |}, f', C, m, w.
  split; [exact Ho|]. split; [reflexivity|]. split; [exact ex_ab_solid|exact G].
Qed.
Lemma normalize_refuted : exists o a, oracle_ok o /\ mk_fg o chain = Ok a /\ fg_normalize o a = Err AttributeError.
Proof.
  destruct id_oracle_ok as (o & Ho). exists o, (chain_fg o). split; [exact Ho|]. split; [apply chain_made|]. apply fg_normalize_fails; [exact Ho| |cbn; lia].
  intros f Hf. destruct (chain_ok f Hf) as ((W & _) & _). exact W.
Qed.
(** Reducing on the joint: the same function. *)
Theorem fg_reduce_joint o a vrs values : oracle_ok o -> NoDup vrs -> length values = length vrs ->
  (forall f, In f (fg_factors a) -> wf_gauss f /\ sym_prec f /\ (incl (ga_vars f) vrs -> incl vrs (ga_vars f))) ->
  (exists f, In f (fg_factors a) /\ ~ incl (ga_vars f) vrs) ->
  exists r j jr, fg_reduce o a vrs values = Ok r /\ fg_joint a = Ok j /\ fg_joint r = Ok jr /\ scoped r /\
    (forall v, In v (ga_vars jr) <-> In v (ga_vars j) /\ ~ In v vrs) /\
    forall e, map e vrs = values -> lp jr e = lp j e.
Proof.
  intros Ho Hd HL H HE. destruct (fg_reduce_spec o a vrs values Ho Hd HL H HE) as (r & E & Nr & Wr & Sr & Sc & Lr).
  assert (Hn : fg_factors a <> []) by (destruct HE as (f & Hf & _); intros Hz; rewrite Hz in Hf; destruct Hf).
  destruct (joint_spec a Hn (fun f Hf => proj1 (H f Hf))) as (j & Ej & _ & Vj & Lj). destruct (joint_spec r Nr Wr) as (jr & Ejr & _ & Vjr & Ljr).
  exists r, j, jr. split; [exact E|]. split; [exact Ej|]. split; [exact Ejr|]. split; [exact Sr|]. split.
  - intros v. now rewrite Vjr, Vj, Sc.
  - intros e He. now rewrite Ljr, Lj, (Lr e He).
Qed.
(** Division, on the joint. *)
Theorem fg_divide_joint o a f : oracle_ok o -> (forall fi, In fi (fg_factors a) -> wf_gauss fi /\ ga_vac fi = false) ->
  wf_gauss f -> regular f -> ga_vac f = false ->
  (forall fi f1 fi' f2, In fi (fg_factors a) -> same_fun f f1 -> g_equals fi f1 default_tol default_tol = Ok (true, fi', f2) -> forall e, lp fi e = lp f1 e) ->
  (exists fi, In fi (fg_factors a) /\ incl (ga_vars f) (ga_vars fi)) ->
  exists r f' j jr, fg_divide o a f = Ok (r, f') /\ fg_joint a = Ok j /\ fg_joint r = Ok jr /\
    forall e l1 x, lp j e = Ok l1 -> lp f e = Ok (Fin x) -> lp jr e = Ok (vsub l1 (Fin x)).
Proof.
  intros Ho HW W R2 V HX (f0 & Hf0 & Hi0). assert (Hn : fg_factors a <> []) by (intros Hz; rewrite Hz in Hf0; destruct Hf0).
  destruct (joint_spec a Hn (fun f Hf => proj1 (HW f Hf))) as (j & Ej & _ & Vj & Lj).
  destruct (fg_divide_spec o a f Ho HW W R2 V) as [(r & f' & fs1 & fi & fs2 & f1 & f2 & E & SF & Nr & Wr & EA & S1 & GE & Lr)|[(r & f' & E & SF & Nr & Wr & Sr & Lr)|(_ & H)]].
  - destruct (joint_spec r Nr Wr) as (jr & Ejr & _ & Vjr & Ljr). exists r, f', j, jr. split; [exact E|]. split; [exact Ej|]. split; [exact Ejr|].
    intros e l1 x H1 H2. rewrite Lj in H1. injection H1 as <-. rewrite (lp_lv f e W) in H2. injection H2 as H2.
    assert (Lf : lv fi e = Fin x).
    { rewrite <- H2, <- (same_fun_lv f f1 e S1). unfold lv. rewrite (HX fi f1 fi f2); [reflexivity|rewrite EA; apply in_elt|exact S1|exact GE]. }
    rewrite Ljr, Lr, EA, !lvs_app, lvs_cons, Lf. f_equal. destruct (lvs fs1 e), (lvs fs2 e); cbn; try reflexivity. f_equal. ring.
  - destruct (joint_spec r Nr Wr) as (jr & Ejr & _ & Vjr & Ljr). exists r, f', j, jr. split; [exact E|]. split; [exact Ej|]. split; [exact Ejr|].
    intros e l1 x H1 H2. rewrite Lj in H1. injection H1 as <-. rewrite (lp_lv f e W) in H2. injection H2 as H2. now rewrite Ljr, Lr, H2.
  - destruct (H f0 Hf0 Hi0).
Qed.
Lemma divide_hyps : exists o, oracle_ok o /\ (forall fi, In fi (fg_factors (chain_fg o)) -> wf_gauss fi /\ ga_vac fi = false) /\ wf_gauss dvC /\ regular dvC /\ ga_vac dvC = false /\
  (forall fi f1 fi' f2, In fi (fg_factors (chain_fg o)) -> same_fun dvC f1 -> g_equals fi f1 default_tol default_tol = Ok (true, fi', f2) -> forall e, lp fi e = lp f1 e) /\
  (exists fi, In fi (fg_factors (chain_fg o)) /\ incl (ga_vars dvC) (ga_vars fi)).
Proof.
  destruct dv_hyps as (o & Ho & HW & _). exists o. split; [exact Ho|]. split; [exact HW|]. destruct (one_v_solid "y" 1 Rlt_0_1) as ((W & V & _ & P & _) & _).
  split; [exact W|]. split; [intros K h g E; pose proof (P K h g E) as PK; split; [apply PK|now apply posdef_det]|]. split; [exact V|]. split.
  - intros fi f1 fi' f2 Hf SF GE. exfalso. unfold g_equals in GE.
    destruct (seteqb (ga_vars fi) (ga_vars f1)) eqn:Es; cbn [negb] in GE; [|discriminate]. pose proof (proj1 (seteqb_iff _ _) Es) as HV.
    assert (G : forall v, In v (ga_vars fi) -> v = "y").
    { intros v Hv. apply HV in Hv. apply (same_fun_in _ _ v SF) in Hv. destruct Hv as [Hv|[]]. congruence. }
    destruct Hf as [<-|[<-|[<-|[]]]]; cbn in G.
    + assert ("x" = "y") by (apply G; now left). discriminate.
    + assert ("x" = "y") by (apply G; now left). discriminate.
    + assert ("a" = "y") by (apply G; right; now left). discriminate.
  - exists ch2. split; [right; now left|]. intros v [<-|[]]. right. now left.
Qed.
