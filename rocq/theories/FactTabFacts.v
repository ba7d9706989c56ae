(** Facts about factorised dense tables (FactTabModel.v). *)
From Coq Require Import ZArith Lia Lra Permutation.
From Verif Require Export FactTabModel DenseLaws.
From Verif Require Import DenseProofs DenseProofs2 DenseProofs3 DenseExamples BaseFacts GaussModel FactFacts FactEq GraphProd.
Local Open Scope nat_scope.
Local Open Scope list_scope.

(** Tables over variables with common cardinalities and assignment names; entries may be zero. *)
Record tab (card : string -> nat) (nm : string -> list aname) (f : dense) : Prop := {
  tb_wf : wf_dense f;
  tb_card : forall v c, d_has_card f v c -> c = card v;
  tb_names : forall v ns, dget (dnames f) v = Some ns -> ns = nm v }.
(** The product of the potentials; the scope; the assignments inside all tables. *)
Definition tprod (fs : list dense) (e : env) : R := fold_right Rmult 1%R (map (fun f => dpot f e) fs).
Definition tscope (fs : list dense) (v : string) : Prop := exists f, In f fs /\ In v (dvars f).
Definition trange (fs : list dense) (e : env) : Prop := forall f, In f fs -> d_in_range f e.
(** Two tables over the same variables, close entry by entry. *)
Definition tclose (g f : dense) : Prop :=
  (forall v, In v (dvars g) <-> In v (dvars f)) /\
  forall e, d_in_range g e -> visclose (dval g e) (dval f e) default_tol default_tol = true.

Lemma tprod_cons f fs e : tprod (f :: fs) e = (dpot f e * tprod fs e)%R.
Proof. reflexivity. Qed.
Lemma tprod_app fs gs e : tprod (fs ++ gs) e = (tprod fs e * tprod gs e)%R.
Proof. induction fs as [|f fs IH]; [cbn; unfold tprod; cbn; ring|]. cbn [app]. rewrite !tprod_cons, IH. ring. Qed.
Lemma trange_cons f fs e : trange (f :: fs) e <-> d_in_range f e /\ trange fs e.
Proof. unfold trange. split; [intros H; split; [apply H; now left|intros g Hg; apply H; now right]|intros [A B] g [<-|Hg]; auto]. Qed.
Lemma trange_app fs gs e : trange (fs ++ gs) e <-> trange fs e /\ trange gs e.
Proof.
  unfold trange. split; [intros H; split; intros g Hg; apply H, in_or_app; auto|].
  intros [A B] g Hg. apply in_app_or in Hg. destruct Hg; auto.
Qed.
Lemma tscope_cons f fs v : tscope (f :: fs) v <-> In v (dvars f) \/ tscope fs v.
Proof.
  unfold tscope. split; [intros (g & [<-|Hg] & Hv); [now left|right; now exists g]|].
  intros [Hv|(g & Hg & Hv)]; [exists f; split; [now left|exact Hv]|exists g; split; [now right|exact Hv]].
Qed.
Lemma tscope_app fs gs v : tscope (fs ++ gs) v <-> tscope fs v \/ tscope gs v.
Proof.
  unfold tscope. split.
  - intros (g & Hg & Hv). apply in_app_or in Hg. destruct Hg as [Hg|Hg]; [left|right]; now exists g.
  - intros [(g & Hg & Hv)|(g & Hg & Hv)]; exists g; (split; [apply in_or_app; auto|exact Hv]).
Qed.
Lemma tscope_concat fs v : In v (concat (map dvars fs)) <-> tscope fs v.
Proof.
  rewrite in_concat. unfold tscope. split.
  - intros (l & Hl & Hv). apply in_map_iff in Hl. destruct Hl as (f & <- & Hf). now exists f.
  - intros (f & Hf & Hv). exists (dvars f). split; [now apply in_map|exact Hv].
Qed.

Section Tab.
Context (card : string -> nat) (nm : string -> list aname).
Notation tb := (tab card nm).
Notation all := (fun fs => forall f, In f fs -> tb f).

Lemma tb_agree a b : tb a -> tb b -> d_cards_agree a b.
Proof. intros A B v c c' H H'. rewrite (tb_card _ _ _ A v c H), (tb_card _ _ _ B v c' H'). reflexivity. Qed.
Lemma tb_nagree a b : tb a -> tb b -> names_agree a b.
Proof. intros A B v c c' H H'. rewrite (tb_names _ _ _ A v c H), (tb_names _ _ _ B v c' H'). reflexivity. Qed.
Lemma tb_range f e : tb f -> (d_in_range f e <-> forall v, In v (dvars f) -> e v < card v).
Proof.
  intros T. rewrite d_range_iff by apply (tb_wf _ _ _ T).
  assert (Q : forall v, In v (dvars f) -> d_card_of f v = card v).
  { intros v Hv. apply (tb_card _ _ _ T). apply d_has_card_of; [apply (tb_wf _ _ _ T)|exact Hv]. }
  split; intros H v Hv; [rewrite <- (Q v Hv)|rewrite (Q v Hv)]; auto.
Qed.
Lemma tb_trange fs e : all fs -> (trange fs e <-> forall v, tscope fs v -> e v < card v).
Proof.
  intros T. unfold trange. split.
  - intros H v (f & Hf & Hv). exact (proj1 (tb_range f e (T f Hf)) (H f Hf) v Hv).
  - intros H f Hf. apply tb_range; [auto|]. intros v Hv. apply H. now exists f.
Qed.

(** Copies. *)
Definition cp (f : dense) : dense := mkd (dvars f) (dtens f) (dname f).
Lemma cp_dpot f e : dpot (cp f) e = dpot f e. Proof. reflexivity. Qed.
Lemma cp_range f e : d_in_range (cp f) e <-> d_in_range f e. Proof. reflexivity. Qed.
Lemma cp_tab f : tb f -> tb (cp f).
Proof.
  intros T. pose proof (wd_s _ (tb_wf _ _ _ T)) as W.
  destruct (mkd_wf (dvars f) (dtens f) (dname f) (d_card_of f) (ws_vars f W)) as (M1 & M2 & M3 & M4);
    [now apply d_shape|intros v Hv; now apply dname_len|].
  split.
  - split; [exact M1|]. intros e He. exact (wd_vals f (tb_wf _ _ _ T) e He).
  - intros v c Hc. exact (tb_card _ _ _ T v c Hc).
  - intros v ns H. assert (Hv : In v (dvars f)).
    { pose proof (ws_keys _ M1) as K. cbn [mkd dvars dnames] in K. rewrite <- K. exact (dget_Some_key _ _ _ H). }
    change (cp f) with (mkd (dvars f) (dtens f) (dname f)) in H. rewrite (M3 v Hv) in H. inversion H; subst.
    apply (tb_names _ _ _ T v). now apply dname_get.
Qed.
Lemma copy_cp f : tb f -> d_copy f = Ok (cp f).
Proof. intros T. apply d_copy_ok, (tb_wf _ _ _ T). Qed.
Lemma copies fs : all fs -> mapM d_copy fs = Ok (map cp fs).
Proof.
  intros T. induction fs as [|f fs IH]; [reflexivity|]. cbn [mapM map]. rewrite (copy_cp f) by (apply T; now left). cbn [bind].
  rewrite IH by (intros g Hg; apply T; now right). reflexivity.
Qed.
Lemma cps_all fs : all fs -> all (map cp fs).
Proof. intros T f Hf. apply in_map_iff in Hf. destruct Hf as (g & <- & Hg). apply cp_tab, T, Hg. Qed.
Lemma cps_prod fs e : tprod (map cp fs) e = tprod fs e.
Proof. induction fs as [|f fs IH]; [reflexivity|]. cbn [map]. now rewrite !tprod_cons, IH, cp_dpot. Qed.
Lemma cps_vars fs : map dvars (map cp fs) = map dvars fs.
Proof. rewrite map_map. reflexivity. Qed.
Lemma cps_scope fs v : tscope (map cp fs) v <-> tscope fs v.
Proof. rewrite <- !tscope_concat, cps_vars. reflexivity. Qed.
Lemma cps_range fs e : trange (map cp fs) e <-> trange fs e.
Proof. unfold trange. split; intros H f Hf; [exact (H (cp f) (in_map cp fs f Hf))|apply in_map_iff in Hf; destruct Hf as (g & <- & Hg); apply cp_range, H, Hg]. Qed.

Lemma mk_ft_ok o fs : all fs -> mk_ft o fs = Ok {| ft_vars := so o (dedup (concat (map dvars fs))); ft_factors := map cp fs |}.
Proof. intros T. unfold mk_ft. now rewrite (copies fs T). Qed.
Definition cpa (o : oracle) (a : ft) : ft :=
  {| ft_vars := so o (dedup (concat (map dvars (ft_factors a)))); ft_factors := map cp (map cp (ft_factors a)) |}.
Lemma ft_copy_ok o a : all (ft_factors a) -> ft_copy o a = Ok (cpa o a).
Proof. intros T. unfold ft_copy. rewrite (copies _ T). cbn [bind]. rewrite mk_ft_ok by now apply cps_all. unfold cpa. now rewrite cps_vars. Qed.
Lemma cpa_all o a : all (ft_factors a) -> all (ft_factors (cpa o a)).
Proof. intros T. cbn [cpa ft_factors]. now apply cps_all, cps_all. Qed.
Lemma cpa_prod o a e : tprod (ft_factors (cpa o a)) e = tprod (ft_factors a) e.
Proof. cbn [cpa ft_factors]. now rewrite !cps_prod. Qed.
Lemma cpa_scope o a v : tscope (ft_factors (cpa o a)) v <-> tscope (ft_factors a) v.
Proof. cbn [cpa ft_factors]. now rewrite !cps_scope. Qed.
Lemma cpa_len o a : length (ft_factors (cpa o a)) = length (ft_factors a).
Proof. cbn [cpa ft_factors]. now rewrite !map_length. Qed.

(** Products and quotients of two tables. *)
Lemma tb_mul a b : tb a -> tb b -> exists r, d_multiply a b = Ok r /\ tb r /\
  (forall v, In v (dvars r) <-> In v (dvars a) \/ In v (dvars b)) /\
  (forall e, d_in_range r e <-> d_in_range a e /\ d_in_range b e) /\
  (forall e, d_in_range r e -> dpot r e = (dpot a e * dpot b e)%R).
Proof.
  intros A B. destruct (d_multiply_spec a b (tb_wf _ _ _ A) (tb_wf _ _ _ B) (tb_agree a b A B) (tb_nagree a b A B))
    as (r & H1 & H2 & H3 & H4 & H5 & H6).
  exists r. split; [exact H1|]. split; [split|split; [exact H3|split]].
  - exact H2.
  - intros v c Hc. apply H4 in Hc. destruct Hc as [Hc|Hc]; [exact (tb_card _ _ _ A v c Hc)|exact (tb_card _ _ _ B v c Hc)].
  - intros v ns Hns. apply H5 in Hns. destruct Hns as [Hc|Hc]; [exact (tb_names _ _ _ A v ns Hc)|exact (tb_names _ _ _ B v ns Hc)].
  - intros e. split; [intros H; split; intros v c Hc; apply H, H4; auto|].
    intros [Ha Hb] v c Hc. apply H4 in Hc. destruct Hc; auto.
  - intros e He. apply (H6 e He).
Qed.
Lemma tb_div a b : tb a -> tb b -> incl (dvars b) (dvars a) -> (forall e, d_in_range b e -> dpot b e <> 0%R) ->
  exists r, d_divide a b = Ok r /\ tb r /\ (forall v, In v (dvars r) <-> In v (dvars a)) /\
  (forall e, d_in_range r e <-> d_in_range a e) /\
  (forall e, d_in_range r e -> dpot r e = (dpot a e / dpot b e)%R).
Proof.
  intros A B Hi Hz. pose proof (tb_wf _ _ _ A) as WA. pose proof (tb_wf _ _ _ B) as WB.
  destruct (d_divide_spec a b WA WB (tb_agree a b A B) (tb_nagree a b A B) Hi) as (r0 & Q1 & _ & Q3 & _).
  destruct (d_divide_pot a b WA WB (tb_agree a b A B) (tb_nagree a b A B) Hi) as (r & H1 & H2 & H4 & H5 & H6 & H7).
  rewrite H1 in Q1. inversion Q1; subst r0. clear Q1.
  assert (R : forall e, d_in_range r e <-> d_in_range a e).
  { intros e. unfold d_in_range. split; intros H v c Hc; apply H, H4, Hc. }
  assert (Rb : forall e, d_in_range a e -> d_in_range b e).
  { intros e He. apply (tb_range b e B). intros v Hv. exact (proj1 (tb_range a e A) He v (Hi v Hv)). }
  exists r. split; [exact H1|]. split; [split|split; [exact Q3|split; [exact R|]]].
  - split; [exact H2|]. intros e He. apply R in He. rewrite (H6 e He).
    pose proof (wd_vals a WA e He) as La. pose proof (wd_vals b WB e (Rb e He)) as Lb. pose proof (Hz e (Rb e He)) as Nz. unfold dpot in Nz.
    destruct (dval a e), (dval b e); cbn in *; auto; try contradiction; try (exfalso; now apply Nz).
  - intros v c Hc. apply H4 in Hc. exact (tb_card _ _ _ A v c Hc).
  - intros v ns Hns. apply H5 in Hns. exact (tb_names _ _ _ A v ns Hns).
  - intros e He. apply R in He. apply (H7 e He). apply Hz, Rb, He.
Qed.

(** The joint table. *)
Lemma fold_mul fs : forall c, tb c -> all fs -> exists j, foldM d_multiply fs c = Ok j /\ tb j /\
  (forall v, In v (dvars j) <-> tscope (c :: fs) v) /\ (forall e, d_in_range j e <-> trange (c :: fs) e) /\
  (forall e, d_in_range j e -> dpot j e = tprod (c :: fs) e).
Proof.
  induction fs as [|f fs IH]; intros c Tc T.
  - exists c. split; [reflexivity|]. split; [exact Tc|]. split; [|split].
    + intros v. rewrite tscope_cons. split; [now left|]. intros [H|(g & [] & _)]. exact H.
    + intros e. rewrite trange_cons. split; [intros H; split; [exact H|intros g []]|tauto].
    + intros e _. unfold tprod. cbn. ring.
  - cbn [foldM]. destruct (tb_mul c f Tc (T f (or_introl eq_refl))) as (r & E & Tr & Vr & Rr & Pr). rewrite E. cbn [bind].
    destruct (IH r Tr) as (j & Ej & Tj & Vj & Rj & Pj); [intros g Hg; apply T; now right|].
    exists j. split; [exact Ej|]. split; [exact Tj|]. split; [|split].
    + intros v. rewrite Vj, !tscope_cons, Vr. tauto.
    + intros e. rewrite Rj, !trange_cons, Rr. tauto.
    + intros e He. rewrite (Pj e He), !tprod_cons. apply Rj, trange_cons in He. rewrite (Pr e) by tauto. ring.
Qed.
Theorem ft_joint_spec a : ft_factors a <> [] -> all (ft_factors a) -> exists j, ft_joint a = Ok j /\ tb j /\
  (forall v, In v (dvars j) <-> tscope (ft_factors a) v) /\ (forall e, d_in_range j e <-> trange (ft_factors a) e) /\
  (forall e, d_in_range j e -> dpot j e = tprod (ft_factors a) e).
Proof.
  intros N T. unfold ft_joint. destruct (ft_factors a) as [|f fs]; [congruence|].
  rewrite (copy_cp f) by (apply T; now left). cbn [bind].
  destruct (fold_mul fs (cp f)) as (j & Ej & Tj & Vj & Rj & Pj); [apply cp_tab, T; now left|intros g Hg; apply T; now right|].
  exists j. split; [exact Ej|]. split; [exact Tj|]. split; [|split].
  - intros v. rewrite Vj, !tscope_cons. reflexivity.
  - intros e. rewrite Rj, !trange_cons. reflexivity.
  - intros e He. rewrite (Pj e He). reflexivity.
Qed.

(** multiply *)
Lemma first_cov_some vars fs : forall k i, first_covering k fs vars = Some i ->
  exists l1 g l2, fs = l1 ++ g :: l2 /\ i = k + length l1 /\ incl vars (dvars g).
Proof.
  induction fs as [|f fs IH]; intros k i H; [discriminate|]. cbn [first_covering] in H.
  destruct (subsetb vars (dvars f)) eqn:E.
  - inversion H; subst. exists [], f, fs. split; [reflexivity|]. split; [cbn; lia|]. now apply subsetb_incl.
  - destruct (IH (S k) i H) as (l1 & g & l2 & -> & -> & I). exists (f :: l1), g, l2. split; [reflexivity|]. split; [cbn; lia|exact I].
Qed.
Lemma first_cov_none vars fs : forall k, first_covering k fs vars = None -> forall g, In g fs -> ~ incl vars (dvars g).
Proof.
  induction fs as [|f fs IH]; intros k H g Hg; [destruct Hg|]. cbn [first_covering] in H.
  destruct (subsetb vars (dvars f)) eqn:E; [discriminate|]. destruct Hg as [<-|Hg]; [|now apply (IH (S k))].
  intros C. apply subsetb_incl in C. congruence.
Qed.
Lemma all_app (fs gs : list dense) : all (fs ++ gs) <-> all fs /\ all gs.
Proof.
  split; [intros H; split; intros f Hf; apply H, in_or_app; auto|].
  intros [A B] f Hf. apply in_app_or in Hf. destruct Hf; auto.
Qed.
Lemma all_cons f fs : all (f :: fs) <-> tb f /\ all fs.
Proof. split; [intros H; split; [apply H; now left|intros g Hg; apply H; now right]|intros [A B] g [<-|Hg]; auto]. Qed.
Theorem ft_multiply_spec o a f : all (ft_factors a) -> tb f ->
  exists r, ft_multiply o a f = Ok r /\ all (ft_factors r) /\ ft_factors r <> [] /\
    ft_vars r = so o (dedup (concat (map dvars (ft_factors a)))) /\
    (forall v, tscope (ft_factors r) v <-> tscope (ft_factors a) v \/ In v (dvars f)) /\
    (forall e, trange (ft_factors r) e <-> trange (ft_factors a) e /\ d_in_range f e) /\
    (forall e, trange (ft_factors r) e -> tprod (ft_factors r) e = (tprod (ft_factors a) e * dpot f e)%R).
Proof.
  intros T Tf. unfold ft_multiply. rewrite (ft_copy_ok o a T). cbn [bind].
  pose proof (cpa_all o a T) as TC.
  assert (S0 : forall v, tscope (ft_factors (cpa o a)) v <-> tscope (ft_factors a) v) by apply cpa_scope.
  assert (P0 : forall e, tprod (ft_factors (cpa o a)) e = tprod (ft_factors a) e) by apply cpa_prod.
  assert (R0 : forall e, trange (ft_factors (cpa o a)) e <-> trange (ft_factors a) e)
    by (intros e; cbn [cpa ft_factors]; now rewrite !cps_range).
  assert (V0 : ft_vars (cpa o a) = so o (dedup (concat (map dvars (ft_factors a))))) by reflexivity.
  revert TC S0 P0 R0 V0. generalize (cpa o a) as c. intros c TC S0 P0 R0 V0.
  destruct (first_covering 0 (ft_factors c) (dvars f)) as [i|] eqn:E.
  - destruct (first_cov_some _ _ _ _ E) as (l1 & g & l2 & EF & -> & I). cbn [plus]. rewrite EF, py_nth_mid. cbn [bind].
    rewrite EF in TC. pose proof TC as TC'. apply all_app in TC'. destruct TC' as [T1 T2]. apply all_cons in T2. destruct T2 as [Tg T2].
    destruct (tb_mul g f Tg Tf) as (p & Ep & Tp & Vp & Rp & Pp). rewrite Ep. cbn [bind]. rewrite list_set_mid. cbn [bind].
    eexists. split; [reflexivity|]. cbn [ft_factors ft_vars]. split; [apply all_app; split; [exact T1|apply all_cons; now split]|].
    split; [now destruct l1|]. split; [exact V0|]. split; [|split].
    + intros v. rewrite <- S0, EF, !tscope_app, !tscope_cons, Vp. tauto.
    + intros e. rewrite <- R0, EF, !trange_app, !trange_cons, Rp. tauto.
    + intros e He. rewrite <- P0, EF, !tprod_app, !tprod_cons. apply trange_app in He. destruct He as [_ He]. apply trange_cons in He.
      rewrite (Pp e) by tauto. ring.
  - eexists. split; [reflexivity|]. cbn [ft_factors ft_vars]. split; [apply all_app; split; [exact TC|intros g [<-|[]]; exact Tf]|].
    split; [now destruct (ft_factors c)|]. split; [exact V0|]. split; [|split].
    + intros v. rewrite <- S0, tscope_app, tscope_cons. split; [intros [H|[H|(g & [] & _)]]; auto|intros [H|H]; auto].
    + intros e. rewrite <- R0, trange_app, trange_cons. split; [tauto|]. intros [A B]. split; [exact A|]. split; [exact B|intros g []].
    + intros e _. rewrite <- P0, tprod_app, tprod_cons. change (tprod [] e) with 1%R. ring.
Qed.

(** divide *)
Lemma equals_close g f : tb g -> tb f -> exists b, d_equals g f default_tol default_tol = Ok b /\ (b = true <-> tclose g f).
Proof. intros G F. exact (d_equals_spec g f default_tol default_tol (tb_wf _ _ _ G) (tb_wf _ _ _ F) (tb_agree g f G F)). Qed.
Lemma find_none n f fs : forall k, tb f -> all fs -> (n <= 1 \/ forall g, In g fs -> ~ tclose g f) -> ft_find n k fs f = Ok None.
Proof.
  induction fs as [|g fs IH]; intros k Tf T H; [reflexivity|]. cbn [ft_find].
  destruct (equals_close g f (T g (or_introl eq_refl)) Tf) as (b & -> & Hb). cbn [bind].
  assert (b && Nat.ltb 1 n = false) as ->.
  { destruct H as [H|H]; [destruct b; [|reflexivity]; cbn [andb]; apply Nat.ltb_ge; exact H|].
    destruct b; [|reflexivity]. exfalso. apply (H g (or_introl eq_refl)). now apply Hb. }
  apply IH; [exact Tf|intros h Hh; apply T; now right|]. destruct H as [H|H]; [now left|right]. intros h Hh. apply H. now right.
Qed.
Lemma find_some n f l1 g l2 : forall k, tb f -> all (l1 ++ g :: l2) -> 1 < n -> (forall h, In h l1 -> ~ tclose h f) -> tclose g f ->
  ft_find n k (l1 ++ g :: l2) f = Ok (Some (k + length l1)).
Proof.
  induction l1 as [|h l1 IH]; intros k Tf T Hn H Hg; cbn [app ft_find].
  - destruct (equals_close g f (T g (or_introl eq_refl)) Tf) as (b & -> & Hb). cbn [bind].
    rewrite (proj2 Hb Hg), (proj2 (Nat.ltb_lt 1 n) Hn). cbn [andb length]. now rewrite Nat.add_0_r.
  - destruct (equals_close h f (T h (or_introl eq_refl)) Tf) as (b & -> & Hb). cbn [bind].
    assert (b = false) as ->. { destruct b; [|reflexivity]. exfalso. apply (H h (or_introl eq_refl)). now apply Hb. }
    cbn [andb]. rewrite IH; auto; [cbn [length]; f_equal; f_equal; lia|intros x Hx; apply T; now right|intros x Hx; apply H; now right].
Qed.
Theorem ft_divide_quotient o a f : all (ft_factors a) -> tb f -> (forall e, d_in_range f e -> dpot f e <> 0%R) ->
  (length (ft_factors a) <= 1 \/ forall g, In g (ft_factors a) -> ~ tclose g f) ->
  (exists g, In g (ft_factors a) /\ incl (dvars f) (dvars g)) ->
  exists r, ft_divide o a f = Ok r /\ all (ft_factors r) /\ length (ft_factors r) = length (ft_factors a) /\
    (forall v, tscope (ft_factors r) v <-> tscope (ft_factors a) v) /\
    (forall e, trange (ft_factors r) e <-> trange (ft_factors a) e) /\
    (forall e, trange (ft_factors a) e -> tprod (ft_factors r) e = (tprod (ft_factors a) e / dpot f e)%R).
Proof.
  intros T Tf Hz HN (g0 & Hg0 & I0). unfold ft_divide. rewrite (ft_copy_ok o a T). cbn [bind].
  rewrite (find_none _ f (ft_factors a) 0 Tf T HN). cbn [bind].
  pose proof (cpa_all o a T) as TC.
  assert (X0 : exists g, In g (ft_factors (cpa o a)) /\ incl (dvars f) (dvars g)).
  { exists (cp (cp g0)). split; [cbn [cpa ft_factors]; now apply in_map, in_map|exact I0]. }
  assert (S0 : forall v, tscope (ft_factors (cpa o a)) v <-> tscope (ft_factors a) v) by apply cpa_scope.
  assert (P0 : forall e, tprod (ft_factors (cpa o a)) e = tprod (ft_factors a) e) by apply cpa_prod.
  assert (R0 : forall e, trange (ft_factors (cpa o a)) e <-> trange (ft_factors a) e)
    by (intros e; cbn [cpa ft_factors]; now rewrite !cps_range).
  assert (L0 : length (ft_factors (cpa o a)) = length (ft_factors a)) by apply cpa_len.
  revert TC X0 S0 P0 R0 L0. generalize (cpa o a) as c. intros c TC (g1 & Hg1 & I1) S0 P0 R0 L0.
  destruct (first_covering 0 (ft_factors c) (dvars f)) as [i|] eqn:E; [|exfalso; exact (first_cov_none _ _ _ E g1 Hg1 I1)].
  destruct (first_cov_some _ _ _ _ E) as (l1 & g & l2 & EF & -> & I). cbn [plus]. rewrite EF, py_nth_mid. cbn [bind].
  rewrite EF in TC. pose proof TC as TC'. apply all_app in TC'. destruct TC' as [T1 T2]. apply all_cons in T2. destruct T2 as [Tg T2].
  destruct (tb_div g f Tg Tf I Hz) as (p & Ep & Tp & Vp & Rp & Pp). rewrite Ep. cbn [bind]. rewrite list_set_mid. cbn [bind].
  assert (R1 : forall e, trange (l1 ++ p :: l2) e <-> trange (ft_factors a) e).
  { intros e. rewrite <- R0, EF, !trange_app, !trange_cons, Rp. tauto. }
  eexists. split; [reflexivity|]. cbn [ft_factors]. split; [apply all_app; split; [exact T1|apply all_cons; now split]|].
  split; [rewrite <- L0, EF, !app_length; reflexivity|]. split; [|split].
  - intros v. rewrite <- S0, EF, !tscope_app, !tscope_cons, Vp. tauto.
  - exact R1.
  - intros e He. rewrite <- P0, EF, !tprod_app, !tprod_cons. apply R1, trange_app in He. destruct He as [_ He]. apply trange_cons in He.
    rewrite (Pp e) by tauto. unfold Rdiv. ring.
Qed.
Theorem ft_divide_removal o a f l1 g l2 : all (ft_factors a) -> tb f -> ft_factors a = l1 ++ g :: l2 -> 1 < length (ft_factors a) ->
  (forall h, In h l1 -> ~ tclose h f) -> tclose g f ->
  exists r, ft_divide o a f = Ok r /\ all (ft_factors r) /\ length (ft_factors r) = length (l1 ++ l2) /\
    (forall v, tscope (ft_factors r) v <-> tscope (l1 ++ l2) v) /\
    (forall e, tprod (ft_factors a) e = (dpot g e * tprod (ft_factors r) e)%R).
Proof.
  intros T Tf EF HL HN Hg. unfold ft_divide. rewrite (ft_copy_ok o a T). cbn [bind].
  rewrite EF in HL |- *. rewrite EF in T. rewrite (find_some _ f l1 g l2 0 Tf T HL HN Hg). cbn [bind plus].
  cbn [cpa ft_factors]. rewrite EF, !map_app. cbn [map].
  eexists. split; [reflexivity|]. cbn [ft_factors].
  set (m1 := map cp (map cp l1)). set (m2 := map cp (map cp l2)).
  assert (length l1 = length m1) as -> by (unfold m1; now rewrite !map_length).
  assert (Q : firstn (length m1) (m1 ++ cp (cp g) :: m2) ++ skipn (S (length m1)) (m1 ++ cp (cp g) :: m2) = m1 ++ m2).
  { rewrite firstn_app, Nat.sub_diag, firstn_all. cbn [firstn]. rewrite app_nil_r. f_equal.
    rewrite skipn_app. rewrite skipn_all2 by lia. replace (S (length m1) - length m1) with 1 by lia. reflexivity. }
  rewrite Q. apply all_app in T. destruct T as [T1 T2]. apply all_cons in T2. destruct T2 as [Tg T2].
  split; [apply all_app; split; now apply cps_all, cps_all|].
  split; [unfold m1, m2; now rewrite !app_length, !map_length|]. split.
  - intros v. rewrite !tscope_app. unfold m1, m2. rewrite !cps_scope. reflexivity.
  - intros e. rewrite !tprod_app, tprod_cons. unfold m1, m2. rewrite !cps_prod. ring.
Qed.
Theorem ft_divide_disjoint o a f : all (ft_factors a) -> tb f -> (forall g, In g (ft_factors a) -> ~ incl (dvars f) (dvars g)) ->
  ft_divide o a f = Err PyException.
Proof.
  intros T Tf H. unfold ft_divide. rewrite (ft_copy_ok o a T). cbn [bind].
  rewrite (find_none _ f (ft_factors a) 0 Tf T) by (right; intros g Hg [C _]; apply (H g Hg); intros v Hv; now apply C). cbn [bind].
  destruct (first_covering 0 (ft_factors (cpa o a)) (dvars f)) as [i|] eqn:E; [|reflexivity]. exfalso.
  destruct (first_cov_some _ _ _ _ E) as (l1 & g & l2 & EF & _ & I). cbn [cpa ft_factors] in EF.
  assert (Hg : In g (map cp (map cp (ft_factors a)))) by (rewrite EF; apply in_elt).
  apply in_map_iff in Hg. destruct Hg as (g1 & <- & Hg). apply in_map_iff in Hg. destruct Hg as (g2 & <- & Hg). exact (H g2 Hg I).
Qed.

(** Divergences are those of the product. *)
Theorem ft_kl_spec a q : ft_factors a <> [] -> all (ft_factors a) -> tb q -> (forall v, tscope (ft_factors a) v <-> In v (dvars q)) ->
  (0 < d_weight_of q)%R -> exists j, ft_joint a = Ok j /\ (forall e, trange (ft_factors a) e -> dpot j e = tprod (ft_factors a) e) /\
  ((0 < d_weight_of j)%R -> exists d, ft_kl a q = Ok d /\
    ((exists e, trange (ft_factors a) e /\ 0 < tprod (ft_factors a) e /\ dpot q e = 0)%R -> d = PInf) /\
    (~ (exists e, trange (ft_factors a) e /\ 0 < tprod (ft_factors a) e /\ dpot q e = 0)%R -> d = Fin (d_kl_of j q) /\ (0 <= d_kl_of j q)%R) /\
    (d = Fin 0 <-> forall e, trange (ft_factors a) e -> (tprod (ft_factors a) e / d_weight_of j = dpot q e / d_weight_of q)%R)).
Proof.
  intros N T Tq HV Wq. destruct (ft_joint_spec a N T) as (j & Ej & Tj & Vj & Rj & Pj). exists j. split; [exact Ej|].
  split; [intros e He; apply Pj, Rj, He|]. intros Wj. unfold ft_kl. rewrite Ej. cbn [bind].
  destruct (d_kl_spec j q (tb_wf _ _ _ Tj) (tb_wf _ _ _ Tq)) as (d & Ed & D1 & D2 & D3); auto.
  { apply NoDup_Permutation; [apply (ws_vars j (tb_wf _ _ _ Tj))|apply (ws_vars q (tb_wf _ _ _ Tq))|]. intros v. now rewrite Vj. }
  { now apply tb_agree. } { now apply tb_nagree. }
  exists d. split; [exact Ed|].
  assert (X : (exists e, d_in_range j e /\ 0 < dpot j e /\ dpot q e = 0)%R <->
              (exists e, trange (ft_factors a) e /\ 0 < tprod (ft_factors a) e /\ dpot q e = 0)%R).
  { split; intros (e & A & B & C); exists e; (split; [now apply Rj|]); (split; [|exact C]).
    - now rewrite <- (Pj e A).
    - rewrite (Pj e) by now apply Rj. exact B. }
  rewrite <- X. split; [exact D1|]. split; [exact D2|]. rewrite D3. split; intros H e He.
  - rewrite <- (Pj e) by now apply Rj. apply H. now apply Rj.
  - rewrite (Pj e He). apply H. now apply Rj.
Qed.

Theorem ft_distance_spec a : ft_factors a <> [] -> all (ft_factors a) -> exists j, ft_joint a = Ok j /\
  (forall v, In v (dvars j) <-> tscope (ft_factors a) v) /\ (forall e, d_in_range j e <-> trange (ft_factors a) e) /\
  (forall e, trange (ft_factors a) e -> dpot j e = tprod (ft_factors a) e) /\
  ((0 < d_weight_of j)%R ->
   let D := sum_over (d_card_of j) (dvars j) (fun e => kl_term (dpot j e / d_weight_of j) (1 / INR (d_n_assignments j)))%R (fun _ => 0) in
   ft_distance a = Ok (Fin D) /\ (0 <= D)%R /\
   (D = 0%R <-> forall e e', trange (ft_factors a) e -> trange (ft_factors a) e' -> tprod (ft_factors a) e = tprod (ft_factors a) e')).
Proof.
  intros N T. destruct (ft_joint_spec a N T) as (j & Ej & Tj & Vj & Rj & Pj). exists j. split; [exact Ej|].
  split; [exact Vj|]. split; [exact Rj|]. split; [intros e He; apply Pj, Rj, He|]. intros W D.
  destruct (d_vacuous_spec j (tb_wf _ _ _ Tj) W) as (A & B & C). unfold ft_distance. rewrite Ej. cbn [bind].
  split; [exact A|]. split; [exact B|]. unfold D. rewrite C. split; intros H e e' He He'.
  - rewrite <- (Pj e), <- (Pj e') by now apply Rj. apply H; now apply Rj.
  - rewrite (Pj e He), (Pj e' He'). apply H; now apply Rj.
Qed.

(** normalize *)
Theorem ft_normalize_fails o a : all (ft_factors a) -> 2 <= length (ft_factors a) -> ft_normalize o a = Err AttributeError.
Proof.
  intros T HL. unfold ft_normalize. rewrite (ft_copy_ok o a T). cbn [bind]. rewrite <- (cpa_len o a) in HL.
  destruct (ft_factors (cpa o a)) as [|f [|g fs]]; cbn [length] in HL; try lia. reflexivity.
Qed.
Theorem ft_normalize_one o a f : ft_factors a = [f] -> tb f -> (0 < d_weight_of f)%R ->
  exists r g, ft_normalize o a = Ok r /\ ft_factors r = [g] /\ dvars g = dvars f /\
    (forall e, d_in_range f e -> dpot g e = (dpot f e / d_weight_of f)%R) /\ d_weight_of g = 1%R.
Proof.
  intros EF Tf W. assert (T : all (ft_factors a)) by (rewrite EF; intros g [<-|[]]; exact Tf).
  unfold ft_normalize. rewrite (ft_copy_ok o a T). cbn [bind cpa ft_factors]. rewrite EF. cbn [map].
  assert (Tc : tb (cp (cp f))) by now apply cp_tab, cp_tab.
  rewrite (copies [cp (cp f)]) by (intros g [<-|[]]; exact Tc). cbn [bind map].
  rewrite mk_ft_ok by (intros g [<-|[]]; now apply cp_tab). cbn [bind mapM].
  destruct (d_normalize_spec (cp (cp f)) (tb_wf _ _ _ Tc) W) as (g & Eg & _ & Vg & _ & _ & _ & Pg & Wg). rewrite Eg. cbn [bind].
  eexists _, g. split; [reflexivity|]. split; [reflexivity|]. split; [exact Vg|]. split; [exact Pg|exact Wg].
Qed.

(** equals *)
Definition tcloseb (g f : dense) : bool := if ClassicalEpsilon.excluded_middle_informative (tclose g f) then true else false.
Lemma tcloseb_iff g f : tcloseb g f = true <-> tclose g f.
Proof. unfold tcloseb. destruct (ClassicalEpsilon.excluded_middle_informative _); split; auto; discriminate. Qed.
Lemma equals_closeb g f : tb g -> tb f -> d_equals g f default_tol default_tol = Ok (tcloseb g f).
Proof.
  intros G F. destruct (equals_close g f G F) as (b & -> & Hb). f_equal. rewrite <- tcloseb_iff in Hb.
  destruct b, (tcloseb g f); intuition congruence.
Qed.
Definition trow (f : dense) (bs : list dense) : nat := length (filter (tcloseb f) bs).
Definition tpairs (fs bs : list dense) : nat := fold_right (fun f n => trow f bs + n) 0 fs.
Lemma row_ok f bs : tb f -> all bs -> ft_row f bs = Ok (trow f bs).
Proof.
  intros F. induction bs as [|b bs IH]; intros T; [reflexivity|]. cbn [ft_row]. rewrite equals_closeb by (auto; apply T; now left). cbn [bind].
  rewrite IH by (intros g Hg; apply T; now right). cbn [bind]. unfold trow. cbn [filter]. destruct (tcloseb f b); reflexivity.
Qed.
Lemma count_ok fs bs : all fs -> all bs -> ft_count fs bs = Ok (tpairs fs bs).
Proof.
  intros F B. induction fs as [|f fs IH]; [reflexivity|]. cbn [ft_count]. rewrite row_ok by (auto; apply F; now left). cbn [bind].
  rewrite IH by (intros g Hg; apply F; now right). reflexivity.
Qed.
Theorem ft_equals_count a b : all (ft_factors a) -> all (ft_factors b) -> (forall v, In v (ft_vars a) <-> In v (ft_vars b)) ->
  length (ft_factors a) = length (ft_factors b) ->
  ft_equals a b = Ok (Nat.eqb (tpairs (ft_factors a) (ft_factors b)) (length (ft_factors a))).
Proof.
  intros A B HV HL. unfold ft_equals. rewrite (proj2 (seteqb_iff (ft_vars b) (ft_vars a))) by (intros v; symmetry; apply HV). cbn [negb].
  rewrite <- HL, Nat.eqb_refl. cbn [negb]. now rewrite (count_ok _ _ A B).
Qed.
(** No factor of [fs] is close to two entries of [bs]; no entry of [bs] has two factors close to it. *)
Definition tsep_rows (fs bs : list dense) : Prop := forall f, In f fs -> ForallOrdPairs (fun b b' => ~ (tclose f b /\ tclose f b')) bs.
Definition tsep_cols (fs bs : list dense) : Prop := forall b, In b bs -> ForallOrdPairs (fun f f' => ~ (tclose f b /\ tclose f' b)) fs.
Lemma tsep_row_le fs bs f : tsep_rows fs bs -> In f fs -> trow f bs <= 1.
Proof.
  intros H Hf. apply filter_at_most. specialize (H f Hf). clear -H. induction H as [|x l H HO IH]; constructor; [|exact IH].
  rewrite Forall_forall in *. intros y Hy. rewrite !tcloseb_iff. now apply H.
Qed.
Lemma tpairs_rows fs bs : (forall f, In f fs -> trow f bs <= 1) -> tpairs fs bs <= length fs /\ (tpairs fs bs = length fs <-> forall f, In f fs -> trow f bs = 1).
Proof.
  induction fs as [|f fs IH]; intros H; [split; [cbn; lia|split; [intros _ f []|reflexivity]]|].
  destruct IH as (I1 & I2); [intros g Hg; apply H; now right|]. pose proof (H f (or_introl eq_refl)). cbn [tpairs fold_right length] in *. fold (tpairs fs bs) in *.
  split; [lia|]. split.
  - intros E. assert (Q : trow f bs = 1) by lia. assert (Q' : tpairs fs bs = length fs) by lia. intros g [<-|Hg]; [exact Q|]. now apply (proj1 I2 Q').
  - intros G. rewrite (G f (or_introl eq_refl)). rewrite (proj2 I2); [reflexivity|]. intros g Hg. apply G. now right.
Qed.
Lemma trows_perm fs : forall bs, tsep_cols fs bs -> (forall f, In f fs -> trow f bs = 1) -> exists bs' rest, Permutation bs (bs' ++ rest) /\ Forall2 tclose fs bs'.
Proof.
  induction fs as [|f fs IH]; intros bs HC HR; [exists [], bs; split; [reflexivity|constructor]|].
  destruct (one_match (tcloseb f) bs (HR f (or_introl eq_refl))) as (l1 & b & l2 & -> & Hm & Hf). apply tcloseb_iff in Hm.
  destruct (IH (l1 ++ l2)) as (bs' & rest & HP & F).
  - intros x Hx. assert (Hin : In x (l1 ++ b :: l2)) by (apply in_app_or in Hx; apply in_or_app; cbn; tauto). specialize (HC x Hin). now inversion HC.
  - intros g Hg. rewrite <- (HR g (or_intror Hg)). unfold trow. rewrite !filter_app, !app_length. cbn [filter].
    assert (tcloseb g b = false) as ->; [|reflexivity]. specialize (HC b (in_elt b l1 l2)). inversion HC as [|? ? HF _]; subst. rewrite Forall_forall in HF.
    specialize (HF g Hg). destruct (tcloseb g b) eqn:E; [|reflexivity]. apply tcloseb_iff in E. exfalso. apply HF. now split.
  - exists (b :: bs'), rest. split; [|now constructor]. rewrite <- Permutation_middle, HP. reflexivity.
Qed.
Theorem ft_equals_iff a b : all (ft_factors a) -> all (ft_factors b) -> (forall v, In v (ft_vars a) <-> In v (ft_vars b)) ->
  length (ft_factors a) = length (ft_factors b) -> tsep_rows (ft_factors a) (ft_factors b) -> tsep_cols (ft_factors a) (ft_factors b) ->
  exists r, ft_equals a b = Ok r /\ (r = true <-> exists bs, Permutation bs (ft_factors b) /\ Forall2 tclose (ft_factors a) bs).
Proof.
  intros A B HV HL SR SC. rewrite (ft_equals_count a b A B HV HL). eexists. split; [reflexivity|].
  destruct (tpairs_rows (ft_factors a) (ft_factors b)) as (_ & I); [intros f Hf; now apply (tsep_row_le (ft_factors a))|].
  rewrite Nat.eqb_eq, I. split.
  - intros H. destruct (trows_perm (ft_factors a) (ft_factors b) SC H) as (bs' & rest & HP & F).
    pose proof (Permutation_length HP) as PL. rewrite app_length in PL. assert (FL : length (ft_factors a) = length bs') by (clear -F; induction F; cbn; congruence).
    destruct rest as [|x rest]; [|cbn [length] in PL; lia]. rewrite app_nil_r in HP. exists bs'. split; [now symmetry|exact F].
  - intros (bs & HP & F) f Hf. pose proof (tsep_row_le (ft_factors a) (ft_factors b) f SR Hf).
    assert (trow f (ft_factors b) <> 0); [|lia]. unfold trow. intros Z. apply length_zero_iff_nil in Z.
    assert (exists b0, In b0 bs /\ tclose f b0) as (b0 & Hb & Hc).
    { clear -F Hf. induction F as [|x y l m Hxy F IH]; [destruct Hf|]. destruct Hf as [<-|Hf]; [exists y; split; [now left|exact Hxy]|].
      destruct (IH Hf) as (b0 & Hb & Hc). exists b0. split; [now right|exact Hc]. }
    assert (In b0 (filter (tcloseb f) (ft_factors b))) as X; [|rewrite Z in X; destruct X].
    apply filter_In. split; [now apply (Permutation_in b0 HP)|now apply tcloseb_iff].
Qed.
Lemma tclose_refl f : tb f -> tclose f f.
Proof.
  intros T. apply tcloseb_iff. pose proof (equals_closeb f f T T) as E. rewrite d_equals_refl in E by (try apply (tb_wf _ _ _ T); unfold default_tol; lra). congruence.
Qed.
Theorem ft_equals_refl a : all (ft_factors a) -> ForallOrdPairs (fun f g => ~ tclose f g /\ ~ tclose g f) (ft_factors a) -> ft_equals a a = Ok true.
Proof.
  intros A HO. rewrite (ft_equals_count a a A A); [|reflexivity|reflexivity]. f_equal. apply Nat.eqb_eq.
  assert (X : forall f, In f (ft_factors a) -> trow f (ft_factors a) = 1).
  { intros f Hf. unfold trow. induction HO as [|x l H HO IH]; [destruct Hf|]. rewrite Forall_forall in H. cbn [filter]. destruct Hf as [<-|Hf].
    - rewrite (proj2 (tcloseb_iff x x)) by (apply tclose_refl, A; now left). cbn [length]. f_equal.
      clear -H. induction l as [|y l IH]; [reflexivity|]. cbn [filter]. destruct (tcloseb x y) eqn:E.
      + apply tcloseb_iff in E. exfalso. exact (proj1 (H y (or_introl eq_refl)) E).
      + apply IH. intros z Hz. apply H. now right.
    - assert (tcloseb f x = false) as ->.
      { destruct (tcloseb f x) eqn:E; [|reflexivity]. apply tcloseb_iff in E. exfalso. exact (proj2 (H f Hf) E). }
      apply IH; [intros g Hg; apply A; now right|exact Hf]. }
  apply tpairs_rows; [intros f Hf; rewrite X by exact Hf; lia|exact X].
Qed.
Theorem ft_equals_shapes a b : ft_factors a <> [] -> ft_factors b <> [] -> all (ft_factors a) -> all (ft_factors b) ->
  (forall v, In v (ft_vars a) <-> In v (ft_vars b)) -> length (ft_factors a) <> length (ft_factors b) ->
  exists r ja jb, ft_equals a b = Ok r /\ tb ja /\ tb jb /\
    (forall e, trange (ft_factors a) e -> dpot ja e = tprod (ft_factors a) e) /\
    (forall e, trange (ft_factors b) e -> dpot jb e = tprod (ft_factors b) e) /\ (r = true <-> tclose ja jb).
Proof.
  intros NA NB A B HV HL. destruct (ft_joint_spec a NA A) as (ja & Ea & Ta & Va & Ra & Pa).
  destruct (ft_joint_spec b NB B) as (jb & Eb & Tb & Vb & Rb & Pb).
  unfold ft_equals. rewrite (proj2 (seteqb_iff (ft_vars b) (ft_vars a))) by (intros v; symmetry; apply HV). cbn [negb].
  rewrite (proj2 (Nat.eqb_neq _ _) HL). cbn [negb]. rewrite Ea, Eb. cbn [bind].
  destruct (equals_close ja jb Ta Tb) as (r & Er & Hr). exists r, ja, jb. split; [exact Er|]. split; [exact Ta|]. split; [exact Tb|].
  split; [intros e He; apply Pa, Ra, He|]. split; [intros e He; apply Pb, Rb, He|exact Hr].
Qed.
Theorem ft_equals_table_spec o a f : oracle_ok o -> 2 <= length (ft_factors a) -> all (ft_factors a) -> tb f ->
  (forall v, In v (ft_vars a) <-> In v (dvars f)) ->
  exists r ja jb, ft_equals_table o a f = Ok r /\ tb ja /\ tb jb /\
    (forall e, trange (ft_factors a) e -> dpot ja e = tprod (ft_factors a) e) /\
    (forall e, d_in_range f e -> dpot jb e = dpot f e) /\ (r = true <-> tclose ja jb).
Proof.
  intros Ho HL A Tf HV. unfold ft_equals_table. rewrite mk_ft_ok by (intros g [<-|[]]; exact Tf). cbn [bind map concat].
  set (b := {| ft_vars := _; ft_factors := _ |}). destruct (ft_equals_shapes a b) as (r & ja & jb & E & Ta & Tb' & Pa & Pb & H).
  - intros C. rewrite C in HL. cbn in HL. lia.
  - discriminate.
  - exact A.
  - intros g [<-|[]]. now apply cp_tab.
  - intros v. cbn [b ft_vars]. rewrite app_nil_r, (so_In o _ v Ho (NoDup_dedup _)), In_dedup. apply HV.
  - cbn. lia.
  - exists r, ja, jb. split; [exact E|]. split; [exact Ta|]. split; [exact Tb'|]. split; [exact Pa|]. split; [|exact H].
    intros e He. rewrite Pb by (intros g [<-|[]]; exact He). cbn. rewrite Rmult_1_r. reflexivity.
Qed.
End Tab.
Theorem ft_equals_scope a b v : (In v (ft_vars a) /\ ~ In v (ft_vars b)) \/ (~ In v (ft_vars a) /\ In v (ft_vars b)) -> ft_equals a b = Ok false.
Proof.
  intros H. unfold ft_equals. destruct (seteqb (ft_vars b) (ft_vars a)) eqn:E; [|reflexivity]. exfalso.
  pose proof (proj1 (seteqb_iff _ _) E v). tauto.
Qed.
