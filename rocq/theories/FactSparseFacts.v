(** Facts about factorised sparse tables (FactSparseModel.v). *)
From Coq Require Import Lia Lra Permutation.
From Verif Require Export FactSparseModel GraphLaws.
From Verif Require Import SparseProofs SparseProofs2 SparseProofs3 BaseFacts GaussModel FactFacts FactEq.
Local Open Scope nat_scope.
Local Open Scope list_scope.

(** The product of the potentials; the scope; closeness entry by entry, both ways. *)
Definition zprod (fs : list sparse) (e : env) : R := fold_right Rmult 1%R (map (fun f => spot f e) fs).
Definition zscope (fs : list sparse) (v : string) : Prop := exists f, In f fs /\ In v (svars f).
Definition zclose (g f : sparse) : Prop :=
  (forall v, In v (svars g) <-> In v (svars f)) /\
  forall e, visclose (sval f e) (sval g e) default_tol default_tol = true /\ visclose (sval g e) (sval f e) default_tol default_tol = true.

Lemma zprod_cons f fs e : zprod (f :: fs) e = (spot f e * zprod fs e)%R.
Proof. reflexivity. Qed.
Lemma zprod_app fs gs e : zprod (fs ++ gs) e = (zprod fs e * zprod gs e)%R.
Proof. induction fs as [|f fs IH]; [cbn; unfold zprod; cbn; ring|]. cbn [app]. rewrite !zprod_cons, IH. ring. Qed.
Lemma zscope_cons f fs v : zscope (f :: fs) v <-> In v (svars f) \/ zscope fs v.
Proof.
  unfold zscope. split; [intros (g & [<-|Hg] & Hv); [now left|right; now exists g]|].
  intros [Hv|(g & Hg & Hv)]; [exists f; split; [now left|exact Hv]|exists g; split; [now right|exact Hv]].
Qed.
Lemma zscope_app fs gs v : zscope (fs ++ gs) v <-> zscope fs v \/ zscope gs v.
Proof.
  unfold zscope. split.
  - intros (g & Hg & Hv). apply in_app_or in Hg. destruct Hg as [Hg|Hg]; [left|right]; now exists g.
  - intros [(g & Hg & Hv)|(g & Hg & Hv)]; exists g; (split; [apply in_or_app; auto|exact Hv]).
Qed.
Lemma zscope_concat fs v : In v (concat (map svars fs)) <-> zscope fs v.
Proof.
  rewrite in_concat. unfold zscope. split.
  - intros (l & Hl & Hv). apply in_map_iff in Hl. destruct Hl as (f & <- & Hf). now exists f.
  - intros (f & Hf & Hv). exists (svars f). split; [now apply in_map|exact Hv].
Qed.

Section Z.
Context (card : string -> nat).
Notation sg := (sgood card).
Notation all := (fun fs => forall f, In f fs -> sg f).

Lemma copies_same fs : (forall f, In f fs -> wf_struct f) -> mapM s_copy fs = Ok fs.
Proof.
  intros T. induction fs as [|f fs IH]; [reflexivity|]. cbn [mapM]. rewrite (s_copy_ok f) by (apply T; now left). cbn [bind].
  rewrite IH by (intros g Hg; apply T; now right). reflexivity.
Qed.
Lemma sg_struct f : sg f -> wf_struct f.
Proof. intros G. apply (sg_wf _ _ G). Qed.
Lemma all_struct fs : all fs -> forall f, In f fs -> wf_struct f.
Proof. intros T f Hf. apply sg_struct, T, Hf. Qed.
Lemma mk_fz_ok o fs : all fs -> mk_fz o fs = Ok {| fz_vars := so o (dedup (concat (map svars fs))); fz_factors := fs |}.
Proof. intros T. unfold mk_fz. now rewrite (copies_same fs (all_struct fs T)). Qed.
Definition renamed (o : oracle) (a : fz) : fz := {| fz_vars := so o (dedup (concat (map svars (fz_factors a)))); fz_factors := fz_factors a |}.
Lemma fz_copy_ok o a : all (fz_factors a) -> fz_copy o a = Ok (renamed o a).
Proof. intros T. unfold fz_copy. rewrite (copies_same _ (all_struct _ T)). cbn [bind]. now rewrite mk_fz_ok. Qed.

Lemma sg_mul o a b : oracle_ok o -> sg a -> sg b -> exists r, s_multiply o a b = Ok r /\ sg r /\
  (forall v, In v (svars r) <-> In v (svars a) \/ In v (svars b)) /\ (forall e, spot r e = (spot a e * spot b e)%R).
Proof.
  intros Ho A B. destruct (multiply_spec o a b Ho (sg_wf _ _ A) (sg_wf _ _ B) (sg_zero _ _ A) (sg_zero _ _ B) (sgood_agree card a b A B))
    as (r & H1 & H2 & H3 & H4 & H5 & H6).
  exists r. split; [exact H1|]. split; [split; [exact H2|exact H3|]|split; [exact H4|exact H6]].
  intros v c Hc. apply H5 in Hc. destruct Hc as [Hc|Hc]; [exact (sg_card _ _ A v c Hc)|exact (sg_card _ _ B v c Hc)].
Qed.
Lemma fold_mul o fs : oracle_ok o -> forall c, sg c -> all fs -> exists j, foldM (s_multiply o) fs c = Ok j /\ sg j /\
  (forall v, In v (svars j) <-> zscope (c :: fs) v) /\ (forall e, spot j e = zprod (c :: fs) e).
Proof.
  intros Ho. induction fs as [|f fs IH]; intros c Tc T.
  - exists c. split; [reflexivity|]. split; [exact Tc|]. split.
    + intros v. rewrite zscope_cons. split; [now left|]. intros [H|(g & [] & _)]. exact H.
    + intros e. unfold zprod. cbn. ring.
  - cbn [foldM]. destruct (sg_mul o c f Ho Tc (T f (or_introl eq_refl))) as (r & E & Tr & Vr & Pr). rewrite E. cbn [bind].
    destruct (IH r Tr) as (j & Ej & Tj & Vj & Pj); [intros g Hg; apply T; now right|].
    exists j. split; [exact Ej|]. split; [exact Tj|]. split.
    + intros v. rewrite Vj, !zscope_cons, Vr. tauto.
    + intros e. rewrite (Pj e), !zprod_cons, Pr. ring.
Qed.
Theorem fz_joint_spec o a : oracle_ok o -> fz_factors a <> [] -> all (fz_factors a) -> exists j, fz_joint o a = Ok j /\ sg j /\
  (forall v, In v (svars j) <-> zscope (fz_factors a) v) /\ (forall e, spot j e = zprod (fz_factors a) e).
Proof.
  intros Ho N T. unfold fz_joint. destruct (fz_factors a) as [|f fs]; [congruence|].
  rewrite (s_copy_ok f) by (apply sg_struct, T; now left). cbn [bind].
  apply fold_mul; [exact Ho|apply T; now left|intros g Hg; apply T; now right].
Qed.
Theorem mk_fz_joint o fs : oracle_ok o -> fs <> [] -> all fs ->
  exists a j, mk_fz o fs = Ok a /\ fz_joint o a = Ok j /\ NoDup (fz_vars a) /\ (forall v, In v (fz_vars a) <-> zscope fs v) /\
    (forall v, In v (svars j) <-> zscope fs v) /\ (forall e, spot j e = zprod fs e).
Proof.
  intros Ho N T. rewrite (mk_fz_ok o fs T). set (a := {| fz_vars := _; fz_factors := fs |}).
  destruct (fz_joint_spec o a Ho N T) as (j & Ej & _ & Vj & Pj). exists a, j. split; [reflexivity|]. split; [exact Ej|].
  split; [apply so_NoDup; [exact Ho|apply NoDup_dedup]|]. split; [|split; [exact Vj|exact Pj]].
  intros v. cbn [a fz_vars]. rewrite (so_In o _ v Ho (NoDup_dedup _)), In_dedup. apply zscope_concat.
Qed.

Lemma first_with_some vars fs : forall k i, first_with k fs vars = Some i ->
  exists l1 g l2, fs = l1 ++ g :: l2 /\ i = k + length l1 /\ incl vars (svars g).
Proof.
  induction fs as [|f fs IH]; intros k i H; [discriminate|]. cbn [first_with] in H.
  destruct (subsetb vars (svars f)) eqn:E.
  - inversion H; subst. exists [], f, fs. split; [reflexivity|]. split; [cbn; lia|]. now apply subsetb_incl.
  - destruct (IH (S k) i H) as (l1 & g & l2 & -> & -> & I). exists (f :: l1), g, l2. split; [reflexivity|]. split; [cbn; lia|exact I].
Qed.
Lemma first_with_none vars fs : forall k, first_with k fs vars = None -> forall g, In g fs -> ~ incl vars (svars g).
Proof.
  induction fs as [|f fs IH]; intros k H g Hg; [destruct Hg|]. cbn [first_with] in H.
  destruct (subsetb vars (svars f)) eqn:E; [discriminate|]. destruct Hg as [<-|Hg]; [|now apply (IH (S k))].
  intros C. apply subsetb_incl in C. congruence.
Qed.
Lemma all_app (fs gs : list sparse) : all (fs ++ gs) <-> all fs /\ all gs.
Proof.
  split; [intros H; split; intros f Hf; apply H, in_or_app; auto|].
  intros [A B] f Hf. apply in_app_or in Hf. destruct Hf; auto.
Qed.
Lemma all_cons f fs : all (f :: fs) <-> sg f /\ all fs.
Proof. split; [intros H; split; [apply H; now left|intros g Hg; apply H; now right]|intros [A B] g [<-|Hg]; auto]. Qed.
Theorem fz_multiply_spec o a f : oracle_ok o -> all (fz_factors a) -> sg f ->
  exists r, fz_multiply o a f = Ok r /\ all (fz_factors r) /\ fz_factors r <> [] /\
    fz_vars r = so o (dedup (concat (map svars (fz_factors a)))) /\
    (forall v, zscope (fz_factors r) v <-> zscope (fz_factors a) v \/ In v (svars f)) /\
    (forall e, zprod (fz_factors r) e = (zprod (fz_factors a) e * spot f e)%R).
Proof.
  intros Ho T Tf. unfold fz_multiply. rewrite (fz_copy_ok o a T). cbn [bind renamed fz_factors fz_vars].
  destruct (first_with 0 (fz_factors a) (svars f)) as [i|] eqn:E.
  - destruct (first_with_some _ _ _ _ E) as (l1 & g & l2 & EF & -> & I). cbn [plus]. rewrite EF, py_nth_mid. cbn [bind].
    rewrite EF in T. apply all_app in T. destruct T as [T1 T2]. apply all_cons in T2. destruct T2 as [Tg T2].
    destruct (sg_mul o g f Ho Tg Tf) as (p & Ep & Tp & Vp & Pp). rewrite Ep. cbn [bind]. rewrite list_set_mid. cbn [bind].
    eexists. split; [reflexivity|]. cbn [fz_factors fz_vars]. split; [apply all_app; split; [exact T1|apply all_cons; now split]|].
    split; [now destruct l1|]. split; [reflexivity|]. split.
    + intros v. rewrite !zscope_app, !zscope_cons, Vp. tauto.
    + intros e. rewrite !zprod_app, !zprod_cons, Pp. ring.
  - eexists. split; [reflexivity|]. cbn [fz_factors fz_vars]. split; [apply all_app; split; [exact T|intros g [<-|[]]; exact Tf]|].
    split; [now destruct (fz_factors a)|]. split; [reflexivity|]. split.
    + intros v. rewrite zscope_app, zscope_cons. split; [intros [H|[H|(g & [] & _)]]; auto|intros [H|H]; auto].
    + intros e. rewrite zprod_app, zprod_cons. change (zprod [] e) with 1%R. ring.
Qed.
Theorem fz_multiply_joint o a f : oracle_ok o -> fz_factors a <> [] -> all (fz_factors a) -> sg f ->
  exists r j jr, fz_multiply o a f = Ok r /\ fz_joint o a = Ok j /\ fz_joint o r = Ok jr /\
    (forall v, In v (svars jr) <-> In v (svars j) \/ In v (svars f)) /\ (forall e, spot jr e = (spot j e * spot f e)%R).
Proof.
  intros Ho N T Tf. destruct (fz_multiply_spec o a f Ho T Tf) as (r & Er & Tr & Nr & _ & Sr & Pr).
  destruct (fz_joint_spec o a Ho N T) as (j & Ej & _ & Vj & Pj). destruct (fz_joint_spec o r Ho Nr Tr) as (jr & Ejr & _ & Vjr & Pjr).
  exists r, j, jr. do 3 (split; [assumption|]). split; [intros v; now rewrite Vjr, Vj, Sr|]. intros e. now rewrite Pjr, Pj, Pr.
Qed.

(** divide *)
Lemma equals_close g f : sg g -> sg f -> exists b, s_equals g f default_tol default_tol = Ok b /\ (b = true <-> zclose g f).
Proof.
  intros G F. destruct (equals_iff g f default_tol default_tol (sg_wf _ _ G) (sg_wf _ _ F) (sg_zero _ _ G) (sg_zero _ _ F)) as (b & E & _).
  exists b. split; [exact E|]. rewrite <- (equals_meaning g f default_tol default_tol (sg_wf _ _ G) (sg_wf _ _ F) (sg_zero _ _ G) (sg_zero _ _ F)).
  rewrite E. split; [now intros ->|]. intros H. now injection H.
Qed.
Lemma find_none n f fs : forall k, sg f -> all fs -> (n <= 1 \/ forall g, In g fs -> ~ zclose g f) -> fz_find n k fs f = Ok None.
Proof.
  induction fs as [|g fs IH]; intros k Tf T H; [reflexivity|]. cbn [fz_find].
  destruct (equals_close g f (T g (or_introl eq_refl)) Tf) as (b & -> & Hb). cbn [bind].
  assert (b && Nat.ltb 1 n = false) as ->.
  { destruct H as [H|H]; [destruct b; [|reflexivity]; cbn [andb]; apply Nat.ltb_ge; exact H|].
    destruct b; [|reflexivity]. exfalso. apply (H g (or_introl eq_refl)). now apply Hb. }
  apply IH; [exact Tf|intros h Hh; apply T; now right|]. destruct H as [H|H]; [now left|right]. intros h Hh. apply H. now right.
Qed.
Lemma find_some n f l1 g l2 : forall k, sg f -> all (l1 ++ g :: l2) -> 1 < n -> (forall h, In h l1 -> ~ zclose h f) -> zclose g f ->
  fz_find n k (l1 ++ g :: l2) f = Ok (Some (k + length l1)).
Proof.
  induction l1 as [|h l1 IH]; intros k Tf T Hn H Hg; cbn [app fz_find].
  - destruct (equals_close g f (T g (or_introl eq_refl)) Tf) as (b & -> & Hb). cbn [bind].
    rewrite (proj2 Hb Hg), (proj2 (Nat.ltb_lt 1 n) Hn). cbn [andb length]. now rewrite Nat.add_0_r.
  - destruct (equals_close h f (T h (or_introl eq_refl)) Tf) as (b & -> & Hb). cbn [bind].
    assert (b = false) as ->. { destruct b; [|reflexivity]. exfalso. apply (H h (or_introl eq_refl)). now apply Hb. }
    cbn [andb]. rewrite IH; auto; [cbn [length]; f_equal; f_equal; lia|intros x Hx; apply T; now right|intros x Hx; apply H; now right].
Qed.
Lemma sg_div o g f : oracle_ok o -> sg g -> sg f -> incl (svars f) (svars g) -> svars f <> [] ->
  exists q, s_divide o g f = Ok q /\ wf_struct q /\ sdef q = NaN /\ (forall v, In v (svars q) <-> In v (svars g)) /\
    (forall v c, has_card q v c -> c = card v) /\ forall e, in_range g e -> sval q e = vsub (sval g e) (sval f e).
Proof.
  intros Ho G F I N. destruct (divide_spec o g f Ho (sg_struct g G) (sg_struct f F) (sgood_agree card g f G F)) as (q & E & W & D & V & C & S).
  - now rewrite (sg_zero _ _ G), (sg_zero _ _ F).
  - rewrite (sg_zero _ _ G). discriminate.
  - destruct (svars f) as [|v l] eqn:Ev; [congruence|]. exists v. split; [apply I; now left|now left].
  - exists q. split; [exact E|]. split; [exact W|]. split; [now rewrite D, (sg_zero _ _ G)|]. split; [|split].
    + intros v. rewrite V. split; [intros [H|H]; auto|auto].
    + intros v c H. apply C in H. destruct H as [H|H]; [exact (sg_card _ _ G v c H)|exact (sg_card _ _ F v c H)].
    + intros e He. apply S; [exact He|]. apply (sgood_range card f e F). intros v Hv.
      exact (proj1 (sgood_range card g e G) He v (I v Hv)).
Qed.
(** The quotient of the first factor that covers the divisor. *)
Theorem fz_divide_spec o a f : oracle_ok o -> all (fz_factors a) -> sg f -> svars f <> [] ->
  (length (fz_factors a) <= 1 \/ forall g, In g (fz_factors a) -> ~ zclose g f) ->
  (exists g, In g (fz_factors a) /\ incl (svars f) (svars g)) ->
  exists r l1 g l2 q, fz_divide o a f = Ok r /\ fz_factors a = l1 ++ g :: l2 /\ fz_factors r = l1 ++ q :: l2 /\
    wf_struct q /\ sdef q = NaN /\ (forall v, In v (svars q) <-> In v (svars g)) /\ (forall v c, has_card q v c -> c = card v) /\
    forall e, in_range g e -> sval q e = vsub (sval g e) (sval f e).
Proof.
  intros Ho T Tf Nf HN (g1 & Hg1 & I1). unfold fz_divide. rewrite (fz_copy_ok o a T). cbn [bind renamed fz_factors fz_vars].
  rewrite (find_none _ f (fz_factors a) 0 Tf T HN). cbn [bind].
  destruct (first_with 0 (fz_factors a) (svars f)) as [i|] eqn:E; [|exfalso; exact (first_with_none _ _ _ E g1 Hg1 I1)].
  destruct (first_with_some _ _ _ _ E) as (l1 & g & l2 & EF & -> & I). cbn [plus]. rewrite EF, py_nth_mid. cbn [bind].
  assert (Tg : sg g) by (apply T; rewrite EF; apply in_elt).
  destruct (sg_div o g f Ho Tg Tf I Nf) as (q & Eq & W & D & V & C & S). rewrite Eq. cbn [bind]. rewrite list_set_mid. cbn [bind].
  eexists _, l1, g, l2, q. split; [reflexivity|]. split; [reflexivity|]. split; [reflexivity|]. auto.
Qed.
(** With two factors or more the result has no joint distribution. *)
Theorem fz_divide_unusable o o' a f : oracle_ok o -> oracle_ok o' -> 2 <= length (fz_factors a) -> all (fz_factors a) -> sg f -> svars f <> [] ->
  (forall g, In g (fz_factors a) -> ~ zclose g f) -> (exists g, In g (fz_factors a) /\ incl (svars f) (svars g)) ->
  exists r, fz_divide o a f = Ok r /\ fz_joint o' r = Err NotImplementedError.
Proof.
  intros Ho Ho' HL T Tf Nf HN HX. destruct (fz_divide_spec o a f Ho T Tf Nf (or_intror HN) HX) as (r & l1 & g & l2 & q & Er & EF & ER & W & D & V & C & S).
  exists r. split; [exact Er|]. unfold fz_joint. rewrite ER. rewrite EF in T, HL. apply all_app in T. destruct T as [T1 T2]. apply all_cons in T2. destruct T2 as [Tg T2].
  assert (Cq : forall h, sg h -> cards_agree q h) by (intros h Hh v c c' H H'; rewrite (C v c H), (sg_card _ _ Hh v c' H'); reflexivity).
  destruct l1 as [|h l1]; cbn [app].
  - rewrite (s_copy_ok q W). cbn [bind]. destruct l2 as [|h l2]; [cbn in HL; lia|]. apply all_cons in T2. destruct T2 as [Th _]. cbn [foldM].
    unfold s_multiply at 1. rewrite (binop_default_mismatch o' q h vadd RuleAny Ho' W (sg_struct h Th) (Cq h Th)); [reflexivity|]. now rewrite D.
  - apply all_cons in T1. destruct T1 as [Th T1]. rewrite (s_copy_ok h (sg_struct h Th)). cbn [bind].
    rewrite foldM_app. destruct (fold_mul o' l1 Ho' h Th T1) as (c & Ec & Gc & _). rewrite Ec. cbn [bind foldM].
    unfold s_multiply at 1. rewrite (binop_default_mismatch o' c q vadd RuleAny Ho' (sg_struct c Gc) W); [reflexivity| |].
    + intros v x y H1 H2. symmetry. exact (Cq c Gc v y x H2 H1).
    + rewrite D. rewrite (sg_zero _ _ Gc). reflexivity.
Qed.
(** With one factor the joint distribution is the quotient. *)
Theorem fz_divide_one o o' a f g : oracle_ok o -> fz_factors a = [g] -> sg g -> sg f -> svars f <> [] -> incl (svars f) (svars g) ->
  exists r j, fz_divide o a f = Ok r /\ fz_joint o' r = Ok j /\ (forall v, In v (svars j) <-> In v (svars g)) /\
    forall e, in_range g e -> spot f e <> 0%R -> spot j e = (spot g e / spot f e)%R.
Proof.
  intros Ho EF Tg Tf Nf I. destruct (fz_divide_spec o a f Ho) as (r & l1 & g' & l2 & q & Er & EF' & ER & W & D & V & C & S); auto.
  { rewrite EF. intros h [<-|[]]. exact Tg. }
  { left. rewrite EF. cbn. lia. }
  { exists g. split; [rewrite EF; now left|exact I]. }
  rewrite EF in EF'. destruct l1 as [|x l1]; [|destruct l1; discriminate]. cbn [app] in *. injection EF' as <- <-.
  exists r, q. split; [exact Er|]. split; [unfold fz_joint; rewrite ER, (s_copy_ok q W); reflexivity|]. split; [exact V|].
  intros e He Nz. unfold spot in *. rewrite (S e He). destruct (sval f e) as [|y| |] eqn:Ef; cbn in Nz; try congruence.
  destruct (sval g e) as [|x| |]; cbn; [unfold Rdiv; ring|unfold Rminus; rewrite exp_plus, exp_Ropp; reflexivity|unfold Rdiv; ring|unfold Rdiv; ring].
Qed.
Theorem fz_divide_constant o a f : oracle_ok o -> fz_factors a <> [] -> all (fz_factors a) -> sg f -> svars f = [] ->
  (length (fz_factors a) <= 1 \/ forall g, In g (fz_factors a) -> ~ zclose g f) -> fz_divide o a f = Err TypeError.
Proof.
  intros Ho N T Tf Ef HN. unfold fz_divide. rewrite (fz_copy_ok o a T). cbn [bind renamed fz_factors fz_vars].
  rewrite (find_none _ f (fz_factors a) 0 Tf T HN). cbn [bind]. rewrite Ef. destruct (fz_factors a) as [|g fs]; [congruence|].
  cbn [first_with subsetb forallb]. cbn [py_nth nth_error bind]. assert (Tg : sg g) by (apply T; now left).
  rewrite (divide_disjoint o g f Ho (sg_struct g Tg) (sg_struct f Tf)); [reflexivity|now rewrite (sg_zero _ _ Tg), (sg_zero _ _ Tf)|rewrite (sg_zero _ _ Tg); discriminate|].
  intros v _ H. rewrite Ef in H. destruct H.
Qed.
Theorem fz_divide_removal o a f l1 g l2 : oracle_ok o -> all (fz_factors a) -> sg f -> fz_factors a = l1 ++ g :: l2 -> 1 < length (fz_factors a) ->
  (forall h, In h l1 -> ~ zclose h f) -> zclose g f ->
  exists r, fz_divide o a f = Ok r /\ fz_factors r = l1 ++ l2 /\ forall e, zprod (fz_factors a) e = (spot g e * zprod (fz_factors r) e)%R.
Proof.
  intros Ho T Tf EF HL HN Hg. unfold fz_divide. rewrite (fz_copy_ok o a T). cbn [bind renamed fz_factors fz_vars].
  rewrite EF in HL |- *. rewrite EF in T. rewrite (find_some _ f l1 g l2 0 Tf T HL HN Hg). cbn [bind plus].
  assert (Q : firstn (length l1) (l1 ++ g :: l2) ++ skipn (S (length l1)) (l1 ++ g :: l2) = l1 ++ l2).
  { rewrite firstn_app, Nat.sub_diag, firstn_all. cbn [firstn]. rewrite app_nil_r. f_equal.
    rewrite skipn_app. rewrite skipn_all2 by lia. replace (S (length l1) - length l1) with 1 by lia. reflexivity. }
  eexists. split; [reflexivity|]. cbn [fz_factors]. rewrite Q. split; [reflexivity|].
  intros e. rewrite !zprod_app, zprod_cons. ring.
Qed.
Theorem fz_divide_disjoint o a f : all (fz_factors a) -> sg f -> (forall g, In g (fz_factors a) -> ~ incl (svars f) (svars g)) ->
  fz_divide o a f = Err PyException.
Proof.
  intros T Tf H. unfold fz_divide. rewrite (fz_copy_ok o a T). cbn [bind renamed fz_factors fz_vars].
  rewrite (find_none _ f (fz_factors a) 0 Tf T) by (right; intros g Hg [C _]; apply (H g Hg); intros v Hv; now apply C). cbn [bind].
  destruct (first_with 0 (fz_factors a) (svars f)) as [i|] eqn:E; [|reflexivity]. exfalso.
  destruct (first_with_some _ _ _ _ E) as (l1 & g & l2 & EF & _ & I). apply (H g); [rewrite EF; apply in_elt|exact I].
Qed.

(** Divergences are those of the product. *)
Theorem fz_kl_spec o a q : oracle_ok o -> fz_factors a <> [] -> all (fz_factors a) -> sg q -> (forall v, zscope (fz_factors a) v <-> In v (svars q)) ->
  svars q <> [] -> (0 < weight_of q)%R -> exists j, fz_joint o a = Ok j /\ (forall e, spot j e = zprod (fz_factors a) e) /\ (forall v, In v (svars j) <-> In v (svars q)) /\
  ((0 < weight_of j)%R -> exists d, fz_kl o a q = Ok d /\
    ((exists e, in_range j e /\ 0 < zprod (fz_factors a) e /\ spot q e = 0)%R -> d = PInf) /\
    (~ (exists e, in_range j e /\ 0 < zprod (fz_factors a) e /\ spot q e = 0)%R -> d = Fin (kl_of j q) /\ (0 <= kl_of j q)%R) /\
    (d = Fin 0 <-> forall e, in_range j e -> (zprod (fz_factors a) e / weight_of j = spot q e / weight_of q)%R)).
Proof.
  intros Ho N T Tq HV Nq Wq. destruct (fz_joint_spec o a Ho N T) as (j & Ej & Tj & Vj & Pj). exists j. split; [exact Ej|]. split; [exact Pj|].
  assert (Vq : forall v, In v (svars j) <-> In v (svars q)) by (intros v; now rewrite Vj). split; [exact Vq|].
  intros Wj. unfold fz_kl. rewrite Ej. cbn [bind].
  destruct (kl_spec o j q Ho (sg_wf _ _ Tj) (sg_wf _ _ Tq) (sg_zero _ _ Tj) (sg_zero _ _ Tq)) as (d & Ed & D1 & D2 & D3); auto.
  { apply NoDup_Permutation; [apply (wf_vars j (sg_struct j Tj))|apply (wf_vars q (sg_struct q Tq))|exact Vq]. }
  { now apply (sgood_agree card). }
  { intros C. destruct (svars q) as [|v l] eqn:Eq; [congruence|]. assert (H : In v (svars j)) by (apply Vq; now left). rewrite C in H. destruct H. }
  exists d. split; [exact Ed|]. split; [|split].
  - intros (e & A & B & C). apply D1. exists e. rewrite Pj. auto.
  - intros H. apply D2. intros (e & A & B & C). apply H. exists e. rewrite <- Pj. auto.
  - rewrite D3. split; intros H e He; [rewrite <- Pj|rewrite Pj]; auto.
Qed.
Theorem fz_distance_spec o a v : oracle_ok o -> all (fz_factors a) -> zscope (fz_factors a) v -> exists j, fz_joint o a = Ok j /\
  (forall w, In w (svars j) <-> zscope (fz_factors a) w) /\ (forall e, spot j e = zprod (fz_factors a) e) /\
  ((0 < weight_of j)%R ->
   let D := sum_over (card_of j) (svars j) (fun e => kl_term (zprod (fz_factors a) e / weight_of j) (1 / INR (n_assignments j)))%R (fun _ => 0) in
   fz_distance o a = Ok (Fin D) /\ (0 <= D)%R /\
   (D = 0%R <-> forall e e', in_range j e -> in_range j e' -> zprod (fz_factors a) e = zprod (fz_factors a) e')).
Proof.
  intros Ho T Hv. assert (N : fz_factors a <> []) by (intros C; rewrite C in Hv; destruct Hv as (? & [] & _)).
  destruct (fz_joint_spec o a Ho N T) as (j & Ej & Tj & Vj & Pj). exists j. split; [exact Ej|]. split; [exact Vj|]. split; [exact Pj|].
  intros W D. assert (Nj : svars j <> []) by (intros C; apply Vj in Hv; rewrite C in Hv; destruct Hv).
  assert (ED : D = sum_over (card_of j) (svars j) (fun e => kl_term (spot j e / weight_of j) (1 / INR (n_assignments j)))%R (fun _ => 0)).
  { unfold D. f_equal. apply FunctionalExtensionality.functional_extensionality. intros e. now rewrite Pj. }
  rewrite ED. destruct (vacuous_spec o j Ho (sg_wf _ _ Tj) (sg_zero _ _ Tj) Nj W) as (A & B & C). unfold fz_distance. rewrite Ej. cbn [bind].
  split; [exact A|]. split; [exact B|]. rewrite C. split; intros H e e' He He'; [rewrite <- !Pj|rewrite !Pj]; auto.
Qed.

(** normalize *)
Theorem fz_normalize_fails o a : all (fz_factors a) -> 2 <= length (fz_factors a) -> fz_normalize o a = Err AttributeError.
Proof.
  intros T HL. unfold fz_normalize. rewrite (fz_copy_ok o a T). cbn [bind renamed fz_factors].
  destruct (fz_factors a) as [|f [|g fs]]; cbn [length] in HL; try lia. reflexivity.
Qed.
Theorem fz_normalize_one o a f : fz_factors a = [f] -> sg f -> (0 < weight_of f)%R ->
  exists r g, fz_normalize o a = Ok r /\ fz_factors r = [g] /\ svars g = svars f /\
    (forall e, spot g e = (spot f e / weight_of f)%R) /\ weight_of g = 1%R.
Proof.
  intros EF Tf W. assert (T : all (fz_factors a)) by (rewrite EF; intros g [<-|[]]; exact Tf).
  unfold fz_normalize. rewrite (fz_copy_ok o a T). cbn [bind renamed fz_factors]. rewrite EF in *.
  rewrite (copies_same [f]) by (intros g [<-|[]]; now apply sg_struct). cbn [bind].
  rewrite mk_fz_ok by exact T. cbn [bind mapM].
  destruct (normalize_weight f (sg_wf _ _ Tf) (sg_zero _ _ Tf) W) as (g & c & Eg & Wg & Zg & Vg & Cg & Hc & Pg & W1). rewrite Eg. cbn [bind].
  eexists _, g. split; [reflexivity|]. split; [reflexivity|]. split; [exact Vg|]. split; [|exact W1].
  intros e. assert (HpT : (0 < total f)%R) by (rewrite <- (weight_total f (sg_wf _ _ Tf) (sg_zero _ _ Tf)); exact W).
  rewrite (normalize_ok f (sg_wf _ _ Tf) HpT) in Eg. injection Eg as <-. rewrite (weight_total f (sg_wf _ _ Tf) (sg_zero _ _ Tf)).
  rewrite norm_pot by (try apply (sg_wf _ _ Tf); try apply (sg_zero _ _ Tf); exact HpT). unfold Rdiv. ring.
Qed.

(** equals *)
Definition zcloseb (g f : sparse) : bool := if ClassicalEpsilon.excluded_middle_informative (zclose g f) then true else false.
Lemma zcloseb_iff g f : zcloseb g f = true <-> zclose g f.
Proof. unfold zcloseb. destruct (ClassicalEpsilon.excluded_middle_informative _); split; auto; discriminate. Qed.
Lemma equals_closeb g f : sg g -> sg f -> s_equals g f default_tol default_tol = Ok (zcloseb g f).
Proof.
  intros G F. destruct (equals_close g f G F) as (b & -> & Hb). f_equal. rewrite <- zcloseb_iff in Hb.
  destruct b, (zcloseb g f); intuition congruence.
Qed.
Definition zrow (f : sparse) (bs : list sparse) : nat := length (filter (zcloseb f) bs).
Definition zpairs (fs bs : list sparse) : nat := fold_right (fun f n => zrow f bs + n) 0 fs.
Lemma row_ok f bs : sg f -> all bs -> fz_row f bs = Ok (zrow f bs).
Proof.
  intros F. induction bs as [|b bs IH]; intros T; [reflexivity|]. cbn [fz_row]. rewrite equals_closeb by (auto; apply T; now left). cbn [bind].
  rewrite IH by (intros g Hg; apply T; now right). cbn [bind]. unfold zrow. cbn [filter]. destruct (zcloseb f b); reflexivity.
Qed.
Lemma count_ok fs bs : all fs -> all bs -> fz_count fs bs = Ok (zpairs fs bs).
Proof.
  intros F B. induction fs as [|f fs IH]; [reflexivity|]. cbn [fz_count]. rewrite row_ok by (auto; apply F; now left). cbn [bind].
  rewrite IH by (intros g Hg; apply F; now right). reflexivity.
Qed.
Theorem fz_equals_count o a b : all (fz_factors a) -> all (fz_factors b) -> (forall v, In v (fz_vars a) <-> In v (fz_vars b)) ->
  length (fz_factors a) = length (fz_factors b) ->
  fz_equals o a b = Ok (Nat.eqb (zpairs (fz_factors a) (fz_factors b)) (length (fz_factors a))).
Proof.
  intros A B HV HL. unfold fz_equals. rewrite (proj2 (seteqb_iff (fz_vars b) (fz_vars a))) by (intros v; symmetry; apply HV). cbn [negb].
  rewrite <- HL, Nat.eqb_refl. cbn [negb]. now rewrite (count_ok _ _ A B).
Qed.
(** No factor of [fs] is close to two entries of [bs]; no entry of [bs] has two factors close to it. *)
Definition zsep_rows (fs bs : list sparse) : Prop := forall f, In f fs -> ForallOrdPairs (fun b b' => ~ (zclose f b /\ zclose f b')) bs.
Definition zsep_cols (fs bs : list sparse) : Prop := forall b, In b bs -> ForallOrdPairs (fun f f' => ~ (zclose f b /\ zclose f' b)) fs.
Lemma zsep_row_le fs bs f : zsep_rows fs bs -> In f fs -> zrow f bs <= 1.
Proof.
  intros H Hf. apply filter_at_most. specialize (H f Hf). clear -H. induction H as [|x l H HO IH]; constructor; [|exact IH].
  rewrite Forall_forall in *. intros y Hy. rewrite !zcloseb_iff. now apply H.
Qed.
Lemma zpairs_rows fs bs : (forall f, In f fs -> zrow f bs <= 1) -> zpairs fs bs <= length fs /\ (zpairs fs bs = length fs <-> forall f, In f fs -> zrow f bs = 1).
Proof.
  induction fs as [|f fs IH]; intros H; [split; [cbn; lia|split; [intros _ f []|reflexivity]]|].
  destruct IH as (I1 & I2); [intros g Hg; apply H; now right|]. pose proof (H f (or_introl eq_refl)). cbn [zpairs fold_right length] in *. fold (zpairs fs bs) in *.
  split; [lia|]. split.
  - intros E. assert (Q : zrow f bs = 1) by lia. assert (Q' : zpairs fs bs = length fs) by lia. intros g [<-|Hg]; [exact Q|]. now apply (proj1 I2 Q').
  - intros G. rewrite (G f (or_introl eq_refl)). rewrite (proj2 I2); [reflexivity|]. intros g Hg. apply G. now right.
Qed.
Lemma zrows_perm fs : forall bs, zsep_cols fs bs -> (forall f, In f fs -> zrow f bs = 1) -> exists bs' rest, Permutation bs (bs' ++ rest) /\ Forall2 zclose fs bs'.
Proof.
  induction fs as [|f fs IH]; intros bs HC HR; [exists [], bs; split; [reflexivity|constructor]|].
  destruct (one_match (zcloseb f) bs (HR f (or_introl eq_refl))) as (l1 & b & l2 & -> & Hm & Hf). apply zcloseb_iff in Hm.
  destruct (IH (l1 ++ l2)) as (bs' & rest & HP & F).
  - intros x Hx. assert (Hin : In x (l1 ++ b :: l2)) by (apply in_app_or in Hx; apply in_or_app; cbn; tauto). specialize (HC x Hin). now inversion HC.
  - intros g Hg. rewrite <- (HR g (or_intror Hg)). unfold zrow. rewrite !filter_app, !app_length. cbn [filter].
    assert (zcloseb g b = false) as ->; [|reflexivity]. specialize (HC b (in_elt b l1 l2)). inversion HC as [|? ? HF _]; subst. rewrite Forall_forall in HF.
    specialize (HF g Hg). destruct (zcloseb g b) eqn:E; [|reflexivity]. apply zcloseb_iff in E. exfalso. apply HF. now split.
  - exists (b :: bs'), rest. split; [|now constructor]. rewrite <- Permutation_middle, HP. reflexivity.
Qed.
Theorem fz_equals_iff o a b : all (fz_factors a) -> all (fz_factors b) -> (forall v, In v (fz_vars a) <-> In v (fz_vars b)) ->
  length (fz_factors a) = length (fz_factors b) -> zsep_rows (fz_factors a) (fz_factors b) -> zsep_cols (fz_factors a) (fz_factors b) ->
  exists r, fz_equals o a b = Ok r /\ (r = true <-> exists bs, Permutation bs (fz_factors b) /\ Forall2 zclose (fz_factors a) bs).
Proof.
  intros A B HV HL SR SC. rewrite (fz_equals_count o a b A B HV HL). eexists. split; [reflexivity|].
  destruct (zpairs_rows (fz_factors a) (fz_factors b)) as (_ & I); [intros f Hf; now apply (zsep_row_le (fz_factors a))|].
  rewrite Nat.eqb_eq, I. split.
  - intros H. destruct (zrows_perm (fz_factors a) (fz_factors b) SC H) as (bs' & rest & HP & F).
    pose proof (Permutation_length HP) as PL. rewrite app_length in PL. assert (FL : length (fz_factors a) = length bs') by (clear -F; induction F; cbn; congruence).
    destruct rest as [|x rest]; [|cbn [length] in PL; lia]. rewrite app_nil_r in HP. exists bs'. split; [now symmetry|exact F].
  - intros (bs & HP & F) f Hf. pose proof (zsep_row_le (fz_factors a) (fz_factors b) f SR Hf).
    assert (zrow f (fz_factors b) <> 0); [|lia]. unfold zrow. intros Z. apply length_zero_iff_nil in Z.
    assert (exists b0, In b0 bs /\ zclose f b0) as (b0 & Hb & Hc).
    { clear -F Hf. induction F as [|x y l m Hxy F IH]; [destruct Hf|]. destruct Hf as [<-|Hf]; [exists y; split; [now left|exact Hxy]|].
      destruct (IH Hf) as (b0 & Hb & Hc). exists b0. split; [now right|exact Hc]. }
    assert (In b0 (filter (zcloseb f) (fz_factors b))) as X; [|rewrite Z in X; destruct X].
    apply filter_In. split; [now apply (Permutation_in b0 HP)|now apply zcloseb_iff].
Qed.
Theorem fz_equals_shapes o a b : oracle_ok o -> fz_factors a <> [] -> fz_factors b <> [] -> all (fz_factors a) -> all (fz_factors b) ->
  (forall v, In v (fz_vars a) <-> In v (fz_vars b)) -> length (fz_factors a) <> length (fz_factors b) ->
  exists r ja jb, fz_equals o a b = Ok r /\ sg ja /\ sg jb /\
    (forall e, spot ja e = zprod (fz_factors a) e) /\ (forall e, spot jb e = zprod (fz_factors b) e) /\ (r = true <-> zclose ja jb).
Proof.
  intros Ho NA NB A B HV HL. destruct (fz_joint_spec o a Ho NA A) as (ja & Ea & Ta & Va & Pa).
  destruct (fz_joint_spec o b Ho NB B) as (jb & Eb & Tb & Vb & Pb).
  unfold fz_equals. rewrite (proj2 (seteqb_iff (fz_vars b) (fz_vars a))) by (intros v; symmetry; apply HV). cbn [negb].
  rewrite (proj2 (Nat.eqb_neq _ _) HL). cbn [negb]. rewrite Ea, Eb. cbn [bind].
  destruct (equals_close ja jb Ta Tb) as (r & Er & Hr). exists r, ja, jb. do 5 (split; [assumption|]). exact Hr.
Qed.
End Z.
Theorem fz_equals_scope o a b v : (In v (fz_vars a) /\ ~ In v (fz_vars b)) \/ (~ In v (fz_vars a) /\ In v (fz_vars b)) -> fz_equals o a b = Ok false.
Proof.
  intros H. unfold fz_equals. destruct (seteqb (fz_vars b) (fz_vars a)) eqn:E; [|reflexivity]. exfalso.
  pose proof (proj1 (seteqb_iff _ _) E v). tauto.
Qed.
(** marginalize, reduce, is_vacuous and show *)
Theorem fz_marginalize_fails o a vrs keep r : fz_marginalize o a vrs keep <> Ok r.
Proof.
  unfold fz_marginalize. intros H. repeat (apply bind_ok in H; destruct H as (? & _ & H)). destruct x2; discriminate.
Qed.
Theorem fz_reduce_fails a vrs values r : fz_reduce a vrs values <> Ok r.
Proof. unfold fz_reduce. intros H. apply bind_ok in H. destruct H as (x & _ & H). destruct x; discriminate. Qed.
Theorem fz_vacuous_fails a : fz_factors a <> [] -> fz_is_vacuous a = Err AttributeError.
Proof. intros N. unfold fz_is_vacuous. destruct (fz_factors a); [congruence|reflexivity]. Qed.
Theorem fz_show_fails a : fz_factors a <> [] -> fz_show a = Err TypeError.
Proof. intros N. unfold fz_show. destruct (fz_factors a); [congruence|reflexivity]. Qed.
