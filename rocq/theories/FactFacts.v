(** Factorised factors: copies, the joint, products, quotients and restrictions. *)
From Verif Require Export FactModel IntFull.
#[global] Set Bullet Behavior "Strict Subproofs".

Lemma vadd_comm x y : vadd x y = vadd y x.
Proof. destruct x, y; cbn; try reflexivity. now rewrite Rplus_comm. Qed.
Lemma vadd_assoc x y z : vadd x (vadd y z) = vadd (vadd x y) z.
Proof. destruct x, y, z; cbn; try reflexivity. now rewrite Rplus_assoc. Qed.
Lemma vadd_0_l x : vadd (Fin 0) x = x.
Proof. destruct x; cbn; try reflexivity. now rewrite Rplus_0_l. Qed.
Lemma vadd_0_r x : vadd x (Fin 0) = x.
Proof. now rewrite vadd_comm, vadd_0_l. Qed.

(** The value of one factor and of a list of factors. *)
Definition lv (f : gauss) (e : string -> R) : val := match lp f e with Ok l => l | Err _ => NaN end.
Definition lvs (fs : list gauss) (e : string -> R) : val := fold_right vadd (Fin 0) (map (fun f => lv f e) fs).
Lemma lp_lv f e : wf_gauss f -> lp f e = Ok (lv f e).
Proof. intros W. unfold lv. destruct (lp_exists f e W) as (v & E). change (lp f e = Ok v) in E. now rewrite E. Qed.
Lemma lv_of f e l : lp f e = Ok l -> lv f e = l.
Proof. unfold lv. now intros ->. Qed.
Lemma lvs_cons f fs e : lvs (f :: fs) e = vadd (lv f e) (lvs fs e).
Proof. reflexivity. Qed.
Lemma lvs_app fs gs e : lvs (fs ++ gs) e = vadd (lvs fs e) (lvs gs e).
Proof. induction fs as [|f fs IH]; [symmetry; apply vadd_0_l|]. cbn [app]. now rewrite !lvs_cons, IH, vadd_assoc. Qed.
Lemma lvs_perm fs gs e : Permutation fs gs -> lvs fs e = lvs gs e.
Proof.
  induction 1 as [|f fs gs H IH|f g fs|fs gs hs H1 IH1 H2 IH2]; [reflexivity| | |congruence].
  - now rewrite !lvs_cons, IH.
  - now rewrite !lvs_cons, !vadd_assoc, (vadd_comm (lv g e)).
Qed.
Lemma lv_same f c e : same_obj f c -> lv c e = lv f e.
Proof. intros H. unfold lv. now rewrite (same_obj_lp' f c e H). Qed.
Lemma lvs_same fs cs e : Forall2 same_obj fs cs -> lvs cs e = lvs fs e.
Proof. induction 1 as [|f c fs cs H F IH]; [reflexivity|]. now rewrite !lvs_cons, IH, (lv_same f c). Qed.
Definition all_wf (fs : list gauss) : Prop := forall f, In f fs -> wf_gauss f.
Definition in_scope (fs : list gauss) (v : string) : Prop := exists f, In f fs /\ In v (ga_vars f).
Lemma same_wf fs cs : Forall2 same_obj fs cs -> all_wf cs.
Proof. intros F c Hc. destruct (F2_in_r _ _ _ c F Hc) as (f & _ & H). apply H. Qed.
Lemma same_scope fs cs v : Forall2 same_obj fs cs -> (in_scope cs v <-> in_scope fs v).
Proof.
  intros F. split; intros (f & Hf & Hv).
  - destruct (F2_in_r _ _ _ f F Hf) as (g & Hg & (_ & V & _)). exists g. split; [exact Hg|]. now rewrite <- V.
  - destruct (F2_in_l _ _ _ f F Hf) as (g & Hg & (_ & V & _)). exists g. split; [exact Hg|]. now rewrite V.
Qed.
Lemma same_obj_trans f g h : same_obj f g -> same_obj g h -> same_obj f h.
Proof. intros (_ & V1 & C1 & D1) (W & V2 & C2 & D2). split; [exact W|]. split; [congruence|]. split; congruence. Qed.
Lemma F2_trans {A B C} (P : A -> B -> Prop) (Q : B -> C -> Prop) (T : A -> C -> Prop) l m n :
  (forall x y z, P x y -> Q y z -> T x z) -> Forall2 P l m -> Forall2 Q m n -> Forall2 T l n.
Proof.
  intros H F. revert n. induction F as [|x y l m Hxy F IH]; intros n G; inversion G; subst; [constructor|].
  constructor; [eapply H; eassumption|now apply IH].
Qed.

(** Construction and copies. *)
Lemma mapM_copy fs : all_wf fs -> exists cs, mapM g_copy fs = Ok cs /\ Forall2 same_obj fs cs.
Proof.
  intros H. apply mapM_F2. intros f Hf. destruct (g_copy_ok f (H f Hf)) as (c & E & V & C & D & Wc). exists c. split; [exact E|].
  split; [exact Wc|]. now split.
Qed.
Lemma scope_concat fs v : In v (concat (map ga_vars fs)) <-> in_scope fs v.
Proof.
  rewrite in_concat. split.
  - intros (l & Hl & Hv). apply in_map_iff in Hl. destruct Hl as (f & <- & Hf). now exists f.
  - intros (f & Hf & Hv). exists (ga_vars f). split; [now apply in_map|exact Hv].
Qed.
Definition scoped (a : fg) : Prop := NoDup (fg_vars a) /\ forall v, In v (fg_vars a) <-> in_scope (fg_factors a) v.
Lemma mk_fg_ok o fs : oracle_ok o -> all_wf fs ->
  exists b, mk_fg o fs = Ok b /\ Forall2 same_obj fs (fg_factors b) /\ scoped b.
Proof.
  intros (Ho & _) H. destruct (mapM_copy fs H) as (cs & E & F). unfold mk_fg. rewrite E. cbn [bind]. eexists. split; [reflexivity|].
  cbn [fg_factors fg_vars]. split; [exact F|]. pose proof (Ho _ (NoDup_dedup (concat (map ga_vars fs)))) as HP. split; cbn [fg_factors fg_vars].
  - apply (Permutation_NoDup HP), NoDup_dedup.
  - intros v. rewrite (same_scope fs cs v F), <- scope_concat, <- (In_dedup v (concat (map ga_vars fs))). split; apply Permutation_in; [now apply Permutation_sym|exact HP].
Qed.
Lemma fg_copy_ok o a : oracle_ok o -> all_wf (fg_factors a) ->
  exists c, fg_copy o a = Ok c /\ Forall2 same_obj (fg_factors a) (fg_factors c) /\ scoped c.
Proof.
  intros Ho H. destruct (mapM_copy _ H) as (cs & E & F). unfold fg_copy. rewrite E. cbn [bind].
  destruct (mk_fg_ok o cs Ho (same_wf _ _ F)) as (b & Eb & Fb & Sb). exists b. split; [exact Eb|]. split; [|exact Sb].
  exact (F2_trans same_obj same_obj same_obj _ _ _ same_obj_trans F Fb).
Qed.

(** The joint. *)
Lemma multiply_lv f1 f2 : wf_gauss f1 -> wf_gauss f2 ->
  exists r, g_multiply f1 f2 = Ok r /\ wf_gauss r /\ (forall v, In v (ga_vars r) <-> In v (ga_vars f1) \/ In v (ga_vars f2)) /\
    forall e, lv r e = vadd (lv f1 e) (lv f2 e).
Proof.
  intros W1 W2. destruct (g_multiply_spec f1 f2 W1 W2) as (r & E & W & V & L). exists r. split; [exact E|]. split; [exact W|]. split.
  - intros v. rewrite V. apply new_vars_In.
  - intros e. apply lv_of. apply L; now apply lp_lv.
Qed.
Lemma divide_lv f1 f2 : wf_gauss f1 -> wf_gauss f2 ->
  exists r, g_divide f1 f2 = Ok r /\ wf_gauss r /\ (forall v, In v (ga_vars r) <-> In v (ga_vars f1) \/ In v (ga_vars f2)) /\
    forall e, lv r e = vsub (lv f1 e) (lv f2 e).
Proof.
  intros W1 W2. destruct (g_divide_spec f1 f2 W1 W2) as (r & E & W & V & L). exists r. split; [exact E|]. split; [exact W|]. split.
  - intros v. rewrite V. apply new_vars_In.
  - intros e. apply lv_of. apply L; now apply lp_lv.
Qed.
Lemma fold_multiply fs : forall c, wf_gauss c -> all_wf fs ->
  exists j, foldM g_multiply fs c = Ok j /\ wf_gauss j /\ (forall v, In v (ga_vars j) <-> In v (ga_vars c) \/ in_scope fs v) /\
    forall e, lv j e = vadd (lv c e) (lvs fs e).
Proof.
  induction fs as [|f fs IH]; intros c Wc H.
  - exists c. split; [reflexivity|]. split; [exact Wc|]. split; [|intros e; symmetry; apply vadd_0_r].
    intros v. split; [now left|]. intros [Hv|(f & [] & _)]. exact Hv.
  - destruct (multiply_lv c f Wc (H f (or_introl eq_refl))) as (p & Ep & Wp & Vp & Lp).
    destruct (IH p Wp) as (j & Ej & Wj & Vj & Lj). { intros g Hg. apply H. now right. }
    exists j. cbn [foldM]. rewrite Ep. cbn [bind]. split; [exact Ej|]. split; [exact Wj|]. split.
    + intros v. rewrite Vj, Vp. split.
      * intros [[Hv|Hv]|(g & Hg & Hv)]; [now left|right; exists f; split; [now left|exact Hv]|right; exists g; split; [now right|exact Hv]].
      * intros [Hv|(g & [<-|Hg] & Hv)]; [left; now left|left; now right|right; now exists g].
    + intros e. now rewrite Lj, Lp, lvs_cons, vadd_assoc.
Qed.
Lemma joint_spec a : fg_factors a <> [] -> all_wf (fg_factors a) ->
  exists j, fg_joint a = Ok j /\ wf_gauss j /\ (forall v, In v (ga_vars j) <-> in_scope (fg_factors a) v) /\ forall e, lp j e = Ok (lvs (fg_factors a) e).
Proof.
  intros Hn H. unfold fg_joint. destruct (fg_factors a) as [|f fs]; [congruence|].
  destruct (g_copy_ok f (H f (or_introl eq_refl))) as (c & E & V & C & D & Wc). rewrite E. cbn [bind].
  destruct (fold_multiply fs c Wc) as (j & Ej & Wj & Vj & Lj). { intros g Hg. apply H. now right. }
  exists j. split; [exact Ej|]. split; [exact Wj|]. split.
  - intros v. rewrite Vj, V. split.
    + intros [Hv|(g & Hg & Hv)]; [exists f; split; [now left|exact Hv]|exists g; split; [now right|exact Hv]].
    + intros (g & [<-|Hg] & Hv); [now left|right; now exists g].
  - intros e. rewrite (lp_lv j e Wj), Lj, (lv_same f c); [reflexivity|]. split; [exact Wc|]. now split.
Qed.

(** Products. *)
Definition fww (vars : list string) := fix go (i : nat) (fs : list gauss) : option nat :=
  match fs with [] => None | f :: fs' => if subsetb vars (ga_vars f) then Some i else go (S i) fs' end.
Lemma first_with_vars_some fs vars i : first_with_vars fs vars = Some i ->
  exists fs1 f fs2, fs = fs1 ++ f :: fs2 /\ length fs1 = i /\ incl vars (ga_vars f) /\ forall g, In g fs1 -> ~ incl vars (ga_vars g).
Proof.
  change (first_with_vars fs vars) with (fww vars 0 fs). enough (G : forall k fs, fww vars k fs = Some i ->
    exists fs1 f fs2, fs = fs1 ++ f :: fs2 /\ k + length fs1 = i /\ incl vars (ga_vars f) /\ forall g, In g fs1 -> ~ incl vars (ga_vars g)) by apply (G 0 fs).
  clear fs. intros k fs. revert k. induction fs as [|f fs IH]; intros k; cbn [fww]; [discriminate|].
  destruct (subsetb vars (ga_vars f)) eqn:Es.
  - intros [= <-]. exists [], f, fs. split; [reflexivity|]. split; [apply Nat.add_0_r|]. split; [now apply subsetb_incl|]. intros g [].
  - intros E. destruct (IH (S k) E) as (fs1 & g & fs2 & -> & L & I1 & I2). exists (f :: fs1), g, fs2. split; [reflexivity|].
    split; [cbn; lia|]. split; [exact I1|]. intros h [<-|Hh]; [|now apply I2]. intros Hi. apply subsetb_incl in Hi. congruence.
Qed.
Lemma first_with_vars_none fs vars : first_with_vars fs vars = None -> forall g, In g fs -> ~ incl vars (ga_vars g).
Proof.
  change (first_with_vars fs vars) with (fww vars 0 fs). generalize 0. induction fs as [|f fs IH]; intros k; cbn [fww]; [intros _ g []|].
  destruct (subsetb vars (ga_vars f)) eqn:Es; [discriminate|]. intros E g [<-|Hg]; [|now apply (IH (S k))].
  intros Hi. apply subsetb_incl in Hi. congruence.
Qed.
Lemma py_nth_mid {A} (l1 : list A) x l2 : py_nth (l1 ++ x :: l2) (length l1) = Ok x.
Proof. unfold py_nth. rewrite nth_error_app2 by lia. now rewrite Nat.sub_diag. Qed.
Lemma list_set_mid {A} (l1 : list A) x l2 y : list_set (l1 ++ x :: l2) (length l1) y = Ok (l1 ++ y :: l2).
Proof. induction l1 as [|z l1 IH]; [reflexivity|]. cbn [app length list_set]. now rewrite IH. Qed.
Lemma scope_app fs gs v : in_scope (fs ++ gs) v <-> in_scope fs v \/ in_scope gs v.
Proof.
  split.
  - intros (f & Hf & Hv). apply in_app_or in Hf. destruct Hf as [Hf|Hf]; [left|right]; now exists f.
  - intros [(f & Hf & Hv)|(f & Hf & Hv)]; exists f; (split; [apply in_or_app|exact Hv]); [now left|now right].
Qed.
Lemma scope_cons f fs v : in_scope (f :: fs) v <-> In v (ga_vars f) \/ in_scope fs v.
Proof.
  split.
  - intros (g & [<-|Hg] & Hv); [now left|right; now exists g].
  - intros [Hv|(g & Hg & Hv)]; [exists f; split; [now left|exact Hv]|exists g; split; [now right|exact Hv]].
Qed.
Theorem fg_multiply_spec o a f : oracle_ok o -> all_wf (fg_factors a) -> wf_gauss f ->
  exists r, fg_multiply o a f = Ok r /\ fg_factors r <> [] /\ all_wf (fg_factors r) /\
    (forall e, lvs (fg_factors r) e = vadd (lvs (fg_factors a) e) (lv f e)) /\
    (forall v, in_scope (fg_factors r) v <-> in_scope (fg_factors a) v \/ In v (ga_vars f)) /\
    NoDup (fg_vars r) /\ (forall v, In v (fg_vars r) <-> in_scope (fg_factors a) v).
Proof.
  intros Ho H Wf. destruct (fg_copy_ok o a Ho H) as (c & Ec & Fc & Nc & Sc). unfold fg_multiply. rewrite Ec. cbn [bind].
  assert (Sc' : forall v, In v (fg_vars c) <-> in_scope (fg_factors a) v) by (intros v; now rewrite Sc, (same_scope _ _ v Fc)).
  pose proof (same_wf _ _ Fc) as Wc.
  destruct (first_with_vars (fg_factors c) (ga_vars f)) as [i|] eqn:Ei.
  - destruct (first_with_vars_some _ _ _ Ei) as (fs1 & fi & fs2 & Es & <- & Hi & _). rewrite Es, py_nth_mid. cbn [bind].
    assert (Wi : wf_gauss fi) by (apply Wc; rewrite Es; apply in_or_app; right; now left).
    destruct (multiply_lv fi f Wi Wf) as (p & Ep & Wp & Vp & Lp). rewrite Ep. cbn [bind]. rewrite list_set_mid. cbn [bind].
    eexists. split; [reflexivity|]. cbn [fg_factors fg_vars]. split; [destruct fs1; discriminate|]. split; [|split; [|split; [|split; [exact Nc|exact Sc']]]].
    + intros g Hg. apply in_app_or in Hg. destruct Hg as [Hg|[<-|Hg]]; [|exact Wp|]; apply Wc; rewrite Es; apply in_or_app; [now left|right; now right].
    + intros e. rewrite <- (lvs_same _ _ e Fc), Es, !lvs_app, !lvs_cons, Lp, <- !vadd_assoc. f_equal. f_equal. apply vadd_comm.
    + intros v. rewrite <- (same_scope _ _ v Fc), Es, !scope_app, !scope_cons, Vp. tauto.
  - eexists. split; [reflexivity|]. cbn [fg_factors fg_vars]. split; [destruct (fg_factors c); discriminate|]. split; [|split; [|split; [|split; [exact Nc|exact Sc']]]].
    + intros g Hg. apply in_app_or in Hg. destruct Hg as [Hg|[<-|[]]]; [now apply Wc|exact Wf].
    + intros e. rewrite lvs_app, (lvs_same _ _ e Fc), lvs_cons. f_equal. apply vadd_0_r.
    + intros v. rewrite scope_app, (same_scope _ _ v Fc), scope_cons. split; [|tauto]. intros [Hv|[Hv|(g & [] & _)]]; tauto.
Qed.
