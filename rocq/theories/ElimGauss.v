(** Elimination of variables from products of Gaussians. *)
From Coq Require Import String List Reals Lra Permutation.
Import ListNotations.
From Verif Require Export ElimFacts FactMarg IntFull GaussLaws.
From Verif Require Import BaseFacts.
Local Open Scope string_scope.
Local Open Scope list_scope.

Section GaussElim.
Variable o : oracle.
Hypothesis Ho : oracle_ok o.
Let ops := gauss_ops o.
Definition fine (f : gauss) : Prop := solid f /\ plain f.

Lemma gvals_split (P : gauss -> bool) fs e : gvals fs e = (gvals (filter P fs) e * gvals (filter (fun x => negb (P x)) fs) e)%R.
Proof. unfold gvals. induction fs as [|x fs IH]; cbn [map filter fold_right]; [ring|]. destruct (P x); cbn [negb map fold_right]; rewrite IH; ring. Qed.
Lemma gval_product a b r e : fine a -> fine b -> lv r e = vadd (lv a e) (lv b e) -> gval r e = (gval a e * gval b e)%R.
Proof. intros (Sa & Pa) (Sb & Pb) H. rewrite !gval_lv, H. apply (MixFacts.pot_vadd (lv a e) (lv b e)); now apply lv_plain. Qed.
Definition gscope (fs : list gauss) (v : string) : Prop := exists f, In f fs /\ In v (ga_vars f).
Lemma gfold_mul fs : forall f, fine f -> (forall g, In g fs -> fine g) -> exists p, foldM g_multiply fs f = Ok p /\ fine p /\
  (forall v, In v (ga_vars p) <-> gscope (f :: fs) v) /\ forall e, gval p e = gvals (f :: fs) e.
Proof.
  induction fs as [|g fs IH]; intros f Gf Gs.
  - exists f. split; [reflexivity|]. split; [exact Gf|]. split.
    + intros v. split; [intros H; exists f; split; [now left|exact H]|intros (g & [<-|[]] & H); exact H].
    + intros e. unfold gvals. cbn. ring.
  - pose proof (Gs g (or_introl eq_refl)) as Gg.
    destruct (multiply_solid f g (proj1 Gf) (proj1 Gg)) as (q & Eq & Sq & Vq & Lq & Pq).
    assert (Gq : fine q) by (split; [exact Sq|apply Pq; [apply Gf|apply Gg]]).
    destruct (IH q Gq (fun h H => Gs h (or_intror H))) as (p & Ep & Gp & Vp & Pp).
    exists p. cbn [foldM]. rewrite Eq. cbn [bind]. split; [exact Ep|]. split; [exact Gp|]. split.
    + intros v. rewrite Vp. split.
      * intros (h & [<-|H] & Hv).
        -- apply Vq in Hv. destruct Hv as [Hv|Hv]; [exists f|exists g]; (split; [cbn; tauto|exact Hv]).
        -- exists h. split; [cbn; tauto|exact Hv].
      * intros (h & [<-|[<-|H]] & Hv); [exists q|exists q|exists h]; (split; [cbn; tauto|]); try (apply Vq; tauto). exact Hv.
    + intros e. rewrite Pp. unfold gvals. cbn [map fold_right]. rewrite (gval_product f g q e Gf Gg (Lq e)). ring.
Qed.
Lemma geliminate_spec fs v : (forall f, In f fs -> fine f) -> exists rs, eliminate ops fs v = Ok rs /\ (forall f, In f rs -> fine f) /\
  (forall w, gscope rs w <-> gscope fs w /\ w <> v) /\
  (gscope fs v -> forall e, iint [v] (gvals fs) e (gvals rs e)) /\ (~ gscope fs v -> rs = fs).
Proof.
  intros G. unfold eliminate. set (P := fun f => mem v (f_vars ops f)).
  assert (HP : forall f, In f (filter P fs) <-> In f fs /\ In v (ga_vars f)) by (intros f; unfold P; rewrite filter_In, mem_In; reflexivity).
  assert (HN : forall f, In f (filter (fun f => negb (P f)) fs) <-> In f fs /\ ~ In v (ga_vars f)).
  { intros f. unfold P. rewrite filter_In, negb_true_iff, mem_nIn. reflexivity. }
  change (filter (fun f => mem v (f_vars ops f)) fs) with (filter P fs).
  change (filter (fun f => negb (mem v (f_vars ops f))) fs) with (filter (fun f => negb (P f)) fs).
  destruct (filter P fs) as [|f rest] eqn:E.
  - exists fs. assert (N : ~ gscope fs v). { intros (g & Hg & Hv). apply (proj2 (HP g)). tauto. }
    split; [reflexivity|]. split; [exact G|]. split; [|split; [tauto|reflexivity]].
    intros w. split; [intros H; split; [exact H|]; intros ->; tauto|tauto].
  - destruct (gfold_mul rest f) as (p & Ep & Gp & Vp & Pp).
    { apply G. apply (proj1 (HP f)). now left. }
    { intros g Hg. apply G. apply (proj1 (HP g)). now right. }
    change (f_mul ops) with g_multiply. rewrite Ep. cbn [bind].
    change (f_vars ops p) with (ga_vars p).
    set (ks := filter (fun w => negb (eqb w v)) (ga_vars p)).
    assert (W : forall w, In w ks <-> In w (ga_vars p) /\ w <> v).
    { intros w. unfold ks. rewrite filter_In, negb_true_iff. unfold eqb. destruct (eq_dec w v); split; intros [H1 H2]; split; auto; congruence. }
    assert (Hv : In v (ga_vars p)).
    { apply Vp. exists f. split; [now left|]. apply (proj1 (HP f)). now left. }
    assert (Np : NoDup (ga_vars p)) by apply Gp.
    assert (Hperm : Permutation ([v] ++ ks) (ga_vars p)).
    { apply NoDup_Permutation; [|exact Np|].
      - constructor; [rewrite W; tauto|]. now apply NoDup_filter.
      - intros w. cbn. rewrite W. split; [intros [<-|[H _]]; assumption|]. intros H. destruct (string_dec v w); [now left|right; split; [exact H|congruence]]. }
    destruct (marg_integral o [v] p ks Ho (proj1 Gp) (proj2 Gp) Hperm) as (m & Em & Vm & Sm & Pm & Im).
    change (f_marg ops p ks) with (g_marginalize o p ks true). rewrite Em. cbn [bind].
    eexists. split; [reflexivity|]. split; [|split; [|split]].
    + intros g [<-|Hg]; [now split|]. apply G. apply HN in Hg. tauto.
    + intros w. split.
      * intros (g & [<-|Hg] & Hw).
        -- rewrite Vm in Hw. apply W in Hw. destruct Hw as [Hw Hn]. split; [|exact Hn]. apply Vp in Hw. destruct Hw as (h & Hh & Hw). exists h. split; [|exact Hw]. now apply HP in Hh.
        -- apply HN in Hg. split; [exists g; tauto|]. intros ->. tauto.
      * intros [(g & Hg & Hw) Hn]. destruct (in_dec string_dec v (ga_vars g)) as [K|K].
        -- exists m. split; [now left|]. rewrite Vm. apply W. split; [|exact Hn]. apply Vp. exists g. split; [|exact Hw]. apply HP. tauto.
        -- exists g. split; [right; apply HN; tauto|exact Hw].
    + intros _ e.
      apply (iint_ext [v] (fun e => gvals (filter (fun f => negb (P f)) fs) e * gval p e)%R).
      { intros e'. rewrite (gvals_split P fs e'), E, Pp. ring. }
      replace (gvals (m :: filter (fun f => negb (P f)) fs) e) with (gvals (filter (fun f => negb (P f)) fs) e * gval m e)%R by (unfold gvals; cbn [map fold_right]; ring).
      apply (iint_scal [v]); [|apply Im].
      intros y [<-|[]] e' t. unfold gvals. f_equal. apply map_ext_in. intros g Hg. apply HN in Hg. apply (FactMarg.gval_indep g [v]); [|now left].
      intros z [<-|[]]. tauto.
    + intros N. exfalso. apply N. exists f. apply (proj1 (HP f)). now left.
Qed.
(** The order of integration does not matter for a product of Gaussians. *)
Lemma gvals_order fs ys zs I e : (forall f, In f fs -> fine f) -> NoDup ys -> (forall y, In y ys -> gscope fs y) -> Permutation ys zs ->
  iint ys (gvals fs) e I -> iint zs (gvals fs) e I.
Proof.
  intros G N S Hp H. destruct fs as [|f fs].
  - destruct ys as [|y ys]; [apply Permutation_nil in Hp; now subst|]. destruct (S y (or_introl eq_refl)) as (g & [] & _).
  - destruct (gfold_mul fs f (G f (or_introl eq_refl)) (fun g Hg => G g (or_intror Hg))) as (p & _ & Gp & Vp & Pp).
    assert (Np : NoDup (ga_vars p)) by apply Gp.
    set (xs := filter (fun v => negb (mem v ys)) (ga_vars p)).
    assert (HP : Permutation (ys ++ xs) (ga_vars p)).
    { apply NoDup_Permutation; [|exact Np|].
      - apply NoDup_app_intro; [exact N|now apply NoDup_filter|]. intros v H1 H2. unfold xs in H2. rewrite filter_In, negb_true_iff, mem_nIn in H2. tauto.
      - intros v. unfold xs. rewrite in_app_iff, filter_In, negb_true_iff, mem_nIn. split; [intros [K|[K _]]; [apply Vp, S, K|exact K]|].
        intros K. destruct (in_dec string_dec v ys); tauto. }
    apply (iint_ext ys (gvals (f :: fs)) (gval p)) in H; [|intros; now rewrite Pp].
    apply (iint_ext zs (gval p) (gvals (f :: fs))); [intros; now rewrite Pp|].
    destruct (marg_integral o zs p xs Ho (proj1 Gp) (proj2 Gp)) as (r & _ & _ & _ & _ & Ir); [now rewrite <- Hp|].
    rewrite (integral_order p xs ys zs e I (gval r e) (proj1 Gp) (proj2 Gp) HP Hp H (Ir e)). apply Ir.
Qed.
Lemma geliminate_all_spec vs : forall fs, NoDup vs -> (forall f, In f fs -> fine f) -> exists rs, eliminate_all ops fs vs = Ok rs /\ (forall f, In f rs -> fine f) /\
  (forall w, gscope rs w <-> gscope fs w /\ ~ In w vs) /\
  forall done, NoDup done -> (forall v, In v done <-> In v vs /\ gscope fs v) -> forall e, iint done (gvals fs) e (gvals rs e).
Proof.
  induction vs as [|v vs IH]; intros fs N G.
  - exists fs. split; [reflexivity|]. split; [exact G|]. split; [intros w; cbn; tauto|].
    intros done Nd Hd e. destruct done as [|x done]; [reflexivity|]. destruct (proj1 (Hd x) (or_introl eq_refl)) as [[] _].
  - inversion N as [|v' vs' Nv Nvs]. subst v' vs'.
    destruct (geliminate_spec fs v G) as (r1 & E1 & G1 & S1 & P1 & Q1).
    destruct (IH r1 Nvs G1) as (rs & Es & Gs & Ss & Ps).
    exists rs. unfold eliminate_all in *. cbn [foldM]. rewrite E1. cbn [bind]. split; [exact Es|]. split; [exact Gs|]. split.
    + intros w. rewrite Ss, S1. cbn [In]. split; [intros [[A B] C]; split; [exact A|]; intros [D|D]; [congruence|tauto]|].
      intros [A B]. split; [split; [exact A|]|]; intros C; apply B; [left; congruence|tauto].
    + intros done Nd Hd e.
      destruct (Classical_Prop.classic (gscope fs v)) as [Sv|Sv].
      * set (done' := filter (fun w => negb (eqb w v)) done).
        assert (D' : forall w, In w done' <-> In w done /\ w <> v).
        { intros w. unfold done'. rewrite filter_In, negb_true_iff. unfold eqb. destruct (eq_dec w v); split; intros [H1 H2]; split; auto; congruence. }
        assert (Nd' : NoDup done') by now apply NoDup_filter.
        assert (N1 : NoDup (done' ++ [v])) by (apply NoDup_app_one; [exact Nd'|]; rewrite D'; tauto).
        apply (gvals_order fs (done' ++ [v]) done); [exact G|exact N1| | |].
        -- intros w Hw. apply in_app_iff in Hw. destruct Hw as [Hw|[<-|[]]]; [|exact Sv]. apply D' in Hw. apply Hd, Hw.
        -- apply NoDup_Permutation; auto.
           intros w. rewrite in_app_iff, D'. cbn. split; [intros [[H _]|[<-|[]]]; [exact H|apply Hd; cbn; tauto]|].
           intros H. destruct (string_dec v w); [right; left; assumption|left; split; [exact H|congruence]].
        -- apply (iint_app done' [v] _ (gvals r1)); [now apply P1|]. apply (Ps done' Nd').
           intros w. rewrite D', Hd, S1. cbn [In]. split.
           ++ intros [[[C|C] S] D]; [congruence|tauto].
           ++ intros [C [S D]]. tauto.
      * rewrite (Q1 Sv) in Ps. apply Ps; [exact Nd|]. intros w. rewrite Hd. cbn [In]. split; [intros [[<-|C] S]; [contradiction|tauto]|tauto].
Qed.
Lemma geliminate_order fs vs ws r1 r2 : NoDup vs -> NoDup ws -> (forall v, In v vs <-> In v ws) -> (forall f, In f fs -> fine f) ->
  eliminate_all ops fs vs = Ok r1 -> eliminate_all ops fs ws = Ok r2 ->
  (forall w, gscope r1 w <-> gscope r2 w) /\ forall e, gvals r1 e = gvals r2 e.
Proof.
  intros N M H G E1 E2.
  destruct (geliminate_all_spec vs fs N G) as (x & Ex & _ & Sx & Px). rewrite E1 in Ex. injection Ex as <-.
  destruct (geliminate_all_spec ws fs M G) as (y & Ey & _ & Sy & Py). rewrite E2 in Ey. injection Ey as <-.
  split; [intros w; rewrite Sx, Sy, H; tauto|]. intros e.
  set (all := flat_map ga_vars fs).
  assert (HA : forall v, In v all <-> gscope fs v) by (intros v; unfold all; rewrite in_flat_map; reflexivity).
  set (done := filter (fun v => mem v all) vs).
  assert (HD : forall v, In v done <-> In v vs /\ gscope fs v) by (intros v; unfold done; rewrite filter_In, mem_In, HA; tauto).
  apply (iint_unique done (gvals fs) e); [apply (Px done (NoDup_filter _ _ N) HD)|]. apply (Py done (NoDup_filter _ _ N)). intros v. rewrite HD, H. tauto.
Qed.
End GaussElim.
