(** Examples and counterexamples for factorised sparse tables. *)
From Coq Require Import Lia Lra.
From Verif Require Export FactSparseFacts.
From Verif Require Import GraphLaws GraphExamples SparseProofs SparseProofs2 BaseFacts GaussModel.
Local Open Scope string_scope.
Local Open Scope nat_scope.
Local Open Scope list_scope.

(** How far two close tables are from each other. *)
Lemma zclose_bound card g f e : sgood card g -> sgood card f -> zclose g f ->
  (spot f e = 0 /\ spot g e = 0)%R \/
  (0 < spot f e /\ exists d, Rabs d <= (1 + Rabs (ln (spot f e))) / 10000 /\ spot g e = spot f e * exp d)%R.
Proof.
  intros G F [_ C]. destruct (C e) as (_ & H). unfold spot.
  pose proof (sval_lp g e (sg_wf _ _ G) (zd_lp _ (sg_zero _ _ G))) as Lg. pose proof (sval_lp f e (sg_wf _ _ F) (zd_lp _ (sg_zero _ _ F))) as Lf.
  destruct (sval g e) as [|x| |], (sval f e) as [|y| |]; cbn in *; try contradiction; try discriminate; [left; split; reflexivity|right].
  unfold Rle_b, default_tol in H. destruct (Rle_dec _ _) as [HR|]; [|discriminate]. split; [apply exp_pos|].
  exists (x - y)%R. split; [rewrite ln_exp; lra|]. rewrite <- exp_plus. f_equal. ring.
Qed.
Theorem fz_divide_near card o a f l1 g l2 : oracle_ok o -> (forall g, In g (fz_factors a) -> sgood card g) -> sgood card f ->
  fz_factors a = l1 ++ g :: l2 -> 1 < length (fz_factors a) -> (forall h, In h l1 -> ~ zclose h f) -> zclose g f ->
  exists r j jr, fz_divide o a f = Ok r /\ fz_joint o a = Ok j /\ fz_joint o r = Ok jr /\ (forall v, In v (svars jr) <-> zscope (l1 ++ l2) v) /\
    forall e, (spot f e = 0 /\ spot j e = 0)%R \/
      (0 < spot f e /\ exists d, Rabs d <= (1 + Rabs (ln (spot f e))) / 10000 /\ spot j e = spot jr e * spot f e * exp d)%R.
Proof.
  intros Ho T Tf EF HL HN Hg. destruct (fz_divide_removal card o a f l1 g l2 Ho T Tf EF HL HN Hg) as (r & Er & Fr & Pr).
  assert (N : fz_factors a <> []) by (intros E; rewrite E in HL; cbn in HL; lia).
  destruct (fz_joint_spec card o a Ho N T) as (j & Ej & _ & _ & Pj).
  assert (Tr : forall h, In h (fz_factors r) -> sgood card h).
  { intros h Hh. apply T. rewrite EF. rewrite Fr in Hh. apply in_app_or in Hh. apply in_or_app. cbn. tauto. }
  assert (Nr : fz_factors r <> []).
  { rewrite Fr. intros E. rewrite EF, app_length in HL. apply app_eq_nil in E. destruct E as [-> ->]. cbn in HL. lia. }
  destruct (fz_joint_spec card o r Ho Nr Tr) as (jr & Ejr & _ & Vjr & Pjr).
  exists r, j, jr. split; [exact Er|]. split; [exact Ej|]. split; [exact Ejr|]. split; [intros v; rewrite Vjr, Fr; reflexivity|].
  intros e. rewrite (Pj e), Pr, <- (Pjr e). assert (Tg : sgood card g) by (apply T; rewrite EF; apply in_elt).
  destruct (zclose_bound card g f e Tg Tf Hg) as [[A B]|(A & d & B & C)].
  - left. split; [exact A|]. rewrite B. ring.
  - right. split; [exact A|]. exists d. split; [exact B|]. rewrite C. ring.
Qed.

(** A constant table of one binary variable. *)
Definition flat (x : string) (c : R) : sparse := {| svars := [x]; scards := [2]; stbl := [([0], Fin c); ([1], Fin c)]; sdef := NInf |}.
Lemma flat_good x c : sgood two (flat x c). Proof. solve_sgood. Qed.
Lemma flat_val x c e : e x < 2 -> sval (flat x c) e = Fin c.
Proof. intros H. unfold sval. cbn. destruct (e x) as [|[|n]]; [reflexivity|reflexivity|lia]. Qed.
Lemma flat_out x c e : ~ e x < 2 -> sval (flat x c) e = NInf.
Proof. intros H. unfold sval. cbn. destruct (e x) as [|[|n]]; [lia|lia|reflexivity]. Qed.
Lemma flat_pot x c e : e x < 2 -> spot (flat x c) e = exp c.
Proof. intros H. unfold spot. now rewrite flat_val. Qed.
Lemma close_flat x c d : (Rabs (c - d) <= 1 / 10000 + 1 / 10000 * Rabs d)%R -> (Rabs (d - c) <= 1 / 10000 + 1 / 10000 * Rabs c)%R -> zclose (flat x c) (flat x d).
Proof.
  intros H1 H2. split; [reflexivity|]. intros e. destruct (Compare_dec.lt_dec (e x) 2) as [L|L]; [rewrite !flat_val by exact L|rewrite !flat_out by exact L; split; reflexivity].
  cbn. unfold Rle_b, default_tol. split; destruct (Rle_dec _ _); try reflexivity; contradiction.
Qed.
Lemma far_flat x c d : (1 / 10000 + 1 / 10000 * Rabs d < Rabs (c - d))%R -> ~ zclose (flat x c) (flat x d).
Proof.
  intros H [_ C]. destruct (C (fun _ => 0)) as [_ C']. cbn in C'. unfold Rle_b, default_tol in C'. destruct (Rle_dec _ _) as [HR|]; [lra|discriminate].
Qed.
Definition tiny : R := (1 / 20000)%R.
Lemma tiny_close x : zclose (flat x 0) (flat x tiny).
Proof. apply close_flat; unfold tiny; [rewrite Rabs_left by lra|rewrite Rabs_right by lra; rewrite Rabs_R0; lra]. pose proof (Rabs_pos (1 / 20000)). lra. Qed.
Definition pair_fz (f g : sparse) : fz := {| fz_vars := ["x"; "y"]; fz_factors := [f; g] |}.
Lemma pair_all x y : sgood two x -> sgood two y -> forall f, In f (fz_factors (pair_fz x y)) -> sgood two f.
Proof. intros X Y f [<-|[<-|[]]]; assumption. Qed.
Definition far_scope g f v : (In v (svars g) /\ ~ In v (svars f)) \/ (~ In v (svars g) /\ In v (svars f)) -> ~ zclose g f.
Proof. intros H [C _]. pose proof (C v). tauto. Qed.

(** The chain of three tables of the cluster graph examples; one with a missing entry. *)
Definition ex_fz : fz := {| fz_vars := ["a"; "b,c"; "1#c"]; fz_factors := [gx_ab; gx_abc] |}.
Lemma ex_all : forall f, In f (fz_factors ex_fz) -> sgood two f.
Proof. intros f [<-|[<-|[]]]; [exact gx_ab_good|exact gx_abc_good]. Qed.
Lemma div_hyps : 2 <= length (fz_factors ex_fz) /\ (forall f, In f (fz_factors ex_fz) -> sgood two f) /\ sgood two gx_a /\ svars gx_a <> [] /\
  (forall g, In g (fz_factors ex_fz) -> ~ zclose g gx_a) /\ exists g, In g (fz_factors ex_fz) /\ incl (svars gx_a) (svars g).
Proof.
  split; [cbn; lia|]. split; [exact ex_all|]. split; [exact gx_a_good|]. split; [discriminate|]. split.
  - intros g [<-|[<-|[]]]; apply (far_scope _ _ "b,c"); left; (split; [cbn; tauto|]); intros [E|[]]; discriminate E.
  - exists gx_ab. split; [now left|]. intros v [<-|[]]. now left.
Qed.
Lemma divide_refuted o o' : oracle_ok o -> oracle_ok o' -> exists a f r, (forall g, In g (fz_factors a) -> sgood two g) /\ sgood two f /\
  (forall e, in_range f e -> spot f e <> 0%R) /\ fz_divide o a f = Ok r /\ fz_joint o' r = Err NotImplementedError.
Proof.
  intros Ho Ho'. destruct div_hyps as (A & B & C & D & E & F).
  destruct (fz_divide_unusable two o o' ex_fz gx_a Ho Ho' A B C D E F) as (r & Er & Ej). exists ex_fz, gx_a, r.
  split; [exact B|]. split; [exact C|]. split; [|split; [exact Er|exact Ej]].
  intros e He. assert (H : e "a" < 2) by (apply (He "a" 2); cbn; now left). unfold spot, sval. cbn.
  destruct (e "a") as [|[|n]]; cbn; [pose proof (exp_pos 1); lra|pose proof (exp_pos 5); lra|lia].
Qed.
Lemma divide_close_refuted o : oracle_ok o -> exists a f r, (forall g, In g (fz_factors a) -> sgood two g) /\ sgood two f /\
  (forall e, in_range f e -> spot f e <> 0%R) /\ fz_divide o a f = Ok r /\ exists e, in_range f e /\ zprod (fz_factors r) e <> (zprod (fz_factors a) e / spot f e)%R.
Proof.
  intros Ho. assert (T : forall f, In f (fz_factors (pair_fz (flat "x" 0) (flat "y" 1))) -> sgood two f) by (apply pair_all; apply flat_good).
  destruct (fz_divide_removal two o (pair_fz (flat "x" 0) (flat "y" 1)) (flat "x" tiny) [] (flat "x" 0) [flat "y" 1] Ho T (flat_good _ _) eq_refl)
    as (r & Er & Fr & P); [cbn; lia|intros h []|apply tiny_close|].
  exists (pair_fz (flat "x" 0) (flat "y" 1)), (flat "x" tiny), r. split; [exact T|]. split; [apply flat_good|].
  assert (R2 : forall e, in_range (flat "x" tiny) e -> e "x" < 2) by (intros e He; apply (He "x" 2); cbn; now left).
  split; [intros e He; rewrite flat_pot by auto; pose proof (exp_pos tiny); lra|]. split; [exact Er|].
  exists (fun _ => 0). split; [intros v c [E|[]]; inversion E; subst; lia|].
  intros C. pose proof (P (fun _ => 0)) as P0. rewrite flat_pot in P0 by (cbn; lia). rewrite exp_0, Rmult_1_l in P0. rewrite P0, flat_pot in C by (cbn; lia).
  assert (Z : zprod (fz_factors r) (fun _ => 0) <> 0%R).
  { rewrite <- P0. unfold zprod. cbn [pair_fz fz_factors map fold_right]. rewrite !flat_pot by (cbn; lia). pose proof (exp_pos 0). pose proof (exp_pos 1). nra. }
  assert (E1 : exp tiny = 1%R). { pose proof (exp_pos tiny). apply (Rmult_eq_reg_l (zprod (fz_factors r) (fun _ => 0))); [|exact Z]. rewrite C at 1. field. lra. }
  rewrite <- exp_0 in E1. apply exp_inv in E1. unfold tiny in E1. lra.
Qed.
Lemma removal_hyps : (forall f, In f (fz_factors (pair_fz (flat "x" 0) (flat "y" 1))) -> sgood two f) /\ sgood two (flat "x" tiny) /\
  fz_factors (pair_fz (flat "x" 0) (flat "y" 1)) = [] ++ flat "x" 0 :: [flat "y" 1] /\ 1 < length (fz_factors (pair_fz (flat "x" 0) (flat "y" 1))) /\
  (forall h, In h [] -> ~ zclose h (flat "x" tiny)) /\ zclose (flat "x" 0) (flat "x" tiny).
Proof. split; [apply pair_all; apply flat_good|]. split; [apply flat_good|]. split; [reflexivity|]. split; [cbn; lia|]. split; [intros h []|apply tiny_close]. Qed.
Definition flat2 : sparse := {| svars := ["x"; "y"]; scards := [2; 2]; stbl := [([0; 0], Fin 1); ([1; 1], Fin 1); ([0; 1], Fin 2); ([1; 0], Fin 0)]; sdef := NInf |}.
Lemma flat2_good : sgood two flat2. Proof. solve_sgood. Qed.
Lemma disjoint_hyps : (forall f, In f (fz_factors (pair_fz (flat "x" 0) (flat "y" 1))) -> sgood two f) /\ sgood two flat2 /\
  forall g, In g (fz_factors (pair_fz (flat "x" 0) (flat "y" 1))) -> ~ incl (svars flat2) (svars g).
Proof.
  split; [apply pair_all; apply flat_good|]. split; [exact flat2_good|].
  intros g [<-|[<-|[]]] C; [specialize (C "y")|specialize (C "x")]; cbn in C; (destruct C as [E|[]]; [tauto|discriminate E]).
Qed.
Lemma divide_split_refuted o : oracle_ok o -> exists a f j q, (forall g, In g (fz_factors a) -> sgood two g) /\ sgood two f /\
  fz_joint o a = Ok j /\ s_divide o j f = Ok q /\ fz_divide o a f = Err PyException.
Proof.
  intros Ho. destruct disjoint_hyps as (T & Tf & D).
  destruct (fz_joint_spec two o (pair_fz (flat "x" 0) (flat "y" 1)) Ho) as (j & Ej & Tj & Vj & _); [discriminate|exact T|].
  destruct (sg_div two o j flat2 Ho Tj Tf) as (q & Eq & _).
  { intros v [<-|[<-|[]]]; apply Vj; [exists (flat "x" 0)|exists (flat "y" 1)]; cbn; tauto. }
  { discriminate. }
  exists (pair_fz (flat "x" 0) (flat "y" 1)), flat2, j, q. split; [exact T|]. split; [exact Tf|]. split; [exact Ej|]. split; [exact Eq|].
  now apply (fz_divide_disjoint two).
Qed.
Lemma multiply_scope_refuted o : oracle_ok o -> exists a f r, (forall g, In g (fz_factors a) -> sgood two g) /\ sgood two f /\
  fz_multiply o a f = Ok r /\ zscope (fz_factors r) "z" /\ ~ In "z" (fz_vars r).
Proof.
  intros Ho. assert (T : forall f, In f (fz_factors (pair_fz (flat "x" 0) (flat "y" 1))) -> sgood two f) by (apply pair_all; apply flat_good).
  destruct (fz_multiply_spec two o _ _ Ho T (flat_good "z" 1)) as (r & Er & _ & _ & Vr & Sr & _).
  exists (pair_fz (flat "x" 0) (flat "y" 1)), (flat "z" 1), r. split; [exact T|]. split; [apply flat_good|]. split; [exact Er|].
  split; [apply Sr; right; now left|]. rewrite Vr. intros C.
  apply so_In in C; [|exact Ho|apply NoDup_dedup]. cbn in C. destruct C as [E|[E|[]]]; discriminate E.
Qed.
Lemma marginal_refuted o : oracle_ok o -> exists a j m, (forall g, In g (fz_factors a) -> sgood two g) /\ fz_joint o a = Ok j /\
  s_marginalize o j ["x"] true = Ok m /\ forall r, fz_marginalize o a ["x"] true <> Ok r.
Proof.
  intros Ho. assert (T : forall f, In f (fz_factors (pair_fz (flat "x" 0) (flat "y" 1))) -> sgood two f) by (apply pair_all; apply flat_good).
  destruct (fz_joint_spec two o (pair_fz (flat "x" 0) (flat "y" 1)) Ho) as (j & Ej & Tj & Vj & _); [discriminate|exact T|].
  destruct (marg_keep_spec o j ["x"] (sg_wf _ _ Tj) (sg_zero _ _ Tj)) as (m & Em & _); [repeat constructor; intros []|intros v [<-|[]]; apply Vj; exists (flat "x" 0); cbn; tauto|].
  exists (pair_fz (flat "x" 0) (flat "y" 1)), j, m. split; [exact T|]. split; [exact Ej|]. split; [exact Em|]. intros r. apply fz_marginalize_fails.
Qed.
(** Equality. *)
Lemma flat_diff : ~ zclose (flat "x" 0) (flat "x" 1) /\ ~ zclose (flat "x" 1) (flat "x" 0).
Proof.
  split; apply far_flat; [rewrite (Rabs_left (0 - 1)) by lra; rewrite (Rabs_right 1) by lra; lra|].
  rewrite (Rabs_right (1 - 0)) by lra. rewrite Rabs_R0. lra.
Qed.
Lemma eqb_close x c : zcloseb (flat x c) (flat x c) = true.
Proof. apply zcloseb_iff, close_flat; replace (c - c)%R with 0%R by ring; rewrite Rabs_R0; pose proof (Rabs_pos c); lra. Qed.
Lemma eqb_far g f : ~ zclose g f -> zcloseb g f = false.
Proof. intros H. destruct (zcloseb g f) eqn:E; [|reflexivity]. apply zcloseb_iff in E. contradiction. Qed.
Definition dupl (f g : sparse) : fz := {| fz_vars := ["x"]; fz_factors := [f; g] |}.
Lemma dupl_all x y : sgood two x -> sgood two y -> forall f, In f (fz_factors (dupl x y)) -> sgood two f.
Proof. intros X Y f [<-|[<-|[]]]; assumption. Qed.
Lemma equals_refl_refuted o : exists a, (forall f, In f (fz_factors a) -> sgood two f) /\ fz_equals o a a = Ok false.
Proof.
  exists (dupl (flat "x" 0) (flat "x" 0)). split; [apply dupl_all; apply flat_good|].
  rewrite (fz_equals_count two); try reflexivity; try (apply dupl_all; apply flat_good). cbn [dupl fz_factors zpairs fold_right length].
  unfold zrow. cbn [filter]. rewrite eqb_close. reflexivity.
Qed.
Lemma equals_different_refuted o : exists a b, (forall f, In f (fz_factors a) -> sgood two f) /\ (forall f, In f (fz_factors b) -> sgood two f) /\
  fz_equals o a b = Ok true /\ exists e, (forall f, In f (fz_factors a ++ fz_factors b) -> in_range f e) /\ zprod (fz_factors a) e <> zprod (fz_factors b) e.
Proof.
  destruct flat_diff as [D1 D2].
  exists (dupl (flat "x" 0) (flat "x" 1)), (dupl (flat "x" 0) (flat "x" 0)). split; [apply dupl_all; apply flat_good|]. split; [apply dupl_all; apply flat_good|]. split.
  - rewrite (fz_equals_count two); try reflexivity; try (apply dupl_all; apply flat_good). cbn [dupl fz_factors zpairs fold_right length].
    unfold zrow. cbn [filter]. rewrite (eqb_close "x" 0). rewrite (eqb_far _ _ D2). reflexivity.
  - exists (fun _ => 0). split.
    + intros f H v c Hc. cbn in H. repeat (destruct H as [<-|H]; [destruct Hc as [E|[]]; inversion E; subst; lia|]). destruct H.
    + unfold zprod. cbn [dupl fz_factors map fold_right]. rewrite !flat_pot by (cbn; lia). rewrite exp_0. pose proof (exp_ineq1 1). lra.
Qed.
Lemma sep_hyps : zsep_rows [flat "x" 0; flat "x" 1] [flat "x" 1; flat "x" 0] /\ zsep_cols [flat "x" 0; flat "x" 1] [flat "x" 1; flat "x" 0].
Proof.
  destruct flat_diff as [D1 D2]. split; intros f [<-|[<-|[]]]; (constructor; [constructor; [|constructor]|constructor; [constructor|constructor]]); tauto.
Qed.
Lemma refl_hyps : (forall f, In f (fz_factors (dupl (flat "x" 0) (flat "x" 1))) -> sgood two f) /\
  ForallOrdPairs (fun f g => ~ zclose f g /\ ~ zclose g f) (fz_factors (dupl (flat "x" 0) (flat "x" 1))).
Proof.
  split; [apply dupl_all; apply flat_good|]. destruct flat_diff. constructor; [constructor; [now split|constructor]|]. constructor; [constructor|constructor].
Qed.
Lemma visclose_self v : is_lp v -> visclose v v default_tol default_tol = true.
Proof.
  destruct v as [|x| |]; cbn; try contradiction; [reflexivity|]. intros _. unfold Rle_b. destruct (Rle_dec _ _) as [|N]; [reflexivity|]. exfalso. apply N.
  replace (x - x)%R with 0%R by ring. rewrite Rabs_R0. unfold default_tol. pose proof (Rabs_pos x). lra.
Qed.
Lemma zclose_refl card f : sgood card f -> zclose f f.
Proof. intros G. split; [tauto|]. intros e. pose proof (visclose_self _ (sval_lp f e (sg_wf _ _ G) (zd_lp _ (sg_zero _ _ G)))). tauto. Qed.
Theorem fz_equals_refl card o a : (forall f, In f (fz_factors a) -> sgood card f) ->
  ForallOrdPairs (fun f g => ~ zclose f g /\ ~ zclose g f) (fz_factors a) -> fz_equals o a a = Ok true.
Proof.
  intros A HO. rewrite (fz_equals_count card o a a A A); [|reflexivity|reflexivity]. f_equal. apply Nat.eqb_eq.
  assert (X : forall f, In f (fz_factors a) -> zrow f (fz_factors a) = 1).
  { intros f Hf. unfold zrow. induction HO as [|x l H HO IH]; [destruct Hf|]. rewrite Forall_forall in H. cbn [filter]. destruct Hf as [<-|Hf].
    - rewrite (proj2 (zcloseb_iff x x)) by (apply (zclose_refl card), A; now left). cbn [length]. f_equal.
      clear -H. induction l as [|y l IH]; [reflexivity|]. cbn [filter]. destruct (zcloseb x y) eqn:E.
      + apply zcloseb_iff in E. exfalso. exact (proj1 (H y (or_introl eq_refl)) E).
      + apply IH. intros z Hz. apply H. now right.
    - assert (zcloseb f x = false) as ->.
      { destruct (zcloseb f x) eqn:E; [|reflexivity]. apply zcloseb_iff in E. exfalso. exact (proj2 (H f Hf) E). }
      apply IH; [intros g Hg; apply A; now right|exact Hf]. }
  apply zpairs_rows; [intros f Hf; rewrite X by exact Hf; lia|exact X].
Qed.
Theorem fz_equals_table_spec card o a f : oracle_ok o -> 2 <= length (fz_factors a) -> (forall g, In g (fz_factors a) -> sgood card g) -> sgood card f ->
  (forall v, In v (fz_vars a) <-> In v (svars f)) ->
  exists r ja jb, fz_equals_table o a f = Ok r /\ sgood card ja /\ sgood card jb /\
    (forall e, spot ja e = zprod (fz_factors a) e) /\ (forall e, spot jb e = spot f e) /\ (r = true <-> zclose ja jb).
Proof.
  intros Ho HL A Tf HV. unfold fz_equals_table. rewrite (mk_fz_ok card) by (intros g [<-|[]]; exact Tf). cbn [bind map concat].
  set (b := {| fz_vars := _; fz_factors := _ |}). destruct (fz_equals_shapes card o a b) as (r & ja & jb & E & Ta & Tb' & Pa & Pb & H).
  - exact Ho.
  - intros C. rewrite C in HL. cbn in HL. lia.
  - discriminate.
  - exact A.
  - intros g [<-|[]]. exact Tf.
  - intros v. cbn [b fz_vars]. rewrite app_nil_r, (so_In o _ v Ho (NoDup_dedup _)), In_dedup. apply HV.
  - cbn. lia.
  - exists r, ja, jb. split; [exact E|]. split; [exact Ta|]. split; [exact Tb'|]. split; [exact Pa|]. split; [|exact H].
    intros e. rewrite Pb. cbn. rewrite Rmult_1_r. reflexivity.
Qed.
Lemma kl_hyps o : oracle_ok o -> fz_factors ex_fz <> [] /\ (forall f, In f (fz_factors ex_fz) -> sgood two f) /\ sgood two gx_abc /\
  (forall v, zscope (fz_factors ex_fz) v <-> In v (svars gx_abc)) /\ svars gx_abc <> [] /\ (0 < weight_of gx_abc)%R /\
  exists j, fz_joint o ex_fz = Ok j /\ (0 < weight_of j)%R.
Proof.
  intros Ho. split; [discriminate|]. split; [exact ex_all|]. split; [exact gx_abc_good|]. split.
  { intros v. rewrite <- zscope_concat. cbn. tauto. }
  split; [discriminate|].
  assert (P1 : spot gx_abc (fun _ => 0) <> 0%R) by (unfold spot, sval; cbn; apply Rgt_not_eq, exp_pos).
  assert (P2 : spot gx_ab (fun _ => 0) <> 0%R) by (unfold spot, sval; cbn; apply Rgt_not_eq, exp_pos).
  split; [apply (weight_positive two); [exact gx_abc_good|now exists (fun _ => 0)]|].
  destruct (fz_joint_spec two o ex_fz Ho) as (j & Ej & Gj & _ & Pj); [discriminate|exact ex_all|].
  exists j. split; [exact Ej|]. apply (weight_positive two); [exact Gj|]. exists (fun _ => 0). rewrite Pj. unfold zprod. cbn [ex_fz fz_factors map fold_right].
  rewrite Rmult_1_r. now apply Rmult_integral_contrapositive_currified.
Qed.
Lemma ex_made o : oracle_ok o -> exists a, mk_fz o [gx_ab; gx_abc] = Ok a /\ (forall f, In f (fz_factors a) -> sgood two f) /\ fz_factors a <> [] /\ 1 < length (fz_factors a).
Proof.
  intros Ho. eexists. split; [apply (mk_fz_ok two); exact ex_all|]. split; [exact ex_all|]. split; [discriminate|cbn; lia].
Qed.
Lemma one_hyps : sgood two gx_abc /\ sgood two gx_a /\ svars gx_a <> [] /\ incl (svars gx_a) (svars gx_abc) /\ exists e, in_range gx_abc e /\ spot gx_a e <> 0%R.
Proof.
  split; [exact gx_abc_good|]. split; [exact gx_a_good|]. split; [discriminate|]. split; [intros v [<-|[]]; cbn; tauto|].
  exists (fun _ => 0). split; [intros v c H; cbn in H; repeat (destruct H as [E|H]; [inversion E; subst; lia|]); destruct H|].
  unfold spot, sval. cbn. apply Rgt_not_eq, exp_pos.
Qed.
Definition unit_table : sparse := {| svars := []; scards := []; stbl := [([], Fin 2)]; sdef := NInf |}.
Lemma constant_hyps : sgood two unit_table /\ svars unit_table = [] /\ forall g, In g (fz_factors ex_fz) -> ~ zclose g unit_table.
Proof.
  split; [solve_sgood|]. split; [reflexivity|]. intros g [<-|[<-|[]]]; apply (far_scope _ _ "a"); left; (split; [cbn; tauto|]); intros [].
Qed.
