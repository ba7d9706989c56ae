(** Constructor, density and completion of sparse tables; the default rule "both"; standard
    Gaussians, inverse and weight. *)
From Coq Require Import String List Lia Lra Permutation.
Import ListNotations.
From Verif Require Export TableSpec SparseModel GaussModel.
From Verif Require Import BaseFacts SparseFacts SparseOps SparseProofs3 SparseExamples GaussFacts GaussOps GaussEq GaussExamples IntKL2 MixFacts MixExamples IntMarg IntFull PlotFacts.
Local Open Scope string_scope.
Local Open Scope nat_scope.
Local Open Scope list_scope.

Lemma mk_sparse_iff vars cards t d f : mk_sparse vars cards t d = Ok f <->
  NoDup vars /\ length cards = length vars /\ svars f = vars /\ scards f = cards /\ stbl f = t /\ sdef f = d.
Proof.
  unfold mk_sparse. destruct (nodupb vars) eqn:N; cbn [negb].
  - apply nodupb_iff in N. destruct (Nat.eqb (length cards) (length vars)) eqn:L; cbn [negb].
    + apply Nat.eqb_eq in L. split; [intros [= <-]; now repeat split|]. intros (_ & _ & <- & <- & <- & <-). destruct f; reflexivity.
    + apply Nat.eqb_neq in L. split; [discriminate|]. intros (_ & C & _). contradiction.
  - split; [discriminate|]. intros (C & _). apply nodupb_iff in C. congruence.
Qed.
Lemma mk_sparse_error vars cards t d : ~ NoDup vars \/ length cards <> length vars -> mk_sparse vars cards t d = Err ValueError.
Proof.
  unfold mk_sparse. intros H. destruct (nodupb vars) eqn:N; cbn [negb]; [|reflexivity]. apply nodupb_iff in N.
  destruct (Nat.eqb_spec (length cards) (length vars)); [tauto|reflexivity].
Qed.
Lemma dget_map_val {K A B} `{EqDec K} (g : A -> B) (t : dict K A) k : dget (map (fun kv => (fst kv, g (snd kv))) t) k = option_map g (dget t k).
Proof. induction t as [|[k' v] t IH]; [reflexivity|]. cbn [map dget fst snd]. destruct (eq_dec k k'); [reflexivity|exact IH]. Qed.
Lemma pot_of_rlog x : (0 <= x)%R -> pot (rlog x) = x.
Proof.
  intros H. unfold rlog, Rlt_b, Req_b. destruct (Rlt_dec 0 x) as [P|P]; [exact (exp_ln x P)|]. destruct (Req_EM_T x 0) as [->|N]; [reflexivity|lra].
Qed.
Lemma probs_made vars cards (p : dict (list nat) R) d f : (forall k x, In (k, x) p -> 0 <= x)%R -> mk_sparse_probs vars cards p d = Ok f ->
  svars f = vars /\ scards f = cards /\ sdef f = d /\ forall e, spot f e = match dget p (map e vars) with Some x => x | None => pot d end.
Proof.
  intros Hp E. unfold mk_sparse_probs in E. apply mk_sparse_iff in E. destruct E as (_ & _ & V & C & T & D). repeat (split; [assumption|]).
  intros e. unfold spot, sval. rewrite T, V, D, dget_map_val. destruct (dget p (map e vars)) as [x|] eqn:G; cbn [option_map]; [|reflexivity].
  pose proof (Hp _ _ (dget_In _ _ _ G)). now apply pot_of_rlog.
Qed.

Lemma keys_assignments f : wf_struct f -> incl (dkeys (stbl f)) (assignments (map (card_of f) (svars f))).
Proof.
  intros W k H. unfold dkeys in H. apply in_map_iff in H. destruct H as ((k0 & v) & <- & H). cbn. apply In_assignments. rewrite <- (scards_map f W). exact (wf_keys f W k0 v H).
Qed.
Lemma nprod_length f : wf_struct f -> length (assignments (map (card_of f) (svars f))) = nprod (scards f).
Proof. intros W. rewrite length_assignments. now rewrite <- (scards_map f W). Qed.
Theorem dense_iff f : wf_struct f -> (s_is_dense f = true <-> forall e, in_range f e -> dget (stbl f) (map e (svars f)) <> None).
Proof.
  intros W. unfold s_is_dense. rewrite Nat.eqb_eq. pose proof (keys_assignments f W) as I. pose proof (nprod_length f W) as L. split.
  - intros E e R. assert (J : incl (assignments (map (card_of f) (svars f))) (dkeys (stbl f))).
    { apply NoDup_length_incl; [exact (wf_nodup f W)| |exact I]. rewrite L, <- E. unfold dkeys. rewrite map_length. lia. }
    intros C. assert (K := J _ (in_range_assign f e W R)). apply In_dkeys_dget in K. destruct K as (v & K). congruence.
  - intros H. rewrite <- L. transitivity (length (dkeys (stbl f))); [unfold dkeys; now rewrite map_length|]. apply Nat.le_antisymm; apply NoDup_incl_length.
    + exact (wf_nodup f W).
    + exact I.
    + apply NoDup_assignments.
    + intros k Hk. pose proof (in_range_upds f (fun _ => 0) k W Hk) as R. specialize (H _ R). apply In_assign_range in Hk.
      rewrite (map_upds (svars f) (fun _ => 0) k (wf_vars f W) (Forall2_length _ _ _ Hk)) in H. destruct (dget (stbl f) k) as [v|] eqn:G; [|congruence].
      apply dget_In in G. unfold dkeys. apply in_map_iff. now exists (k, v).
Qed.
Theorem make_dense_spec f : wf_struct f -> exists g, s_make_dense f = Ok g /\ wf_struct g /\ svars g = svars f /\ scards g = scards f /\ sdef g = sdef f /\
  s_is_dense g = true /\ (forall e, sval g e = sval f e) /\ (s_is_dense f = true -> g = f).
Proof.
  intros W. unfold s_make_dense. rewrite (s_copy_ok f W). cbn [bind]. rewrite (vars_to_cards_ok f (svars f) W (incl_refl _)). cbn [bind].
  destruct (complete_inner_spec (assignments (map (card_of f) (svars f))) (sdef f) (stbl f)) as (H1 & H2 & H3). specialize (H3 (wf_nodup f W)).
  eexists. split; [reflexivity|]. set (g := {| svars := svars f; scards := scards f; stbl := _; sdef := sdef f |}).
  assert (HK : forall k, In k (dkeys (stbl g)) <-> In k (assignments (map (card_of f) (svars f)))).
  { intros k. cbn [stbl g]. rewrite H2. split; [|tauto]. intros [H|H]; [now apply (keys_assignments f W)|exact H]. }
  assert (Wg : wf_struct g).
  { constructor; cbn [svars scards g]; [exact (wf_vars f W)|exact (wf_cards f W)| |exact H3]. intros k v Hk. rewrite (scards_map f W). apply In_assignments, HK. unfold dkeys. apply in_map_iff. now exists (k, v). }
  split; [exact Wg|]. do 3 (split; [reflexivity|]). split; [|split].
  - apply (dense_iff g Wg). intros e R C. assert (K : In (map e (svars g)) (dkeys (stbl g))) by (apply HK; exact (in_range_assign f e W R)).
    apply In_dkeys_dget in K. destruct K as (v & K). congruence.
  - intros e. unfold sval. cbn [svars sdef stbl g]. exact (H1 (map e (svars f))).
  - intros D. assert (C : forall l s, (forall k, In k l -> dmem s k = true) -> complete_inner l (sdef f) s = s).
    { unfold complete_inner. induction l as [|k l IH]; intros s Hl; [reflexivity|]. cbn [fold_left]. rewrite (Hl k (or_introl eq_refl)). apply IH. intros k' Hk. apply Hl. now right. }
    unfold g. rewrite C; [destruct f; reflexivity|]. intros k Hk. pose proof (in_range_upds f (fun _ => 0) k W Hk) as R. pose proof (proj1 (dense_iff f W) D _ R) as K.
    apply In_assign_range in Hk. rewrite (map_upds (svars f) (fun _ => 0) k (wf_vars f W) (Forall2_length _ _ _ Hk)) in K. unfold dmem. destruct (dget (stbl f) k); [reflexivity|congruence].
Qed.
(** The rule "both" on tables of different scopes. *)
Definition both_a : sparse := {| svars := ["a"]; scards := [2]; stbl := [([0], Fin 1)]; sdef := NInf |}.
Definition both_ab : sparse := {| svars := ["a"; "b"]; scards := [2; 2]; stbl := [([0; 1], Fin 1)]; sdef := NInf |}.
(** An operation whose result is the default only if both arguments are. *)
Definition either (x y : val) : val := match x with NInf => y | _ => x end.
Lemma both_ex : exists r, apply_binop id_oracle both_a both_ab either RuleBoth = Ok r /\ svars r = ["b"; "a"] /\
  dget (stbl r) [0] = Some (Fin 1) /\ dget (stbl r) [1; 1; 0] = Some (Fin 1) /\ dget (stbl r) [0; 0] = None /\
  either (sval both_a (fun _ => 0)) (sval both_ab (fun _ => 0)) = Fin 1.
Proof. eexists. split; [cbv - [IZR]; reflexivity|]. repeat split. Qed.

(** * Gaussians *)
Lemma std_made vars : NoDup vars -> vars <> [] -> make_std_gaussian vars = Ok (cov_obj vars (meye (length vars), mzeros (length vars) 1, Fin 0)).
Proof.
  intros Hd Hn. unfold make_std_gaussian. destruct vars as [|v vs]; [congruence|]. cbn [length Nat.ltb Nat.leb py_assert bind]. apply mk_cov_ok; [exact Hd|now repeat split].
Qed.
Theorem std_spec vars : NoDup vars -> vars <> [] -> exists f, make_std_gaussian vars = Ok f /\ solid f /\ ga_vars f = vars /\
  get_weight f = Ok (Fin 1) /\
  forall e, lp f e = Ok (Fin (- (1 / 2) * ln ((2 * PI) ^ length vars) - / 2 * Rsum (map (fun v => e v * e v) vars)))%R.
Proof.
  intros Hd Hn. eexists. split; [exact (std_made vars Hd Hn)|]. split; [apply solid_cov; [exact Hd|now repeat split|apply eye_posdef]|]. split; [reflexivity|].
  split; [unfold get_weight, get_log_weight, get_cov, update_covform; cbn; now rewrite exp_0|].
  assert (Z : mzeros (length vars) 1 = Mat (length vars) 1 (fun i _ => nth i [] 0%R)).
  { unfold mzeros. f_equal. apply FunctionalExtensionality.functional_extensionality. intros [|i]; reflexivity. }
  intros e. rewrite Z. change (cov_obj vars _) with (stdg vars [] 0). rewrite stdg_lp by exact Hd. rewrite <- Z. do 2 f_equal.
  rewrite (Rsum_ext _ (fun v => e v * e v)%R) by (intros v _; rewrite FactMarg.named_zero; ring). ring.
Qed.
Lemma std_empty : make_std_gaussian [] = Err AssertionError. Proof. reflexivity. Qed.
Lemma std_duplicates vars : ~ NoDup vars -> make_std_gaussian vars = Err ValueError.
Proof.
  intros H. unfold make_std_gaussian. destruct vars as [|v vs]; [exfalso; apply H; constructor|]. cbn [length Nat.ltb Nat.leb py_assert bind]. unfold mk_cov.
  destruct (nodupb (v :: vs)) eqn:N; [apply nodupb_iff in N; contradiction|reflexivity].
Qed.
Lemma invert_cov f : ga_can f = None -> g_invert f = Err AssertionError.
Proof. intros H. unfold g_invert. now rewrite H. Qed.
Lemma qsum_scal n c A x : qsum n (mscal c A) x = (c * qsum n A x)%R.
Proof.
  unfold qsum. rewrite <- rsum_scal. apply rsum_ext. intros i _. rewrite <- rsum_scal. apply rsum_ext. intros j _. cbn [mscal ent]. ring.
Qed.
Theorem invert_spec f K h g : wf_gauss f -> ga_can f = Some (K, h, Fin g) -> exists r, g_invert f = Ok r /\ ga_vars r = ga_vars f /\ wf_gauss r /\ ga_cov r = None /\
  (forall e, exists x, lp f e = Ok (Fin x) /\ lp r e = Ok (Fin (- x))) /\
  exists p, g_multiply f r = Ok p /\ (forall v, In v (ga_vars p) <-> In v (ga_vars f)) /\ forall e, lp p e = Ok (Fin 0).
Proof.
  intros W E. pose proof W as (Hd & Hf & Hc & Hv). pose proof (Hc _ E) as (H1 & H2 & H3 & H4). unfold g_invert. rewrite E. destruct (g_copy_ok f W) as (c & -> & V & A & B & Wc).
  cbn [bind]. eexists. split; [reflexivity|]. cbn [ga_vars ga_cov]. split; [exact V|]. set (r := {| ga_vars := ga_vars c; ga_vac := _; ga_can := _; ga_cov := None |}).
  assert (Sr : shaped (length (ga_vars f)) (mscal (-1) K, mscal (-1) h, vmul (Fin (-1)) (Fin g))) by (repeat split; cbn; assumption).
  assert (Wr : wf_gauss r).
  { split; [cbn; now rewrite V|]. split; [left; cbn; congruence|]. split; cbn [ga_can ga_cov ga_vars r]; [|discriminate]. intros p [= <-]. rewrite V. exact Sr. }
  split; [exact Wr|]. split; [reflexivity|].
  assert (L : forall e, exists x, lp f e = Ok (Fin x) /\ lp r e = Ok (Fin (- x))).
  { intros e. set (y := map e (ga_vars f)). assert (HL : length y = length (ga_vars f)) by apply map_length.
    assert (Gf : exists f', get_can f = Ok (f', (K, h, Fin g))) by (exists f; unfold get_can, update_canform; rewrite E; cbn [bind]; now rewrite E).
    destruct Gf as (f' & Gf). assert (Lf : lp f e = can_log_potential K h (Fin g) (mcol y)).
    { unfold lp. rewrite (lp_canon f f' K h (Fin g) e W Gf). rewrite (can_log_potential_ok (length (ga_vars f))) by (exact HL || now repeat split). rewrite can_form_pos by exact Hd.
      f_equal. f_equal. f_equal. f_equal; [f_equal; apply qsum_ext; [reflexivity|]|apply rsum_ext]; intros i Hi; unfold y; now rewrite nth_map_e. }
    rewrite Lf, (can_log_potential_ok (length (ga_vars f))) by (exact HL || now repeat split). cbn [vadd]. eexists. split; [reflexivity|].
    unfold lp, log_potential, align_point. cbn [ga_vars ga_can ga_cov r bind]. rewrite V. fold y. rewrite (can_log_potential_ok (length (ga_vars f))) by (exact HL || exact Sr). cbn [bind vadd vmul]. 
    do 2 f_equal. rewrite qsum_scal. rewrite (rsum_ext _ _ (fun i => -1 * (nth i y 0 * ent h i 0))%R) by (intros i _; cbn [mscal ent]; ring). rewrite rsum_scal. ring. }
  split; [exact L|]. destruct (multiply_full f r W Wr) as (p & Ep & Wp & Vp & Lp). exists p. split; [exact Ep|]. split.
  - intros v. rewrite Vp. cbn [ga_vars r]. rewrite V. tauto.
  - intros e. destruct (Lp e (ga_vars p) (Permutation_refl _)) as (l1 & l2 & L1 & L2 & _ & ->). destruct (L e) as (x & X1 & X2).
    rewrite X1 in L1. rewrite X2 in L2. injection L1 as <-. injection L2 as <-. cbn [vadd]. do 2 f_equal. ring.
Qed.
Theorem gauss_weight_spec f ys : solid f -> plain f -> Permutation ys (ga_vars f) -> exists x, get_weight f = Ok (Fin x) /\ forall e, iint ys (gval f) e x.
Proof.
  intros S P HP. destruct (cov_of_solid f S) as (f' & C & m & w & E & _). unfold get_weight, get_log_weight. rewrite E. cbn [bind snd].
  pose proof (proj1 (weight_integral f f' C m w ys (fun _ => 0%R) S P E HP)) as Hw. exists (pot w). split; [destruct w; [reflexivity|reflexivity|destruct Hw|destruct Hw]|].
  intros e. exact (proj2 (weight_integral f f' C m w ys e S P E HP)).
Qed.
Lemma parts_ex : wf_struct both_ab /\ s_is_dense both_ab = false /\ exists f, mk_sparse_probs ["a"] [2] [([0], 1%R); ([1], 0%R)] NInf = Ok f.
Proof.
  split; [|split; [reflexivity|eexists; reflexivity]]. constructor; cbn [svars scards stbl both_ab].
  - apply nd2. discriminate.
  - reflexivity.
  - intros k v [[= <- <-]|[]]. repeat constructor.
  - repeat constructor. intros [].
Qed.
