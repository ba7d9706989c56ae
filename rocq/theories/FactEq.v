(** Comparing factorised factors: the number of matching pairs decides. *)
From Verif Require Export FactChain.
#[global] Set Bullet Behavior "Strict Subproofs".
Local Open Scope R_scope.

(** Two Gaussians in canonical form match: same variables, parameters close by name, constants close. *)
Definition matches (f b : gauss) : Prop :=
  (forall v, In v (ga_vars f) <-> In v (ga_vars b)) /\
  exists p q, ga_can f = Some p /\ ga_can b = Some q /\ visclose (snd p) (snd q) default_tol default_tol = true /\
    close_params default_tol default_tol (ga_vars f) (ga_vars b) p q.
Definition canonical (f : gauss) : Prop := wf_gauss f /\ ga_vac f = false /\ exists p, ga_can f = Some p.
(** The same Gaussian, possibly with its variables in another order. *)
Definition renamed (b b' : gauss) : Prop :=
  canonical b' /\ Permutation (ga_vars b') (ga_vars b) /\ exists q q', ga_can b = Some q /\ ga_can b' = Some q' /\ same_params (ga_vars b) (ga_vars b') q q'.
Lemma renamed_refl b : canonical b -> renamed b b.
Proof.
  intros C. split; [exact C|]. split; [apply Permutation_refl|]. destruct C as (_ & _ & (q & Hq)). exists q, q. repeat split; auto.
Qed.
Lemma renamed_trans a b c : renamed a b -> renamed b c -> renamed a c.
Proof.
  intros (Cb & Pb & (p & q & Hp & Hq & (S1 & S2 & S3))) (Cc & Pc & (q' & r & Hq' & Hr & (T1 & T2 & T3))). split; [exact Cc|]. split; [now rewrite Pc|].
  assert (q' = q) as -> by congruence. exists p, r. split; [exact Hp|]. split; [exact Hr|].
  assert (HI : forall v, In v (ga_vars a) -> In v (ga_vars b)) by (intros v; apply Permutation_in; now apply Permutation_sym).
  split; [congruence|]. split; intros; rewrite ?T2, ?T3; auto.
Qed.
Lemma renamed_matches f b b' : renamed b b' -> (matches f b' <-> matches f b).
Proof.
  intros (_ & HP & (q & q' & Hq & Hq' & (S1 & S2 & S3))).
  assert (HI : forall v, In v (ga_vars b') <-> In v (ga_vars b)) by (intros v; split; apply Permutation_in; [exact HP|now apply Permutation_sym]).
  split; intros (HV & (p & r & Hp & Hr & Hc & (C1 & C2))).
  - assert (r = q') as -> by congruence. assert (HV' : forall v, In v (ga_vars f) <-> In v (ga_vars b)) by (intros v; now rewrite HV, HI).
    split; [exact HV'|]. exists p, q. split; [exact Hp|]. split; [exact Hq|]. split; [now rewrite S1|]. split.
    + intros u v Hu Hv. rewrite <- S2 by now apply HV'. auto.
    + intros u Hu. rewrite <- S3 by now apply HV'. auto.
  - assert (r = q) as -> by congruence. split; [intros v; now rewrite HV, HI|]. exists p, q'. split; [exact Hp|]. split; [exact Hq'|]. split; [now rewrite <- S1|]. split.
    + intros u v Hu Hv. rewrite S2 by now apply HV. auto.
    + intros u Hu. rewrite S3 by now apply HV. auto.
Qed.

Lemma allclose_iff A B rtol atol : nr A = nr B -> nc A = nc B ->
  exists b, allclose A B rtol atol = Ok b /\ (b = true <-> forall i j, (i < nr A)%nat -> (j < nc A)%nat -> close rtol atol (ent A i j) (ent B i j)).
Proof.
  intros E1 E2. unfold allclose. rewrite E1, E2, !Nat.eqb_refl. cbn [andb]. eexists. split; [reflexivity|]. rewrite forallb_forall. split.
  - intros H i j Hi Hj. specialize (H i). rewrite in_seq in H. specialize (H ltac:(lia)). rewrite forallb_forall in H. specialize (H j).
    rewrite in_seq in H. specialize (H ltac:(lia)). cbn [visclose] in H. unfold Rle_b in H. destruct (Rle_dec _ _); [assumption|discriminate].
  - intros H i Hi. apply in_seq in Hi. apply forallb_forall. intros j Hj. apply in_seq in Hj. cbn [visclose]. apply Rle_b_true. apply H; lia.
Qed.
Lemma close_by_pos rtol atol vars (p q : mat * mat * val) : NoDup vars -> shaped (length vars) p -> shaped (length vars) q ->
  (close_params rtol atol vars vars p q <->
   (forall i j, (i < nr (snd (fst p)))%nat -> (j < nc (snd (fst p)))%nat -> close rtol atol (ent (snd (fst p)) i j) (ent (snd (fst q)) i j)) /\
   (forall i j, (i < nr (fst (fst p)))%nat -> (j < nc (fst (fst p)))%nat -> close rtol atol (ent (fst (fst p)) i j) (ent (fst (fst q)) i j))).
Proof.
  destruct p as [[K h] g], q as [[K2 h2] g2]. intros Hd (A1 & A2 & A3 & A4) (B1 & B2 & B3 & B4). cbn [fst snd] in *. unfold close_params. cbn [fst snd]. split.
  - intros (C1 & C2). split.
    + intros i j Hi Hj. assert (j = 0%nat) as -> by lia. specialize (C2 (nth i vars ""%string) ltac:(apply nth_In; congruence)).
      rewrite !named_pos1 in C2 by (apply nth_In; congruence). rewrite !pos_of_nth in C2 by (congruence || assumption). exact C2.
    + intros i j Hi Hj. specialize (C1 (nth i vars ""%string) (nth j vars ""%string) ltac:(apply nth_In; congruence) ltac:(apply nth_In; congruence)).
      rewrite !named_pos in C1 by (apply nth_In; congruence). rewrite !pos_of_nth in C1 by (congruence || assumption). exact C1.
  - intros (C2 & C1). split.
    + intros u v Hu Hv. rewrite !named_pos by assumption. destruct (pos_nth vars u Hu) as (Iu & _). destruct (pos_nth vars v Hv) as (Iv & _). apply C1; congruence.
    + intros u Hu. rewrite !named_pos1 by assumption. destruct (pos_nth vars u Hu) as (Iu & _). apply C2; [congruence|lia].
Qed.
Lemma equals_matches f b : canonical f -> canonical b ->
  exists r b', g_equals f b default_tol default_tol = Ok (r, f, b') /\ renamed b b' /\ (r = true <-> matches f b).
Proof.
  intros (W1 & V1 & ([[K h] g] & H1)) Cb. pose proof Cb as (W2 & V2 & (q & H2)). unfold g_equals. destruct (seteqb (ga_vars f) (ga_vars b)) eqn:Es; cbn [negb].
  2: { exists false, b. split; [reflexivity|]. split; [now apply renamed_refl|]. split; [discriminate|]. intros (HV & _). apply seteqb_iff in HV. congruence. }
  pose proof W1 as (D1 & F1 & C1 & O1). pose proof W2 as (D2 & _ & C2 & _).
  assert (HP : Permutation (ga_vars f) (ga_vars b)) by now apply seteqb_perm. pose proof (Permutation_length HP) as HL. pose proof (proj1 (seteqb_iff _ _) Es) as Hin.
  destruct (g_copy_ok b W2) as (c & Ec & Vc & _ & _ & Wc). rewrite Ec. cbn [bind].
  assert (exists c', (if eqb (ga_vars f) (ga_vars b) then Ok c else g_reorder c (ga_vars f)) = Ok c') as (c' & ->).
  { destruct (eqb (ga_vars f) (ga_vars b)); [eauto|]. rewrite <- Vc in HP. destruct (g_reorder_spec c (ga_vars f) Wc HP) as (r & Er & _). eauto. }
  cbn [bind]. rewrite V1, Bool.andb_false_r, H1. destruct q as [[K2 h2] g2]. unfold canform_equals. rewrite (get_can_some b K2 h2 g2 H2). cbn [bind fst snd].
  destruct (visclose g g2 default_tol default_tol) eqn:Eg; cbn [negb].
  2: { cbn [bind fst snd]. exists false, b. split; [reflexivity|]. split; [now apply renamed_refl|]. split; [discriminate|].
       intros (_ & (p & q & Hp & Hq & Hc & _)). rewrite H1 in Hp. rewrite H2 in Hq. injection Hp as <-. injection Hq as <-. cbn in Hc. congruence. }
  destruct (g_reorder_spec b (ga_vars f) W2 HP) as (fb & Eb & _). rewrite Eb. cbn [bind].
  destruct (reorder_same b _ fb W2 HP Eb) as (Sb & Vb). pose proof Sb as (Wb & _ & Vacb & _).
  destruct (reorder_named b _ fb W2 HP Eb) as (Hq & _). destruct (Hq _ H2) as ([[K3 h3] g3] & Q1 & Q2 & Q3). rewrite (get_can_some fb K3 h3 g3 Q1). cbn [bind fst snd].
  assert (Rn : renamed b fb).
  { split; [split; [exact Wb|]; split; [congruence|]; exists (K3, h3, g3); exact Q1|]. rewrite Vb. split; [exact HP|]. exists (K2, h2, g2), (K3, h3, g3). now split. }
  pose proof (C1 _ H1) as Sh. pose proof Sh as (T1 & T2 & T3 & T4). pose proof Q2 as (U1 & U2 & U3 & U4).
  assert (HM : matches f b <-> close_params default_tol default_tol (ga_vars f) (ga_vars f) (K, h, g) (K3, h3, g3)).
  { rewrite <- (renamed_matches f b fb Rn). unfold matches. split.
    - intros (_ & (p & q & Hp & Hq' & _ & Hc)). rewrite Vb in Hc. congruence.
    - intros Hc. split; [intros v; now rewrite Vb|]. exists (K, h, g), (K3, h3, g3). split; [exact H1|]. split; [exact Q1|]. rewrite Vb. split; [|exact Hc].
      destruct Q3 as (Eq & _). cbn in Eq |- *. congruence. }
  rewrite (close_by_pos _ _ _ _ _ D1 Sh Q2) in HM. cbn [fst snd] in HM.
  destruct (allclose_iff h h3 default_tol default_tol) as (b1 & -> & I1); [congruence|congruence|]. cbn [bind].
  destruct b1; cbn [negb].
  - destruct (allclose_iff K K3 default_tol default_tol) as (b2 & -> & I2); [congruence|congruence|]. cbn [bind fst snd].
    exists b2, fb. split; [reflexivity|]. split; [exact Rn|]. rewrite HM. pose proof (proj1 I1 eq_refl). tauto.
  - cbn [bind fst snd]. exists false, fb. split; [reflexivity|]. split; [exact Rn|]. rewrite HM. split; [discriminate|]. intros (Hh & _). apply I1 in Hh. discriminate.
Qed.
(** * Counting *)
Definition matchb (f b : gauss) : bool := if ClassicalEpsilon.excluded_middle_informative (matches f b) then true else false.
Lemma matchb_iff f b : matchb f b = true <-> matches f b.
Proof. unfold matchb. destruct (ClassicalEpsilon.excluded_middle_informative _); split; auto; discriminate. Qed.
Lemma matchb_renamed f b b' : renamed b b' -> matchb f b' = matchb f b.
Proof. intros Rn. pose proof (renamed_matches f b b' Rn) as H. rewrite <- !matchb_iff in H. destruct (matchb f b'), (matchb f b); intuition congruence. Qed.
Definition row (f : gauss) (bs : list gauss) : nat := length (filter (matchb f) bs).
Definition pairs (fs bs : list gauss) : nat := fold_right (fun f n => (row f bs + n)%nat) 0%nat fs.
Lemma row_renamed f bs bs' : Forall2 renamed bs bs' -> row f bs' = row f bs.
Proof. unfold row. induction 1 as [|b b' bs bs' Rn F IH]; [reflexivity|]. cbn. rewrite (matchb_renamed f b b' Rn). destruct (matchb f b); cbn; congruence. Qed.
Lemma pairs_renamed fs bs bs' : Forall2 renamed bs bs' -> pairs fs bs' = pairs fs bs.
Proof. intros F. induction fs as [|f fs IH]; [reflexivity|]. cbn [pairs fold_right]. fold (pairs fs bs) (pairs fs bs'). now rewrite IH, (row_renamed f bs bs' F). Qed.
Lemma count_row_ok f bs : canonical f -> (forall b, In b bs -> canonical b) -> exists bs', count_row f bs = Ok (row f bs, f, bs') /\ Forall2 renamed bs bs'.
Proof.
  intros Cf. induction bs as [|b bs IH]; intros H; [exists []; now split|]. cbn [count_row].
  destruct (equals_matches f b Cf (H b (or_introl eq_refl))) as (r & b' & E & Rn & I). rewrite E. cbn [bind].
  destruct IH as (bs' & E' & F); [intros x Hx; apply H; now right|]. rewrite E'. cbn [bind]. exists (b' :: bs'). split; [|now constructor].
  unfold row. cbn [filter]. rewrite <- matchb_iff in I. destruct r, (matchb f b); cbn; intuition congruence.
Qed.
Lemma renamed_canonical bs bs' : Forall2 renamed bs bs' -> forall b, In b bs' -> canonical b.
Proof. intros F b Hb. destruct (F2_in_r _ _ _ b F Hb) as (b0 & _ & (C & _)). exact C. Qed.
Lemma count_all_ok fs : forall bs, (forall f, In f fs -> canonical f) -> (forall b, In b bs -> canonical b) ->
  exists bs', count_all fs bs = Ok (pairs fs bs, fs, bs') /\ Forall2 renamed bs bs'.
Proof.
  induction fs as [|f fs IH]; intros bs Hf Hb.
  - exists bs. split; [reflexivity|]. clear -Hb. induction bs as [|b bs IH]; constructor; [apply renamed_refl, Hb; now left|apply IH; intros x Hx; apply Hb; now right].
  - cbn [count_all]. destruct (count_row_ok f bs (Hf f (or_introl eq_refl)) Hb) as (bs1 & E1 & F1). rewrite E1. cbn [bind].
    destruct (IH bs1) as (bs2 & E2 & F2); [intros x Hx; apply Hf; now right|exact (renamed_canonical _ _ F1)|]. rewrite E2. cbn [bind]. exists bs2. split.
    + cbn [pairs fold_right]. fold (pairs fs bs). now rewrite (pairs_renamed fs bs bs1 F1).
    + exact (F2_trans renamed renamed renamed _ _ _ renamed_trans F1 F2).
Qed.
Theorem fg_equals_spec a b : (forall f, In f (fg_factors a) -> canonical f) -> (forall f, In f (fg_factors b) -> canonical f) ->
  (forall v, In v (fg_vars a) <-> In v (fg_vars b)) -> length (fg_factors a) = length (fg_factors b) ->
  exists bs', fg_equals a b = Ok (Nat.eqb (pairs (fg_factors a) (fg_factors b)) (length (fg_factors a)), fg_factors a, bs') /\ Forall2 renamed (fg_factors b) bs'.
Proof.
  intros Ha Hb HV HL. unfold fg_equals. rewrite (proj2 (seteqb_iff (fg_vars b) (fg_vars a))) by (intros v; symmetry; apply HV). cbn [negb].
  rewrite HL, Nat.eqb_refl. cbn [negb]. destruct (count_all_ok (fg_factors a) (fg_factors b) Ha Hb) as (bs' & E & F). rewrite E. cbn [bind]. exists bs'. now split.
Qed.

Lemma filter_at_most {A} (p : A -> bool) l : ForallOrdPairs (fun x y => ~ (p x = true /\ p y = true)) l -> (length (filter p l) <= 1)%nat.
Proof.
  induction 1 as [|x l H HO IH]; [cbn; lia|]. cbn. destruct (p x) eqn:E; [|exact IH]. cbn. assert (filter p l = []) as ->; [|cbn; lia].
  rewrite Forall_forall in H. clear -H E. induction l as [|y l IH]; [reflexivity|]. cbn. destruct (p y) eqn:Ey; [exfalso; apply (H y); [now left|now split]|].
  apply IH. intros z Hz. apply H. now right.
Qed.
Lemma one_match {A} (p : A -> bool) l : length (filter p l) = 1%nat -> exists l1 x l2, l = l1 ++ x :: l2 /\ p x = true /\ filter p (l1 ++ l2) = [].
Proof.
  induction l as [|y l IH]; [discriminate|]. cbn. destruct (p y) eqn:E; cbn.
  - intros H. exists [], y, l. split; [reflexivity|]. split; [exact E|]. cbn. destruct (filter p l); [reflexivity|discriminate].
  - intros H. destruct (IH H) as (l1 & x & l2 & -> & Hx & Hf). exists (y :: l1), x, l2. split; [reflexivity|]. split; [exact Hx|]. cbn. now rewrite E.
Qed.
(** [sep_rows fs bs]: no factor of [fs] matches two entries of [bs]. *)
Definition sep_rows (fs bs : list gauss) : Prop := forall f, In f fs -> ForallOrdPairs (fun b b' => ~ (matches f b /\ matches f b')) bs.
Definition sep_cols (fs bs : list gauss) : Prop := forall b, In b bs -> ForallOrdPairs (fun f f' => ~ (matches f b /\ matches f' b)) fs.
Lemma sep_row_le fs bs f : sep_rows fs bs -> In f fs -> (row f bs <= 1)%nat.
Proof.
  intros H Hf. apply filter_at_most. specialize (H f Hf). clear -H. induction H as [|x l H HO IH]; constructor; [|exact IH]. rewrite Forall_forall in *. intros y Hy.
  rewrite !matchb_iff. now apply H.
Qed.
Lemma pairs_rows fs bs : (forall f, In f fs -> (row f bs <= 1)%nat) -> (pairs fs bs <= length fs)%nat /\ (pairs fs bs = length fs <-> forall f, In f fs -> row f bs = 1%nat).
Proof.
  induction fs as [|f fs IH]; intros H; [split; [cbn; lia|split; [intros _ f []|reflexivity]]|].
  destruct IH as (I1 & I2); [intros g Hg; apply H; now right|]. pose proof (H f (or_introl eq_refl)). cbn [pairs fold_right length] in *. fold (pairs fs bs) in *.
  split; [lia|]. split.
  - intros E. assert (Q : row f bs = 1%nat) by lia. assert (Q' : pairs fs bs = length fs) by lia. intros g [<-|Hg]; [exact Q|]. now apply (proj1 I2 Q').
  - intros G. rewrite (G f (or_introl eq_refl)). rewrite (proj2 I2); [reflexivity|]. intros g Hg. apply G. now right.
Qed.
Lemma rows_perm fs : forall bs, sep_cols fs bs -> (forall f, In f fs -> row f bs = 1%nat) -> exists bs' rest, Permutation bs (bs' ++ rest) /\ Forall2 matches fs bs'.
Proof.
  induction fs as [|f fs IH]; intros bs HC HR; [exists [], bs; split; [reflexivity|constructor]|].
  destruct (one_match (matchb f) bs (HR f (or_introl eq_refl))) as (l1 & b & l2 & -> & Hm & Hf). apply matchb_iff in Hm.
  destruct (IH (l1 ++ l2)) as (bs' & rest & HP & F).
  - intros x Hx. assert (Hin : In x (l1 ++ b :: l2)) by (apply in_app_or in Hx; apply in_or_app; cbn; tauto). specialize (HC x Hin). now inversion HC.
  - intros g Hg. rewrite <- (HR g (or_intror Hg)). unfold row. rewrite !filter_app, !app_length. cbn [filter].
    assert (matchb g b = false) as ->; [|reflexivity]. specialize (HC b (in_elt b l1 l2)). inversion HC as [|? ? HF _]; subst. rewrite Forall_forall in HF.
    specialize (HF g Hg). destruct (matchb g b) eqn:E; [|reflexivity]. apply matchb_iff in E. exfalso. apply HF. now split.
  - exists (b :: bs'), rest. split; [|now constructor]. rewrite <- Permutation_middle, HP. reflexivity.
Qed.
Theorem fg_equals_iff a b : (forall f, In f (fg_factors a) -> canonical f) -> (forall f, In f (fg_factors b) -> canonical f) ->
  (forall v, In v (fg_vars a) <-> In v (fg_vars b)) -> length (fg_factors a) = length (fg_factors b) ->
  sep_rows (fg_factors a) (fg_factors b) -> sep_cols (fg_factors a) (fg_factors b) ->
  exists r bs', fg_equals a b = Ok (r, fg_factors a, bs') /\ Forall2 renamed (fg_factors b) bs' /\
    (r = true <-> exists bs, Permutation bs (fg_factors b) /\ Forall2 matches (fg_factors a) bs).
Proof.
  intros Ha Hb HV HL HR HC. destruct (fg_equals_spec a b Ha Hb HV HL) as (bs' & E & F). eexists. exists bs'. split; [exact E|]. split; [exact F|].
  assert (Hle : forall f, In f (fg_factors a) -> (row f (fg_factors b) <= 1)%nat) by (intros f Hf; exact (sep_row_le _ _ f HR Hf)).
  rewrite Nat.eqb_eq, (proj2 (pairs_rows _ _ Hle)). split.
  - intros H. destruct (rows_perm _ _ HC H) as (bs & rest & HP & HF). pose proof (Forall2_length _ _ _ HF) as L1. pose proof (Permutation_length HP) as L2.
    rewrite app_length in L2. destruct rest; [|cbn in L2; lia]. rewrite app_nil_r in HP. exists bs. split; [now symmetry|exact HF].
  - intros (bs & HP & HF) f Hf. specialize (Hle f Hf). destruct (F2_in_l _ _ _ f HF Hf) as (b0 & Hb0 & Hm). unfold row in *.
    assert (Hin : In b0 (filter (matchb f) (fg_factors b))) by (apply filter_In; split; [now apply (Permutation_in _ HP)|now apply matchb_iff]).
    destruct (filter (matchb f) (fg_factors b)) as [|x [|y l]]; [destruct Hin|reflexivity|cbn in Hle; lia].
Qed.
Lemma close_self rtol atol x : 0 <= rtol -> 0 <= atol -> close rtol atol x x.
Proof. intros H1 H2. unfold close. replace (x - x) with 0 by ring. rewrite Rabs_R0. pose proof (Rabs_pos x). assert (0 <= rtol * Rabs x) by now apply Rmult_le_pos. lra. Qed.
Lemma matches_self f p : ga_can f = Some p -> snd p <> NaN -> matches f f.
Proof.
  intros Hp Hn. split; [reflexivity|]. exists p, p. split; [exact Hp|]. split; [exact Hp|]. assert (T : 0 <= default_tol) by (unfold default_tol; lra). split.
  - destruct (snd p); cbn; try reflexivity; [|congruence]. apply close_refl.
  - split; intros; now apply close_self.
Qed.
Theorem fg_equals_refl a : (forall f, In f (fg_factors a) -> canonical f /\ forall p, ga_can f = Some p -> snd p <> NaN) ->
  ForallOrdPairs (fun f g => ~ matches f g /\ ~ matches g f) (fg_factors a) ->
  exists bs', fg_equals a a = Ok (true, fg_factors a, bs') /\ Forall2 renamed (fg_factors a) bs'.
Proof.
  intros H HO. destruct (fg_equals_spec a a) as (bs' & E & F); [intros f Hf; now apply H|intros f Hf; now apply H|reflexivity|reflexivity|].
  exists bs'. split; [|exact F]. rewrite E. do 3 f_equal. apply Nat.eqb_eq. clear E F.
  assert (G : forall l1 l2, fg_factors a = l1 ++ l2 -> pairs l2 (l1 ++ l2) = length l2).
  { intros l1 l2. revert l1. induction l2 as [|f l2 IH]; intros l1 El; [reflexivity|]. cbn [pairs fold_right length]. fold (pairs l2 (l1 ++ f :: l2)).
    specialize (IH (l1 ++ [f])). rewrite <- app_assoc in IH. change ([f] ++ l2) with (f :: l2) in IH. rewrite (IH El). enough (row f (l1 ++ f :: l2) = 1%nat) by lia.
    unfold row. rewrite filter_app, app_length. cbn [filter]. destruct (H f) as ((_ & _ & (p & Hp)) & Hn); [rewrite El; apply in_elt|].
    rewrite (proj2 (matchb_iff f f) (matches_self f p Hp (Hn p Hp))). cbn [length].
    assert (Z : forall l, (forall g, In g l -> ~ matches f g) -> filter (matchb f) l = []).
    { induction l as [|g l IHl]; intros Hg; [reflexivity|]. cbn. destruct (matchb f g) eqn:Eg; [apply matchb_iff in Eg; now destruct (Hg g (or_introl eq_refl))|].
      apply IHl. intros x Hx. apply Hg. now right. }
    rewrite El in HO. rewrite !Z; [reflexivity| |].
    - clear -HO. induction l1 as [|x l1 IH']; cbn in HO; inversion HO as [|? ? HF HO']; subst; rewrite Forall_forall in HF; [intros g Hg; apply (HF g Hg)|now apply IH'].
    - clear -HO. induction l1 as [|x l1 IH']; [intros g []|]. cbn in HO. inversion HO as [|? ? HF HO']; subst. rewrite Forall_forall in HF. intros g [<-|Hg].
      + apply HF. apply in_elt.
      + now apply IH'. }
  exact (G [] (fg_factors a) eq_refl).
Qed.
