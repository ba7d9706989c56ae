(** Operators between factors and equality of messages: facts. *)
From Coq Require Import Lra.
From Verif Require GaussFacts GaussExamples.
From Verif Require Export OperModel DenseExamples.
Local Open Scope string_scope.
Local Open Scope list_scope.

Lemma tol_nonneg : (0 <= default_tol)%R.
Proof. unfold default_tol. lra. Qed.
Lemma times_sparse o a b : oracle_ok o -> wf_sparse a -> wf_sparse b -> zero_default a -> zero_default b -> cards_agree a b ->
  exists r, operate (sparse_methods o) Times a b = Ok (AFac r) /\ absorb (sparse_methods o) a b = Ok r /\ wf_sparse r /\
    (forall v, In v (svars r) <-> In v (svars a) \/ In v (svars b)) /\ forall e, spot r e = (spot a e * spot b e)%R.
Proof.
  intros Ho Wa Wb Za Zb C. destruct (multiply_spec o a b Ho Wa Wb Za Zb C) as (r & E & W & _ & V & _ & P). exists r. unfold absorb. cbn. rewrite E. now split.
Qed.
Lemma times_dense a b : wf_dense a -> wf_dense b -> d_cards_agree a b -> names_agree a b ->
  exists r, operate dense_methods Times a b = Ok (AFac r) /\ absorb dense_methods a b = Ok r /\ wf_dense r /\
    (forall v, In v (dvars r) <-> In v (dvars a) \/ In v (dvars b)) /\ forall e, d_in_range r e -> dpot r e = (dpot a e * dpot b e)%R.
Proof.
  intros Wa Wb C N. destruct (d_multiply_spec a b Wa Wb C N) as (r & E & W & V & _ & _ & P). exists r. unfold absorb. cbn. rewrite E. do 4 (split; [auto|]). intros e He. now apply P.
Qed.
Lemma times_gauss a b : GaussFacts.wf_gauss a -> GaussFacts.wf_gauss b ->
  exists r, operate gauss_methods Times a b = Ok (AFac r) /\ absorb gauss_methods a b = Ok r /\ GaussFacts.wf_gauss r /\
    (forall v, In v (ga_vars r) <-> In v (ga_vars a) \/ In v (ga_vars b)) /\
    forall e, exists l1 l2, log_potential a (map e (ga_vars a)) None = Ok l1 /\ log_potential b (map e (ga_vars b)) None = Ok l2 /\ log_potential r (map e (ga_vars r)) None = Ok (vadd l1 l2).
Proof.
  intros Wa Wb. destruct (GaussExamples.multiply_full a b Wa Wb) as (r & E & W & V & P). exists r. unfold absorb. cbn. rewrite E. do 4 (split; [auto|]).
  intros e. destruct (P e (ga_vars r) (Permutation_refl _)) as (l1 & l2 & H1 & H2 & _ & H3). now exists l1, l2.
Qed.
Lemma over_fails {F} (M : methods F) a b : operate M Over a b = Err TypeError.
Proof. reflexivity. Qed.
Lemma over_refuted : exists a b r, wf_dense a /\ wf_dense b /\ d_divide a b = Ok r /\ operate dense_methods Over a b = Err TypeError.
Proof.
  destruct (d_divide_pot ed_ab ed_ab ed_ab_wf ed_ab_wf) as (r & E & _).
  - intros v c c' H1 H2. apply (d_has_card_iff _ _ _ (wd_s _ ed_ab_wf)) in H1, H2. destruct H1 as [_ ->], H2 as [_ ->]. reflexivity.
  - intros v ns ns' H1 H2. congruence.
  - apply incl_refl.
  - exists ed_ab, ed_ab, r. now repeat (split; [first [exact ed_ab_wf|exact E]|]).
Qed.
Lemma same_sparse o a b : wf_sparse a -> wf_sparse b -> zero_default a -> zero_default b ->
  exists r, operate (sparse_methods o) Same a b = Ok (ABool r) /\ operate (sparse_methods o) Differ a b = Ok (ABool (negb r)) /\
    (r = true <-> (forall v, In v (svars a) <-> In v (svars b)) /\ forall e, visclose (sval b e) (sval a e) default_tol default_tol = true /\ visclose (sval a e) (sval b e) default_tol default_tol = true).
Proof.
  intros Wa Wb Za Zb. destruct (equals_iff a b default_tol default_tol Wa Wb Za Zb) as (r & E & _). exists r. cbn. rewrite E. cbn [bind]. split; [reflexivity|]. split; [reflexivity|].
  rewrite <- (equals_meaning a b default_tol default_tol Wa Wb Za Zb), E. split; [now intros ->|now intros [= ->]].
Qed.
Lemma same_dense a b : wf_dense a -> wf_dense b -> d_cards_agree a b ->
  exists r, operate dense_methods Same a b = Ok (ABool r) /\ operate dense_methods Differ a b = Ok (ABool (negb r)) /\
    (r = true <-> (forall v, In v (dvars a) <-> In v (dvars b)) /\ forall e, d_in_range a e -> visclose (dval a e) (dval b e) default_tol default_tol = true).
Proof.
  intros Wa Wb C. destruct (d_equals_spec a b default_tol default_tol (wd_s _ Wa) (wd_s _ Wb) C) as (r & E & H). exists r. cbn. rewrite E. now split.
Qed.

(** * Messages *)
Lemma m_equals_sparse m n rtol atol : wf_sparse (m_fac m) -> wf_sparse (m_fac n) -> zero_default (m_fac m) -> zero_default (m_fac n) ->
  exists r, m_equals s_equals m n rtol atol = Ok r /\ m_equals s_equals n m rtol atol = Ok r /\
    (r = true <-> m_snd m = m_snd n /\ m_rcv m = m_rcv n /\ (forall v, In v (svars (m_fac m)) <-> In v (svars (m_fac n))) /\
      forall e, visclose (sval (m_fac n) e) (sval (m_fac m) e) rtol atol = true /\ visclose (sval (m_fac m) e) (sval (m_fac n) e) rtol atol = true).
Proof.
  intros Wm Wn Zm Zn. destruct (equals_iff _ _ rtol atol Wm Wn Zm Zn) as (r & E & _). pose proof (equals_sym _ _ rtol atol Wm Wn Zm Zn) as ES. pose proof (equals_meaning _ _ rtol atol Wm Wn Zm Zn) as EM.
  unfold m_equals. rewrite <- ES, E. rewrite E in EM.
  assert (X : forall s t : string, eqb s t = true <-> s = t) by (intros s t; apply eqb_true). assert (Y : forall s t : string, eqb s t = eqb t s).
  { intros s t. destruct (eqb s t) eqn:A, (eqb t s) eqn:B; try reflexivity; [apply X in A; subst; rewrite <- B; symmetry; now apply X|apply X in B; subst; rewrite <- A; now apply X]. }
  rewrite (Y (m_snd n)), (Y (m_rcv n)).
  destruct (eqb (m_snd m) (m_snd n)) eqn:E1; cbn [negb]; [apply X in E1|exists false; do 2 (split; [reflexivity|]); split; [discriminate|]; intros (A & _); apply X in A; congruence].
  destruct (eqb (m_rcv m) (m_rcv n)) eqn:E2; cbn [negb]; [apply X in E2|exists false; do 2 (split; [reflexivity|]); split; [discriminate|]; intros (_ & A & _); apply X in A; congruence].
  cbn [bind]. exists r. destruct r; cbn [negb]; (do 2 (split; [reflexivity|])).
  - split; [intros _|reflexivity]. do 2 (split; [assumption|]). now apply EM.
  - split; [discriminate|]. intros (_ & _ & A). apply EM in A. discriminate.
Qed.
Lemma m_copy_sparse m rtol atol : wf_sparse (m_fac m) -> zero_default (m_fac m) -> (0 <= rtol)%R -> (0 <= atol)%R ->
  m_copy s_copy m = Ok m /\ m_equals s_equals m m rtol atol = Ok true.
Proof.
  intros W Z Hr Ha. split.
  - unfold m_copy. rewrite (s_copy_ok _ W). cbn [bind]. rewrite (s_copy_ok _ W). cbn [bind]. now destruct m.
  - assert (E : s_equals (m_fac m) (m_fac m) rtol atol = Ok true).
    { destruct (reorder_spec (m_fac m) (svars (m_fac m)) W Z (Permutation_refl _)) as (r & Er & Wr & Zr & _ & _ & Vr).
      destruct (equals_reorder _ _ r rtol atol W Z (Permutation_refl _) Hr Ha Er) as (E & _). apply (equals_meaning _ _ rtol atol W Wr Z Zr) in E. destruct E as (_ & E).
      apply (equals_meaning _ _ rtol atol W W Z Z). split; [tauto|]. intros e. specialize (E e). now rewrite Vr in E. }
    unfold m_equals. rewrite !BaseFacts.eqb_refl, E. reflexivity.
Qed.
Lemma m_equals_dense m n rtol atol : wf_dense (m_fac m) -> wf_dense (m_fac n) -> d_cards_agree (m_fac m) (m_fac n) ->
  exists r, m_equals d_equals m n rtol atol = Ok r /\
    (r = true <-> m_snd m = m_snd n /\ m_rcv m = m_rcv n /\ (forall v, In v (dvars (m_fac m)) <-> In v (dvars (m_fac n))) /\
      forall e, d_in_range (m_fac m) e -> visclose (dval (m_fac m) e) (dval (m_fac n) e) rtol atol = true).
Proof.
  intros Wm Wn C. destruct (d_equals_spec _ _ rtol atol (wd_s _ Wm) (wd_s _ Wn) C) as (r & E & EM). unfold m_equals. rewrite E.
  assert (X : forall s t : string, eqb s t = true <-> s = t) by (intros s t; apply eqb_true).
  destruct (eqb (m_snd m) (m_snd n)) eqn:E1; cbn [negb]; [apply X in E1|exists false; split; [reflexivity|]; split; [discriminate|]; intros (A & _); apply X in A; congruence].
  destruct (eqb (m_rcv m) (m_rcv n)) eqn:E2; cbn [negb]; [apply X in E2|exists false; split; [reflexivity|]; split; [discriminate|]; intros (_ & A & _); apply X in A; congruence].
  cbn [bind]. exists r. destruct r; cbn [negb]; (split; [reflexivity|]).
  - split; [intros _|reflexivity]. do 2 (split; [assumption|]). now apply EM.
  - split; [discriminate|]. intros (_ & _ & A). apply EM in A. discriminate.
Qed.
Lemma d_copy_same f : wf_dense f -> exists g, d_copy f = Ok g /\ wf_dense g /\ dvars g = dvars f /\ dtens g = dtens f /\ d_cards_agree f g /\ forall e, dval g e = dval f e.
Proof.
  intros W. pose proof (wd_s _ W) as Ws. exists (mkd (dvars f) (dtens f) (dname f)). split; [now apply d_copy_ok|].
  destruct (mkd_wf (dvars f) (dtens f) (dname f) (d_card_of f)) as (Wg & HC & _); [apply (ws_vars f Ws)|now apply d_shape|intros v Hv; now apply dname_len|].
  split; [split; [exact Wg|]|]. { destruct W as (_ & WV). exact WV. }
  do 2 (split; [reflexivity|]). split; [|reflexivity]. intros v c c' H1 H2. apply d_has_card_iff in H1; [|exact Ws]. apply HC in H2. destruct H1 as [_ ->], H2 as [_ ->]. reflexivity.
Qed.
Lemma m_copy_dense m rtol atol : wf_dense (m_fac m) -> (0 <= rtol)%R -> (0 <= atol)%R ->
  exists n, m_copy d_copy m = Ok n /\ m_snd n = m_snd m /\ m_rcv n = m_rcv m /\ (forall e, dval (m_fac n) e = dval (m_fac m) e) /\ m_equals d_equals m n rtol atol = Ok true.
Proof.
  intros W Hr Ha. destruct (d_copy_same _ W) as (g & Eg & Wg & Vg & Tg & Cg & Lg). destruct (d_copy_same _ Wg) as (h & Eh & Wh & Vh & Th & Ch & Lh).
  unfold m_copy. rewrite Eg. cbn [bind]. rewrite Eh. cbn [bind]. eexists. split; [reflexivity|]. cbn [m_snd m_rcv m_fac]. do 2 (split; [reflexivity|]). split; [intros e; now rewrite Lh, Lg|].
  assert (C : d_cards_agree (m_fac m) h). { intros v c c' H1 H2. unfold d_has_card in H2. rewrite Vh, Vg, Th, Tg in H2. apply (d_has_card_iff _ _ _ (wd_s _ W)) in H1, H2. destruct H1 as [_ ->], H2 as [_ ->]. reflexivity. }
  destruct (d_equals_spec (m_fac m) h rtol atol (wd_s _ W) (wd_s _ Wh) C) as (b & E & Hb). unfold m_equals. cbn [m_snd m_rcv m_fac]. rewrite !BaseFacts.eqb_refl, E. cbn [negb bind].
  assert (b = true) as ->; [|reflexivity]. apply Hb. split; [intros v; now rewrite Vh, Vg|]. intros e He. rewrite Lh, Lg. apply visclose_refl; auto. now apply (wd_vals _ W).
Qed.
